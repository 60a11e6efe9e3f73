(** * WKT: arbitrary input and the round trip *)

From Coq Require Import ZArith Bool String List Lia.
From Verif Require Import F64 Geo Series RingApi Bytes Geom WkbParse WkbMore WktParse.
From Verif Require Import WriterFacts WktSafe SeriesExamples Num Writer GeomFacts SpecWkb SpecWkt
  SpecText WktWrite WkbParseFacts TextFacts NumPrint RyuGood WktText WktRound WktTypes WktTrip.
Import ListNotations.
Local Open Scope Z_scope.

(** ** C29 *)

(** Every byte string, indeed every list of numbers: reading it never leaves the
    buffer and never runs for more steps than the text is long, and the result is
    a geometry (possibly an error geometry); for every index option other than
    y-stripes. *)
Theorem C29_in_bounds_partial :
  forall e ix text,
    resolve_kind e (Z.land ix 15) <> IxYstripes ->
    exists g, tg_parse_wktn_ix e ix text = Ok g.
Proof.
  intros e ix text HK. pose proof (tg_parse_wktn_safe e ix text) as H.
  unfold tg_parse_wktn_ix in *.
  destruct (parse_wkt e ix _ text []) as [g|m| | |]; try contradiction; [eauto|eauto|].
  destruct H as [pts H]. now apply series_new_ix_total in H.
Qed.
Print Assumptions C29_in_bounds_partial.

(** ... with y-stripes too every read is inside the text and the parser ends, but
    the conversion while building the stripes of a ring may be undefined *)
Theorem C29_ystripes_partial :
  forall e ix text,
    (exists g, tg_parse_wktn_ix e ix text = Ok g) \/
    (tg_parse_wktn_ix e ix text = Ub /\ exists pts, series_new_ix e pts true ix = None).
Proof.
  intros e ix text. pose proof (tg_parse_wktn_safe e ix text) as H.
  unfold tg_parse_wktn_ix in *.
  destruct (parse_wkt e ix _ text []) as [g|m| | |]; try contradiction; eauto.
Qed.
Print Assumptions C29_ystripes_partial.

(** a polygon of zero height, read with y-stripes: NaN is converted to int *)
Theorem C29_refuted :
  exists text, Forall is_byte text /\
    tg_parse_wktn_ix env_init (tg_index_with_spread TG_YSTRIPES 2) text = Ub.
Proof.
  exists (str "POLYGON((0 5,1 5,2 5,0 5))"%string).
  split; [|vm_compute; reflexivity]. vm_compute. repeat (constructor; [split; congruence|]). constructor.
Qed.
Print Assumptions C29_refuted.

(** a number that runs up to the end of the text, one up to the ")", and bytes
    outside ASCII *)
Example C29_example :
  resolve_kind env_init (Z.land 0 15) <> IxYstripes /\
  (exists g, tg_parse_wktn_ix env_init 0 (str "POINT(1 2"%string) = Ok g /\
     tg_geom_error (Some g) = Some (str "ParseError: invalid text"%string)) /\
  (exists g, tg_parse_wktn_ix env_init 0 (str "LINESTRING(1 2,3 4e1)"%string) = Ok g /\
     tg_geom_error (Some g) = None) /\
  (exists g, tg_parse_wktn_ix env_init 0 [255; 40; 0; 41; 41] = Ok g /\
     tg_geom_error (Some g) <> None).
Proof.
  split; [discriminate|]. split; [eexists; vms|]. split; [eexists; vms|].
  eexists. split; [vm_compute; reflexivity|]. vm_compute. discriminate.
Qed.

(** ** C43, WKT *)

(** What the parser gives is an error geometry with a message, or there is no error
    anywhere in it. *)
Theorem C43_wkt_partial :
  forall e ix text g, tg_parse_wktn_ix e ix text = Ok g -> error_geom g \/ no_error g.
Proof.
  intros e ix text g H. pose proof (tg_parse_wktn_safe e ix text) as S. now rewrite H in S.
Qed.
Print Assumptions C43_wkt_partial.

Example C43_example_wkt :
  (exists g, tg_parse_wktn_ix env_init 0 (str "GEOMETRYCOLLECTION(POINT(1 2),POINT EMPTY)"%string) = Ok g /\ no_error g) /\
  (exists g, tg_parse_wktn_ix env_init 0 (str "GEOMETRYCOLLECTION(POINT(1 2),POINT(1))"%string) = Ok g /\ error_geom g).
Proof.
  split; eexists; (split; [vm_compute; reflexivity|]).
  - repeat split.
  - split; [reflexivity|vm_compute; discriminate].
Qed.

(** ** C26, WKT *)

(** parse_wkt never calls itself more than 1025 levels deep, for any text. *)
Theorem C26_wkt_bounded_partial :
  forall e ix text, parse_wkt e ix 1025 text [] <> NoFuel.
Proof.
  intros e ix text. pose proof (parse_safe e ix 1025 text [] ltac:(lia)) as H.
  intros E. now rewrite E in H.
Qed.
Print Assumptions C26_wkt_bounded_partial.

Definition wkt_head : list Z := str "GEOMETRYCOLLECTION("%string.
Lemma heads_no_close n a rest : forall l, concat (repeat wkt_head n) ++ l = a ++ 41 :: rest -> (n <= opens a)%nat.
Proof.
  revert a. induction n as [|n IH]; intros a l H; [lia|]. cbn [repeat concat] in H.
  rewrite <- app_assoc in H.
  assert (G : forall h, Forall (fun c => c <> 41) h -> forall a l1, h ++ l1 = a ++ 41 :: rest ->
    exists a', a = h ++ a' /\ l1 = a' ++ 41 :: rest).
  { induction h as [|c h IHh]; intros F a0 l1 E; [exists a0; auto|]. inversion_clear F.
    destruct a0 as [|x a0]; [cbn in E; congruence|]. cbn in E. injection E as -> E.
    destruct (IHh H1 a0 l1 E) as (a' & -> & ->). exists a'. auto. }
  destruct (G wkt_head ltac:(vm_compute; repeat (constructor; [congruence|]); constructor) _ _ H) as (a' & -> & E).
  rewrite opens_app. apply IH in E. change (opens wkt_head) with 1%nat. lia.
Qed.
(** More than 1024 nested collections are an error, whatever follows. *)
Theorem C26_wkt_too_deep_partial :
  forall e ix n rest, (1024 < n)%nat ->
    exists g, tg_parse_wktn_ix e ix (concat (repeat wkt_head n) ++ rest) = Ok g /\
      tg_geom_error (Some g) = Some (str "ParseError: invalid text"%string).
Proof.
  intros e ix n rest H. exists (make_parse_error (str "ParseError: "%string ++ msg_text)). split; [|reflexivity].
  destruct n as [|n]; [lia|]. cbn [repeat concat]. rewrite <- app_assoc.
  set (l := concat (repeat wkt_head n) ++ rest). unfold tg_parse_wktn_ix.
  set (d := length (wkt_head ++ l)).
  assert (E : parse_wkt e ix (S d) (wkt_head ++ l) [] = 
    match wkt_balance_coords l with
    | None => Err msg_text
    | Some (grp, after) =>
        if forallb isws after then parse_wkt_geometrycollection (parse_wkt e ix d) grp (41 :: after ++ [])
        else Err msg_text
    end) by reflexivity.
  rewrite E. destruct (wkt_balance_coords l) as [[grp after]|] eqn:B; [|reflexivity].
  exfalso. destruct (balance_coords_slice l grp after B) as [L [_ S]].
  pose proof (heads_no_close n grp after rest L). lia.
Qed.
Print Assumptions C26_wkt_too_deep_partial.

Example C26_example_wkt :
  (1024 < 1025)%nat /\
  (exists g, tg_parse_wktn_ix env_init 0 (concat (repeat wkt_head 3) ++ str "POINT(1 2))))"%string) = Ok g /\
     tg_geom_error (Some g) = None).
Proof. split; [lia|]. eexists. split; vm_compute; reflexivity. Qed.

(** ** C28 *)

Lemma printed_call fixed g t :
  printed (write_geom_wkt fixed g ;; write_nullterm) t -> prints_text (tg_geom_wkt fixed (Some g)) t.
Proof.
  intros H dst. destruct (H dst) as (w & E & C & L & B). exists (w_dst w).
  unfold tg_geom_wkt. rewrite E, C. auto.
Qed.

Lemma Forall_join {A : Type} (Q : A -> Prop) ls : Forall (Forall Q) ls -> Forall Q (concat ls).
Proof. induction 1; cbn; [constructor|]. now apply Forall_app. Qed.
Lemma posns_wf d ps : Forall (posn_ok d) ps -> Forall (fun x => 0 <= x < 2 ^ 64) (concat ps).
Proof. intros H. apply Forall_join. eapply Forall_impl; [|exact H]. now intros p [_ Hp]. Qed.

Lemma fits_wf s : wkt_fits s -> Forall (fun x => 0 <= x < 2 ^ 64) (coords_of s).
Proof.
  assert (R : forall d rs, Forall (ring_ok d) rs ->
            Forall (fun x => 0 <= x < 2 ^ 64) (concat (concat rs))).
  { intros d rs H. apply (posns_wf d), Forall_join. eapply Forall_impl; [|exact H].
    intros r Hr. apply Hr. }
  induction s as [d p|d ps|d rs|d ps|d ls|d ps|gs IH] using shape_ind_deep; cbn [wkt_fits coords_of].
  - intros [[-> _]|H]; [constructor|apply H].
  - intros [[-> _]|H]; [constructor|apply (posns_wf d), H].
  - intros [[-> _]|H]; [constructor|apply (R d), H].
  - intros [[-> _]|H]; [constructor|apply (posns_wf d), H].
  - intros [[-> _]|[_ H]]; [constructor|]. apply (posns_wf d), Forall_join.
    eapply Forall_impl; [|exact H]. intros r Hr. apply Hr.
  - intros [[-> _]|[_ H]]; [constructor|]. apply (posns_wf d), Forall_join, Forall_join.
    eapply Forall_impl; [|exact H]. intros rs [_ Hr]. eapply Forall_impl; [|exact Hr].
    intros r Hr'. apply Hr'.
  - intros H. apply Forall_join. rewrite Forall_map. induction IH as [|s gs Hs _ IHl]; [constructor|].
    destruct H as [H1 H2]. constructor; auto.
Qed.

Lemma plain_prints s : wkt_fits s -> Forall plain_number (coords_of s) -> Forall prints (coords_of s).
Proof.
  intros Hf Hp. pose proof (fits_wf s Hf) as W. rewrite Forall_forall in *. intros x Hx.
  assert (WX : f_wf x = true).
  { unfold f_wf. change p64 with (2 ^ 64). specialize (W x Hx).
    apply andb_true_iff. rewrite Z.leb_le, Z.ltb_lt. exact W. }
  split; [exact WX|]. split; [auto|]. intros N _. now apply d2d_always_good.
Qed.

(** Wherever a geometry comes from: if its contents are [s], made of normal numbers
    and zeros, if the shape can be spelt in WKT and takes at most 1024 pairs of
    parentheses, then tg_geom_wkt prints a text, with or without fixed floats, that
    parses, with any index, to a geometry with the contents [s] (-0 becomes 0). *)
Theorem C28_round_trip_partial :
  forall fixed e ix g s,
    geom_made g -> shape_of g = Some s -> no_bare_line g -> wkt_fits s ->
    (groups s <= 1024)%nat -> Forall plain_number (coords_of s) ->
    rings_build e ix (shape_map plus_zero s) ->
    exists t g', prints_text (tg_geom_wkt fixed (Some g)) t /\
      tg_parse_wktn_ix e ix t = Ok g' /\ shape_of g' = Some (shape_map plus_zero s).
Proof.
  intros fixed e ix g s Hm Hs Hb Hf Hg Hp Hr.
  destruct (wkt_trip fixed e ix g s Hm Hs Hb Hf Hg) as (t & g' & H1 & H2 & H3); [|exact Hr|].
  - now apply plain_prints.
  - exists t, g'. auto using printed_call.
Qed.
Print Assumptions C28_round_trip_partial.

(** A collection of 1024 points: the parser counts every opening parenthesis as
    nesting and refuses what the writer wrote. *)
Definition many_points : geom :=
  tg_geom_new_geometrycollection (repeat (Some (tg_geom_new_point (Pt f_one f_one))) 1024).
Definition many_shape : shape := ShGeoms (repeat (ShPoint xy [f_one; f_one]) 1024).
Theorem C28_refuted :
  exists g s t g', geom_made g /\ shape_of g = Some s /\ no_bare_line g /\ wkt_fits s /\
    Forall plain_number (coords_of s) /\ prints_text (tg_geom_wkt false (Some g)) t /\
    tg_parse_wktn_ix env_init 0 t = Ok g' /\
    tg_geom_error (Some g') = Some (str "ParseError: invalid text").
Proof.
  assert (Hm : geom_made many_points) by (vm_compute; repeat split; reflexivity).
  assert (Hs : shape_of many_points = Some many_shape) by (vm_compute; reflexivity).
  assert (Hn : no_bare_line many_points) by (vm_compute; repeat split; reflexivity).
  assert (Hf : wkt_fits many_shape).
  { cbn [many_shape wkt_fits]. generalize 1024%nat as n. induction n as [|n IH]; [exact I|].
    split; [|exact IH]. right. split; [reflexivity|].
    repeat (constructor; [unfold f_one; lia|]). constructor. }
  assert (Hp : Forall plain_number (coords_of many_shape)).
  { cbn [many_shape coords_of]. apply Forall_join. rewrite Forall_map, Forall_forall.
    intros x Hx. apply repeat_spec in Hx. subst x. repeat (constructor; [now left|]). constructor. }
  exists many_points, many_shape, (t_shape (num_text false) many_shape). eexists.
  do 5 (split; [assumption|]). split.
  { apply printed_call, wkt_text; auto using plain_prints. }
  vms.
Qed.
Print Assumptions C28_refuted.

(** a line of no points, as tg_line_new allows: written as LINESTRING() *)
Theorem C28_no_points_refuted :
  exists l g', series_new_ix env_init [] false 0 = Some l /\
    tg_geom_wkt false (Some (tg_geom_new_linestring l)) (repeat 1 13)
    = Some (12%nat, str "LINESTRING()" ++ [0]) /\
    tg_parse_wktn_ix env_init 0 (str "LINESTRING()") = Ok g' /\
    tg_geom_error (Some g') <> None.
Proof.
  do 2 eexists. split; [vm_compute; reflexivity|]. split; [vm_compute; reflexivity|].
  split; [vm_compute; reflexivity|]. vm_compute. discriminate.
Qed.
Print Assumptions C28_no_points_refuted.

(** 1.5, 0.1, -2e-7 *)
Definition ex_a : f64 := 4609434218613702656.
Definition ex_b : f64 := 4591870180066957722.
Definition ex_c : f64 := 13730023850970492744.
Definition ex_shape : shape :=
  ShGeoms [ShPoly (Dim true false) [[[0;0;ex_a]; [ex_a;0;0]; [0;ex_b;minus_zero]; [0;0;ex_c]]];
           ShPoint xy [ex_b; ex_c]; ShPoint xy []; ShGeoms [];
           ShLines (Dim false true) [[[0;0;0];[0;ex_a;0]]; [[0;0;ex_c];[ex_b;ex_a;0];[0;0;0]]]].
Definition ex_text : list Z :=
  str "GEOMETRYCOLLECTION(POLYGON((0 0 1.5,1.5 0 0,0 0.1 0,0 0 -2e-7)),POINT(0.1 -2e-7),POINT EMPTY,GEOMETRYCOLLECTION EMPTY,MULTILINESTRING M((0 0 0,0 1.5 0),(0 0 -2e-7,0.1 1.5 0,0 0 0)))".
Example C28_example :
  exists g g', tg_parse_wktn_ix env_init 0 ex_text = Ok g /\
    shape_of g = Some (shape_map plus_zero ex_shape) /\
    wkt_fits ex_shape /\ (groups ex_shape <= 1024)%nat /\ Forall plain_number (coords_of ex_shape) /\
    rings_build env_init 0 (shape_map plus_zero ex_shape) /\ no_bare_line g /\
    tg_geom_wkt false (Some g) (repeat 1 (S (length ex_text))) = Some (length ex_text, ex_text ++ [0]) /\
    tg_parse_wktn_ix env_init 0 ex_text = Ok g' /\ shape_of g' = shape_of g.
Proof.
  do 2 eexists. split; [vm_compute; reflexivity|]. split; [vm_compute; reflexivity|].
  split.
  { cbn. unfold line_ok, ring_ok, posn_ok. repeat split; cbn; try lia.
    all: try (left; split; reflexivity).
    all: right; try split; try discriminate.
    all: repeat (first [split|constructor|reflexivity|discriminate|lia
      |match goal with |- Forall _ _ => constructor | |- 0 <= _ => vm_compute; discriminate
        | |- _ < _ => vm_compute; reflexivity end]). }
  split; [cbn; lia|]. split.
  { cbn. repeat (constructor; [first [left; reflexivity|right; left; reflexivity|right; right; reflexivity]|]). constructor. }
  split; [intros r _; apply series_new_ix_total; discriminate|].
  split; [vm_compute; repeat split; discriminate|].
  split; [vm_compute; reflexivity|]. split; vm_compute; reflexivity.
Qed.
