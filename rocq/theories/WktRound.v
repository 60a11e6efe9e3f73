(** * WKT text reads back *)

From Coq Require Import ZArith Bool String List Lia ZifyBool.
From Verif Require Import F64 Geo Series RingApi Bytes Geom WkbParse Num WktParse.
From Verif Require Import SpecWkb SpecWkt NumFacts NumPrint WktSafe WktText GeomFacts WkbWriteFacts
  WkbParseFacts WkbRoundFacts.
Import ListNotations.
Local Open Scope Z_scope.

Section parse.
Variable e : env.
Variable ix : Z.
Variable num : f64 -> list Z.
Variable rd : f64 -> f64.
Notation good := (good num rd).
Notation goods := (goods num rd).
Notation rd1 := (map rd).
Notation rd2 := (map (map rd)).
Notation rd3 := (map (map (map rd))).

Definition sized (n : nat) (ps : list posn) : Prop := Forall (fun p => length p = n /\ Forall good p) ps.

Lemma sized_goods n ps : sized n ps -> goods ps.
Proof. apply Forall_impl. tauto. Qed.

Lemma line_group n d dims ps t : (2 <= n <= 4)%nat -> sized n ps -> line_ok d (rd2 ps) ->
  (dims = 0%nat \/ dims = n) ->
  wkt_ring e ix WBLine dims (t_posns num ps) (41 :: t)
  = Ok (n, mk_series e ix false (rd2 ps), extras (rd2 ps)).
Proof.
  intros Hn HS HL HD. unfold wkt_ring.
  assert (NE : ps <> []) by (intros ->; destruct HL as (_ & L & _); cbn in L; lia).
  rewrite (parse_posns_ok num rd WBLine n); auto.
  - cbn [obind]. rewrite mk_series_open. reflexivity.
  - exact (check_ok false d _ HL).
Qed.
Lemma ring_group n d dims ps t : (2 <= n <= 4)%nat -> sized n ps -> ring_ok d (rd2 ps) ->
  ring_builds e ix (rd2 ps) -> (dims = 0%nat \/ dims = n) ->
  wkt_ring e ix WBRing dims (t_posns num ps) (41 :: t)
  = Ok (n, mk_series e ix true (rd2 ps), extras (rd2 ps)).
Proof.
  intros Hn HS HL HB HD. unfold wkt_ring.
  assert (NE : ps <> []) by (intros ->; destruct HL as (_ & L & _); cbn in L; lia).
  rewrite (parse_posns_ok num rd WBRing n); auto.
  - cbn [obind]. rewrite mk_series_closed by exact HB. reflexivity.
  - exact (check_ok true d _ HL).
Qed.

Definition poly_of (rs : list (list posn)) : poly := mk_poly (map (mk_series e ix true) (rd3 rs)).

Lemma poly_group n d dims rs t : (2 <= n <= 4)%nat -> rs <> [] -> Forall (sized n) rs ->
  Forall (ring_ok d) (rd3 rs) -> Forall (ring_builds e ix) (rd3 rs) ->
  (dims = 0%nat \/ dims = n) ->
  parse_wkt_multi_posns e ix dims (t_rings num rs) (41 :: t)
  = Ok (n, poly_of rs, ring_extras (rd3 rs)).
Proof.
  intros Hn NE HS HR HB HD. unfold parse_wkt_multi_posns, t_rings. rewrite trim_join.
  rewrite Forall_map in HR, HB. rewrite Forall_forall in HS, HR, HB.
  rewrite (groups_ok _ (t_posns num) (fun ps => mk_series e ix true (rd2 ps)) (fun ps => extras (rd2 ps)) n);
    auto.
  - cbn [obind]. unfold poly_of, ring_extras. rewrite !map_map.
    destruct rs as [|r rs]; [easy|]. cbn [map].
    rewrite tg_poly_new_mk. reflexivity.
  - intros a dd t' Ha Hd. apply (ring_group n d); auto. 
  - intros a Ha. destruct (posns_bal num rd a) as [A B]; [now apply (sized_goods n), HS|]. split; [exact A|lia].
  - pose proof (join_length (t_posns num) rs). lia.
Qed.

(** ** The head *)

Definition dispatch (k : nat) (type : Z) (z m : bool) (grp tail : list Z) : out geom :=
  if type =? TG_POINT then parse_wkt_point grp tail z m
  else if type =? TG_LINESTRING then parse_wkt_linestring e ix grp tail z m
  else if type =? TG_POLYGON then parse_wkt_polygon e ix grp tail z m
  else if type =? TG_MULTIPOINT then parse_wkt_multipoint grp tail z m
  else if type =? TG_MULTILINESTRING then parse_wkt_multilinestring e ix grp tail z m
  else if type =? TG_MULTIPOLYGON then parse_wkt_multipolygon e ix grp tail z m
  else parse_wkt_geometrycollection (parse_wkt e ix k) grp tail.

Definition names : list (list Z * Z) :=
  [(str "POINT", TG_POINT); (str "LINESTRING", TG_LINESTRING);
   (str "POLYGON", TG_POLYGON); (str "MULTIPOINT", TG_MULTIPOINT);
   (str "MULTILINESTRING", TG_MULTILINESTRING);
   (str "MULTIPOLYGON", TG_MULTIPOLYGON);
   (str "GEOMETRYCOLLECTION", TG_GEOMETRYCOLLECTION)].

Lemma split_paren_at a b : ~ In 40 a -> split_paren (a ++ 40 :: b) = (a, 40 :: b).
Proof.
  induction a as [|c a IH]; intros H; [reflexivity|]. cbn [app split_paren].
  destruct (c =? 40) eqn:E; [elim H; left; lia|]. rewrite IH; [reflexivity|]. intros X. apply H. now right.
Qed.
Lemma split_paren_none a : ~ In 40 a -> split_paren a = (a, []).
Proof.
  induction a as [|c a IH]; intros H; [reflexivity|]. cbn [split_paren].
  destruct (c =? 40) eqn:E; [elim H; left; lia|]. rewrite IH; [reflexivity|]. intros X. apply H. now right.
Qed.

Lemma parse_head N ty z m k body tail :
  wkt2type N = WType ty z m false -> trim_end N = N -> ~ In 40 N ->
  match N with [] => False | c :: _ => isws c = false end ->
  bal 0 body -> (opens body <= 1023)%nat ->
  parse_wkt e ix (S k) (N ++ paren body) tail = dispatch k ty z m body (41 :: tail).
Proof.
  intros HT HE HI HC HB HO. destruct N as [|c N]; [contradiction|].
  cbn [app parse_wkt wkt_trim_ws]. rewrite HC. 
  change (c :: N ++ paren body) with ((c :: N) ++ 40 :: body ++ [41]).
  rewrite split_paren_at by assumption. rewrite HE, HT.
  unfold wkt_balance_coords. rewrite balance_ok; [|assumption|lia]. reflexivity.
Qed.
Lemma parse_empty N ty z m k tail :
  wkt2type N = WType ty z m true -> trim_end N = N -> ~ In 40 N ->
  match N with [] => False | c :: _ => isws c = false end ->
  parse_wkt e ix (S k) N tail = Ok (new_empty ty).
Proof.
  intros HT HE HI HC. destruct N as [|c N]; [contradiction|].
  cbn [parse_wkt wkt_trim_ws]. rewrite HC. rewrite split_paren_none by assumption.
  rewrite HE, HT. reflexivity.
Qed.

Lemma name_ok N ty d : In (N, ty) names ->
  wkt2type (N ++ t_zm d) = WType ty false (dm d && negb (dz d)) false /\
  trim_end (N ++ t_zm d) = N ++ t_zm d /\ ~ In 40 (N ++ t_zm d) /\
  match N ++ t_zm d with [] => False | c :: _ => isws c = false end.
Proof.
  unfold names. cbn [In]. intros H.
  repeat (destruct H as [[= <- <-]|H]; [destruct d as [[] []]; vm_compute; repeat split; intuition lia|]).
  destruct H.
Qed.
Lemma empty_ok N ty : In (N, ty) names ->
  wkt2type (N ++ str " EMPTY") = WType ty false false true /\
  trim_end (N ++ str " EMPTY") = N ++ str " EMPTY" /\ ~ In 40 (N ++ str " EMPTY") /\
  match N ++ str " EMPTY" with [] => False | c :: _ => isws c = false end.
Proof.
  unfold names. cbn [In]. intros H.
  repeat (destruct H as [[= <- <-]|H]; [vm_compute; repeat split; intuition lia|]).
  destruct H.
Qed.

Lemma wkt_dims_d d : wkt_dims false (dm d && negb (dz d)) = 0%nat \/ wkt_dims false (dm d && negb (dz d)) = ndim d.
Proof. destruct d as [[] []]; cbn; auto. Qed.
Lemma dims_zm_d d : dims_zm (ndim d) (dm d && negb (dz d)) = (dz d, dm d).
Proof. destruct d as [[] []]; reflexivity. Qed.
Lemma ndim_range d : (2 <= ndim d <= 4)%nat.
Proof. destruct d as [[] []]; cbn; lia. Qed.

(** ** Shapes *)

Hypothesis rd_nan : forall x, good x -> f_isnan (rd x) = false.

Lemma Forall_concat_iff {A} (P : A -> Prop) l : Forall P (concat l) <-> Forall (Forall P) l.
Proof.
  induction l as [|a l IH]; cbn; [split; constructor|]. rewrite Forall_app, IH. split.
  - intros [A1 A2]. now constructor.
  - intros H. inversion H; auto.
Qed.

Lemma sized_of d ps : Forall (posn_ok d) (rd2 ps) -> goods ps -> sized (ndim d) ps.
Proof.
  intros H G. rewrite Forall_map in H. unfold sized. induction H as [|p ps [Hp _] _ IH]; [constructor|].
  inversion G; subst. rewrite map_length in Hp. constructor; auto.
Qed.

Lemma point_ok_of d p : posn_ok d (rd1 p) -> Forall good p -> point_ok d (rd1 p).
Proof.
  intros H G. split; [exact H|]. destruct p as [|x p].
  - destruct H as [H _]. destruct d as [[] []]; discriminate.
  - inversion G; subst. cbn [map forallb]. rewrite rd_nan by assumption. reflexivity.
Qed.

Lemma parse_point_ok d p t : posn_ok d (rd1 p) -> Forall good p ->
  parse_wkt_point (t_posn num p) (41 :: t) false (dm d && negb (dz d)) = Ok (build_point d (rd1 p)).
Proof.
  intros [Hl _] G. rewrite map_length in Hl. pose proof (ndim_range d) as R.
  assert (NE : p <> []) by (destruct p; cbn in *; [lia|easy]).
  unfold parse_wkt_point. destruct (t_posn_head num rd p NE G) as (c & r & Hc & Hn).
  assert (HT : wkt_trim_ws (t_posn num p) = t_posn num p) by (rewrite Hc; now apply trim_num).
  rewrite HT. rewrite Hc. cbv iota beta. rewrite <- Hc.
  rewrite (point_nums_ok num rd); auto; [|cbn; lia|pose proof (t_posn_length num rd p G); lia].
  cbn [obind app]. rewrite map_length.
  destruct d as [[] []]; cbn in Hl |- *;
    destruct p as [|x0 [|x1 [|x2 [|x3 [|]]]]]; try discriminate Hl; reflexivity.
Qed.

(** the whole text of a shape without parentheses or commas in its head *)
Lemma t_body_cons {A} N d (t : list A -> list Z) l : l <> [] ->
  t_body N d t l = (N ++ t_zm d) ++ paren (t l).
Proof. destruct l; [easy|]. intros _. cbn [t_body]. now rewrite app_assoc. Qed.

Lemma t_body_parse {A} N ty d (t : list A -> list Z) l k tail : In (N, ty) names -> l <> [] ->
  bal 0 (t l) -> (opens (t l) <= 1023)%nat ->
  parse_wkt e ix (S k) (t_body N d t l) tail
  = dispatch k ty false (dm d && negb (dz d)) (t l) (41 :: tail).
Proof.
  intros HN NE HB HO. rewrite t_body_cons by assumption.
  destruct (name_ok N ty d HN) as (A1 & A2 & A3 & A4). now apply parse_head.
Qed.
Lemma t_body_empty {A} N ty (t : list A -> list Z) k tail : In (N, ty) names ->
  parse_wkt e ix (S k) (t_body N xy t []) tail = Ok (new_empty ty).
Proof.
  intros HN. cbn [t_body t_zm xy dz dm andb app].
  destruct (empty_ok N ty HN) as (A1 & A2 & A3 & A4). now apply (parse_empty _ ty false false).
Qed.

Definition sums {A} (f : A -> nat) (l : list A) : nat := list_sum (map f l).
Lemma sums_in {A} (f : A -> nat) l a : In a l -> (f a <= sums f l)%nat.
Proof.
  unfold sums. induction l as [|b l IH]; intros H; [easy|]. cbn [map list_sum fold_right].
  fold (list_sum (map f l)). destruct H as [->|H]; [lia|]. specialize (IH H). lia.
Qed.
Lemma groups_in_some {A} (f : A -> nat) l : l <> [] -> groups_in f l = S (sums f l).
Proof. destruct l; easy. Qed.

Lemma next_plain a rest : ~ In 40 a -> ~ In 44 a ->
  match rest with [] => True | c :: _ => c = 44 end ->
  wkt_next_geometry (a ++ rest) = Some (a, rest).
Proof.
  intros H1 H2 HR. induction a as [|c a IH].
  - destruct rest as [|c r]; [reflexivity|]. subst c. reflexivity.
  - cbn [app wkt_next_geometry]. destruct (c =? 44) eqn:E1; [elim H2; left; lia|].
    destruct (c =? 40) eqn:E2; [elim H1; left; lia|].
    rewrite IH; [reflexivity|intros X; apply H1; now right|intros X; apply H2; now right].
Qed.
Lemma next_paren a body rest : ~ In 40 a -> ~ In 44 a -> bal 0 body -> (opens body <= 1023)%nat ->
  wkt_next_geometry ((a ++ paren body) ++ rest) = Some (a ++ paren body, rest).
Proof.
  intros H1 H2 HB HO. induction a as [|c a IH].
  - unfold paren. cbn [app wkt_next_geometry]. change (40 =? 44) with false. change (40 =? 40) with true.
    cbv iota. rewrite <- app_assoc. cbn [app]. unfold wkt_balance_coords. rewrite balance_ok; [reflexivity|assumption|lia].
  - cbn [app wkt_next_geometry]. destruct (c =? 44) eqn:E1; [elim H2; left; lia|].
    destruct (c =? 40) eqn:E2; [elim H1; left; lia|].
    rewrite IH; [reflexivity|intros X; apply H1; now right|intros X; apply H2; now right].
Qed.

(** what the collection parser needs to know of a child's text *)
Definition item (t : list Z) (n : nat) : Prop :=
  t <> [] /\ bal 0 t /\ opens t = n /\
  forall rest, (n <= 1024)%nat -> match rest with [] => True | c :: _ => c = 44 end ->
    wkt_next_geometry (t ++ rest) = Some (t, rest).

Lemma name_plain N ty : In (N, ty) names -> forall d,
  N ++ t_zm d <> [] /\ Forall nchar N /\ ~ In 44 (N ++ t_zm d) /\ bal 0 (N ++ t_zm d) /\ opens (N ++ t_zm d) = 0%nat /\
  ~ In 44 (N ++ t_zm d ++ str " EMPTY") /\ ~ In 40 (N ++ t_zm d ++ str " EMPTY") /\
  bal 0 (N ++ t_zm d ++ str " EMPTY") /\ opens (N ++ t_zm d ++ str " EMPTY") = 0%nat.
Proof.
  unfold names. cbn [In]. intros H d.
  repeat (destruct H as [[= <- <-]|H]; [destruct d as [[] []]; (split; [discriminate|]); (split; [repeat (constructor; [reflexivity|]); constructor|]); vm_compute; repeat split; intuition lia|]).
  destruct H.
Qed.

Lemma t_body_item {A} N ty d (t : list A -> list Z) (f : A -> nat) l : In (N, ty) names ->
  (l <> [] -> bal 0 (t l) /\ opens (t l) = sums f l) -> item (t_body N d t l) (groups_in f l).
Proof.
  intros HN H. destruct (name_plain N ty HN d) as (A1 & _ & A2 & A3 & A4 & A5 & A6 & A7 & A8).
  destruct (name_ok N ty d HN) as (_ & _ & B1 & _).
  destruct l as [|a l].
  - cbn [t_body groups_in]. split; [destruct N; [destruct (t_zm d); easy|easy]|]. split; [exact A7|].
    split; [exact A8|]. intros rest _ HR. now apply next_plain.
  - rewrite t_body_cons by easy. destruct (H ltac:(easy)) as [HB HO]. rewrite groups_in_some by easy.
    split; [destruct (N ++ t_zm d); easy|]. split; [now apply bal_app0, bal_paren|].
    split; [rewrite opens_app, opens_paren; lia|]. intros rest L HR. apply next_paren; auto. lia.
Qed.

Lemma list_sum_ext {A} (f : A -> nat) n l : (forall a, In a l -> f a = n) -> sums f l = (n * length l)%nat.
Proof.
  unfold sums. induction l as [|a l IH]; intros H; [cbn; lia|]. cbn [map list_sum fold_right length].
  fold (list_sum (map f l)). rewrite IH, (H a); [lia|now left|]. intros; apply H; now right.
Qed.

Definition fine (s : shape) : Prop := wkt_fits (shape_map rd s) /\ Forall good (coords_of s).

Lemma fits_geoms_iff gs : wkt_fits (ShGeoms gs) <-> Forall wkt_fits gs.
Proof.
  induction gs as [|s gs IH]; cbn; [split; auto|]. cbn in IH. rewrite IH. split.
  - intros [A B]. now constructor.
  - intros H. inversion H; auto.
Qed.

Lemma fine_geoms gs : fine (ShGeoms gs) -> Forall fine gs.
Proof.
  intros [H1 H2]. cbn [shape_map] in H1. apply fits_geoms_iff in H1. rewrite Forall_map in H1.
  cbn [coords_of] in H2. rewrite Forall_concat_iff, Forall_map in H2.
  apply Forall_forall. intros s Hs. rewrite Forall_forall in H1, H2. split; auto.
Qed.

Lemma shape_item s : fine s -> item (t_shape num s) (groups s).
Proof.
  induction s as [d p|d ps|d rs|d ps|d ls|d ps|gs IH] using shape_ind_deep; intros HF; cbn [t_shape groups];
    try (destruct HF as [HF HG]; cbn [shape_map wkt_fits coords_of] in *).
  - apply (t_body_item _ TG_POINT); [cbn; tauto|]. intros NE. destruct (posn_bal num rd p HG) as [A B].
    split; [exact A|]. rewrite B, (list_sum_ext _ 0); auto.
  - rewrite Forall_concat_iff in HG. apply (t_body_item _ TG_LINESTRING); [cbn; tauto|]. intros NE.
    destruct (posns_bal num rd ps HG) as [A B]. split; [exact A|]. rewrite B, (list_sum_ext _ 0); auto.
  - rewrite !Forall_concat_iff in HG. apply (t_body_item _ TG_POLYGON); [cbn; tauto|]. intros NE.
    now apply (rings_bal num rd).
  - rewrite Forall_concat_iff in HG. apply (t_body_item _ TG_MULTIPOINT); [cbn; tauto|]. intros NE.
    destruct (posns_bal num rd ps HG) as [A B]. split; [exact A|]. rewrite B, (list_sum_ext _ 0); auto.
  - rewrite !Forall_concat_iff in HG. apply (t_body_item _ TG_MULTILINESTRING); [cbn; tauto|]. intros NE.
    now apply (rings_bal num rd).
  - rewrite !Forall_concat_iff in HG. apply (t_body_item _ TG_MULTIPOLYGON); [cbn; tauto|]. intros NE.
    apply (polys_bal num rd). destruct HF as [[E _]|[_ HF]]; [destruct ps; easy|]. rewrite Forall_map in HF.
    apply Forall_forall. intros rs Hrs. rewrite Forall_forall in HF, HG.
    split; [|now apply HG]. intros ->. now destruct (HF [] Hrs).
  - pose proof (fine_geoms gs (conj HF HG)) as HF'. clear HF. rename HF' into HF.
    rewrite Forall_forall in IH, HF.
    apply (t_body_item _ TG_GEOMETRYCOLLECTION); [cbn; tauto|]. intros NE.
    apply join_bal. apply Forall_forall. intros s Hs. destruct (IH s Hs (HF s Hs)) as (_ & A & B & _). auto.
Qed.

(** ** The geometry read *)

Lemma multipoint_shape d ps : ps <> [] -> Forall (posn_ok d) ps ->
  shape_of (if dz d || dm d then fill_multi_coords (dz d) (dm d) (extras ps)
              (tg_geom_new_multipoint (map posn_point ps))
            else tg_geom_new_multipoint (map posn_point ps)) = Some (ShPoints d ps).
Proof.
  intros _ HP. unfold tg_geom_new_multipoint. rewrite multi_flags, extras_sel by assumption.
  cbn [shape_of is_empty fl_zm]. rewrite dim_zm, !map_map.
  rewrite (all_some_maps _ posn_point) by reflexivity. cbn [obind2]. now rewrite posns_round.
Qed.
Lemma multiline_shape d ls : Forall (line_ok d) ls ->
  let g := tg_geom_new_multilinestring (map Some (map (mk_series e ix false) ls)) in
  shape_of (if dz d || dm d then fill_multi_coords (dz d) (dm d) (ring_extras ls) g else g)
  = Some (ShLines d ls).
Proof.
  intros HF g. unfold g, tg_geom_new_multilinestring.
  assert (HP : Forall (Forall (posn_ok d)) ls)
    by (eapply Forall_impl; [|exact HF]; intros a Ha; apply Ha).
  rewrite multi_flags, ring_extras_sel by assumption.
  cbn [shape_of is_empty fl_zm]. rewrite dim_zm, !map_map.
  rewrite (all_some_maps _ (map posn_point)).
  - cbn [obind2]. now rewrite posns_list_round.
  - intros a Ha. cbn. f_equal. apply mk_open_pts.
Qed.
Lemma multipoly_shape d ps :
  Forall (fun rs => rs <> [] /\ Forall (ring_ok d) rs) ps -> Forall (Forall (ring_builds e ix)) ps ->
  let g := tg_geom_new_multipolygon (map Some (map (fun rs => mk_poly (map (mk_series e ix true) rs)) ps)) in
  shape_of (if dz d || dm d then fill_multi_coords (dz d) (dm d) (poly_extras ps) g else g)
  = Some (ShPolys d ps).
Proof.
  intros HF HB g. unfold g, tg_geom_new_multipolygon.
  assert (HP : Forall (Forall (Forall (posn_ok d))) ps).
  { eapply Forall_impl; [|exact HF]. intros a [_ Ha]. eapply Forall_impl; [|exact Ha]. intros b Hb. apply Hb. }
  rewrite multi_flags, poly_extras_sel by assumption.
  cbn [shape_of is_empty fl_zm]. rewrite dim_zm, !map_map. rewrite Forall_forall in HF, HB.
  rewrite (all_some_maps _ (map (map posn_point))).
  - cbn [obind2]. now rewrite posns_list2_round.
  - intros a Ha. cbn [option_map tg_geom_new_polygon].
    apply mk_poly_pts; [now apply (HF a Ha)|now apply HB].
Qed.

Lemma ring_ok_poly d rs : rs <> [] -> Forall (ring_ok d) rs -> Z.of_nat (length rs) < 2 ^ 31 -> poly_ok d rs.
Proof. intros A B C. split; [assumption|]. split; [assumption|]. eapply Forall_impl; [|exact B]. auto. Qed.

Lemma poly_shape d rs : rs <> [] -> Forall (ring_ok d) rs -> Forall (ring_builds e ix) rs ->
  let p := mk_poly (map (mk_series e ix true) rs) in
  shape_of (if dz d || dm d then tg_geom_new_polygon_x (dz d) (dm d) p (ring_extras rs)
            else tg_geom_new_polygon p) = Some (ShPoly d rs).
Proof.
  intros NE HR HB p. destruct (mk_poly_pts e ix rs NE HB) as [A _]. fold p in A.
  assert (HP : Forall (Forall (posn_ok d)) rs)
    by (eapply Forall_impl; [|exact HR]; intros a Ha; apply Ha).
  destruct (dim_cases d) as [Ed|Ed].
  - rewrite Ed. unfold tg_geom_new_polygon_x. cbn [shape_of is_empty fl_zm obind2]. rewrite A. cbn [obind2].
    rewrite dim_zm, posns_list_round by assumption. reflexivity.
  - subst d. cbn [dz dm xy orb]. unfold tg_geom_new_polygon. cbn [shape_of]. change (is_xy fl0) with true. cbv iota.
    rewrite A. cbn [option_map]. f_equal. f_equal. now apply posn_xy_list.
Qed.

Theorem parse_shape s : fine s -> (groups s <= 1024)%nat -> buildable e ix (shape_map rd s) ->
  exists g, shape_of g = Some (shape_map rd s) /\
    forall k tail, (length (t_shape num s) <= k)%nat -> parse_wkt e ix (S k) (t_shape num s) tail = Ok g.
Proof.
  induction s as [d p|d ps|d rs|d ps|d ls|d ps|gs IH] using shape_ind_deep; intros HF HG HB;
    pose proof (shape_item _ HF) as HI; cbn [t_shape groups shape_map] in *.
  - destruct HF as [[[E ->]|HF] HC]; cbn [shape_map wkt_fits coords_of] in *.
    + destruct p; [|discriminate]. exists (new_empty TG_POINT). split; [reflexivity|]. intros k tail _.
      apply t_body_empty. cbn; tauto.
    + exists (build_point d (rd1 p)).
      split; [now apply build_point_shape, point_ok_of|]. intros k tail _.
      assert (NE : p <> []) by (intros ->; destruct HF as [L _]; destruct d as [[] []]; discriminate).
      rewrite groups_in_some in HG by assumption. destruct (posn_bal num rd p HC) as [B1 B2].
      rewrite (t_body_parse _ TG_POINT); [|cbn; tauto|assumption|assumption|lia].
      now apply parse_point_ok.
  - destruct HF as [[[E ->]|HF] HC]; cbn [shape_map wkt_fits coords_of] in *.
    + destruct ps; [|discriminate]. exists (new_empty TG_LINESTRING). split; [reflexivity|]. intros k tail _.
      apply t_body_empty. cbn; tauto.
    + rewrite Forall_concat_iff in HC.
      assert (NE : ps <> []) by (intros ->; destruct HF as (_ & L & _); cbn in L; lia).
      exists (build_line e ix d (rd2 ps)).
      split; [now apply build_line_shape|]. intros k tail _.
      destruct (posns_bal num rd ps HC) as [B1 B2].
      rewrite (t_body_parse _ TG_LINESTRING); [|cbn; tauto|assumption|assumption|lia].
      unfold dispatch. change (TG_LINESTRING =? TG_POINT) with false. change (TG_LINESTRING =? TG_LINESTRING) with true.
      cbv iota. unfold parse_wkt_linestring.
      rewrite (line_group (ndim d) d); [|apply ndim_range|apply sized_of; [apply HF|assumption]|assumption|apply wkt_dims_d].
      cbn [obind]. rewrite dims_zm_d. unfold build_line. destruct ps; [easy|reflexivity].
  - destruct HF as [[[E ->]|[NE HF]] HC]; cbn [shape_map wkt_fits coords_of] in *.
    + destruct rs; [|discriminate]. exists (new_empty TG_POLYGON). split; [reflexivity|]. intros k tail _.
      apply t_body_empty. cbn; tauto.
    + rewrite !Forall_concat_iff in HC.
      assert (NE' : rs <> []) by (intros ->; easy).
      assert (HBr : Forall (ring_builds e ix) (rd3 rs)).
      { apply Forall_forall. intros r Hr. apply HB. cbn [rings_of]. now apply in_map. }
      eexists. split; [apply (poly_shape d (rd3 rs)); assumption|]. intros k tail _.
      destruct (rings_bal num rd rs HC) as [B1 B2].
      rewrite groups_in_some in HG by assumption.
      rewrite (t_body_parse _ TG_POLYGON); [|cbn; tauto|assumption|assumption|unfold sums in HG; rewrite B2; lia].
      unfold dispatch. change (TG_POLYGON =? TG_POINT) with false. change (TG_POLYGON =? TG_LINESTRING) with false.
      change (TG_POLYGON =? TG_POLYGON) with true. cbv iota. unfold parse_wkt_polygon.
      rewrite (poly_group (ndim d) d); [|apply ndim_range|assumption| |assumption|assumption|apply wkt_dims_d].
      * cbn [obind]. rewrite dims_zm_d. reflexivity.
      * rewrite Forall_map in HF. apply Forall_forall. intros r Hr. rewrite Forall_forall in HF, HC.
        apply sized_of; [apply (HF r Hr)|now apply HC].
  - destruct HF as [[[E ->]|[NE HF]] HC]; cbn [shape_map wkt_fits coords_of] in *.
    + destruct ps; [|discriminate]. exists (new_empty TG_MULTIPOINT). split; [reflexivity|]. intros k tail _.
      apply t_body_empty. cbn; tauto.
    + rewrite Forall_concat_iff in HC.
      assert (NE' : ps <> []) by (intros ->; easy).
      eexists. split; [apply (multipoint_shape d (rd2 ps)); assumption|]. intros k tail _.
      destruct (posns_bal num rd ps HC) as [B1 B2].
      rewrite (t_body_parse _ TG_MULTIPOINT); [|cbn; tauto|assumption|assumption|lia].
      unfold dispatch. change (TG_MULTIPOINT =? TG_POINT) with false. change (TG_MULTIPOINT =? TG_LINESTRING) with false.
      change (TG_MULTIPOINT =? TG_POLYGON) with false. change (TG_MULTIPOINT =? TG_MULTIPOINT) with true.
      cbv iota. unfold parse_wkt_multipoint.
      rewrite (parse_posns_ok num rd WBPoint (ndim d)); [|apply ndim_range|assumption|now apply sized_of|apply wkt_dims_d|reflexivity].
      cbn [obind]. rewrite dims_zm_d. reflexivity.
  - destruct HF as [[[E ->]|[NE HF]] HC]; cbn [shape_map wkt_fits coords_of] in *.
    + destruct ls; [|discriminate]. exists (new_empty TG_MULTILINESTRING). split; [reflexivity|]. intros k tail _.
      apply t_body_empty. cbn; tauto.
    + rewrite !Forall_concat_iff in HC.
      assert (NE' : ls <> []) by (intros ->; easy).
      eexists. split; [apply (multiline_shape d (rd3 ls)); assumption|]. intros k tail _.
      destruct (rings_bal num rd ls HC) as [B1 B2].
      rewrite groups_in_some in HG by assumption.
      rewrite (t_body_parse _ TG_MULTILINESTRING); [|cbn; tauto|assumption|assumption|unfold sums in HG; rewrite B2; lia].
      change (dispatch k TG_MULTILINESTRING) with
        (fun z m grp tail => parse_wkt_multilinestring e ix grp tail z m).
      cbv beta. unfold parse_wkt_multilinestring, t_rings. rewrite trim_join.
      rewrite Forall_map in HF. rewrite Forall_forall in HF, HC.
      rewrite (groups_ok _ (t_posns num) (fun ps => mk_series e ix false (rd2 ps)) (fun ps => extras (rd2 ps)) (ndim d)).
      * cbn [obind]. rewrite dims_zm_d. unfold ring_extras. rewrite !map_map. reflexivity.
      * assumption.
      * intros a dd t' Ha Hd. apply (line_group (ndim d) d); [apply ndim_range| |now apply HF|assumption].
        apply sized_of; [apply (HF a Ha)|now apply HC].
      * intros a Ha. destruct (posns_bal num rd a (HC a Ha)) as [A B]. split; [exact A|lia].
      * apply wkt_dims_d.
      * pose proof (join_length (t_posns num) ls). lia.
  - destruct HF as [[[E ->]|[NE HF]] HC]; cbn [shape_map wkt_fits coords_of] in *.
    + destruct ps; [|discriminate]. exists (new_empty TG_MULTIPOLYGON). split; [reflexivity|]. intros k tail _.
      apply t_body_empty. cbn; tauto.
    + rewrite !Forall_concat_iff in HC.
      assert (NE' : ps <> []) by (intros ->; easy).
      assert (HBr : Forall (Forall (ring_builds e ix)) (map rd3 ps)).
      { apply Forall_forall. intros rs Hrs. apply Forall_forall. intros r Hr. apply HB. cbn [rings_of].
        apply in_concat. exists (map (map posn_point) rs). split; now apply in_map. }
      eexists. split; [apply (multipoly_shape d (map rd3 ps)); assumption|]. intros k tail _.
      pose proof HF as HF0. rewrite Forall_map in HF0.
      assert (HP : Forall (fun rs => rs <> [] /\ Forall goods rs) ps).
      { apply Forall_forall. intros rs Hrs. rewrite Forall_forall in HF0, HC.
        split; [|now apply HC]. intros ->. now destruct (HF0 [] Hrs). }
      destruct (polys_bal num rd ps HP) as [B1 B2].
      rewrite groups_in_some in HG by assumption.
      rewrite (t_body_parse _ TG_MULTIPOLYGON); [|cbn; tauto|assumption|assumption|unfold sums in HG; rewrite B2; lia].
      change (dispatch k TG_MULTIPOLYGON) with
        (fun z m grp tail => parse_wkt_multipolygon e ix grp tail z m).
      cbv beta. unfold parse_wkt_multipolygon, t_polys. rewrite trim_join.
      rewrite Forall_map in HBr. rewrite Forall_forall in HF0, HC, HP, HBr.
      rewrite (groups_ok _ (t_rings num) poly_of (fun rs => ring_extras (rd3 rs)) (ndim d)).
      * cbn [obind]. rewrite dims_zm_d. unfold poly_extras. rewrite !map_map. reflexivity.
      * assumption.
      * intros a dd t' Ha Hd. destruct (HF0 a Ha) as [_ HR].
        apply (poly_group (ndim d) d); [apply ndim_range|now apply HP| |assumption|now apply HBr|assumption].
        rewrite Forall_map in HR. apply Forall_forall. intros r Hr. rewrite Forall_forall in HR.
        apply sized_of; [apply (HR r Hr)|]. specialize (HC a Ha). rewrite Forall_forall in HC. now apply HC.
      * intros a Ha. destruct (HP a Ha) as [NA HA]. destruct (rings_bal num rd a HA) as [A B]. split; [exact A|].
        pose proof (sums_in (fun rs : list (list posn) => groups_in (fun _ => 1%nat) rs) ps a Ha) as S1.
        cbv beta in S1. rewrite groups_in_some in S1 by assumption. unfold sums in *. lia.
      * apply wkt_dims_d.
      * pose proof (join_length (t_rings num) ps). lia.
  - pose proof (fine_geoms gs HF) as HFs. destruct gs as [|s0 gs0].
    { exists (new_empty TG_GEOMETRYCOLLECTION). split; [reflexivity|]. intros k tail _.
      apply t_body_empty. cbn; tauto. }
    remember (s0 :: gs0) as gs eqn:Egs. assert (NE : gs <> []) by (subst; easy). clear Egs s0 gs0.
    rewrite groups_in_some in HG by assumption.
    assert (HC : exists cs, Forall2 (fun s g => shape_of g = Some (shape_map rd s) /\
      forall k tail, (length (t_shape num s) <= k)%nat -> parse_wkt e ix (S k) (t_shape num s) tail = Ok g) gs cs).
    { assert (HX : forall s, In s gs -> exists g, shape_of g = Some (shape_map rd s) /\
        forall k tail, (length (t_shape num s) <= k)%nat -> parse_wkt e ix (S k) (t_shape num s) tail = Ok g).
      { intros s Hs. rewrite Forall_forall in IH, HFs. apply IH; auto.
        - pose proof (sums_in groups gs s Hs). lia.
        - intros r Hr. apply HB. cbn [rings_of]. apply in_concat. exists (rings_of (shape_map rd s)).
          split; [|assumption]. apply in_map. now apply in_map. }
      clear -HX. induction gs as [|s gs IH]; [exists []; constructor|].
      destruct (HX s (or_introl eq_refl)) as [g Hg]. destruct IH as [cs Hcs]; [intros; apply HX; now right|].
      exists (g :: cs). now constructor. }
    destruct HC as [cs HC].
    exists (tg_geom_new_geometrycollection (map Some cs)). split.
    { unfold tg_geom_new_geometrycollection. cbn [shape_of]. change (is_xy fl0) with true. cbv iota.
      change (is_empty fl0) with false. cbv iota. rewrite map_map.
      replace (all_some _) with (Some (map (shape_map rd) gs)); [reflexivity|].
      symmetry. apply all_some_map. clear -HC. induction HC as [|s g gs cs [H _] _ IHc]; cbn; constructor; auto. }
    intros k tail Lk.
    assert (HIs : Forall (fun s => item (t_shape num s) (groups s) /\ (groups s <= 1024)%nat) gs).
    { apply Forall_forall. intros s Hs. rewrite Forall_forall in HFs. split; [now apply shape_item, HFs|].
      pose proof (sums_in groups gs s Hs). lia. }
    destruct (join_bal (t_shape num) groups gs) as [B1 B2].
    { eapply Forall_impl; [|exact HIs]. intros s [(_ & A & B & _) _]. auto. }
    rewrite (t_body_parse _ TG_GEOMETRYCOLLECTION); [|cbn; tauto|assumption|assumption|unfold sums in HG; rewrite B2; lia].
    change (dispatch k TG_GEOMETRYCOLLECTION) with
      (fun (z m : bool) grp tail => parse_wkt_geometrycollection (parse_wkt e ix k) grp tail). cbv beta.
    rewrite t_body_cons in Lk by assumption. unfold paren in Lk. cbn [str t_zm xy dz dm andb app length] in Lk.
    repeat (rewrite app_length in Lk; cbn [length] in Lk).
    destruct k as [|k]; [lia|].
    unfold parse_wkt_geometrycollection.
    assert (HL : forall l cs fuel t, l <> [] -> Forall2 (fun s g => shape_of g = Some (shape_map rd s) /\
      forall k tail, (length (t_shape num s) <= k)%nat -> parse_wkt e ix (S k) (t_shape num s) tail = Ok g) l cs ->
      Forall (fun s => item (t_shape num s) (groups s) /\ (groups s <= 1024)%nat) l ->
      (length (join 44 (map (t_shape num) l)) <= k)%nat -> (length (join 44 (map (t_shape num) l)) < fuel)%nat ->
      wkt_geoms (parse_wkt e ix (S k)) fuel (join 44 (map (t_shape num) l)) t = Ok (cs, (length cs - 1)%nat)).
    { clear. induction l as [|s l IH]; intros cs fuel t NE H HI Lk LF; [easy|].
      inversion H as [|? g ? cs' [_ Hg] HC']; subst. inversion HI as [|? ? [(I1 & _ & _ & I4) I5] HI']; subst.
      cbn [map] in *. rewrite join_cons in *. rewrite app_length in *.
      destruct fuel as [|fuel]; [lia|].
      assert (HN : exists c r, t_shape num s ++ more 44 (map (t_shape num) l) = c :: r)
        by (destruct (t_shape num s) as [|c r]; [easy|]; exists c; eexists; reflexivity).
      destruct HN as (c & r & HN). rewrite HN. cbn [wkt_geoms]. rewrite <- HN. clear HN c r.
      rewrite I4; [|assumption|destruct l; [exact I|reflexivity]].
      destruct (t_shape num s) as [|c r] eqn:ES; [easy|]. rewrite <- ES in *.
      replace (match t_shape num s with [] => Ok [] | _ => _ end) with
        (obind (parse_wkt e ix (S k) (t_shape num s) (more 44 (map (t_shape num) l) ++ t)) (fun g => Ok [g]))
        by (rewrite ES; reflexivity).
      rewrite Hg by lia. cbn [obind].
      destruct l as [|s2 l].
      - inversion HC'; subst. reflexivity.
      - cbn [map more]. cbn [wkt_trim_ws]. change (isws 44) with false. cbv iota. change (44 =? 44) with true. cbv iota.
        change (t_shape num s2 :: map (t_shape num) l) with (map (t_shape num) (s2 :: l)).
        unfold more in Lk, LF. cbn [map length] in Lk, LF.
        change (t_shape num s2 :: map (t_shape num) l) with (map (t_shape num) (s2 :: l)) in Lk, LF.
        rewrite (IH cs' fuel t); [|easy|assumption|assumption|lia|].
        + cbn [obind fst snd app length]. inversion HC'; subst. cbn [length]. do 2 f_equal. lia.
        + assert (0 < length (t_shape num s))%nat by (rewrite ES; cbn; lia). lia. }
    rewrite (HL gs cs); [|assumption|assumption|assumption|lia|lia].
    cbn [obind fst snd]. replace (length cs - 1 + 1 =? length cs)%nat with true; [reflexivity|].
    symmetry. apply Nat.eqb_eq. destruct cs; [inversion HC; subst; easy|]. cbn. lia.
Qed.

Theorem tg_parse_wkt_ok s : fine s -> (groups s <= 1024)%nat -> buildable e ix (shape_map rd s) ->
  exists g, tg_parse_wktn_ix e ix (t_shape num s) = Ok g /\ shape_of g = Some (shape_map rd s).
Proof.
  intros HF HG HB. destruct (parse_shape s HF HG HB) as (g & H1 & H2).
  exists g. split; [|assumption]. unfold tg_parse_wktn_ix. now rewrite H2 by lia.
Qed.
End parse.
