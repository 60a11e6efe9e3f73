(** * Theorems about writing GeoJSON and reading it back (C30) *)

From Coq Require Import ZArith Bool String List Lia Permutation.
From Verif Require Import F64 Geo Series RingApi Bytes Geom Writer Num Json JsonTok SpecJson SpecTree SpecWkb SpecWkt SpecText
  GeomFacts SeriesFacts TextFacts WktTypes WktParse WktTrip GeojsonParse GeojsonWrite SpecNotes GeojsonText GeojsonRead GeojsonTypes GeojsonFeature GeojsonTrip Thm_Json.
Import ListNotations.
Local Open Scope Z_scope.

Lemma printed_geojson fixed g t :
  printed (write_geom_geojson fixed g ;; write_nullterm) t -> prints_text (tg_geom_geojson fixed (Some g)) t.
Proof.
  intros H dst. destruct (H dst) as (w & E & C & L & B). exists (w_dst w).
  unfold tg_geom_geojson. rewrite E, C. auto.
Qed.

(** Wherever a geometry comes from: if its contents are [s], spelt in GeoJSON with
    rings that can be built, and it carries the members [N], nested at most 1024
    deep, then tg_geom_geojson prints a text, with or without fixed floats, that
    parses, with any index, to a geometry with the contents [s], up to M, which
    becomes Z, the dimensions of empty geometries, and numbers that are not normal,
    which become 0; it carries the same members, in the same order but for the id of
    a feature, which comes first. *)
Theorem C30_round_trip_partial :
  forall fixed e ix n g s N,
    geom_made g -> shape_of g = Some s -> gj_fits s -> rings_build e ix (shape_map flushed s) ->
    (n <= 1024)%nat -> carries n g N ->
    exists t g', prints_text (tg_geom_geojson fixed (Some g)) t /\
      tg_parse_geojsonn_ix e ix t = Ok g' /\
      shape_of g' = Some (gj_back (shape_map flushed s)) /\ carries n g' (rewritten N).
Proof.
  intros fixed e ix n g s N HM HS HF HB HN HC.
  destruct (geojson_trip fixed e ix n g s N HM HS HF HB HN HC) as (t & g' & P & R & SH & CA).
  exists t, g'. auto using printed_geojson.
Qed.
Print Assumptions C30_round_trip_partial.

Fixpoint notes_ind_deep (P : notes -> Prop)
  (H : forall k null un own inner kids, Forall P kids -> P (Notes k null un own inner kids)) (N : notes) : P N :=
  match N with
  | Notes k null un own inner kids =>
      H k null un own inner kids
        ((fix all (l : list notes) : Forall P l :=
            match l with [] => Forall_nil P | N :: l => Forall_cons N (notes_ind_deep P H N) (all l) end) kids)
  end.

(** every member is kept *)
Theorem C30_members_partial : forall N, same_notes N (rewritten N).
Proof.
  induction N as [k null un own inner kids IH] using notes_ind_deep. cbn [rewritten]. constructor.
  - destruct k; try reflexivity. apply Permutation_sym, id_first_perm.
  - destruct k; congruence.
  - induction IH; [constructor|]. cbn [map]. now constructor.
Qed.
Print Assumptions C30_members_partial.

Lemma exact_geoms gs : gj_exact (ShGeoms gs) <-> Forall gj_exact gs.
Proof.
  induction gs as [|s gs IH]; [split; [constructor|easy]|]. rewrite Forall_cons_iff. split.
  - intros [F R]. split; [assumption|now apply IH].
  - intros [F R]. split; [assumption|now apply IH].
Qed.
Lemma back_exact s : gj_exact s -> gj_back s = s.
Proof.
  assert (D : forall A none d (l : list A), exact_dim none d l -> gj_dims none d l = d).
  { intros A none [z m] [|a l]; cbn; [auto|]. intros H. unfold gj_dim. cbn.
    destruct z, m; try reflexivity. now specialize (H eq_refl). }
  induction s as [d p|d ps|d rs|d ps|d ls|d ps|gs IH] using shape_ind_deep; intros H; cbn [gj_back];
    try (cbn [gj_exact] in H; rewrite D by assumption; reflexivity).
  f_equal. apply exact_geoms in H. induction IH as [|s gs Hs _ IHl]; [reflexivity|].
  inversion_clear H. cbn [map]. f_equal; auto.
Qed.
Lemma map_back s : shape_map (fun x => x) s = s.
Proof.
  assert (M : forall A (f : A -> A) l, (forall a, f a = a) -> map f l = l).
  { intros A f l H. induction l as [|a l IH]; [reflexivity|]. cbn [map]. now rewrite H, IH. }
  induction s as [d p|d ps|d rs|d ps|d ls|d ps|gs IH] using shape_ind_deep; cbn [shape_map]; f_equal;
    try (repeat (apply M; intros); reflexivity).
  induction IH as [|s gs Hs _ IHl]; [reflexivity|]. cbn [map]. now rewrite Hs, IHl.
Qed.

(** Where GeoJSON can express all dimensions and all numbers are normal or 0,
    the contents are the same. *)
Theorem C30_same_partial :
  forall fixed e ix n g s N,
    geom_made g -> shape_of g = Some s -> gj_fits s -> gj_exact s ->
    Forall (fun x => f_isnormal x = true \/ x = 0) (coords_of s) -> rings_build e ix s ->
    (n <= 1024)%nat -> carries n g N ->
    exists t g' N', prints_text (tg_geom_geojson fixed (Some g)) t /\
      tg_parse_geojsonn_ix e ix t = Ok g' /\ shape_of g' = Some s /\ carries n g' N' /\ same_notes N N'.
Proof.
  intros fixed e ix n g s N HM HS HF HE HP HB HN HC.
  assert (E : shape_map flushed s = s).
  { rewrite <- (map_back s) at 2. apply shape_map_ext. eapply Forall_impl; [|exact HP]. cbv beta. unfold flushed.
    intros x [->| ->]; reflexivity. }
  destruct (C30_round_trip_partial fixed e ix n g s N) as (t & g' & P & R & SH & CA); auto.
  { now rewrite E. }
  exists t, g', (rewritten N). rewrite E, back_exact in SH by assumption. auto using C30_members_partial.
Qed.
Print Assumptions C30_same_partial.

(** ** Where it fails *)

(** M alone is read as Z *)
Theorem C30_refuted :
  exists g g' t, tg_parse_wktn_ix env_init 0 (str "POINT M(1 2 3)") = Ok g /\
    tg_geom_geojson false (Some g) (repeat 1 40) = Some (length t, t ++ [0;1]) /\
    tg_parse_geojsonn_ix env_init 0 t = Ok g' /\ tg_geom_error (Some g') = None /\
    shape_of g = Some (ShPoint (Dim false true) [f_one; f_two; 4613937818241073152]) /\
    shape_of g' = Some (ShPoint (Dim true false) [f_one; f_two; 4613937818241073152]).
Proof.
  do 2 eexists. exists (qstr "{'type':'Point','coordinates':[1,2,3]}").
  repeat (split; [vm_compute; reflexivity|]). vm_compute; reflexivity.
Qed.
Print Assumptions C30_refuted.
(** an empty multipoint gets Z and M *)
Theorem C30_empty_refuted :
  exists g g' t, tg_parse_wktn_ix env_init 0 (str "MULTIPOINT EMPTY") = Ok g /\
    tg_geom_geojson false (Some g) (repeat 1 39) = Some (length t, t ++ [0]) /\
    tg_parse_geojsonn_ix env_init 0 t = Ok g' /\ tg_geom_error (Some g') = None /\
    shape_of g = Some (ShPoints xy []) /\ shape_of g' = Some (ShPoints (Dim true true) []).
Proof.
  do 2 eexists. exists (qstr "{'type':'MultiPoint','coordinates':[]}").
  repeat (split; [vm_compute; reflexivity|]). vm_compute; reflexivity.
Qed.
Print Assumptions C30_empty_refuted.
(** a member accepted by the parser makes the text written from it invalid *)
Theorem C30_member_refuted :
  exists g g' t, tg_parse_geojsonn_ix env_init 0 (qstr "{'type':'Point','coordinates':[1,2],'a\:1}") = Ok g /\
    tg_geom_error (Some g) = None /\
    tg_geom_geojson false (Some g) (repeat 1 45) = Some (length t, t ++ [0]) /\
    tg_parse_geojsonn_ix env_init 0 t = Ok g' /\
    tg_geom_error (Some g') = Some (str "ParseError: invalid json").
Proof.
  do 2 eexists. exists (qstr "{'type':'Point','coordinates':[1,2],'a\:1}:}").
  repeat (split; [vm_compute; reflexivity|]). vm_compute; reflexivity.
Qed.
Print Assumptions C30_member_refuted.
(** collections in collections, 511 times: the text is too deep for the parser *)
Definition nested (n : nat) : geom :=
  Nat.iter n (fun g => tg_geom_new_geometrycollection [Some g]) (tg_geom_new_point (Pt f_one f_one)).
Definition nested_text (n : nat) : list Z :=
  Nat.iter n (fun t => qstr "{'type':'GeometryCollection','geometries':[" ++ t ++ str "]}")
    (qstr "{'type':'Point','coordinates':[1,1]}").
Lemma nested_types n : types (write_geom_geojson false (nested n)) (nested_text n).
Proof.
  induction n as [|n IH].
  - pose proof (gtypes_body false (num_text false) (GPoint fl0 (Pt f_one f_one)) (ShPoint xy [f_one; f_one])
      (fun H => H) I eq_refl I ltac:(repeat (constructor; [now apply flush_ok|]); constructor)) as H.
    change (nested 0) with (GPoint fl0 (Pt f_one f_one)). rewrite write_geom_body. cbv beta iota.
    unfold write_plain_feature. cbn [is_feature fl0]. revert H. generalize (gbody false (GPoint fl0 (Pt f_one f_one))).
    intros w H. apply (types_eq _ _ _ H). vm_compute. reflexivity.
  - cbn [nested nested_text Nat.iter]. change (Nat.iter n _ _) with (nested n).
    change (types (wskip ;; (write_string (qstr "{'type':'GeometryCollection','geometries':[") ;;
      write_geom_geojson false (nested n) ;; write_string (str "]}")) ;; wskip ;; wskip)
      (qstr "{'type':'GeometryCollection','geometries':[" ++ nested_text n ++ str "]}")).
    assert (A : types (write_string (qstr "{'type':'GeometryCollection','geometries':["))
      (qstr "{'type':'GeometryCollection','geometries':[")) by now apply types_lit.
    assert (B : types (write_string (str "]}")) (str "]}")) by now apply types_lit.
    revert A B. generalize (qstr "{'type':'GeometryCollection','geometries':["), (str "]}"). intros a b A B.
    pose proof (types_seq _ _ _ _ A (types_seq _ _ _ _ IH B)) as H.
    pose proof (types_seq _ _ _ _ types_skip (types_seq _ _ _ _ H (types_seq _ _ _ _ types_skip types_skip))) as K.
    apply (types_eq _ _ _ K). cbn [app]. apply app_nil_r.
Qed.
Theorem C30_depth_refuted :
  exists g s t g', geom_made g /\ shape_of g = Some s /\ gj_fits s /\ tg_geom_error (Some g) = None /\
    prints_text (tg_geom_geojson false (Some g)) t /\ tg_parse_geojsonn_ix env_init 0 t = Ok g' /\
    tg_geom_error (Some g') = Some (str "ParseError: invalid json").
Proof.
  exists (nested 511), (Nat.iter 511 (fun s => ShGeoms [s]) (ShPoint xy [f_one; f_one])), (nested_text 511).
  eexists. split; [vm_compute; repeat split; reflexivity|]. split; [vm_compute; reflexivity|]. split.
  { generalize 511%nat as n. induction n as [|n IH].
    - right. split; [reflexivity|]. repeat (constructor; [unfold f_one; lia|]). constructor.
    - split; [exact IH|exact I]. }
  split; [reflexivity|]. split; [apply printed_geojson, printed_types, nested_types|].
  split; vm_compute; reflexivity.
Qed.
Print Assumptions C30_depth_refuted.

(** ** An example *)

Definition ex_features : list Z :=
  qstr "{'type':'FeatureCollection','features':[{'type':'Feature','geometry':{'type':'Point','coordinates':[1.5,0.1,-2e-7],'bbox':[1]},'properties':{'a':1},'id':7},{'type':'Feature','geometry':null,'properties':null},{'type':'Feature','geometry':{'type':'GeometryCollection','geometries':[{'type':'Polygon','coordinates':[[[0,0],[1.5,0],[0,1.5],[0,0]]]}]},'properties':{}}],'name':'n'}".
(** the id comes first *)
Definition ex_written : list Z :=
  qstr "{'type':'FeatureCollection','features':[{'type':'Feature','id':7,'geometry':{'type':'Point','coordinates':[1.5,0.1,-2e-7],'bbox':[1]},'properties':{'a':1}},{'type':'Feature','geometry':null,'properties':null},{'type':'Feature','geometry':{'type':'GeometryCollection','geometries':[{'type':'Polygon','coordinates':[[[0,0],[1.5,0],[0,1.5],[0,0]]]}]},'properties':{}}],'name':'n'}".
Definition ex_shape : shape :=
  ShGeoms [ShPoint (Dim true false) [4609434218613702656; 4591870180066957722; 13730023850970492744];
           ShPoint xy [];
           ShGeoms [ShPoly xy [[[0;0]; [4609434218613702656;0]; [0;4609434218613702656]; [0;0]]]]].
Definition ex_notes : notes :=
  Notes Features false false [(str "name", qstr "'n'")] []
    [Notes Feature false false [(str "properties", qstr "{'a':1}"); (str "id", str "7")] [(str "bbox", str "[1]")] [];
     Notes Feature true true [] [] [];
     Notes Feature false false [] [] [Notes Geometry false false [] [] []]].

Lemma digit_number d : 48 <= d <= 57 -> number [d].
Proof.
  intros H. change [d] with ([d] ++ [] ++ []). apply number_pos; [|constructor|constructor].
  destruct (Z.eq_dec d 48) as [->|]; [constructor|]. constructor; [|cbn; lia]. split; [discriminate|].
  constructor; [unfold digit; lia|constructor].
Qed.
Lemma plain_other names k v : plain k -> Forall (fun b => b < 128) v -> ~ In k names -> others names [(k, v)].
Proof.
  intros P V N. constructor; [|constructor]. cbn [fst snd]. split; [exists k; split; [now apply plain_decodes|assumption]|].
  split; apply no_10FFFF_ascii.
  - eapply Forall_impl; [|exact P]. cbv beta. intros. lia.
  - exact V.
Qed.
Lemma plain_pair_ok n k v : plain k -> jvalue n v -> pair_ok n (k, v).
Proof. intros P V. split; [now apply plain_chars|exact V]. Qed.

Lemma others_cons names p L : others names [p] -> others names L -> others names (p :: L).
Proof. intros A B. constructor; [exact (Forall_inv A)|exact B]. Qed.
Lemma obj_extra n x L : x = obj L -> Forall (pair_ok n) L -> members_of n (Some x) L.
Proof. intros -> H. now apply obj_members. Qed.
Lemma digit_value n d : 48 <= d <= 57 -> jvalue (S n) [d].
Proof. intros H. apply v_num. now apply digit_number. Qed.
Lemma plain_name k name : decodes right_pair k name -> plain k -> k = name.
Proof. intros D P. apply (decodes_once right_pair k k name); [now apply plain_decodes|assumption|auto]. Qed.
Ltac ascii := repeat (constructor; [reflexivity|]); constructor.
Ltac apart := let H := fresh in intros H; vm_compute in H; repeat (destruct H as [H|H]; [discriminate H|]); destruct H.

Lemma ex_note : forall g, tg_parse_geojsonn_ix env_init 0 ex_features = Ok g -> carries 10 g ex_notes.
Proof.
  assert (Vs : forall n, jvalue (S n) (qstr "'n'")).
  { intros n. change (qstr "'n'") with (34 :: [110] ++ [34]). apply v_str. apply tail_quote. apply plain_chars. now apply plainly. }
  assert (Va : forall n, jvalue (S (S n)) (str "[1]")).
  { intros n. change (str "[1]") with (arr [[49]]). apply arr_value. constructor; [now apply digit_value|constructor]. }
  assert (Mp : forall n, members_of (S n) (Some (qstr "{'a':1}")) [(str "a", str "1")]).
  { intros n. apply obj_extra; [reflexivity|]. constructor; [|constructor]. apply plain_pair_ok; [now apply plainly|now apply digit_value]. }
  assert (Vp : forall n, jvalue (S (S n)) (qstr "{'a':1}")) by (intros n; apply (object_jvalue _ _ _ (Mp n))).
  intros g H. vm_compute in H. injection H as <-.
  apply (proj2 (carries_split _ _ _ _ _ _ _ _)). split.
  { unfold carries_all. cbv zeta. cbn [geom_flags]. do 4 (split; [vm_compute; reflexivity|]). split; [discriminate|]. split.
    { split; [|reflexivity]. apply obj_extra; [vm_compute; reflexivity|].
      constructor; [|constructor]. apply plain_pair_ok; [now apply plainly|apply Vs]. }
    split; [|cbn; lia]. apply plain_other; [now apply plainly|ascii|apart]. }
  cbn [carries_kids]. split; [discriminate|]. split; [discriminate|]. split.
  { apply (proj2 (carries_split _ _ _ _ _ _ _ _)). split.
    { unfold carries_all. cbv zeta. cbn [geom_flags]. do 4 (split; [vm_compute; reflexivity|]). split; [discriminate|]. split.
      { right. set (L := [(str "properties", qstr "{'a':1}"); (str "id", str "7")]).
        assert (P : forall n, Forall (pair_ok (S (S n))) L).
        { intros n. constructor; [|constructor; [|constructor]]; apply plain_pair_ok; try (now apply plainly); [apply Vp|now apply digit_value]. }
        assert (Q : forall n, Forall (pair_ok (S (S n))) [(str "bbox", str "[1]")]).
        { intros n. constructor; [|constructor]. apply plain_pair_ok; [now apply plainly|apply Va]. }
        destruct (arr_parts 5 [obj L; obj [(str "bbox", str "[1]")]]) as (ps & A & E).
        { constructor; [|constructor; [|constructor]].
          - exact (object_jvalue 4 _ _ (obj_members 4 _ (P 2%nat))).
          - exact (object_jvalue 4 _ _ (obj_members 4 _ (Q 2%nat))). }
        destruct ps as [|[p1 r1] [|[p2 r2] [|? ?]]]; try discriminate E. cbn [map fst] in E. injection E as -> ->.
        exists 5%nat, (arr [obj L; obj [(str "bbox", str "[1]")]]), (obj L), (obj [(str "bbox", str "[1]")]), r1, r2.
        split; [vm_compute; reflexivity|]. split; [exact A|].
        split; apply obj_members; [apply P|apply Q]. }
      split; [|cbn; lia]. split; [|split; [apply plain_other; [now apply plainly|ascii|apart]|discriminate]].
      split; [|split; [cbn; lia|split; [cbn; lia|]]].
      { apply others_cons; [apply plain_other; [now apply plainly|ascii|apart]|].
        apply plain_other; [now apply plainly|ascii|apart]. }
      constructor; [|constructor; [|constructor]]; cbn [fst snd]; split; intros D; apply plain_name in D; try (now apply plainly); try discriminate D.
      - split; [reflexivity|]. destruct (Mp 1%nat) as (l & O & E). exists 2%nat, l. split; [|exact O]. now intros ->.
      - split; [reflexivity|]. left. apply t_number. now apply digit_number. }
    split; reflexivity. }
  split; [reflexivity|]. split.
  { apply (proj2 (carries_split _ _ _ _ _ _ _ _)). split; [|split; reflexivity].
    unfold carries_all. cbv zeta. cbn [geom_flags]. do 4 (split; [vm_compute; reflexivity|]). split; [now split|].
    split; [left; split; reflexivity|]. split; [|cbn; lia]. split; [|split; [constructor|reflexivity]]. repeat split; cbn; try lia; constructor. }
  split; [reflexivity|]. split.
  { apply (proj2 (carries_split _ _ _ _ _ _ _ _)). split.
    { unfold carries_all. cbv zeta. cbn [geom_flags]. do 4 (split; [vm_compute; reflexivity|]). split; [discriminate|].
      split; [left; split; reflexivity|]. split; [|cbn; lia]. split; [|split; [constructor|discriminate]]. repeat split; cbn; try lia; constructor. }
    cbn [carries_kids]. split; [reflexivity|]. split; [discriminate|]. split; [|split; [reflexivity|exact I]].
    apply (proj2 (carries_split _ _ _ _ _ _ _ _)). split; [|split; reflexivity].
    unfold carries_all. cbv zeta. cbn [geom_flags]. do 4 (split; [vm_compute; reflexivity|]). split; [discriminate|].
    split; [split; reflexivity|]. split; [exact (Forall_nil _)|cbn; lia]. }
  split; [reflexivity|exact I].
Qed.

Lemma posn_b d p : (length p =? ndim d)%nat && forallb (fun x => (0 <=? x) && (x <? 2 ^ 64)) p = true -> posn_ok d p.
Proof.
  rewrite andb_true_iff, forallb_forall, Nat.eqb_eq. intros [A B]. split; [exact A|]. apply Forall_forall. intros x X.
  specialize (B x X). lia.
Qed.
Example C30_example :
  exists g g', tg_parse_geojsonn_ix env_init 0 ex_features = Ok g /\ geom_made g /\
    shape_of g = Some ex_shape /\ gj_fits ex_shape /\ gj_exact ex_shape /\
    Forall (fun x => f_isnormal x = true \/ x = 0) (coords_of ex_shape) /\ rings_build env_init 0 ex_shape /\
    carries 10 g ex_notes /\ rewritten ex_notes <> ex_notes /\
    tg_geom_geojson false (Some g) (repeat 1 (S (length ex_features))) = Some (length ex_written, ex_written ++ [0]) /\
    tg_parse_geojsonn_ix env_init 0 ex_written = Ok g' /\ shape_of g' = Some ex_shape.
Proof.
  do 2 eexists. split; [vm_compute; reflexivity|]. split.
  { cbn. repeat split; try (exists [Pt 0 0; Pt 4609434218613702656 0; Pt 0 4609434218613702656; Pt 0 0], true, IxNatural, 16%nat; vm_compute; reflexivity). }
  split; [vm_compute; reflexivity|]. split.
  { split; [right; now apply posn_b|]. split; [now left|]. split; [|exact I]. split; [|exact I].
    constructor; [|constructor]. split; [repeat (constructor; [now apply posn_b|]); constructor|]. repeat split; cbn; lia. }
  split; [cbn; repeat split; discriminate|]. split.
  { cbn. repeat (constructor; [first [left; reflexivity|right; reflexivity]|]). constructor. }
  split; [intros r [<-|[]]; vm_compute; discriminate|].
  split; [apply ex_note; vm_compute; reflexivity|].
  split; [discriminate|]. split; [vm_compute; reflexivity|]. split; vm_compute; reflexivity.
Qed.
