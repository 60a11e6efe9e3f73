(** * C63: the dimension of a geometry *)

From Coq Require Import ZArith Bool List String Lia ZifyBool.
From Verif Require Import F64 Geo Series Bytes Geom GeomFacts Writer WriterFacts GeojsonWrite Dims.
Import ListNotations.
Local Open Scope Z_scope.

(** [p] is [g] itself or in [g] at any depth, and not a collection *)
Inductive part : option geom -> geom -> Prop :=
  | part_self p : tg_geom_typeof (Some p) <> 7 -> part (Some p) p
  | part_in fl gs c x o p : In o gs -> part o p -> part (Some (GGMulti MGeoms fl (Some gs) c x)) p.

(** type codes (tg.h:51-57) by dimension: points, lines, areas *)
Definition of_dim (d t : Z) : Prop := (d = 0 /\ (t = 1 \/ t = 4)) \/ (d = 1 /\ (t = 2 \/ t = 5)) \/ (d = 2 /\ (t = 3 \/ t = 6)).

Lemma fold_max l : forall a, a <= fold_left (fun d c => if d <? c then c else d) l a /\
  (forall c, In c l -> c <= fold_left (fun d c => if d <? c then c else d) l a) /\
  (fold_left (fun d c => if d <? c then c else d) l a = a \/ In (fold_left (fun d c => if d <? c then c else d) l a) l).
Proof.
  induction l as [|x l IH]; intros a; cbn [fold_left]; [split; [lia|]; split; [intros c []|now left]|].
  destruct (IH (if a <? x then x else a)) as (A & B & C). set (m := fold_left _ l _) in *.
  assert (M : a <= m /\ x <= m) by (destruct (a <? x) eqn:E; lia).
  split; [lia|]. split; [intros c [<-|I]; [lia|auto]|].
  destruct C as [C|C]; [|right; now right]. destruct (a <? x); [right; left; now symmetry|now left].
Qed.

(** The dimension is the largest one of the points, lines and polygons the
    geometry is made of, at any depth of nesting, and -1 if there are none. *)
Theorem C63_dims : forall g,
  (forall p d, part g p -> of_dim d (tg_geom_typeof (Some p)) -> d <= tg_geom_de9im_dims g) /\
  ((exists p, part g p /\ of_dim (tg_geom_de9im_dims g) (tg_geom_typeof (Some p))) \/
   (tg_geom_de9im_dims g = -1 /\ forall p, ~ part g p)).
Proof.
  intros [g|]; [|split; [intros p d H; inversion H|right; split; [reflexivity|intros p H; inversion H]]].
  induction g as [f p|f l|f p|f p z m x|f l c x|f p c x|t f c x|t f gs c x IH] using geom_ind_deep.
  8: destruct t.
  7: destruct t.
  all: try (split; [intros p0 d0 H D; inversion H; subst; unfold of_dim in D;
      cbn [tg_geom_typeof head_type mtype_code] in D;
      unfold TG_POINT, TG_LINESTRING, TG_POLYGON, TG_MULTIPOINT, TG_MULTILINESTRING, TG_MULTIPOLYGON in D;
      cbn [tg_geom_de9im_dims dims_of_geom]; lia|
    left; eexists; split; [constructor; cbn; discriminate|
      unfold of_dim; cbn [tg_geom_typeof head_type mtype_code tg_geom_de9im_dims dims_of_geom];
      unfold TG_POINT, TG_LINESTRING, TG_POLYGON, TG_MULTIPOINT, TG_MULTILINESTRING, TG_MULTIPOLYGON; lia]]).
  - assert (N : forall p, ~ part (Some (GGMulti MGeoms f None c x)) p).
    { intros p H. inversion H as [p' K|]; subst. now destruct K. }
    split; [intros p d H; now destruct (N p)|]. right. split; [reflexivity|exact N].
  - cbn [tg_geom_de9im_dims dims_of_geom].
    set (ds := map _ gs). destruct (fold_max ds (-1)) as (A & B & C). set (m := fold_left _ ds _) in *.
    assert (IN : forall o, In o gs -> tg_geom_de9im_dims o <= m).
    { intros o I. apply B. unfold ds. apply in_map_iff. exists o. split; [now destruct o|exact I]. }
    split.
    + intros p d H D. inversion H as [p' K|fl gs' c' x' o p' I P]; subst; [now destruct K|].
      specialize (IN o I). destruct o as [o|]; [|inversion P]. rewrite Forall_forall in IH.
      destruct (IH _ I) as [U _]. specialize (U p d P D). lia.
    + destruct C as [C|C].
      * destruct (Z.eq_dec m (-1)) as [E|E]; [|lia]. right. split; [exact E|].
        intros p H. inversion H as [p' K|fl gs' c' x' o p' I P]; subst; [now destruct K|].
        specialize (IN o I). destruct o as [o|]; [|inversion P]. rewrite Forall_forall in IH.
        destruct (IH _ I) as [_ [(q & _ & D)|[_ N]]]; [|exact (N p P)]. unfold of_dim in D. lia.
      * unfold ds in C. apply in_map_iff in C. destruct C as ([o|] & E & I).
        -- rewrite Forall_forall in IH. destruct (IH _ I) as [_ [(q & P & D)|[N1 N2]]].
           ++ left. exists q. split; [econstructor; [exact I|exact P]|]. cbn [tg_geom_de9im_dims] in D. now rewrite E in D.
           ++ right. cbn [tg_geom_de9im_dims] in N1. split; [lia|].
              intros p H. inversion H as [p' K|fl gs' c' x' o' p' I' P']; subst; [now destruct K|].
              specialize (IN o' I'). destruct o' as [o'|]; [|inversion P'].
              destruct (IH _ I') as [_ [(q' & _ & D')|[_ N]]]; [|exact (N p P')]. unfold of_dim in D'. lia.
        -- right. split; [now symmetry|]. intros p H. inversion H as [p' K|fl gs' c' x' o' p' I' P']; subst; [now destruct K|].
           specialize (IN o' I'). destruct o' as [o'|]; [|inversion P']. rewrite Forall_forall in IH.
           destruct (IH _ I') as [_ [(q' & _ & D')|[_ N]]]; [|exact (N p P')]. unfold of_dim in D'. lia.
Qed.
Print Assumptions C63_dims.

(** It is not the dimension of the set of points: a multipolygon without polygons
    is said to have dimension 2. *)
Theorem C63_empty_refuted : exists g, tg_geom_is_empty g = true /\ (forall p, part g p -> tg_geom_is_empty (Some p) = true) /\
  tg_geom_de9im_dims g = 2.
Proof.
  exists (Some (GGMulti MPolys fl0 (Some []) [] None)). split; [reflexivity|]. split; [|reflexivity].
  intros p H. inversion H; subst. reflexivity.
Qed.
Print Assumptions C63_empty_refuted.

(** Different types have different names and no type is called Unknown. *)
Theorem C63_type_string : forall s t,
  (1 <= s <= 7 -> tg_geom_type_string s = tg_geom_type_string t -> s = t) /\
  (tg_geom_type_string s = "Unknown"%string <-> ~ (1 <= s <= 7)).
Proof.
  assert (C : forall u, (1 <= u <= 7 /\ (u = 1 \/ u = 2 \/ u = 3 \/ u = 4 \/ u = 5 \/ u = 6 \/ u = 7)) \/
    (~ (1 <= u <= 7) /\ tg_geom_type_string u = "Unknown"%string)).
  { intros u. destruct (Z.leb_spec 1 u); [destruct (Z.leb_spec u 7); [left; lia|]|]; right; (split; [lia|]);
      unfold tg_geom_type_string, TG_POINT, TG_LINESTRING, TG_POLYGON, TG_MULTIPOINT, TG_MULTILINESTRING, TG_MULTIPOLYGON, TG_GEOMETRYCOLLECTION;
      repeat match goal with |- context [u =? ?k] => replace (u =? k) with false by lia end; reflexivity. }
  intros s t. split.
  - intros H E. destruct (C s) as [[_ S]|[S _]]; [|lia].
    destruct (C t) as [[_ T]|[_ T]]; [|rewrite T in E];
      repeat (destruct S as [S|S]; [subst s; try discriminate E|]); try subst s; try discriminate E;
      repeat (destruct T as [T|T]; [subst t; try discriminate E; reflexivity|]); subst t; try discriminate E; reflexivity.
  - destruct (C s) as [[S1 S]|[S1 S]]; [|tauto]. split; [|lia].
    intros E. repeat (destruct S as [S|S]; [subst s; discriminate E|]). subst s. discriminate E.
Qed.
Print Assumptions C63_type_string.

(** The GeoJSON text of a geometry that is not a feature starts with the name of
    its type. *)
Theorem C63_geojson_type : forall fixed g,
  is_error (geom_flags g) = false -> is_feature (geom_flags g) = false -> is_feature_col (geom_flags g) = false ->
  exists rest, forall w, write_geom_geojson fixed g w =
    rest (emit (qstr "{'type':'" ++ str (tg_geom_type_string (tg_geom_typeof (Some g))) ++ [34]) w).
Proof.
  assert (L : forall s a (k : W), s = a ++ skipn (List.length a) s -> forallb (fun b => (0 <=? b) && (b <? 256)) s = true ->
    exists rest, forall w, (write_string s ;; k) w = rest (emit a w)).
  { intros s a k ES BS. exists (fun w => k (emit (skipn (List.length a) s) w)). intros w. unfold wseq.
    rewrite emits_string.
    - rewrite ES at 1. rewrite emit_app. reflexivity.
    - rewrite Forall_forall. rewrite forallb_forall in BS. intros b I. specialize (BS b I). unfold is_byte. lia. }
  assert (M : forall f a (k : W) x, is_error f = false -> is_feature f = false ->
    (exists rest, forall w, k w = rest (emit a w)) -> exists rest, forall w, write_base_geom_geojson f x k w = rest (emit a w)).
  { intros f a k x E F (rest & R). unfold write_base_geom_geojson. rewrite E, F. destruct (extra_tokens false x) as [fj gj].
    exists (fun w => (rest ;; write_geometry_extra gj ;; wskip) w). intros w. cbn [andb]. unfold wseq, wskip at 1. rewrite R. reflexivity. }
  intros fixed g E F C.
  destruct g as [f p|f l|f p|f p z m x|f l c x|f p c x|t f gs c x]; cbn [geom_flags] in E, F, C; cbn [write_geom_geojson].
  1-3: unfold write_plain_feature; rewrite F; apply L; vm_compute; reflexivity.
  1-3: apply M; [exact E|exact F|]; apply L; vm_compute; reflexivity.
  apply M; [exact E|exact F|]. unfold geojson_multi_head. rewrite C. destruct t; apply L; vm_compute; reflexivity.
Qed.
Print Assumptions C63_geojson_type.

(** a collection of a point and of a collection with a line, a NULL child and an
    empty collection *)
Example C63_example :
  let line := Some (GGLine fl0 None [] None) in
  let inner := Some (GGMulti MGeoms fl0 (Some [None; line; Some (GGMulti MGeoms fl0 None [] None)]) [] None) in
  let g := Some (GGMulti MGeoms fl0 (Some [Some (GPoint fl0 (Pt 0 0)); inner]) [] None) in
  tg_geom_de9im_dims g = 1 /\ part g (GGLine fl0 None [] None) /\
  tg_geom_type_string (tg_geom_typeof g) = "GeometryCollection"%string.
Proof.
  cbv zeta. split; [reflexivity|]. split; [|reflexivity].
  eapply part_in; [right; left; reflexivity|]. eapply part_in; [right; left; reflexivity|]. constructor. cbn. discriminate.
Qed.
