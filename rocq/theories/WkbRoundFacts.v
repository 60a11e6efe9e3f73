(** * WKB: the geometry built from a shape has that shape *)

From Coq Require Import ZArith Bool List Lia ZifyBool.
From Verif Require Import F64 Geo Series RingApi Bytes Geom Writer WkbWrite WkbParse.
From Verif Require Import SpecWkb WriterFacts GeomFacts WkbWriteFacts WkbParseFacts.
Import ListNotations.
Local Open Scope Z_scope.

Lemma posn_split d p : posn_ok d p ->
  p = px (posn_point p) :: py (posn_point p) :: skipn 2 p.
Proof.
  intros [H _]. pose proof (ndim_ge d). destruct p as [|a [|b p]]; cbn in H; try lia. reflexivity.
Qed.

Lemma posn_extra_length d p : posn_ok d p -> length (skipn 2 p) = xdim d.
Proof. intros [H _]. rewrite skipn_length, H. unfold ndim. lia. Qed.

Lemma skipn_exact {A} k (a b : list A) : length a = k -> skipn k (a ++ b) = b.
Proof. intros <-. now rewrite skipn_app, skipn_all, Nat.sub_diag. Qed.
Lemma firstn_exact {A} k (a b : list A) : length a = k -> firstn k (a ++ b) = a.
Proof. intros <-. rewrite firstn_app, firstn_all, Nat.sub_diag. cbn. apply app_nil_r. Qed.

Lemma posns_round d ps : Forall (posn_ok d) ps ->
  posns (xdim d) (map posn_point ps) (extras ps) = Some ps.
Proof.
  induction 1 as [|p ps H _ IH]; [reflexivity|].
  change (extras (p :: ps)) with (skipn 2 p ++ extras ps). cbn [map posns].
  pose proof (posn_extra_length _ _ H) as L.
  replace (length (skipn 2 p ++ extras ps) <? xdim d)%nat with false
    by (symmetry; apply Nat.ltb_ge; rewrite app_length, L; lia).
  rewrite skipn_exact, firstn_exact by exact L. rewrite IH, <- (posn_split d p H). reflexivity.
Qed.

Lemma extras_length d ps : Forall (posn_ok d) ps -> length (extras ps) = (xdim d * length ps)%nat.
Proof.
  induction 1 as [|p ps H _ IH]; [cbn; lia|].
  change (extras (p :: ps)) with (skipn 2 p ++ extras ps).
  rewrite app_length, IH, (posn_extra_length d p H). cbn [length]. lia.
Qed.

Lemma posns_list_round d rs : Forall (Forall (posn_ok d)) rs ->
  posns_list (xdim d) (map (map posn_point) rs) (ring_extras rs) = Some rs.
Proof.
  induction 1 as [|r rs H _ IH]; [reflexivity|].
  change (ring_extras (r :: rs)) with (extras r ++ ring_extras rs). cbn [map posns_list].
  rewrite map_length. pose proof (extras_length d r H) as L.
  rewrite skipn_exact, firstn_exact by exact L.
  rewrite posns_round, IH by assumption. reflexivity.
Qed.

Definition poly_extras (ps : list (list (list posn))) : list f64 := concat (map ring_extras ps).

Lemma ring_extras_length d rs : Forall (Forall (posn_ok d)) rs ->
  length (ring_extras rs) = (xdim d * length (concat (map (map posn_point) rs)))%nat.
Proof.
  induction 1 as [|r rs H _ IH]; [cbn; lia|].
  change (ring_extras (r :: rs)) with (extras r ++ ring_extras rs). cbn [map concat].
  rewrite !app_length, IH, (extras_length d r H), map_length. lia.
Qed.

Lemma posns_list2_round d ps : Forall (Forall (Forall (posn_ok d))) ps ->
  posns_list2 (xdim d) (map (map (map posn_point)) ps) (poly_extras ps) = Some ps.
Proof.
  induction 1 as [|p ps H _ IH]; [reflexivity|].
  change (poly_extras (p :: ps)) with (ring_extras p ++ poly_extras ps). cbn [map posns_list2].
  pose proof (ring_extras_length d p H) as L.
  rewrite skipn_exact, firstn_exact by exact L.
  rewrite posns_list_round, IH by assumption. reflexivity.
Qed.

Lemma posn_xy ps : Forall (posn_ok xy) ps ->
  map (fun p => [px p; py p]) (map posn_point ps) = ps.
Proof.
  induction 1 as [|p ps H _ IH]; [reflexivity|]. cbn [map]. rewrite IH. f_equal.
  pose proof (posn_split _ _ H) as E. pose proof (posn_extra_length _ _ H) as L.
  destruct (skipn 2 p); [congruence|discriminate].
Qed.

Section Round.
Variable e : env.
Variable ix : Z.

Lemma mk_series_pts closed ps : series_new_ix e (map posn_point ps) closed ix <> None ->
  ring_pts (mk_series e ix closed ps) = map posn_point ps /\ ring_made (mk_series e ix closed ps).
Proof.
  intros H. unfold mk_series. destruct (series_new_ix e (map posn_point ps) closed ix) eqn:E;
    [|congruence]. now apply series_new_ix_pts in E.
Qed.

Lemma mk_open_pts ps :
  ring_pts (mk_series e ix false ps) = map posn_point ps /\ ring_made (mk_series e ix false ps).
Proof. apply mk_series_pts. rewrite mk_series_open. discriminate. Qed.

Definition ring_builds (ps : list posn) : Prop :=
  series_new_ix e (map posn_point ps) true ix <> None.

Lemma mk_poly_pts rs : rs <> [] -> Forall ring_builds rs ->
  poly_pts (mk_poly (map (mk_series e ix true) rs)) = Some (map (map posn_point) rs) /\
  poly_made (mk_poly (map (mk_series e ix true) rs)).
Proof.
  intros N H.
  assert (E : map ring_pts (map (mk_series e ix true) rs) = map (map posn_point) rs).
  { rewrite map_map. apply map_ext_in. intros r Hr. rewrite Forall_forall in H.
    apply mk_series_pts. apply (H r Hr). }
  assert (M : Forall ring_made (map (mk_series e ix true) rs)).
  { apply Forall_map. eapply Forall_impl; [|exact H]. intros r Hr. now apply mk_series_pts. }
  destruct rs as [|r rs]; [congruence|]. cbn [map] in *.
  destruct (map (mk_series e ix true) rs) as [|h hs] eqn:F.
  - destruct rs; [|discriminate]. cbn. inversion M; subst. split; [|assumption].
    cbn in E. injection E as ->. reflexivity.
  - inversion M as [|? ? M1 M2]; subst. cbn [mk_poly poly_pts poly_made].
    assert (A : all_some (map Some (h :: hs)) = Some (h :: hs)) by now apply all_some_Some.
    rewrite A. cbn [option_map]. split; [now f_equal|]. split; [assumption|].
    apply Forall_map. exact M2.
Qed.

Lemma line_ok_posns d ps : line_ok d ps -> Forall (posn_ok d) ps.
Proof. intros H. apply H. Qed.
Lemma poly_ok_posns d rs : poly_ok d rs -> Forall (Forall (posn_ok d)) rs.
Proof. intros (_ & _ & H). eapply Forall_impl; [|exact H]. intros r [->|Hr]; [constructor|apply Hr]. Qed.

Lemma dim_zm d : dim_of (fl_zm (dz d) (dm d)) = d.
Proof. destruct d; reflexivity. Qed.

Lemma dim_cases d : (dz d || dm d = true) \/ d = xy.
Proof. destruct d as [[] []]; auto. Qed.

Lemma build_point_shape d p : point_ok d p ->
  shape_of (build_point d p) = Some (ShPoint d p) /\ geom_made (build_point d p).
Proof.
  intros [[L _] _]. split; [|destruct p; [exact I|]; destruct d as [[] []]; exact I].
  destruct d as [[] []]; cbn in L.
  - destruct p as [|a [|b [|c [|x [|]]]]]; try discriminate. reflexivity.
  - destruct p as [|a [|b [|c [|]]]]; try discriminate. reflexivity.
  - destruct p as [|a [|b [|c [|]]]]; try discriminate. reflexivity.
  - destruct p as [|a [|b [|]]]; try discriminate. reflexivity.
Qed.

Lemma build_line_shape d ps : line_ok d ps ->
  shape_of (build_line e ix d ps) = Some (ShLine d ps) /\ geom_made (build_line e ix d ps).
Proof.
  intros H. pose proof (line_ok_nonempty _ _ H) as N.
  replace (build_line e ix d ps) with
    (if dz d || dm d
     then tg_geom_new_linestring_x (dz d) (dm d) (mk_series e ix false ps) (extras ps)
     else tg_geom_new_linestring (mk_series e ix false ps)) by (destruct ps; [congruence|reflexivity]).
  destruct (mk_open_pts ps) as [E M]. destruct (dim_cases d) as [Hd|Hd].
  - rewrite Hd. split; [|exact M].
    cbn [shape_of tg_geom_new_linestring_x is_empty fl_zm obind2].
    rewrite E. rewrite dim_zm.
    now rewrite posns_round by (now apply line_ok_posns).
  - subst d. cbn [dz dm xy orb]. split; [|exact M].
    cbn [shape_of tg_geom_new_linestring]. change (is_xy fl0) with true. cbn match.
    rewrite E, posn_xy by (now apply line_ok_posns). reflexivity.
Qed.

Lemma posn_xy_list rs : Forall (Forall (posn_ok xy)) rs ->
  map (map (fun p => [px p; py p])) (map (map posn_point) rs) = rs.
Proof.
  intros H. rewrite map_map. rewrite <- (map_id rs) at 2. apply map_ext_in. intros r Hr.
  rewrite Forall_forall in H. now apply posn_xy, H.
Qed.

Lemma build_poly_shape d rs : poly_ok d rs -> Forall ring_builds rs ->
  shape_of (build_poly e ix d rs) = Some (ShPoly d rs) /\ geom_made (build_poly e ix d rs).
Proof.
  intros H HB. pose proof (poly_ok_nonempty _ _ H) as N.
  replace (build_poly e ix d rs) with
    (let p := mk_poly (map (mk_series e ix true) rs) in
     if dz d || dm d then tg_geom_new_polygon_x (dz d) (dm d) p (ring_extras rs)
     else tg_geom_new_polygon p) by (destruct rs; [congruence|reflexivity]). cbv zeta.
  destruct (mk_poly_pts rs N HB) as [E M]. destruct (dim_cases d) as [Hd|Hd].
  - rewrite Hd. split; [|exact M].
    cbn [shape_of tg_geom_new_polygon_x is_empty fl_zm obind2].
    rewrite E. cbn [obind2]. rewrite dim_zm.
    now rewrite posns_list_round by (now apply poly_ok_posns).
  - subst d. cbn [dz dm xy orb]. split; [|exact M].
    cbn [shape_of tg_geom_new_polygon]. change (is_xy fl0) with true. cbn match.
    rewrite E. cbn [option_map]. rewrite posn_xy_list by (now apply poly_ok_posns). reflexivity.
Qed.

Lemma build_line_line d ps : line_ok d ps ->
  tg_geom_line (Some (build_line e ix d ps)) = Some (mk_series e ix false ps) /\
  ((dz d || dm d) = true -> tg_geom_extra_coords (Some (build_line e ix d ps)) = extras ps).
Proof.
  intros H. unfold build_line. destruct ps; [destruct (line_ok_nonempty _ _ H); reflexivity|].
  destruct (dz d || dm d); split; try reflexivity. discriminate.
Qed.

Lemma build_poly_poly d rs : poly_ok d rs ->
  tg_geom_poly (Some (build_poly e ix d rs)) = Some (mk_poly (map (mk_series e ix true) rs)) /\
  ((dz d || dm d) = true -> tg_geom_extra_coords (Some (build_poly e ix d rs)) = ring_extras rs).
Proof.
  intros H. unfold build_poly. destruct rs; [destruct (poly_ok_nonempty _ _ H); reflexivity|].
  destruct (dz d || dm d); split; try reflexivity. discriminate.
Qed.

Lemma build_point_point d p : point_ok d p ->
  tg_geom_point (Some (build_point d p)) = posn_point p /\
  point_extra (dz d) (dm d) (build_point d p) = skipn 2 p.
Proof.
  intros [[L _] _]. destruct d as [[] []]; cbn in L.
  - destruct p as [|a [|b [|c [|x [|]]]]]; try discriminate. split; reflexivity.
  - destruct p as [|a [|b [|c [|]]]]; try discriminate. split; reflexivity.
  - destruct p as [|a [|b [|c [|]]]]; try discriminate. split; reflexivity.
  - destruct p as [|a [|b [|]]]; try discriminate. split; reflexivity.
Qed.

(** the extra coordinates and flags of a multi built by the parser *)
Lemma multi_flags (z m : bool) t gs cs (g := GGMulti t fl0 gs [] None) :
  (if z || m then fill_multi_coords z m cs g else g)
  = GGMulti t (fl_zm z m) gs (if z || m then cs else []) None.
Proof. destruct z, m; reflexivity. Qed.

Lemma all_some_maps {A B} (f : A -> option B) (h : A -> B) l :
  (forall a, In a l -> f a = Some (h a)) -> all_some (map f l) = Some (map h l).
Proof.
  intros H. apply all_some_map. induction l as [|a l IH]; [constructor|].
  cbn. constructor; [apply H; now left|]. apply IH. intros; apply H; now right.
Qed.


Lemma extras_sel d ps : Forall (posn_ok d) ps ->
  (if dz d || dm d then extras ps else []) = extras ps.
Proof. intros H. destruct (dim_cases d) as [->| ->]; [reflexivity|]. now rewrite extras_xy. Qed.

Lemma ring_extras_sel d ps : Forall (Forall (posn_ok d)) ps ->
  (if dz d || dm d then ring_extras ps else []) = ring_extras ps.
Proof.
  intros H. destruct (dim_cases d) as [->| ->]; [reflexivity|].
  induction H as [|r rs H _ IH]; [reflexivity|].
  change (ring_extras (r :: rs)) with (extras r ++ ring_extras rs). rewrite <- IH.
  now rewrite extras_xy.
Qed.

Lemma poly_extras_sel d ps : Forall (Forall (Forall (posn_ok d))) ps ->
  (if dz d || dm d then poly_extras ps else []) = poly_extras ps.
Proof.
  intros H. destruct (dim_cases d) as [->| ->]; [reflexivity|].
  induction H as [|r rs H _ IH]; [reflexivity|].
  change (poly_extras (r :: rs)) with (ring_extras r ++ poly_extras rs). rewrite <- IH.
  now rewrite <- (ring_extras_sel xy) by assumption.
Qed.

Theorem build_shape s : forall depth, fits depth s -> buildable e ix s ->
  shape_of (build e ix s) = Some s /\ geom_made (build e ix s).
Proof.
  induction s as [d p|d ps|d rs|d ps|d ls|d ps|gs IH] using shape_ind_deep;
    intros depth Hf HB; cbn [build].
  - destruct Hf as [_ [[-> ->]|Hf]]; [split; [reflexivity|exact I]|now apply build_point_shape].
  - destruct Hf as [_ [[-> ->]|Hf]]; [split; [reflexivity|exact I]|now apply build_line_shape].
  - destruct Hf as [_ [[-> ->]|Hf]]; [split; [reflexivity|exact I]|].
    apply build_poly_shape; [assumption|]. apply Forall_forall. intros r Hr. apply HB.
    cbn [rings_of]. now apply in_map.
  - destruct Hf as (_ & _ & HF & _).
    assert (HP : Forall (posn_ok d) ps) by (eapply Forall_impl; [|exact HF]; intros a Ha; apply Ha).
    unfold build_multipoint, tg_geom_new_multipoint. rewrite multi_flags, !map_map.
    assert (E1 : map (fun x => tg_geom_point (Some (build_point d x))) ps = map posn_point ps).
    { apply map_ext_in. intros a Ha. rewrite Forall_forall in HF. now apply build_point_point, HF. }
    assert (E2 : map (fun x => point_extra (dz d) (dm d) (build_point d x)) ps = map (skipn 2) ps).
    { apply map_ext_in. intros a Ha. rewrite Forall_forall in HF. now apply build_point_point, HF. }
    rewrite E2. fold (extras ps). rewrite extras_sel by assumption.
    split.
    + cbn [shape_of is_empty fl_zm]. rewrite dim_zm, map_map.
      rewrite (all_some_maps _ posn_point).
      * cbn [obind2]. now rewrite posns_round.
      * intros a Ha. cbn. f_equal. rewrite Forall_forall in HF. now apply build_point_point, HF.
    + apply made_multi. apply Forall_map. apply Forall_forall. intros a Ha. exact I.
  - destruct Hf as (_ & _ & HF & _).
    assert (HP : Forall (Forall (posn_ok d)) ls)
      by (eapply Forall_impl; [|exact HF]; intros a Ha; apply Ha).
    unfold build_multilinestring, tg_geom_new_multilinestring. rewrite multi_flags, !map_map.
    rewrite Forall_forall in HF.
    assert (E2 : (if dz d || dm d then concat (map (fun x => tg_geom_extra_coords
                    (Some (build_line e ix d x))) ls) else []) = ring_extras ls).
    { rewrite <- (ring_extras_sel d) by assumption. destruct (dz d || dm d) eqn:Ed; [|reflexivity].
      unfold ring_extras. f_equal. apply map_ext_in. intros a Ha. now apply build_line_line; auto. }
    rewrite E2. split.
    + cbn [shape_of is_empty fl_zm]. rewrite dim_zm, map_map.
      rewrite (all_some_maps _ (map posn_point)).
      * cbn [obind2]. now rewrite posns_list_round.
      * intros a Ha. destruct (build_line_line d a (HF a Ha)) as [-> _]. cbn.
        f_equal. apply mk_open_pts.
    + apply made_multi. apply Forall_map. apply Forall_forall. intros a Ha.
      destruct (build_line_line d a (HF a Ha)) as [-> _]. cbn. apply mk_open_pts.
  - destruct Hf as (_ & _ & HF & _).
    assert (HP : Forall (Forall (Forall (posn_ok d))) ps)
      by (eapply Forall_impl; [|exact HF]; intros a Ha; now apply poly_ok_posns).
    unfold build_multipolygon, tg_geom_new_multipolygon. rewrite multi_flags, !map_map.
    rewrite Forall_forall in HF.
    assert (HBp : forall a, In a ps -> Forall ring_builds a).
    { intros a Ha. apply Forall_forall. intros r Hr. apply HB. cbn [rings_of].
      apply in_concat. exists (map (map posn_point) a). split; now apply in_map. }
    assert (E2 : (if dz d || dm d then concat (map (fun x => tg_geom_extra_coords
                    (Some (build_poly e ix d x))) ps) else []) = poly_extras ps).
    { rewrite <- (poly_extras_sel d) by assumption. destruct (dz d || dm d) eqn:Ed; [|reflexivity].
      unfold poly_extras. f_equal. apply map_ext_in. intros a Ha. now apply build_poly_poly; auto. }
    rewrite E2. split.
    + cbn [shape_of is_empty fl_zm]. rewrite dim_zm, map_map.
      rewrite (all_some_maps _ (map (map posn_point))).
      * cbn [obind2]. now rewrite posns_list2_round.
      * intros a Ha. destruct (build_poly_poly d a (HF a Ha)) as [-> _].
        cbn [option_map tg_geom_new_polygon].
        apply mk_poly_pts; [now apply (poly_ok_nonempty d), HF|now apply HBp].
    + apply made_multi. apply Forall_map. apply Forall_forall. intros a Ha.
      destruct (build_poly_poly d a (HF a Ha)) as [-> _].
      cbn [option_map opt_all tg_geom_new_polygon geom_made].
      apply mk_poly_pts; [now apply (poly_ok_nonempty d), HF|now apply HBp].
  - apply fits_geoms in Hf. destruct Hf as (_ & _ & HF). rewrite Forall_forall in IH, HF.
    assert (HI : forall a, In a gs -> shape_of (build e ix a) = Some a /\ geom_made (build e ix a)).
    { intros a Ha. apply (IH a Ha (S depth)); [auto|]. intros r Hr. apply HB. cbn [rings_of].
      apply in_concat. exists (rings_of a). split; [now apply in_map|exact Hr]. }
    unfold build_collection, tg_geom_new_geometrycollection. rewrite map_map. split.
    + cbn [shape_of]. change (is_xy fl0) with true. cbn match. change (is_empty fl0) with false.
      cbn match. rewrite map_map. rewrite (all_some_maps _ (fun a => a)).
      * now rewrite map_id.
      * intros a Ha. now apply HI.
    + apply made_multi. apply Forall_map. apply Forall_forall. intros a Ha. now apply HI.
Qed.

Lemma wrap_ok g : is_error (geom_flags g) = false -> wrap_error g = g.
Proof. intros H. unfold wrap_error. now rewrite H. Qed.

(** whole inputs *)
Theorem tg_parse_ok s bs rest : reads 0 s -> buildable e ix s -> wkb_enc s bs ->
  tg_parse_wkb_ix e ix (bs ++ rest) = Ok (build e ix s).
Proof.
  intros Hf HB He. unfold tg_parse_wkb_ix.
  rewrite (parse_ok e ix s 0 (wkb_fuel 0) bs rest Hf HB He).
  - rewrite wrap_ok by apply build_error. reflexivity.
  - unfold wkb_fuel, MAXDEPTH. lia.
Qed.
End Round.
