(** * The rectangle computed for a series is the exact bounding box *)

From Coq Require Import ZArith Bool List Lia ZifyBool PeanoNat.
From Verif Require Import F64 Geo Series Search F64Order F64Real F64Mono SeriesFacts SearchFacts.
Import ListNotations.

(** each side of [r] is attained by a point of [ps] *)
Definition attained (ps : list pt) (r : rect) : Prop :=
  (exists p, In p ps /\ f_key (px p) = f_key (px (rmin r))) /\
  (exists p, In p ps /\ f_key (py p) = f_key (py (rmin r))) /\
  (exists p, In p ps /\ f_key (px p) = f_key (px (rmax r))) /\
  (exists p, In p ps /\ f_key (py p) = f_key (py (rmax r))).

Lemma attained_self ps p : In p ps -> attained ps (Rect p p).
Proof. intros H. repeat split; exists p; auto. Qed.

Lemma min_case a b : (Z.min a b = a \/ Z.min a b = b)%Z. Proof. lia. Qed.
Lemma max_case a b : (Z.max a b = a \/ Z.max a b = b)%Z. Proof. lia. Qed.

Lemma attained_expand ps a b : rect_nn a -> rect_nn b -> attained ps a -> attained ps b ->
  attained ps (tg_rect_expand a b).
Proof.
  intros Na Nb (A1 & A2 & A3 & A4) (B1 & B2 & B3 & B4). unnn. cbn.
  unfold attained; cbn. keys. repeat split.
  - destruct (min_case (f_key (px (rmin a))) (f_key (px (rmin b)))) as [->| ->]; auto.
  - destruct (min_case (f_key (py (rmin a))) (f_key (py (rmin b)))) as [->| ->]; auto.
  - destruct (max_case (f_key (px (rmax a))) (f_key (px (rmax b)))) as [->| ->]; auto.
  - destruct (max_case (f_key (py (rmax a))) (f_key (py (rmax b)))) as [->| ->]; auto.
Qed.
Lemma expand_point_expand r p : tg_rect_expand_point r p = tg_rect_expand r (Rect p p).
Proof. reflexivity. Qed.
Lemma attained_expand_point ps r p : rect_nn r -> pt_nn p -> attained ps r -> In p ps ->
  attained ps (tg_rect_expand_point r p).
Proof.
  intros. rewrite expand_point_expand. apply attained_expand; auto with nn. apply attained_self; auto.
Qed.

Lemma pt_at_In ps i : i < length ps -> In (pt_at ps i) ps.
Proof. intros. unfold pt_at. apply nth_In; auto. Qed.
Lemma gather_b_In ps i : i < length ps -> In (gather_b ps (length ps) i) ps.
Proof. intros. unfold gather_b. destruct (_ =? _)%nat eqn:E; apply pt_at_In; lia. Qed.

(** facts kept by the loop, whichever kind *)
Definition pp_att (ps : list pt) (st : pps) : Prop :=
  rect_ok (pp_rect st) /\ rect_ok (pp_spread st) /\ attained ps (pp_rect st) /\ attained ps (pp_spread st).

Lemma pp_att_step ix ps st i : pts_ok ps -> i < length ps -> pp_att ps st ->
  pp_att ps (pp_step ix ps (length ps) st i).
Proof.
  intros Hok Hi (A & B & C & D). unfold pp_step, pp_att.
  pose proof (pt_at_ok ps i Hok) as Oa. pose proof (pt_at_In ps i Hi) as Ia.
  pose proof (gather_b_In ps i Hi) as Ib.
  assert (Ob : pt_ok (gather_b ps (length ps) i)).
  { unfold pts_ok in Hok. rewrite Forall_forall in Hok. auto. }
  assert (Nr := rect_ok_nn _ A). assert (Ns := rect_ok_nn _ B).
  assert (Na := pt_ok_nn _ Oa). assert (Nb := pt_ok_nn _ Ob).
  set (b := gather_b ps (length ps) i) in *. set (a := pt_at ps i) in *.
  assert (X1 : rect_ok (tg_rect_expand_point (pp_spread st) a)) by (apply ok_expand_point; auto).
  assert (X2 : attained ps (tg_rect_expand_point (pp_spread st) a)) by (apply attained_expand_point; auto).
  assert (X3 : rect_ok (tg_rect_expand_point (tg_rect_expand_point (pp_spread st) a) b)) by (apply ok_expand_point; auto).
  assert (X4 : attained ps (tg_rect_expand_point (tg_rect_expand_point (pp_spread st) a) b)).
  { apply attained_expand_point; auto. apply rect_ok_nn; auto. }
  unfold pp_inflate. destruct ix as [s|]; [destruct (S (pp_j st) =? s)%nat|];
  cbn [pp_rect pp_spread].
  - split; [apply ok_expand; auto|]. split; [apply ok_Rect; auto|].
    split; [apply attained_expand; auto; apply rect_ok_nn; auto|apply attained_self; auto].
  - auto.
  - split; [apply ok_expand_point; auto|]. split; auto.
    split; auto. apply attained_expand_point; auto.
Qed.

Lemma pp_att_loop ix ps : pts_ok ps -> ps <> [] -> pp_att ps (pp_loop ix ps (length ps)).
Proof.
  intros Hok Hne. assert (0 < length ps) by (destruct ps; cbn; [congruence|lia]).
  assert (G : forall n, n <= length ps -> pp_att ps (fold_left (pp_step ix ps (length ps)) (seq 0 n) (pp_init ps))).
  { induction n; intros Hn.
    - cbn. assert (rect_ok (Rect (pt_at ps 0) (pt_at ps 0))) by auto with fok.
      assert (attained ps (Rect (pt_at ps 0) (pt_at ps 0))) by (apply attained_self, pt_at_In; auto).
      split; auto.
    - rewrite seq_S, fold_left_app. cbn [fold_left]. apply pp_att_step; auto. apply IHn. lia. }
  apply G. lia.
Qed.

(** coverage without an index *)
Lemma pp_cover_none ps : pts_ok ps -> ps <> [] -> forall i, i < length ps ->
  kin (pp_rect (pp_loop None ps (length ps))) (pt_at ps i).
Proof.
  intros Hok Hne.
  assert (G : forall n, n <= length ps ->
    let st := fold_left (pp_step None ps (length ps)) (seq 0 n) (pp_init ps) in
    rect_ok (pp_rect st) /\ forall i, i < n -> kin (pp_rect st) (pt_at ps i)).
  { induction n; intros Hn; cbv zeta.
    - cbn. split; [auto with fok|]. lia.
    - rewrite seq_S, fold_left_app. cbn [fold_left]. rewrite pp_step_rect_none.
      destruct IHn as [O K]; [lia|]. cbv zeta in *. split; [auto with fok|].
      intros i Hi. destruct (Nat.eq_dec i n) as [->|Ne].
      + apply kin_expand_point; [apply rect_ok_nn|apply pt_ok_nn]; auto with fok.
      + apply kin_expand_point_keep; [apply rect_ok_nn|apply pt_ok_nn|]; auto with fok.
        apply K. lia. }
  intros i Hi. apply (G (length ps)); auto.
Qed.

Theorem process_points_rect ps s nsegs (ind : bool) : pts_ok ps -> 2 <= length ps ->
  (ind = true -> 2 <= s /\ (nsegs = length ps \/ nsegs = length ps - 1)) ->
  let r := ppr_rect (process_points (if ind then Some (s, calc_num_keys s 1 nsegs) else None) ps (length ps)) in
  rect_ok r /\ attained ps r /\ forall i, i < length ps -> kin r (pt_at ps i).
Proof.
  intros Hok Hn Hs. assert (Hne : ps <> []) by (intros ->; cbn in Hn; lia). cbv zeta.
  unfold process_points. replace (length ps <? 2) with false by lia.
  destruct ind; cbn [option_map fst].
  - destruct (Hs eq_refl) as [S2 NS]. clear Hs.
    pose proof (pp_inv_loop s ps ltac:(lia) Hne Hok) as [L J RO SO OUT SP RE].
    pose proof (pp_att_loop (Some s) ps Hok Hne) as (_ & _ & A1 & A2).
    set (st := pp_loop (Some s) ps (length ps)) in *.
    destruct (ceil_full s (length ps) nsegs S2 Hn NS) as [C1 C2].
    pose proof (Nat.div_mod (length ps) s ltac:(lia)) as D.
    pose proof (Nat.mod_upper_bound (length ps) s ltac:(lia)) as M.
    rewrite L, keys1. destruct (length ps / s =? (nsegs + s - 1) / s)%nat eqn:E; cbn [ppr_rect pp_rect].
    + apply Nat.eqb_eq in E. split; auto. split; auto. intros i Hi.
      rewrite <- ringpts_lt by auto. apply RE. specialize (C2 E). lia.
    + split; [auto with fok|]. split.
      { apply attained_expand; auto; apply rect_ok_nn; auto. }
      intros i Hi. rewrite <- ringpts_lt by auto.
      destruct (le_lt_dec (length ps / s * s) i) as [G|G].
      * eapply kin_cov; [apply kcov_expand_r; apply rect_ok_nn; auto|]. apply SP. lia.
      * eapply kin_cov; [apply kcov_expand_l; apply rect_ok_nn; auto|]. apply RE. lia.
  - pose proof (pp_att_loop None ps Hok Hne) as (O & _ & A & _).
    cbn [ppr_rect]. split; auto. split; auto. apply pp_cover_none; auto.
Qed.

Theorem series_rect ps closed kind spread r : series_new ps closed kind spread = Some r ->
  pts_ok ps -> 2 <= spread -> 2 <= length ps ->
  rect_ok (r_rect r) /\ attained ps (r_rect r) /\ forall i, i < length ps -> kin (r_rect r) (pt_at ps i).
Proof.
  intros E Hok S2 Hn. apply series_new_fields in E. cbv zeta in E.
  destruct E as (_ & _ & _ & _ & -> & _). apply process_points_rect; auto.
  intros IND. split; auto. apply num_segments_cases; [lia|].
  apply andb_true_iff in IND. destruct IND as [IND _].
  unfold num_segments. destruct closed.
  - replace (length ps <? 3) with false by lia. destruct (pteq _ _); lia.
  - replace (length ps <? 2) with false by lia. lia.
Qed.

(** two boxes that both bound a point list exactly have the same sides *)
Lemma exact_rect_keys ps a b : ps <> [] ->
  attained ps a -> attained ps b -> (forall p, In p ps -> kin a p) -> (forall p, In p ps -> kin b p) ->
  kcov a b /\ kcov b a.
Proof.
  intros _ (A1 & A2 & A3 & A4) (B1 & B2 & B3 & B4) Ka Kb.
  unfold kcov, kin in *.
  destruct A1 as (p1 & I1 & E1), A2 as (p2 & I2 & E2), A3 as (p3 & I3 & E3), A4 as (p4 & I4 & E4).
  destruct B1 as (q1 & J1 & F1), B2 as (q2 & J2 & F2), B3 as (q3 & J3 & F3), B4 as (q4 & J4 & F4).
  pose proof (Ka _ J1). pose proof (Ka _ J2). pose proof (Ka _ J3). pose proof (Ka _ J4).
  pose proof (Kb _ I1). pose proof (Kb _ I2). pose proof (Kb _ I3). pose proof (Kb _ I4).
  lia.
Qed.
