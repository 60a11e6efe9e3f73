(** * Bridges between the specification vocabulary and the model's internals *)

From Coq Require Import ZArith Bool List Lia ZifyBool PeanoNat.
From Verif Require Import F64 Geo Series Search SpecGeo F64Order F64Real F64Mono SeriesFacts SearchFacts RectFacts.
Import ListNotations.

Lemma real_ok x : real_or_inf x <-> fok x.
Proof.
  unfold real_or_inf, fok, nn, feqb, f_wf. split.
  - intros [W E]. split.
    + change (2 ^ 64)%Z with p64 in W. lia.
    + destruct (f_isnan x); auto.
  - intros [W N]. rewrite N. change (2 ^ 64)%Z with p64. cbn. lia.
Qed.
Lemma point_ok_iff p : point_ok p <-> pt_ok p.
Proof. unfold point_ok, pt_ok. rewrite !real_ok. tauto. Qed.
Lemma points_ok_iff ps : points_ok ps <-> pts_ok ps.
Proof. unfold points_ok, pts_ok. rewrite Forall_forall. split; intros H p I; apply point_ok_iff; auto. Qed.
Lemma rectangle_ok_iff r : rectangle_ok r <-> rect_ok r.
Proof. unfold rectangle_ok, rect_ok. rewrite !point_ok_iff. tauto. Qed.
Lemma segment_ok_iff s : segment_ok s <-> seg_ok s.
Proof. unfold segment_ok, seg_ok. rewrite !point_ok_iff. tauto. Qed.

Lemma fle_iff a b : nn a -> nn b -> (fle a b = true <-> (f_key a <= f_key b)%Z).
Proof. intros. rewrite fle_key by auto. lia. Qed.

Lemma in_rect_kin r p : rect_nn r -> pt_nn p -> (in_rect r p <-> kin r p).
Proof. intros. unnn. unfold in_rect, kin. rewrite !fle_iff by auto. lia. Qed.

Lemma in_box_kin s p : seg_nn s -> pt_nn p -> (in_box s p <-> kin (tg_segment_rect s) p).
Proof.
  intros. unnn. unfold in_box, between, kin. cbn. keys. lia.
Qed.

Lemma ordered_key r : rect_nn r -> (ordered r <-> (f_key (px (rmin r)) <= f_key (px (rmax r)) /\ f_key (py (rmin r)) <= f_key (py (rmax r)))%Z).
Proof. intros. unnn. unfold ordered. rewrite !fle_iff by auto. lia. Qed.

(** common point of two ordered rectangles *)
Lemma kmeet_common a b : rect_ok a -> rect_ok b ->
  (f_key (px (rmin a)) <= f_key (px (rmax a)) /\ f_key (py (rmin a)) <= f_key (py (rmax a)))%Z ->
  (f_key (px (rmin b)) <= f_key (px (rmax b)) /\ f_key (py (rmin b)) <= f_key (py (rmax b)))%Z ->
  (kmeet a b <-> exists p, pt_ok p /\ kin a p /\ kin b p).
Proof.
  intros Oa Ob Sa Sb. split.
  - intros M. exists (Pt (fmax0 (px (rmin a)) (px (rmin b))) (fmax0 (py (rmin a)) (py (rmin b)))).
    destruct Oa as [[? ?] [? ?]], Ob as [[? ?] [? ?]].
    split; [split; cbn; apply fok_fmax0; auto|].
    unfold fok in *. repeat match goal with H : _ /\ nn _ |- _ => destruct H end.
    unfold kin, kmeet in *. cbn. keys. lia.
  - intros (p & _ & K1 & K2). unfold kin, kmeet in *. lia.
Qed.

Lemma segment_rect_ordered s : seg_nn s ->
  (f_key (px (rmin (tg_segment_rect s))) <= f_key (px (rmax (tg_segment_rect s))) /\
   f_key (py (rmin (tg_segment_rect s))) <= f_key (py (rmax (tg_segment_rect s))))%Z.
Proof. intros. unnn. cbn. keys. lia. Qed.

Lemma box_meets_iff s q : seg_ok s -> rect_ok q -> ordered q ->
  (box_meets s q <-> segment_rect_intersects_rect s q = true).
Proof.
  intros Os Oq Ord. assert (Nq := rect_ok_nn _ Oq). assert (Ns := seg_ok_nn _ Os).
  apply ordered_key in Ord; auto.
  unfold segment_rect_intersects_rect. rewrite intersects_rect_iff by (auto with nn).
  rewrite kmeet_common; auto with fok. 2: apply segment_rect_ordered; auto.
  unfold box_meets. split; intros (p & A & B & C); exists p.
  - apply point_ok_iff in A. assert (Np := pt_ok_nn _ A). apply in_rect_kin in C; auto. apply in_box_kin in B; auto.
  - assert (Np := pt_ok_nn _ A). split; [apply point_ok_iff; auto|].
    split; [apply in_box_kin|apply in_rect_kin]; auto.
Qed.

(** ** segments *)
Lemma pairs_nth ps : forall i, i + 1 < length ps -> nth i (pairs ps) seg0 = Seg (pt_at ps i) (pt_at ps (i + 1)).
Proof.
  induction ps as [|a [|b ps] IH]; intros i Hi; try (cbn in Hi; lia).
  destruct i; [reflexivity|].
  cbn [pairs nth]. cbn [length] in Hi, IH. rewrite IH by lia. reflexivity.
Qed.
Lemma pairs_length ps : length (pairs ps) = length ps - 1.
Proof.
  induction ps as [|a [|b ps] IH]; cbn; auto. cbn in IH. rewrite IH. lia.
Qed.
Lemma last_pt_at ps a : ps <> [] -> last ps a = pt_at ps (length ps - 1).
Proof.
  intros H. unfold pt_at. rewrite <- (firstn_skipn (length ps - 1) ps) at 1.
  induction ps as [|x [|y ps] IH]; [congruence| |].
  - reflexivity.
  - cbn [length] in *. replace (S (S (length ps)) - 1) with (S (length ps)) by lia.
    replace (S (length ps) - 1) with (length ps) in IH by lia.
    rewrite firstn_skipn in *. cbn [last nth] in *. apply IH. congruence.
Qed.
Lemma same_point_pteq a b : pt_nn a -> pt_nn b -> same_point a b = pteq a b.
Proof. intros [? ?] [? ?]. unfold same_point, pteq. keys. reflexivity. Qed.

Lemma series_segments_spec ps closed : pts_ok ps ->
  series_segments closed ps = map (pseg ps) (seq 0 (num_segments ps (length ps) closed)).
Proof.
  intros Hok. unfold series_segments, num_segments. destruct closed.
  - unfold ring_segments. destruct (length ps <? 3) eqn:E3; auto.
    assert (Hne : ps <> []) by (intros ->; discriminate).
    assert (CP : close_points ps = if pteq (pt_at ps (length ps - 1)) (pt_at ps 0) then ps else ringpts ps).
    { unfold close_points, ringpts. destruct ps as [|a ps']; [congruence|].
      rewrite last_pt_at by auto. rewrite same_point_pteq; [|apply pt_ok_nn, pt_at_ok; auto|].
      reflexivity. inversion Hok; subst. apply pt_ok_nn; auto. }
    rewrite CP. destruct (pteq _ _).
    + apply (nth_ext _ _ seg0 (pseg ps 0)).
      * rewrite pairs_length, map_length, seq_length. reflexivity.
      * rewrite pairs_length. intros i Hi. rewrite pairs_nth by lia.
        rewrite (map_nth (pseg ps)), seq_nth by lia. unfold pseg. cbn [Nat.add].
        rewrite !ringpts_lt by lia. reflexivity.
    + apply (nth_ext _ _ seg0 (pseg ps 0)).
      * rewrite pairs_length, map_length, seq_length. unfold ringpts. rewrite app_length. cbn. lia.
      * rewrite pairs_length. unfold ringpts at 1. rewrite app_length. cbn [length]. intros i Hi.
        rewrite pairs_nth by (unfold ringpts; rewrite app_length; cbn; lia).
        rewrite (map_nth (pseg ps)), seq_nth by lia. reflexivity.
  - unfold line_segments. destruct (length ps <? 2) eqn:E2.
    + destruct ps as [|a [|b ps]]; reflexivity || (cbn in E2; discriminate).
    + apply (nth_ext _ _ seg0 (pseg ps 0)).
      * rewrite pairs_length, map_length, seq_length. reflexivity.
      * rewrite pairs_length. intros i Hi. rewrite pairs_nth by lia.
        rewrite (map_nth (pseg ps)), seq_nth by lia. unfold pseg. cbn [Nat.add].
        rewrite !ringpts_lt by lia. reflexivity.
Qed.

(** ** loops *)
Lemma run_callback_loop {A X} (cb : A -> X -> bool * A) l st : run_callback cb l st = loop_while cb l st.
Proof. revert st. induction l as [|x l IH]; intros st; cbn; auto; destruct (cb st x) as [[|] s]; auto. Qed.
Lemma loop_while_map {A X Y} (cb : A -> Y -> bool * A) (f : X -> Y) l st :
  loop_while cb (map f l) st = loop_while (fun st x => cb st (f x)) l st.
Proof. revert st. induction l as [|x l IH]; intros st; cbn; auto; destruct (cb st (f x)) as [[|] s]; auto. Qed.

Lemma selects_filter {X} (P : X -> Prop) (f : nat -> bool) (g : nat -> X) n : forall k,
  (forall i, k <= i < k + n -> f i = true <-> P (g i)) ->
  selects P k (map g (seq k n)) (map (fun i => (i, g i)) (filter f (seq k n))).
Proof.
  induction n; intros k H; cbn; [constructor|].
  pose proof (H k ltac:(lia)) as Hk. destruct (f k) eqn:E; cbn.
  - constructor; [apply Hk; auto|]. apply IHn. intros. apply H. lia.
  - constructor; [rewrite <- Hk; discriminate|]. apply IHn. intros. apply H. lia.
Qed.
