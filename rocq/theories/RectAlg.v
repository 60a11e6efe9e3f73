(** * Rectangle algebra from the order keys *)

From Coq Require Import ZArith Bool List Lia ZifyBool.
From Verif Require Import F64 F64Order F64Real F64Mono Geo SpecGeo SpecFacts.
Local Open Scope Z_scope.

Definition same_rect (a b : rect) : Prop :=
  same_point (rmin a) (rmin b) = true /\ same_point (rmax a) (rmax b) = true.

Lemma same_rect_kcov a b : rect_nn a -> rect_nn b -> (same_rect a b <-> kcov a b /\ kcov b a).
Proof.
  intros; unnn. unfold same_rect, same_point, kcov. keys. lia.
Qed.
Lemma ok_nn r : rectangle_ok r -> rect_nn r.
Proof. intros H. apply rect_ok_nn, rectangle_ok_iff; auto. Qed.
Lemma pok_nn r : point_ok r -> pt_nn r.
Proof. intros H. apply pt_ok_nn, point_ok_iff; auto. Qed.

Lemma expand_comm a b : rectangle_ok a -> rectangle_ok b -> same_rect (tg_rect_expand a b) (tg_rect_expand b a).
Proof.
  intros A B. apply ok_nn in A, B. apply same_rect_kcov; auto with nn.
  unnn. unfold kcov. cbn [tg_rect_expand tg_rect_expand_point rmin rmax px py]. keys. repeat split; lia.
Qed.
Lemma expand_assoc a b c : rectangle_ok a -> rectangle_ok b -> rectangle_ok c ->
  same_rect (tg_rect_expand a (tg_rect_expand b c)) (tg_rect_expand (tg_rect_expand a b) c).
Proof.
  intros A B C. apply ok_nn in A, B, C. apply same_rect_kcov; auto with nn.
  unnn. unfold kcov. cbn [tg_rect_expand tg_rect_expand_point rmin rmax px py]. keys. repeat split; lia.
Qed.
Lemma expand_idem a : rectangle_ok a -> same_rect (tg_rect_expand a a) a.
Proof.
  intros A. apply ok_nn in A. apply same_rect_kcov; auto with nn.
  unnn. unfold kcov. cbn [tg_rect_expand tg_rect_expand_point rmin rmax px py]. keys. repeat split; lia.
Qed.
Lemma expand_least a b c : rectangle_ok a -> rectangle_ok b -> rectangle_ok c ->
  tg_rect_covers_rect (tg_rect_expand a b) a = true /\ tg_rect_covers_rect (tg_rect_expand a b) b = true /\
  (tg_rect_covers_rect c a = true -> tg_rect_covers_rect c b = true -> tg_rect_covers_rect c (tg_rect_expand a b) = true).
Proof.
  intros A B C. apply ok_nn in A, B, C. rewrite !covers_rect_iff by auto with nn.
  unnn. unfold kcov. cbn [tg_rect_expand tg_rect_expand_point rmin rmax px py]. keys. repeat split; lia.
Qed.
Lemma expand_point_least a p c : rectangle_ok a -> point_ok p -> rectangle_ok c ->
  tg_rect_covers_rect (tg_rect_expand_point a p) a = true /\
  tg_rect_covers_point (tg_rect_expand_point a p) p = true /\
  (tg_rect_covers_rect c a = true -> tg_rect_covers_point c p = true ->
   tg_rect_covers_rect c (tg_rect_expand_point a p) = true).
Proof.
  intros A B C. apply ok_nn in A, C. apply pok_nn in B.
  rewrite !covers_rect_iff, !covers_point_iff by auto with nn.
  unnn. unfold kcov, kin. cbn [tg_rect_expand tg_rect_expand_point rmin rmax px py]. keys. repeat split; lia.
Qed.
Lemma intersects_sym a b : rectangle_ok a -> rectangle_ok b ->
  tg_rect_intersects_rect a b = tg_rect_intersects_rect b a.
Proof.
  intros A B. apply ok_nn in A, B. apply eq_true_iff_eq. rewrite !intersects_rect_iff by auto.
  split; apply kmeet_sym.
Qed.
Lemma intersects_common a b : rectangle_ok a -> rectangle_ok b -> ordered a -> ordered b ->
  (tg_rect_intersects_rect a b = true <-> exists p, point_ok p /\ in_rect a p /\ in_rect b p).
Proof.
  intros A B Oa Ob. pose proof (ok_nn _ A) as NA. pose proof (ok_nn _ B) as NB.
  rewrite intersects_rect_iff by auto. apply ordered_key in Oa, Ob; auto.
  rewrite (kmeet_common a b) by (auto; apply rectangle_ok_iff; auto).
  split; intros (p & P & Q); exists p.
  - split; [apply point_ok_iff; auto|]. rewrite !in_rect_kin by (auto; apply pt_ok_nn; auto). auto.
  - apply point_ok_iff in P. split; auto. rewrite !in_rect_kin in Q by (auto; apply pt_ok_nn; auto). auto.
Qed.
Lemma covers_point_spec r p : rectangle_ok r -> point_ok p ->
  (tg_rect_covers_point r p = true <-> in_rect r p).
Proof.
  intros A B. rewrite covers_point_iff, in_rect_kin by (apply ok_nn || apply pok_nn; auto). tauto.
Qed.
Lemma covers_order a b c : rectangle_ok a -> rectangle_ok b -> rectangle_ok c ->
  tg_rect_covers_rect a a = true /\
  (tg_rect_covers_rect a b = true -> tg_rect_covers_rect b c = true -> tg_rect_covers_rect a c = true) /\
  (tg_rect_covers_rect a b = true -> tg_rect_covers_rect b a = true -> same_rect a b).
Proof.
  intros A B C. apply ok_nn in A, B, C. rewrite !covers_rect_iff by auto.
  split; [apply kcov_refl|]. split; [apply kcov_trans|]. intros. apply same_rect_kcov; auto.
Qed.
Lemma covers_rect_subset a b : rectangle_ok a -> rectangle_ok b -> ordered b ->
  (tg_rect_covers_rect a b = true <-> forall p, point_ok p -> in_rect b p -> in_rect a p).
Proof.
  intros A B Ob. pose proof (ok_nn _ A) as NA. pose proof (ok_nn _ B) as NB.
  rewrite covers_rect_iff by auto. apply ordered_key in Ob; auto. split.
  - intros K p Op. rewrite !in_rect_kin by (auto; apply pok_nn; auto). intros. eapply kin_cov; eauto.
  - intros H. pose proof (H (rmin b) (proj1 B)) as H1. pose proof (H (rmax b) (proj2 B)) as H2.
    rewrite !in_rect_kin in H1, H2 by (auto; apply NB).
    unfold kin, kcov in *. lia.
Qed.
