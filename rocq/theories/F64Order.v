(** * Order facts about doubles, from their keys only (no real numbers) *)

From Coq Require Import ZArith Bool List Lia ZifyBool.
From Verif Require Import F64 Geo.
Local Open Scope Z_scope.

(** not a NaN *)
Definition nn (x : f64) : Prop := f_isnan x = false.
Definition pt_nn (p : pt) : Prop := nn (px p) /\ nn (py p).
Definition rect_nn (r : rect) : Prop := pt_nn (rmin r) /\ pt_nn (rmax r).
Definition seg_nn (s : seg) : Prop := pt_nn (sa s) /\ pt_nn (sb s).

Lemma flt_key x y : nn x -> nn y -> flt x y = (f_key x <? f_key y).
Proof. unfold nn, flt; intros -> ->; reflexivity. Qed.
Lemma fgt_key x y : nn x -> nn y -> fgt x y = (f_key y <? f_key x).
Proof. unfold fgt; intros; apply flt_key; auto. Qed.
Lemma fle_key x y : nn x -> nn y -> fle x y = (f_key x <=? f_key y).
Proof. unfold nn, fle; intros -> ->; reflexivity. Qed.
Lemma fge_key x y : nn x -> nn y -> fge x y = (f_key y <=? f_key x).
Proof. unfold fge; intros; apply fle_key; auto. Qed.
Lemma feqb_key x y : nn x -> nn y -> feqb x y = (f_key x =? f_key y).
Proof. unfold nn, feqb; intros -> ->; reflexivity. Qed.
Lemma fneb_key x y : nn x -> nn y -> fneb x y = negb (f_key x =? f_key y).
Proof. unfold fneb; intros; rewrite feqb_key; auto. Qed.
Lemma feq_key x y : nn x -> nn y -> feq x y = (f_key x =? f_key y).
Proof. intros; unfold feq; rewrite flt_key, fgt_key by auto. lia. Qed.

Lemma nn_fmin0 x y : nn x -> nn y -> nn (fmin0 x y).
Proof. unfold fmin0; destruct (flt x y); auto. Qed.
Lemma nn_fmax0 x y : nn x -> nn y -> nn (fmax0 x y).
Proof. unfold fmax0; destruct (fgt x y); auto. Qed.
Lemma key_fmin0 x y : nn x -> nn y -> f_key (fmin0 x y) = Z.min (f_key x) (f_key y).
Proof. intros; unfold fmin0; rewrite flt_key by auto. destruct (f_key x <? f_key y) eqn:E; lia. Qed.
Lemma key_fmax0 x y : nn x -> nn y -> f_key (fmax0 x y) = Z.max (f_key x) (f_key y).
Proof. intros; unfold fmax0; rewrite fgt_key by auto. destruct (f_key y <? f_key x) eqn:E; lia. Qed.

Lemma nn_zero : nn f_zero. Proof. reflexivity. Qed.
Lemma key_zero : f_key f_zero = 0. Proof. reflexivity. Qed.
Lemma nn_one : nn f_one. Proof. reflexivity. Qed.

Global Hint Resolve nn_fmin0 nn_fmax0 nn_zero nn_one : nn.

Lemma nn_rect_expand_point r p : rect_nn r -> pt_nn p -> rect_nn (tg_rect_expand_point r p).
Proof.
  unfold rect_nn, pt_nn; intros [[? ?] [? ?]] [? ?]; cbn; auto with nn.
Qed.
Lemma nn_rect_expand r o : rect_nn r -> rect_nn o -> rect_nn (tg_rect_expand r o).
Proof.
  unfold rect_nn, pt_nn; intros [[? ?] [? ?]] [[? ?] [? ?]]; cbn; auto 6 with nn.
Qed.
Lemma nn_segment_rect s : seg_nn s -> rect_nn (tg_segment_rect s).
Proof.
  unfold rect_nn, seg_nn, pt_nn; intros [[? ?] [? ?]]; cbn; auto 6 with nn.
Qed.
Lemma nn_Rect p q : pt_nn p -> pt_nn q -> rect_nn (Rect p q).
Proof. unfold rect_nn; auto. Qed.
Global Hint Resolve nn_rect_expand_point nn_rect_expand nn_segment_rect nn_Rect : nn.

(** Rectangles compared by keys, with no reference to the C functions *)
Definition kin (r : rect) (p : pt) : Prop :=
  f_key (px (rmin r)) <= f_key (px p) <= f_key (px (rmax r)) /\
  f_key (py (rmin r)) <= f_key (py p) <= f_key (py (rmax r)).
Definition kcov (a b : rect) : Prop :=
  f_key (px (rmin a)) <= f_key (px (rmin b)) /\ f_key (px (rmax b)) <= f_key (px (rmax a)) /\
  f_key (py (rmin a)) <= f_key (py (rmin b)) /\ f_key (py (rmax b)) <= f_key (py (rmax a)).
Definition kmeet (a b : rect) : Prop :=
  f_key (px (rmin a)) <= f_key (px (rmax b)) /\ f_key (px (rmin b)) <= f_key (px (rmax a)) /\
  f_key (py (rmin a)) <= f_key (py (rmax b)) /\ f_key (py (rmin b)) <= f_key (py (rmax a)).

Ltac unnn :=
  unfold rect_nn, seg_nn, pt_nn in *;
  repeat match goal with H : _ /\ _ |- _ => destruct H end.

(** rewrite all float comparisons to key comparisons *)
Ltac keys :=
  repeat first
    [ rewrite flt_key by auto with nn
    | rewrite fgt_key by auto with nn
    | rewrite fle_key by auto with nn
    | rewrite fge_key by auto with nn
    | rewrite feqb_key by auto with nn
    | rewrite fneb_key by auto with nn
    | rewrite feq_key by auto with nn
    | rewrite key_fmin0 by auto with nn
    | rewrite key_fmax0 by auto with nn ].
Ltac keys_in H :=
  repeat first
    [ rewrite flt_key in H by auto with nn
    | rewrite fgt_key in H by auto with nn
    | rewrite fle_key in H by auto with nn
    | rewrite fge_key in H by auto with nn
    | rewrite feqb_key in H by auto with nn
    | rewrite fneb_key in H by auto with nn
    | rewrite feq_key in H by auto with nn
    | rewrite key_fmin0 in H by auto with nn
    | rewrite key_fmax0 in H by auto with nn ].

Lemma covers_point_iff r p : rect_nn r -> pt_nn p ->
  tg_rect_covers_point r p = true <-> kin r p.
Proof.
  intros; unnn; unfold tg_rect_covers_point, kin; keys; lia.
Qed.
Lemma intersects_rect_iff a b : rect_nn a -> rect_nn b ->
  tg_rect_intersects_rect a b = true <-> kmeet a b.
Proof.
  intros; unnn; unfold tg_rect_intersects_rect, kmeet; keys; lia.
Qed.
Lemma covers_rect_iff a b : rect_nn a -> rect_nn b ->
  tg_rect_covers_rect a b = true <-> kcov a b.
Proof.
  intros; unnn; unfold tg_rect_covers_rect, kcov; keys; lia.
Qed.
Lemma ix_intersects_iff a b : rect_nn a -> rect_nn b ->
  ixrect_intersects_ixrect a b = true <-> kmeet a b.
Proof.
  intros; unnn; unfold ixrect_intersects_ixrect, kmeet; keys.
  destruct (_ || _) eqn:E1; [|destruct (_ || _) eqn:E2 in |- *]; lia.
Qed.

Lemma kcov_refl r : kcov r r.
Proof. unfold kcov; lia. Qed.
Lemma kcov_trans a b c : kcov a b -> kcov b c -> kcov a c.
Proof. unfold kcov; lia. Qed.
Lemma kmeet_sym a b : kmeet a b -> kmeet b a.
Proof. unfold kmeet; lia. Qed.
Lemma kcov_meet a b c : kcov a b -> kmeet b c -> kmeet a c.
Proof. unfold kcov, kmeet; lia. Qed.
Lemma kin_cov a b p : kcov a b -> kin b p -> kin a p.
Proof. unfold kcov, kin; lia. Qed.

Lemma kcov_expand_l r o : rect_nn r -> rect_nn o -> kcov (tg_rect_expand r o) r.
Proof. intros; unnn; unfold kcov; cbn; keys; lia. Qed.
Lemma kcov_expand_r r o : rect_nn r -> rect_nn o -> kcov (tg_rect_expand r o) o.
Proof. intros; unnn; unfold kcov; cbn; keys; lia. Qed.
Lemma kcov_expand_point r p : rect_nn r -> pt_nn p -> kcov (tg_rect_expand_point r p) r.
Proof. intros; unnn; unfold kcov; cbn; keys; lia. Qed.
Lemma kin_expand_point r p : rect_nn r -> pt_nn p -> kin (tg_rect_expand_point r p) p.
Proof. intros; unnn; unfold kin; cbn; keys; lia. Qed.
Lemma kcov_segment_rect r s : seg_nn s -> kin r (sa s) -> kin r (sb s) -> kcov r (tg_segment_rect s).
Proof. intros; unnn; unfold kin, kcov in *; cbn; keys; lia. Qed.
Lemma kin_segment_rect_a s : seg_nn s -> kin (tg_segment_rect s) (sa s).
Proof. intros; unnn; unfold kin; cbn; keys; lia. Qed.
Lemma kin_segment_rect_b s : seg_nn s -> kin (tg_segment_rect s) (sb s).
Proof. intros; unnn; unfold kin; cbn; keys; lia. Qed.
