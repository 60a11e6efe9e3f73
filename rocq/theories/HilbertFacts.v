(** * The Hilbert curve number of a 16-bit cell is unique *)

From Coq Require Import ZArith Bool List Lia ZifyBool.
From Verif Require Import F64 Geo Series Search Geom MultiIx.
Import ListNotations.
Local Open Scope Z_scope.

(** ** the curve as a state machine that reads the bits from the top *)
Section Bits.
Variables x y : Z.
Hypothesis Hx : 0 <= x < 65536.
Hypothesis Hy : 0 <= y < 65536.

Definition tb (v : Z) (k : nat) : bool := Z.testbit v (Z.of_nat k).

Definition step (k : nat) (v : bool * bool) : bool * bool :=
  let xb := tb x k in let yb := tb y k in
  let a := xorb xb yb in let (c, d) := v in
  (xorb (xorb c (negb a && d)) (negb (xb || yb)), xorb (xorb (a && c) d) (xb && negb yb)).

Fixpoint iter (k s : nat) (v : bool * bool) : bool * bool :=
  match s with O => v | S s' => step k (iter (S k) s' v) end.

Lemma iter_app s : forall t k v, iter k (s + t) v = iter k s (iter (k + s) t v).
Proof.
  induction s; intros t k v; cbn [iter Nat.add]; [now rewrite Nat.add_0_r|].
  rewrite IHs. do 3 f_equal. lia.
Qed.

Definition aff (q : Z * Z * Z * Z) (k : nat) (v : bool * bool) : bool * bool :=
  let '(a, b, c, d) := q in let (u, w) := v in
  (xorb (tb c k) (xorb (tb a k && u) (tb b k && w)),
   xorb (tb d k) (xorb (tb b k && u) (xorb (tb a k) (tb b k) && w))).
Definition cd (q : Z * Z * Z * Z) (k : nat) : bool * bool :=
  let '(_, _, c, d) := q in (tb c k, tb d k).

Definition inv (s : nat) (q : Z * Z * Z * Z) : Prop :=
  (forall k v, (k + s <= 16)%nat -> aff q k v = iter k s v) /\
  (forall k, (k < 16)%nat -> cd q k = iter k (Nat.min s (16 - k)) (false, false)) /\
  (forall k, (16 <= k)%nat -> cd q k = (false, false)).

Lemma tb_lxor u v k : tb (Z.lxor u v) k = xorb (tb u k) (tb v k).
Proof. apply Z.lxor_spec. Qed.
Lemma tb_land u v k : tb (Z.land u v) k = tb u k && tb v k.
Proof. apply Z.land_spec. Qed.
Lemma tb_lor u v k : tb (Z.lor u v) k = tb u k || tb v k.
Proof. apply Z.lor_spec. Qed.
Lemma tb_shiftr u s k : 0 <= s -> tb (Z.shiftr u s) k = tb u (k + Z.to_nat s).
Proof. intros. unfold tb. rewrite Z.shiftr_spec by lia. f_equal. lia. Qed.
Lemma tb_mask k : tb 65535 k = (k <? 16)%nat.
Proof. unfold tb. change 65535 with (Z.ones 16). rewrite Z.testbit_ones by lia. lia. Qed.
Lemma tb_high v k : 0 <= v < 65536 -> (16 <= k)%nat -> tb v k = false.
Proof.
  intros H1 H2. unfold tb. destruct (Z.eq_dec v 0) as [->|N]; [apply Z.bits_0|].
  apply Z.bits_above_log2; [lia|]. assert (Z.log2 v < 16); [|lia].
  apply Z.log2_lt_pow2; lia.
Qed.

Ltac tbs := repeat first [rewrite tb_lxor | rewrite tb_land | rewrite tb_lor | rewrite tb_mask | rewrite tb_shiftr by lia].

Lemma inv_first : inv 2 (hil_first x y).
Proof.
  unfold inv, hil_first, aff, cd. cbv zeta. split; [|split].
  - intros k [u w] Hk. cbn [iter step]. tbs.
    change (Z.to_nat 1) with 1%nat. replace (k + 1)%nat with (S k) by lia.
    replace (k <? 16)%nat with true by lia. replace (S k <? 16)%nat with true by lia.
    unfold step. destruct (tb x k), (tb y k), (tb x (S k)), (tb y (S k)), u, w; reflexivity.
  - intros k Hk. tbs.
    change (Z.to_nat 1) with 1%nat. replace (k + 1)%nat with (S k) by lia.
    replace (k <? 16)%nat with true by lia.
    destruct (Nat.eq_dec k 15) as [->|N].
    + cbn [iter Nat.min Nat.sub]. change (16 <? 16)%nat with false. unfold step.
      rewrite !(tb_high _ 16) by (auto; lia). destruct (tb x 15), (tb y 15); reflexivity.
    + replace (S k <? 16)%nat with true by lia. replace (Nat.min 2 (16 - k)) with 2%nat by lia.
      cbn [iter]. unfold step. destruct (tb x k), (tb y k), (tb x (S k)), (tb y (S k)); reflexivity.
  - intros k Hk. tbs. change (Z.to_nat 1) with 1%nat.
    rewrite !(tb_high x), !(tb_high y) by (auto; lia).
    replace (k <? 16)%nat with false by lia. replace (k + 1 <? 16)%nat with false by lia. reflexivity.
Qed.

Lemma round_aff s q k v : 0 <= s -> aff (hil_round s q) k v = aff q k (aff q (k + Z.to_nat s) v).
Proof.
  intros Hs. destruct q as [[[a b] c] d], v as [u w]. unfold hil_round, aff. tbs.
  set (j := (k + Z.to_nat s)%nat).
  destruct (tb a k), (tb b k), (tb c k), (tb d k), (tb a j), (tb b j), (tb c j), (tb d j), u, w; reflexivity.
Qed.
Lemma round_cd s q k : 0 <= s -> cd (hil_round s q) k = aff q k (cd q (k + Z.to_nat s)).
Proof.
  intros Hs. destruct q as [[[a b] c] d]. unfold hil_round, aff, cd. tbs.
  set (j := (k + Z.to_nat s)%nat).
  destruct (tb a k), (tb b k), (tb c k), (tb d k), (tb c j), (tb d j); reflexivity.
Qed.
Lemma aff_0 q k : aff q k (false, false) = cd q k.
Proof.
  destruct q as [[[a b] c] d]. unfold aff, cd. rewrite !andb_false_r, !xorb_false_r. reflexivity.
Qed.

Lemma inv_round s q : (0 < s)%nat -> inv s q -> inv (s + s) (hil_round (Z.of_nat s) q).
Proof.
  intros S0 (I1 & I2 & I3). split; [|split].
  - intros k v Hk. rewrite round_aff by lia. rewrite Nat2Z.id, iter_app, I1 by lia. rewrite I1 by lia. reflexivity.
  - intros k Hk. rewrite round_cd by lia. rewrite Nat2Z.id.
    destruct (Nat.lt_ge_cases (k + s) 16) as [L|G].
    + rewrite I2 by lia. rewrite I1 by lia.
      replace (Nat.min (s + s) (16 - k)) with (s + Nat.min s (16 - (k + s)))%nat by lia.
      now rewrite iter_app.
    + rewrite I3 by lia. rewrite aff_0, I2 by lia. f_equal. lia.
  - intros k Hk. rewrite round_cd by lia. rewrite I3 by lia. rewrite aff_0. auto.
Qed.

(** the state before bit k is read *)
Definition state (k : nat) : bool * bool := iter k (16 - k) (false, false).

Lemma final_state k : (k <= 16)%nat ->
  cd (hil_round 8 (hil_round 4 (hil_round 2 (hil_first x y)))) k = state k.
Proof.
  intros Hk. pose proof (inv_round 8 _ ltac:(lia) (inv_round 4 _ ltac:(lia) (inv_round 2 _ ltac:(lia) inv_first))) as (_ & I2 & I3).
  cbn [Nat.add] in *. change (Z.of_nat 8) with 8 in *. change (Z.of_nat 4) with 4 in *. change (Z.of_nat 2) with 2 in *.
  destruct (Nat.eq_dec k 16) as [->|N]; [apply I3; lia|].
  rewrite I2 by lia. unfold state. f_equal. lia.
Qed.
Lemma state_step k : (k < 16)%nat -> state k = step k (state (S k)).
Proof. intros. unfold state. replace (16 - k)%nat with (S (16 - S k)) by lia. reflexivity. Qed.

(** the two output bits *)
Definition hil_i0 : Z := Z.lxor x y.
Definition hil_i1 : Z :=
  let '(_, _, c, d) := hil_round 8 (hil_round 4 (hil_round 2 (hil_first x y))) in
  Z.lor (Z.lxor d (Z.shiftr d 1)) (Z.lxor 65535 (Z.lor (Z.lxor x y) (Z.lxor c (Z.shiftr c 1)))).

Definition out (v : bool * bool) (xb yb : bool) : bool * bool :=
  (xorb xb yb, xorb xb (if xorb xb yb then fst v else snd v)).

Lemma out_bits k : (k < 16)%nat -> (tb hil_i0 k, tb hil_i1 k) = out (state (S k)) (tb x k) (tb y k).
Proof.
  intros Hk. pose proof (final_state k ltac:(lia)) as E1. pose proof (final_state (S k) ltac:(lia)) as E2.
  rewrite state_step in E1 by lia. unfold hil_i0, hil_i1.
  destruct (hil_round 8 _) as [[[a b] c] d]. unfold cd in *. tbs.
  change (Z.to_nat 1) with 1%nat. replace (k + 1)%nat with (S k) by lia.
  replace (k <? 16)%nat with true by lia. destruct (state (S k)) as [u w]. unfold step in E1.
  apply pair_equal_spec in E1, E2. destruct E1 as [-> ->], E2 as [-> ->].
  unfold out. cbn [fst snd]. destruct (tb x k), (tb y k), u, w; reflexivity.
Qed.

Lemma i1_high k : (16 <= k)%nat -> tb hil_i1 k = false.
Proof.
  intros Hk. assert (E : forall j, (16 <= j)%nat -> cd (hil_round 8 (hil_round 4 (hil_round 2 (hil_first x y)))) j = (false, false)).
  { pose proof (inv_round 8 _ ltac:(lia) (inv_round 4 _ ltac:(lia) (inv_round 2 _ ltac:(lia) inv_first))) as (_ & _ & I3).
    exact I3. }
  unfold hil_i1. pose proof (E k Hk) as E1. pose proof (E (S k) ltac:(lia)) as E2. clear E.
  destruct (hil_round 8 _) as [[[a b] c] d]. unfold cd in *. tbs.
  change (Z.to_nat 1) with 1%nat. replace (k + 1)%nat with (S k) by lia.
  apply pair_equal_spec in E1, E2. destruct E1 as [-> ->], E2 as [-> ->].
  rewrite !(tb_high x), !(tb_high y) by (auto; lia). replace (k <? 16)%nat with false by lia. reflexivity.
Qed.
End Bits.

Lemma tb_inj u v : 0 <= u -> 0 <= v -> (forall k, tb u k = tb v k) -> u = v.
Proof.
  intros Hu Hv H. apply Z.bits_inj'. intros n Hn. specialize (H (Z.to_nat n)). unfold tb in H.
  rewrite Z2Nat.id in H by lia. exact H.
Qed.
Lemma tb_range v : 0 <= v -> (forall k, (16 <= k)%nat -> tb v k = false) -> v < 65536.
Proof.
  intros H0 H. destruct (Z.lt_ge_cases v 65536); auto. exfalso.
  assert (L : 16 <= Z.log2 v) by (apply Z.log2_le_pow2; lia).
  specialize (H (Z.to_nat (Z.log2 v)) ltac:(lia)). unfold tb in H. rewrite Z2Nat.id in H by lia.
  rewrite Z.bit_log2 in H by lia. discriminate.
Qed.

Lemma i0_range x y : 0 <= x < 65536 -> 0 <= y < 65536 -> 0 <= hil_i0 x y < 65536.
Proof.
  intros Hx Hy. assert (0 <= hil_i0 x y) by (apply Z.lxor_nonneg; lia). split; auto.
  apply tb_range; auto. intros k Hk. unfold hil_i0. rewrite tb_lxor, !tb_high by (auto; lia). reflexivity.
Qed.
Ltac nonneg :=
  repeat first [ assumption | lia
    | (apply Z.lxor_nonneg; split; intros _) | (apply Z.lor_nonneg; split)
    | (apply Z.land_nonneg; left) | (apply Z.shiftr_nonneg) ].
Lemma round_nonneg s a b c d : 0 <= a -> 0 <= b -> 0 <= c -> 0 <= d ->
  let '(a', b', c', d') := hil_round s (a, b, c, d) in 0 <= a' /\ 0 <= b' /\ 0 <= c' /\ 0 <= d'.
Proof. intros. cbn [hil_round]. repeat split; nonneg. Qed.
Lemma first_nonneg x y : 0 <= x -> 0 <= y ->
  let '(a', b', c', d') := hil_first x y in 0 <= a' /\ 0 <= b' /\ 0 <= c' /\ 0 <= d'.
Proof. intros. cbn [hil_first]. repeat split; nonneg. Qed.
Lemma i1_range x y : 0 <= x < 65536 -> 0 <= y < 65536 -> 0 <= hil_i1 x y < 65536.
Proof.
  intros Hx Hy. assert (0 <= hil_i1 x y).
  { unfold hil_i1.
    pose proof (first_nonneg x y ltac:(lia) ltac:(lia)) as N1. destruct (hil_first x y) as [[[a b] c] d].
    destruct N1 as (? & ? & ? & ?). pose proof (round_nonneg 2 a b c d H H0 H1 H2) as N2. clear H H0 H1 H2.
    destruct (hil_round 2 _) as [[[a2 b2] c2] d2]. clear a b c d.
    destruct N2 as (? & ? & ? & ?). pose proof (round_nonneg 4 _ _ _ _ H H0 H1 H2) as N3. clear H H0 H1 H2.
    destruct (hil_round 4 _) as [[[a b] c] d]. clear a2 b2 c2 d2.
    destruct N3 as (? & ? & ? & ?). pose proof (round_nonneg 8 _ _ _ _ H H0 H1 H2) as N4. clear H H0 H1 H2.
    destruct (hil_round 8 _) as [[[a2 b2] c2] d2]. destruct N4 as (? & ? & ? & ?). nonneg. }
  split; auto. apply tb_range; auto. intros k Hk. apply i1_high; auto.
Qed.

Lemma bits_determine x y x' y' :
  0 <= x < 65536 -> 0 <= y < 65536 -> 0 <= x' < 65536 -> 0 <= y' < 65536 ->
  hil_i0 x y = hil_i0 x' y' -> hil_i1 x y = hil_i1 x' y' ->
  forall j, (j <= 16)%nat -> state x y (16 - j) = state x' y' (16 - j) /\
    forall k, (16 - j <= k)%nat -> tb x k = tb x' k /\ tb y k = tb y' k.
Proof.
  intros Hx Hy Hx' Hy' E0 E1. induction j; intros Hj.
  - split; [reflexivity|]. intros k Hk. rewrite !tb_high by (auto; lia). auto.
  - destruct (IHj ltac:(lia)) as [S K]. replace (16 - j)%nat with (Datatypes.S (16 - Datatypes.S j)) in * by lia.
    set (m := (16 - Datatypes.S j)%nat) in *. assert (Hm : (m < 16)%nat) by (subst m; lia).
    pose proof (out_bits x y Hx Hy m Hm) as O1. pose proof (out_bits x' y' Hx' Hy' m Hm) as O2.
    rewrite E0, E1, O2, S in O1. unfold out in O1.
    assert (B : tb x m = tb x' m /\ tb y m = tb y' m).
    { destruct (state x' y' _) as [u w]. cbn [fst snd] in O1.
      destruct (tb x m), (tb x' m), (tb y m), (tb y' m), u, w; cbn in O1; split; congruence. }
    split.
    + rewrite !(state_step _ _ m) by lia. rewrite S. unfold step. destruct B as [-> ->]. reflexivity.
    + intros k Hk. destruct (Nat.eq_dec k m) as [->|N]; auto. apply K. lia.
Qed.

(** ** interleaving *)
Definition stage (s M i : Z) : Z := Z.land (Z.lor i (u32 (Z.shiftl i s))) M.
Definition stagef (s M : Z) (f : Z -> bool) (n : Z) : bool :=
  (f n || (if n <? 32 then f (n - s) else false)) && Z.testbit M n.
Lemma stage_bits s M i f n : 0 <= s -> (forall m, Z.testbit i m = f m) ->
  Z.testbit (stage s M i) n = stagef s M f n.
Proof.
  intros Hs Hf. unfold stage, stagef, u32. rewrite Z.land_spec, Z.lor_spec.
  change 4294967296 with (2 ^ 32). destruct (Z.lt_ge_cases n 0) as [L|G].
  - rewrite !(Z.testbit_neg_r _ n) by lia. rewrite !andb_false_r. reflexivity.
  - rewrite Hf. f_equal. f_equal. destruct (n <? 32) eqn:E.
    + rewrite Z.mod_pow2_bits_low by lia. rewrite Z.shiftl_spec by lia. apply Hf.
    + rewrite Z.mod_pow2_bits_high by lia. reflexivity.
Qed.
Definition spreadf (f : Z -> bool) : Z -> bool :=
  stagef 1 1431655765 (stagef 2 858993459 (stagef 4 252645135 (stagef 8 16711935 f))).
Lemma spread_stages i n : Z.testbit (hil_spread i) n = spreadf (Z.testbit i) n.
Proof. unfold spreadf. repeat (apply stage_bits; [lia|]; intros). reflexivity. Qed.
Lemma spreadf_even f k : (forall m, m < 0 -> f m = false) -> (forall m, 16 <= m -> f m = false) ->
  (k < 16)%nat -> spreadf f (2 * Z.of_nat k) = f (Z.of_nat k).
Proof.
  intros Hn Hh Hk.
  do 16 (destruct k as [|k]; [vm_compute;
    repeat match goal with |- context [f ?m] =>
      first [rewrite (Hn m eq_refl) | rewrite (Hh m ltac:(discriminate)) | destruct (f m)] end; reflexivity|]). lia.
Qed.
Lemma spread_even i k : 0 <= i < 65536 -> (k < 16)%nat ->
  Z.testbit (hil_spread i) (2 * Z.of_nat k) = tb i k.
Proof.
  intros Hi Hk. rewrite spread_stages. apply spreadf_even; auto.
  - intros. apply Z.testbit_neg_r. lia.
  - intros m Hm. replace m with (Z.of_nat (Z.to_nat m)) by lia. apply tb_high; auto. lia.
Qed.
Lemma spread_inj i j : 0 <= i < 65536 -> 0 <= j < 65536 -> hil_spread i = hil_spread j -> i = j.
Proof.
  intros Hi Hj E. apply Z.bits_inj'. intros n Hn.
  replace n with (Z.of_nat (Z.to_nat n)) by lia. generalize (Z.to_nat n). intros k. change (tb i k = tb j k).
  destruct (Nat.lt_ge_cases k 16) as [L|G].
  - rewrite <- !spread_even by auto. now rewrite E.
  - rewrite !tb_high by auto. reflexivity.
Qed.
Lemma mask_range w : Z.land w 1431655765 = w -> 0 <= w <= 1431655765.
Proof.
  intros E. assert (0 <= w) by (rewrite <- E; apply Z.land_nonneg; lia). split; auto.
  apply Z.ldiff_le; [lia|]. rewrite <- E, Z.ldiff_land.
  apply Z.bits_inj'. intros n Hn. rewrite !Z.land_spec, Z.lnot_spec, Z.bits_0 by lia.
  destruct (Z.testbit w n), (Z.testbit 1431655765 n); reflexivity.
Qed.
Lemma spread_mask i : Z.land (hil_spread i) 1431655765 = hil_spread i.
Proof. unfold hil_spread. rewrite <- Z.land_assoc. reflexivity. Qed.
Lemma spread_u32 i : u32 (Z.shiftl (hil_spread i) 1) = Z.shiftl (hil_spread i) 1.
Proof.
  pose proof (mask_range _ (spread_mask i)). rewrite Z.shiftl_mul_pow2 by lia.
  unfold u32. apply Z.mod_small. lia.
Qed.

Lemma odd_mask n : Z.testbit 1431655765 n = true -> Z.testbit 1431655765 (n + 1) = false.
Proof.
  intros H. destruct (Z.lt_ge_cases n 0) as [L|G]; [rewrite Z.testbit_neg_r in H by lia; discriminate|].
  destruct (Z.lt_ge_cases n 31) as [L|G2].
  - assert (K : exists k, (k < 31)%nat /\ n = Z.of_nat k) by (exists (Z.to_nat n); lia).
    destruct K as (k & Hk & ->).
    do 31 (destruct k as [|k]; [revert H; vm_compute; congruence|]). lia.
  - apply Z.bits_above_log2; [lia|]. change (Z.log2 1431655765) with 30. lia.
Qed.

Lemma interleave_inj a b a' b' :
  Z.land a 1431655765 = a -> Z.land b 1431655765 = b ->
  Z.land a' 1431655765 = a' -> Z.land b' 1431655765 = b' ->
  Z.lor (Z.shiftl a 1) b = Z.lor (Z.shiftl a' 1) b' -> a = a' /\ b = b'.
Proof.
  intros A B A' B' E.
  assert (M : forall v n, Z.land v 1431655765 = v -> Z.testbit v n = true -> Z.testbit 1431655765 n = true).
  { intros v n Hv Ht. rewrite <- Hv, Z.land_spec in Ht. apply andb_true_iff in Ht. apply Ht. }
  assert (T : forall n, 0 <= n -> Z.testbit a (n - 1) || Z.testbit b n = Z.testbit a' (n - 1) || Z.testbit b' n).
  { intros n Hn. pose proof (f_equal (fun z => Z.testbit z n) E) as T. cbv beta in T.
    rewrite !Z.lor_spec, !Z.shiftl_spec in T by lia. exact T. }
  assert (D : forall v w n, Z.land v 1431655765 = v -> Z.land w 1431655765 = w ->
     Z.testbit v (n - 1) = true -> Z.testbit w n = true -> False).
  { intros v w n Hv Hw H1 H2. apply M in H1, H2; auto. apply odd_mask in H1.
    replace (n - 1 + 1) with n in H1 by lia. congruence. }
  assert (MM : forall n, Z.testbit 1431655765 n = true \/ Z.testbit 1431655765 n = false)
    by (intros n; destruct (Z.testbit 1431655765 n); auto).
  split; apply Z.bits_inj'; intros n Hn.
  - destruct (MM n) as [Y|N].
    + pose proof (T (n + 1) ltac:(lia)) as Q. replace (n + 1 - 1) with n in Q by lia.
      apply odd_mask in Y.
      assert (Bf : forall w, Z.land w 1431655765 = w -> Z.testbit w (n + 1) = false).
      { intros w Hw. rewrite <- Hw, Z.land_spec, Y. apply andb_false_r. }
      rewrite !Bf, !orb_false_r in Q by auto. exact Q.
    + rewrite <- A, <- A', !Z.land_spec, N, !andb_false_r. reflexivity.
  - destruct (MM n) as [Y|N].
    + pose proof (T n ltac:(lia)) as Q.
      assert (Af : forall w, Z.land w 1431655765 = w -> Z.testbit w (n - 1) = false).
      { intros w Hw. destruct (Z.testbit w (n - 1)) eqn:Z1; auto. exfalso.
        apply M in Z1; auto. apply odd_mask in Z1. replace (n - 1 + 1) with n in Z1 by lia. congruence. }
      rewrite !Af in Q by auto. exact Q.
    + rewrite <- B, <- B', !Z.land_spec, N, !andb_false_r. reflexivity.
Qed.

Lemma hilbert_eq x y : 0 <= x < 65536 -> 0 <= y < 65536 ->
  hilbert_xy_to_index x y = Z.lor (Z.shiftl (hil_spread (hil_i1 x y)) 1) (hil_spread (hil_i0 x y)).
Proof.
  intros Hx Hy. rewrite <- spread_u32.
  unfold hilbert_xy_to_index, hil_i1, hil_i0. destruct (hil_round 8 _) as [[[a b] c] d]. reflexivity.
Qed.

Theorem hilbert_injective x y x' y' :
  0 <= x < 65536 -> 0 <= y < 65536 -> 0 <= x' < 65536 -> 0 <= y' < 65536 ->
  hilbert_xy_to_index x y = hilbert_xy_to_index x' y' -> x = x' /\ y = y'.
Proof.
  intros Hx Hy Hx' Hy' E. rewrite !hilbert_eq in E by auto.
  pose proof (i0_range x y Hx Hy) as R0. pose proof (i1_range x y Hx Hy) as R1.
  pose proof (i0_range x' y' Hx' Hy') as R0'. pose proof (i1_range x' y' Hx' Hy') as R1'.
  destruct (interleave_inj _ _ _ _ (spread_mask _) (spread_mask _) (spread_mask _) (spread_mask _) E) as [Q1 Q0].
  apply spread_inj in Q0, Q1; auto.
  destruct (bits_determine x y x' y' Hx Hy Hx' Hy' Q0 Q1 16 ltac:(lia)) as [_ K].
  split; apply tb_inj; try lia; intros k; apply K; lia.
Qed.

Lemma hilbert_range x y : 0 <= x < 65536 -> 0 <= y < 65536 ->
  0 <= hilbert_xy_to_index x y < 4294967296.
Proof.
  intros Hx Hy. rewrite hilbert_eq by auto.
  pose proof (mask_range _ (spread_mask (hil_i0 x y))) as M0.
  pose proof (mask_range _ (spread_mask (hil_i1 x y))) as M1.
  set (u := hil_spread (hil_i1 x y)) in *. set (v := hil_spread (hil_i0 x y)) in *.
  split.
  - apply Z.lor_nonneg. split; [apply Z.shiftl_nonneg|]; lia.
  - assert (u = 0 /\ v = 0 \/ 0 < Z.lor (Z.shiftl u 1) v) as [[-> ->]|P]; [|reflexivity|].
    + assert (0 <= Z.lor (Z.shiftl u 1) v) by (apply Z.lor_nonneg; split; [apply Z.shiftl_nonneg|]; lia).
      destruct (Z.eq_dec (Z.lor (Z.shiftl u 1) v) 0) as [E|N]; [left|right; lia].
      apply Z.lor_eq_0_iff in E. rewrite Z.shiftl_eq_0_iff in E by lia. tauto.
    + change 4294967296 with (2 ^ 32). apply Z.log2_lt_pow2; auto.
      rewrite Z.log2_lor by (try apply Z.shiftl_nonneg; lia).
      apply Z.max_lub_lt.
      * destruct (Z.eq_dec u 0) as [->|N]; [reflexivity|]. rewrite Z.log2_shiftl by lia.
        assert (Z.log2 u <= Z.log2 1431655765) by (apply Z.log2_le_mono; lia).
        change (Z.log2 1431655765) with 30 in *. lia.
      * assert (Z.log2 v <= Z.log2 1431655765) by (apply Z.log2_le_mono; lia).
        change (Z.log2 1431655765) with 30 in *. lia.
Qed.
