(** * The text of a printed number, and what strtod makes of it *)

From Coq Require Import ZArith Bool String List Lia ZifyBool Reals Lra Psatz.
From Coq Require Import Floats.SpecFloat.
From Flocq Require Import Core.
From Verif Require Import F64 Bytes Writer Num.
Import ListNotations.
Local Open Scope Z_scope.

Ltac Zify.zify_post_hook ::= idtac.

Definition digit (c : Z) : Prop := 48 <= c <= 57.
Definition digits (l : list Z) : Prop := Forall digit l.
(** the number spelt by a list of digits *)
Definition val (l : list Z) : Z := fold_left (fun a c => 10 * a + (c - 48)) l 0.

Definition radix10 : radix := Build_radix 10 eq_refl.
(** the value of a decimal *)
Definition DR (m e : Z) : R := F2R (Float radix10 m e).

Lemma fold_val l : forall a, fold_left (fun a c => 10 * a + (c - 48)) l a
  = a * 10 ^ Z.of_nat (length l) + val l.
Proof.
  unfold val. induction l as [|c l IH]; intros a.
  - cbn [fold_left length]. change (10 ^ Z.of_nat 0) with 1. lia.
  - cbn [fold_left length]. rewrite IH, (IH (10 * 0 + (c - 48))).
    rewrite Nat2Z.inj_succ, Z.pow_succ_r by lia. lia.
Qed.

Lemma val_app a b : val (a ++ b) = val a * 10 ^ Z.of_nat (length b) + val b.
Proof. unfold val at 1. rewrite fold_left_app, fold_val. reflexivity. Qed.

Lemma val_cons c l : val (c :: l) = (c - 48) * 10 ^ Z.of_nat (length l) + val l.
Proof. change (c :: l) with ([c] ++ l). rewrite val_app. unfold val at 1. cbn [fold_left]. lia. Qed.

Lemma val_zeros n : val (repeat 48 n) = 0.
Proof. induction n; [reflexivity|]. cbn [repeat]. rewrite val_cons, IHn. lia. Qed.

Lemma zeros_digits n : digits (repeat 48 n).
Proof. apply Forall_forall. intros x H. apply repeat_spec in H. subst. unfold digit. lia. Qed.

Lemma val_nonneg l : digits l -> 0 <= val l < 10 ^ Z.of_nat (length l).
Proof.
  induction 1 as [|c l Hc Hl IH]; [cbn; lia|].
  rewrite val_cons. cbn [length]. rewrite Nat2Z.inj_succ, Z.pow_succ_r by lia.
  unfold digit in Hc. nia.
Qed.

(** ** The digits printed *)

Lemma pair_ok c : 0 <= c < 100 -> digits (digit_pair c) /\ val (digit_pair c) = c
  /\ length (digit_pair c) = 2%nat.
Proof.
  intros H. unfold digit_pair. repeat split.
  - repeat constructor; unfold digit; pose proof (Z.div_mod c 10); pose proof (Z.mod_pos_bound c 10);
      lia.
  - unfold val. cbn [fold_left]. pose proof (Z.div_mod c 10). lia.
Qed.

Lemma pair2_ok c : 0 <= c < 10000 ->
  digits (digit_pair (c / 100) ++ digit_pair (c mod 100))
  /\ val (digit_pair (c / 100) ++ digit_pair (c mod 100)) = c
  /\ length (digit_pair (c / 100) ++ digit_pair (c mod 100)) = 4%nat.
Proof.
  intros H. pose proof (Z.div_mod c 100). pose proof (Z.mod_pos_bound c 100).
  destruct (pair_ok (c / 100)) as (A1 & A2 & A3); [lia|].
  destruct (pair_ok (c mod 100)) as (B1 & B2 & B3); [lia|].
  split; [apply Forall_app; auto|]. split.
  - rewrite val_app, A2, B2, B3. change (10 ^ Z.of_nat 2) with 100. lia.
  - rewrite app_length. lia.
Qed.

(** a digit list without a leading zero (unless it is "0") *)
Definition dlist (l : list Z) (n : Z) : Prop :=
  digits l /\ val l = n /\
  match l with [] => False | d :: ds => d = 48 -> ds = [] end.

Lemma dlist_small o : 0 <= o < 100 ->
  dlist (if 10 <=? o then digit_pair o else [48 + o]) o.
Proof.
  intros H. destruct (10 <=? o) eqn:E.
  - destruct (pair_ok o) as (A1 & A2 & A3); [lia|]. repeat split; auto.
    unfold digit_pair. intros X. pose proof (Z.div_mod o 10). pose proof (Z.mod_pos_bound o 10). lia.
  - repeat split.
    + repeat constructor; unfold digit; lia.
    + unfold val. cbn [fold_left]. lia.
Qed.

Lemma dlist_app l n acc : dlist l n -> n <> 0 -> digits acc ->
  dlist (l ++ acc) (n * 10 ^ Z.of_nat (length acc) + val acc).
Proof.
  intros (H1 & H2 & H3) N HA. split; [apply Forall_app; auto|]. split.
  - rewrite val_app, H2. reflexivity.
  - destruct l as [|d ds]; [contradiction|]. cbn [app]. intros E.
    exfalso. specialize (H3 E). subst d ds. apply N. rewrite <- H2. reflexivity.
Qed.

Lemma digits32_ok : forall fuel o acc, (3 <= fuel)%nat \/ ((2 <= fuel)%nat /\ o < 1000000) \/ ((1 <= fuel)%nat /\ o < 10000) ->
  0 < o < 4294967296 -> digits acc ->
  exists l, digits32 fuel o acc = Some l /\
    dlist l (o * 10 ^ Z.of_nat (length acc) + val acc) /\ (length acc < length l)%nat.
Proof.
  induction fuel as [|k IH]; intros o acc F O HA; [lia|].
  cbn [digits32]. destruct (10000 <=? o) eqn:E.
  - pose proof (Z.div_mod o 10000). pose proof (Z.mod_pos_bound o 10000).
    destruct (pair2_ok (o mod 10000)) as (P1 & P2 & P3); [lia|].
    destruct (IH (o / 10000) (digit_pair ((o mod 10000) / 100) ++ digit_pair ((o mod 10000) mod 100) ++ acc))
      as (l & L1 & L2 & L3).
    + assert (o / 10000 < 1000000) by (apply Z.div_lt_upper_bound; lia).
      destruct F as [F|[[F G]|[F G]]]; [right; left; lia| |lia].
      right; right. split; [lia|]. apply Z.div_lt_upper_bound; lia.
    + split; [apply Z.div_str_pos; lia|]. apply Z.div_lt_upper_bound; lia.
    + rewrite app_assoc. apply Forall_app; auto.
    + exists l. split; [assumption|]. rewrite app_assoc in L2, L3.
      rewrite app_length, P3 in L2, L3. rewrite val_app, P2 in L2. split; [|lia].
      replace (o * 10 ^ Z.of_nat (length acc) + val acc)
        with (o / 10000 * 10 ^ Z.of_nat (4 + length acc)
              + (o mod 10000 * 10 ^ Z.of_nat (length acc) + val acc)); [assumption|].
      rewrite Nat2Z.inj_add, Z.pow_add_r by lia. change (10 ^ Z.of_nat 4) with 10000.
      rewrite H at 3 by lia. lia.
  - destruct (100 <=? o) eqn:E1.
    + pose proof (Z.div_mod o 100). pose proof (Z.mod_pos_bound o 100).
      destruct (pair_ok (o mod 100)) as (P1 & P2 & P3); [lia|].
      assert (Hq : 0 < o / 100 < 100).
      { split; [apply Z.div_str_pos; lia|apply Z.div_lt_upper_bound; lia]. }
      pose proof (dlist_small (o / 100) ltac:(lia)) as D.
      pose proof (dlist_app _ _ (digit_pair (o mod 100) ++ acc) D ltac:(lia)
                    (proj2 (Forall_app _ _ _) (conj P1 HA))) as D'.
      eexists. split; [reflexivity|].
      rewrite app_length, P3, val_app, P2 in D'.
      replace (o * 10 ^ Z.of_nat (length acc) + val acc)
        with (o / 100 * 10 ^ Z.of_nat (2 + length acc)
              + (o mod 100 * 10 ^ Z.of_nat (length acc) + val acc)).
      2:{ rewrite Nat2Z.inj_add, Z.pow_add_r by lia. change (10 ^ Z.of_nat 2) with 100.
          rewrite H at 3 by lia. lia. }
      destruct (10 <=? o / 100); (split; [exact D'|]); cbn [length digit_pair app]; lia.
    + pose proof (dlist_small o ltac:(lia)) as D.
      pose proof (dlist_app _ _ acc D ltac:(lia) HA) as D'.
      eexists. split; [reflexivity|].
      destruct (10 <=? o); (split; [exact D'|]); cbn [length digit_pair app]; lia.
Qed.

Lemma mod32_eq v k : 0 <= v -> 0 < k <= 4294967296 -> mod32 v k = v mod k.
Proof.
  intros Hv Hk. unfold mod32, u32.
  rewrite Zminus_mod_idemp_l, <- Zminus_mod_idemp_r, Zmult_mod_idemp_r, Zminus_mod_idemp_r.
  replace (v - k * (v / k)) with (v mod k) by (rewrite Z.mod_eq; lia).
  apply Z.mod_small. pose proof (Z.mod_pos_bound v k). lia.
Qed.

Lemma digits64_ok m : 0 < m < 100000000000000000 -> exists l, digits64 m = Some l /\ dlist l m.
Proof.
  intros H. unfold digits64. destruct (m / 4294967296 =? 0) eqn:E.
  - assert (m < 4294967296).
    { pose proof (Z.div_mod m 4294967296). pose proof (Z.mod_pos_bound m 4294967296). lia. }
    unfold u32. rewrite Z.mod_small by lia.
    destruct (digits32_ok 3 m [] ltac:(lia) ltac:(lia) ltac:(constructor)) as (l & L1 & L2 & _).
    exists l. split; [assumption|]. cbn [length] in L2. change (val []) with 0 in L2.
    change (10 ^ Z.of_nat 0) with 1 in L2. now rewrite Z.mul_1_r, Z.add_0_r in L2.
  - fold (mod32 m 100000000). rewrite mod32_eq by lia.
    set (r := m mod 100000000). set (q := m / 100000000).
    assert (Hm : m = 100000000 * q + r) by (apply Z.div_mod; lia).
    assert (Hr : 0 <= r < 100000000) by (apply Z.mod_pos_bound; lia).
    assert (Hq : 0 < q < 1000000000).
    { assert (4294967296 <= m). { destruct (Z.lt_ge_cases m 4294967296); [|lia].
        rewrite Z.div_small in E by lia. discriminate. }
      split; unfold q; [apply Z.div_str_pos; lia|apply Z.div_lt_upper_bound; lia]. }
    pose proof (Z.div_mod r 10000). pose proof (Z.mod_pos_bound r 10000).
    assert (Hd : 0 <= r / 10000 < 10000).
    { split; [apply Z.div_pos; lia|apply Z.div_lt_upper_bound; lia]. }
    rewrite (Z.mod_small (r / 10000)) by lia.
    destruct (pair2_ok (r mod 10000)) as (P1 & P2 & P3); [lia|].
    destruct (pair2_ok (r / 10000)) as (Q1 & Q2 & Q3); [lia|].
    unfold u32 at 1. rewrite (Z.mod_small q) by lia.
    set (acc := _ ++ _ ++ _ ++ _).
    assert (HA : acc = (digit_pair (r / 10000 / 100) ++ digit_pair ((r / 10000) mod 100)) ++
                       (digit_pair (r mod 10000 / 100) ++ digit_pair ((r mod 10000) mod 100))).
    { unfold acc. now rewrite <- app_assoc. }
    destruct (digits32_ok 3 q acc ltac:(lia) ltac:(lia)) as (l & L1 & L2 & _).
    { rewrite HA. apply Forall_app; auto. }
    exists l. split; [assumption|]. rewrite HA, val_app, app_length, Q2, P2, Q3, P3 in L2.
    change (10 ^ Z.of_nat 4) with 10000 in L2. change (10 ^ Z.of_nat (4 + 4)) with 100000000 in L2.
    replace m with (q * 100000000 + (r / 10000 * 10000 + r mod 10000)) by lia. assumption.
Qed.

(** the reserved length is the number of digits *)
Lemma dlist_bounds l n : dlist l n -> 0 < n -> 10 ^ (Z.of_nat (length l) - 1) <= n < 10 ^ Z.of_nat (length l).
Proof.
  intros (H1 & H2 & H3) N. split; [|rewrite <- H2; now apply val_nonneg].
  destruct l as [|d ds]; [contradiction|]. rewrite <- H2, val_cons. inversion H1; subst.
  cbn [length]. rewrite Nat2Z.inj_succ. replace (Z.succ (Z.of_nat (length ds)) - 1) with (Z.of_nat (length ds)) by lia.
  pose proof (val_nonneg ds H5) as V. unfold digit in H4.
  destruct (Z.eq_dec d 48) as [->|D].
  - specialize (H3 eq_refl). subst ds. cbn in N. lia.
  - assert (0 < 10 ^ Z.of_nat (length ds)) by (apply Z.pow_pos_nonneg; lia). nia.
Qed.

Lemma dl17_bounds v n : decimalLength17 v = Some n -> 0 < v ->
  10 ^ (Z.of_nat n - 1) <= v < 10 ^ Z.of_nat n.
Proof.
  unfold decimalLength17. intros H V.
  destruct (100000000000000000 <=? v) eqn:E0; [discriminate|]. injection H as <-.
  repeat match goal with
  | |- context [if ?c <=? v then _ else _] => destruct (c <=? v) eqn:?
  end;
  match goal with
  | |- ?a <= _ < ?b =>
      let a' := eval vm_compute in a in let b' := eval vm_compute in b in
      change (a' <= v < b'); lia
  end.
Qed.

Lemma olength_ok l m : dlist l m -> 0 < m < 100000000000000000 ->
  decimalLength17 m = Some (length l).
Proof.
  intros D M. pose proof (dlist_bounds l m D ltac:(lia)) as B.
  destruct (decimalLength17 m) as [n|] eqn:E.
  2:{ unfold decimalLength17 in E. destruct (100000000000000000 <=? m) eqn:?; [lia|discriminate]. }
  pose proof (dl17_bounds m n E ltac:(lia)) as B'. f_equal.
  assert (L : (length l <> 0)%nat) by (destruct l; [destruct D as (_ & _ & []) | discriminate]).
  assert (Ln : (0 < n)%nat).
  { destruct n; [|lia]. change (10 ^ Z.of_nat 0) with 1 in B'. lia. }
  assert (Z.of_nat (length l) - 1 < Z.of_nat n) by (apply (Z.pow_lt_mono_r_iff 10); lia).
  assert (Z.of_nat n - 1 < Z.of_nat (length l)) by (apply (Z.pow_lt_mono_r_iff 10); lia).
  lia.
Qed.

(** ** The exponent *)
Lemma exp_digits_ok a : 0 <= a < 1000 ->
  let l := if 100 <=? a then digit_pair (a / 10) ++ [48 + a mod 10]
           else if 10 <=? a then digit_pair a else [48 + a] in
  digits l /\ val l = a /\ l <> [].
Proof.
  intros H l. unfold l. destruct (100 <=? a) eqn:E.
  - pose proof (Z.div_mod a 10). pose proof (Z.mod_pos_bound a 10).
    destruct (pair_ok (a / 10)) as (P1 & P2 & P3); [lia|]. repeat split.
    + apply Forall_app. split; [assumption|]. repeat constructor; unfold digit; lia.
    + rewrite val_app, P2. cbn [length]. unfold val. cbn [fold_left].
      change (10 ^ Z.of_nat 1) with 10. lia.
    + unfold digit_pair. discriminate.
  - pose proof (dlist_small a ltac:(lia)) as (A & B & C). split; [assumption|]. split; [assumption|].
    destruct (10 <=? a); discriminate.
Qed.

Lemma firstn_In_local (A : Type) n (l : list A) x : In x (firstn n l) -> In x l.
Proof. intros H. rewrite <- (firstn_skipn n l). apply in_or_app. now left. Qed.
Arguments firstn_In_local {A} n l x _.

(** ** What to_chars64 gives *)
Lemma to_chars64_ok m e sign : 0 < m < 100000000000000000 ->
  exists d ds, dlist (d :: ds) m /\
    to_chars64 m e sign = Some ((if sign then str "-" else []) ++
      d :: (match ds with [] => [] | _ => str "." ++ ds end) ++ str "E"
        ++ exp_chars (e + Z.of_nat (length ds))).
Proof.
  intros H. destruct (digits64_ok m H) as (l & L & D). unfold to_chars64.
  rewrite (olength_ok l m D H), L. destruct l as [|d ds]; [destruct D as (_ & _ & [])|].
  exists d, ds. split; [assumption|]. cbn [length].
  replace (length ds + 1 =? S (length ds))%nat with true by (symmetry; apply Nat.eqb_eq; lia).
  f_equal. f_equal. f_equal. f_equal.
  - destruct ds; [reflexivity|]. cbn [length]. reflexivity.
  - f_equal. f_equal. lia.
Qed.

(** ** fp_utoa on such text *)
Definition no_e (l : list Z) : Prop := Forall (fun c => c <> 69 /\ c <> 101) l.

Lemma split_exp_none l : no_e l -> split_exp l = None.
Proof.
  induction 1 as [|c l H _ IH]; [reflexivity|]. cbn [split_exp]. rewrite IH.
  replace ((c =? 69) || (c =? 101)) with false by lia. reflexivity.
Qed.

Lemma split_exp_app a b : no_e b -> split_exp (a ++ 69 :: b) = Some (a, b).
Proof.
  intros H. induction a as [|c a IH].
  - cbn [app split_exp]. rewrite (split_exp_none b H). reflexivity.
  - cbn [app split_exp]. now rewrite IH.
Qed.

Lemma digits_no_e l : digits l -> no_e l.
Proof. intros H. eapply Forall_impl; [|exact H]. cbv beta. unfold digit. intros. lia. Qed.

Lemma exp_no_e e : -1000 < e < 1000 -> no_e (exp_chars e).
Proof.
  intros H. unfold exp_chars. destruct (exp_digits_ok (Z.abs e) ltac:(lia)) as (A & _ & _).
  apply Forall_app. split; [|now apply digits_no_e].
  destruct (e <? 0); repeat constructor; cbn; lia.
Qed.

Lemma atoi_digits_ok l : digits l -> forall a, atoi_digits a l = a * 10 ^ Z.of_nat (length l) + val l.
Proof.
  intros H. induction H as [|c l Hc Hl IH]; intros a.
  - cbn. lia.
  - cbn [atoi_digits]. unfold digit in Hc.
    replace ((48 <=? c) && (c <=? 57)) with true by lia.
    rewrite IH, val_cons. cbn [length]. rewrite Nat2Z.inj_succ, Z.pow_succ_r by lia. lia.
Qed.

Lemma atoi_exp e : -1000 < e < 1000 -> atoi (exp_chars e) = e.
Proof.
  intros H. unfold exp_chars. destruct (exp_digits_ok (Z.abs e) ltac:(lia)) as (A & B & C).
  set (l := if 100 <=? Z.abs e then _ else _) in *.
  destruct (e <? 0) eqn:E.
  - change (str "-" ++ l) with (45 :: l). cbn [atoi]. rewrite (atoi_digits_ok l A), B. lia.
  - cbn [app]. destruct l as [|c r]; [congruence|].
    assert (Hc : digit c) by (now inversion A).
    transitivity (atoi_digits 0 (c :: r)).
    + unfold atoi. unfold digit in Hc.
      destruct c as [|p|p]; try lia. do 6 (destruct p as [p|p|]; try lia); reflexivity.
    + rewrite (atoi_digits_ok _ A), B. lia.
Qed.

(** the texts that can come out: a sign, then fixed or exponential notation *)
Definition mant_chars (d : Z) (ds : list Z) : list Z :=
  d :: match ds with [] => [] | _ => str "." ++ ds end.

Definition sgn (neg : bool) : list Z := if neg then str "-" else [].

Lemma not_minus c l : digit c -> match c :: l with 45 :: _ => true | _ => false end = false.
Proof.
  intros H. unfold digit in H.
  destruct c as [|p|p]; try lia. do 6 (destruct p as [p|p|]; try lia); reflexivity.
Qed.

Lemma fp_utoa_shape g neg d ds en : digits (d :: ds) -> -1000 < en < 1000 ->
  let fx := sgn neg ++ fixed_chars (mant_chars d ds) en in
  let buf := sgn neg ++ mant_chars d ds ++ str "E" ++ exp_chars en in
  fp_utoa_text g buf
  = (fx, if g && (length buf <? length fx)%nat
         then Some (sgn neg ++ mant_chars d ds ++ str "e" ++ exp_chars en) else None).
Proof.
  intros HD HE fx buf. unfold fp_utoa_text.
  assert (Hd : digit d) by (inversion HD; assumption).
  assert (Hb : (match buf with 45 :: _ => true | _ => false end) = neg).
  { unfold buf. destruct neg; [reflexivity|]. unfold mant_chars. cbn [sgn app].
    exact (not_minus d [] Hd). }
  rewrite Hb.
  assert (Hp : (if neg then tl buf else buf) = mant_chars d ds ++ 69 :: exp_chars en).
  { unfold buf. destruct neg; reflexivity. }
  rewrite Hp, (split_exp_app _ _ (exp_no_e en HE)), (atoi_exp en HE).
  reflexivity.
Qed.

(** ** strtod on such text *)

(** what may follow a number: nothing that would continue it *)
Definition stops (rest : list Z) : Prop :=
  match rest with
  | [] => True
  | c :: _ => ~ digit c /\ c <> 46 /\ c <> 69 /\ c <> 101
  end.

Definition no_digit (rest : list Z) : Prop :=
  match rest with [] => True | c :: _ => ~ digit c end.

Lemma stops_no_digit r : stops r -> no_digit r.
Proof. destruct r; cbn; tauto. Qed.

Lemma dec_digits_ok l rest : digits l -> no_digit rest ->
  forall a k, dec_digits a k (l ++ rest)
    = (a * 10 ^ Z.of_nat (length l) + val l, (k + length l)%nat, rest).
Proof.
  intros H N. induction H as [|c l Hc Hl IH]; intros a k.
  - cbn [app length]. change (10 ^ Z.of_nat 0) with 1. change (val []) with 0.
    rewrite Z.mul_1_r, Z.add_0_r, Nat.add_0_r.
    destruct rest as [|c r]; [reflexivity|]. cbn in N. unfold digit in N. cbn [dec_digits].
    replace ((48 <=? c) && (c <=? 57)) with false by lia. reflexivity.
  - cbn [app dec_digits]. unfold digit in Hc.
    replace ((48 <=? c) && (c <=? 57)) with true by lia.
    rewrite IH, val_cons. cbn [length]. rewrite Nat2Z.inj_succ, Z.pow_succ_r by lia.
    f_equal. f_equal; lia.
Qed.

Lemma dec_exp_none rest : stops rest -> dec_exp rest = (0, rest).
Proof.
  destruct rest as [|c r]; [reflexivity|]. cbn. intros (_ & _ & A & B).
  replace ((c =? 101) || (c =? 69)) with false by lia. reflexivity.
Qed.

Lemma match_sign (A : Type) (c : Z) (l : list Z) (x y : list Z -> A) (z : A) : digit c ->
  match c :: l with 45 :: r => x r | 43 :: r => y r | _ => z end = z.
Proof.
  intros H. unfold digit in H.
  destruct c as [|p|p]; try lia. do 6 (destruct p as [p|p|]; try lia); reflexivity.
Qed.

Lemma dec_exp_ok e rest : -1000 < e < 1000 -> stops rest ->
  dec_exp (101 :: exp_chars e ++ rest) = (e, rest).
Proof.
  intros H S. unfold dec_exp. cbn [Z.eqb orb Pos.eqb].
  unfold exp_chars. destruct (exp_digits_ok (Z.abs e) ltac:(lia)) as (A & B & C).
  set (l := if 100 <=? Z.abs e then _ else _) in *.
  assert (K : (0 + length l =? 0)%nat = false).
  { destruct l; [congruence|]. reflexivity. }
  destruct (e <? 0) eqn:E.
  - change ((str "-" ++ l) ++ rest) with (45 :: (l ++ rest)). cbv iota beta.
    rewrite (dec_digits_ok l rest A (stops_no_digit _ S)), K, B. f_equal. lia.
  - cbn [app]. destruct l as [|c r]; [congruence|].
    assert (Hc : digit c) by (inversion A; assumption).
    cbn [app]. rewrite (match_sign _ c (r ++ rest) (fun r => (true, r)) (fun r => (false, r))
                          (false, c :: r ++ rest) Hc).
    change (c :: r ++ rest) with ((c :: r) ++ rest).
    rewrite (dec_digits_ok _ rest A (stops_no_digit _ S)), K, B. f_equal. lia.
Qed.

(** the general form *)
Lemma match_dot (A : Type) (rest : list Z) (x : list Z -> A) (y : A) : stops rest \/ no_digit rest /\ (exists r, rest = 101 :: r) ->
  match rest with 46 :: r => x r | _ => y end = y.
Proof.
  destruct rest as [|c r]; [reflexivity|]. intros [(_ & H & _)|(_ & r' & E)].
  - destruct c as [|p|p]; try reflexivity. do 6 (destruct p as [p|p|]; try reflexivity); lia.
  - injection E as -> ->. reflexivity.
Qed.

Definition frac_chars (fp : list Z) : list Z := match fp with [] => [] | _ => str "." ++ fp end.

Lemma strtod_parts neg ip fp ex e rest :
  digits ip -> ip <> [] -> digits fp ->
  (stops ex \/ no_digit ex /\ exists r, ex = 101 :: r) -> dec_exp ex = (e, rest) ->
  strtod (sgn neg ++ ip ++ frac_chars fp ++ ex)
  = (dec_round neg (val (ip ++ fp)) (e - Z.of_nat (length fp)), rest).
Proof.
  intros HI NI HF HX HE. unfold strtod.
  assert (NX : no_digit ex) by (destruct HX as [H|[H _]]; [now apply stops_no_digit|exact H]).
  assert (ND : no_digit (frac_chars fp ++ ex)).
  { destruct fp; [exact NX|]. cbn. unfold digit. lia. }
  assert (H0 : match sgn neg ++ ip ++ frac_chars fp ++ ex with
               | 45 :: r => (true, r) | 43 :: r => (false, r)
               | _ => (false, sgn neg ++ ip ++ frac_chars fp ++ ex) end
               = (neg, ip ++ frac_chars fp ++ ex)).
  { destruct neg; [reflexivity|]. cbn [sgn app]. destruct ip as [|c r]; [congruence|].
    assert (Hc : digit c) by (inversion HI; assumption). cbn [app].
    exact (match_sign _ c (r ++ frac_chars fp ++ ex) (fun r => (true, r)) (fun r => (false, r)) _ Hc). }
  rewrite H0. rewrite (dec_digits_ok ip _ HI ND).
  destruct fp as [|f fs].
  - cbn [frac_chars app].
    rewrite (match_dot _ ex (fun r => dec_digits (0 * 10 ^ Z.of_nat (length ip) + val ip) 0 r)
               (0 * 10 ^ Z.of_nat (length ip) + val ip, 0%nat, ex) HX).
    replace (0 + length ip + 0 =? 0)%nat with false.
    2:{ destruct ip; [congruence|]. reflexivity. }
    rewrite HE, app_nil_r. cbn [length]. f_equal; f_equal; lia.
  - change (frac_chars (f :: fs) ++ ex) with (46 :: ((f :: fs) ++ ex)). cbv iota beta.
    rewrite (dec_digits_ok (f :: fs) ex HF NX).
    replace (0 + length ip + (0 + length (f :: fs)) =? 0)%nat with false.
    2:{ destruct ip; [congruence|]. reflexivity. }
    rewrite HE, val_app. f_equal; f_equal; lia.
Qed.

(** ** Round trip of the text: the decimal that strtod sees has the value of the
    one that was printed *)

Lemma DR_scale m e k : 0 <= k -> DR (m * 10 ^ k) e = DR m (e + k).
Proof.
  intros H. unfold DR, F2R. cbn [Fnum Fexp]. rewrite mult_IZR.
  rewrite (IZR_Zpower radix10 k H : IZR (10 ^ k) = bpow radix10 k). rewrite bpow_plus. ring.
Qed.

Lemma pad_digits_ok : forall en p,
  pad_digits en p = (firstn en p ++ repeat 48 (en - length p), skipn en p).
Proof.
  induction en as [|k IH]; intros p; [destruct p; reflexivity|].
  cbn [pad_digits]. destruct p as [|c r]; rewrite IH.
  - rewrite firstn_nil, skipn_nil. cbn. now rewrite Nat.sub_0_r.
  - reflexivity.
Qed.

(** a fixed-notation text as integer and fraction digits *)
Lemma fixed_parts d ds en : dlist (d :: ds) (val (d :: ds)) ->
  0 < val (d :: ds) ->
  exists ip fp, fixed_chars (mant_chars d ds) en = ip ++ frac_chars fp /\
    digits ip /\ ip <> [] /\ digits fp /\
    DR (val (ip ++ fp)) (- Z.of_nat (length fp)) = DR (val (d :: ds)) (en - Z.of_nat (length ds)) /\
    (ip = [48] \/ hd 0 ip <> 48).
Proof.
  intros (HD & _ & HZ) HP. unfold fixed_chars, mant_chars.
  assert (Hd : digit d) by (inversion HD; assumption).
  assert (Hds : digits ds) by (inversion HD; assumption).
  assert (Nd : d <> 48).
  { intros E. specialize (HZ E). subst d ds. cbn in HP. lia. }
  destruct (en <? 0) eqn:E.
  - exists [48], (repeat 48 (Z.to_nat (- en - 1)) ++ d :: ds).
    split.
    { assert (X : match d :: match ds with [] => [] | _ => str "." ++ ds end with
                  | [] => [0] | [c] => [c] | c :: _ :: r => c :: r end = d :: ds)
        by (destruct ds; reflexivity).
      rewrite X. unfold frac_chars. destruct (Z.to_nat (- en - 1)); reflexivity. }
    split; [repeat constructor; unfold digit; lia|]. split; [discriminate|].
    split; [apply Forall_app; split; [apply zeros_digits|assumption]|].
    split; [|now left].
    rewrite !val_app, val_zeros, !app_length, repeat_length.
    change (val [48]) with 0. cbn [length]. f_equal; lia.
  - assert (X : tl match ds with [] => [] | _ => str "." ++ ds end = ds) by (destruct ds; reflexivity).
    rewrite X, pad_digits_ok. set (n := Z.to_nat en).
    assert (Hn : en = Z.of_nat n) by (unfold n; lia).
    assert (HI : digits (d :: firstn n ds ++ repeat 48 (n - length ds))).
    { constructor; [assumption|]. apply Forall_app. split; [|apply zeros_digits].
      apply Forall_forall. intros x Hx. apply (proj1 (Forall_forall _ _) Hds).
      now apply (firstn_In_local _ _ _ Hx). }
    destruct (Nat.le_gt_cases (length ds) n) as [L|L].
    + rewrite (skipn_all2 ds) by lia. exists (d :: firstn n ds ++ repeat 48 (n - length ds)), [].
      split; [reflexivity|]. split; [assumption|]. split; [discriminate|]. split; [constructor|].
      split; [|right; exact Nd].
      rewrite firstn_all2 by lia. rewrite app_nil_r.
      change (d :: ds ++ repeat 48 (n - length ds)) with ((d :: ds) ++ repeat 48 (n - length ds)).
      rewrite val_app, val_zeros, repeat_length, Z.add_0_r. cbn [length].
      rewrite DR_scale by lia. f_equal. lia.
    + replace (n - length ds)%nat with 0%nat in * by lia. cbn [repeat] in *. rewrite app_nil_r in *.
      assert (Hsk : digits (skipn n ds)).
      { apply Forall_forall. intros x Hx. apply (proj1 (Forall_forall _ _) Hds).
        rewrite <- (firstn_skipn n ds). apply in_or_app. now right. }
      assert (Lsk : length (skipn n ds) = (length ds - n)%nat) by apply skipn_length.
      assert (Cases : skipn n ds = [48] \/
        match skipn n ds with [] => [] | [48] => [] | _ => str "." ++ skipn n ds end
          = frac_chars (skipn n ds)).
      { destruct (skipn n ds) as [|c r]; [now right|].
        destruct r; [|right; cbn; destruct c as [|p|p]; try reflexivity;
                      do 6 (destruct p as [p|p|]; try reflexivity)].
        destruct (Z.eq_dec c 48) as [->|Nc]; [now left|right].
        destruct c as [|p|p]; try reflexivity.
        do 6 (destruct p as [p|p|]; try reflexivity); lia. }
      destruct Cases as [Eb|Eb].
      * rewrite Eb. exists (d :: firstn n ds), []. rewrite Eb in Lsk. cbn [length] in Lsk.
        split; [reflexivity|]. split; [assumption|]. split; [discriminate|]. split; [constructor|].
        split; [|right; exact Nd].
        rewrite app_nil_r. rewrite <- (firstn_skipn n ds) at 2. rewrite Eb.
        change (d :: firstn n ds ++ [48]) with ((d :: firstn n ds) ++ [48]).
        rewrite val_app. change (val [48]) with 0. cbn [length]. rewrite Z.add_0_r.
        rewrite DR_scale by lia. f_equal. lia.
      * exists (d :: firstn n ds), (skipn n ds). rewrite Eb.
        split; [reflexivity|]. split; [assumption|]. split; [discriminate|]. split; [assumption|].
        split; [|right; exact Nd].
        cbn [app]. rewrite firstn_skipn. rewrite Lsk. f_equal. lia.
Qed.
