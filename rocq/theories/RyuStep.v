(** * Step 4 of Ryu's d2d: the digits kept lie in the rounding interval *)

From Coq Require Import ZArith Bool List Lia ZifyBool.
From Verif Require Import F64 Num RyuTab.
Import ListNotations.
Local Open Scope Z_scope.

Lemma mod32_mod v k : 0 < k <= 100 -> mod32 v k = v mod k.
Proof.
  intros H. unfold mod32, u32.
  rewrite Zminus_mod, Zmod_mod. rewrite (Zmult_mod k ((v / k) mod 4294967296)), Zmod_mod, <- Zmult_mod.
  rewrite <- Zminus_mod. rewrite <- (Z.mod_eq v k) by lia.
  apply Z.mod_small. pose proof (Z.mod_pos_bound v k). lia.
Qed.

Section pick.
Variables D A Vm Vr Vp P T : Z.
Hypothesis HD : 0 < D.
Hypothesis HA : D <= A.
Hypothesis HP : Vp = Vr + 2 * A.
Hypothesis HM : Vr - 2 * A <= Vm <= Vr - A.
Hypothesis HM0 : 0 <= Vm.
Hypothesis HT : 1 <= T.
Let vr := Vr / D.
Let vm := Vm / D.
Hypothesis HPP : P = Vp / D \/ (P = Vp / D - 1 /\ (D | Vp)).

Lemma pick_ranges : D * vr <= Vr < D * vr + D /\ D * vm <= Vm < D * vm + D /\ D * P <= Vp /\ 0 <= vm <= vr /\ vr + 1 <= P.
Proof.
  assert (B : forall x, D * (x / D) <= x < D * (x / D) + D).
  { intros x. pose proof (Z.mul_div_le x D HD). pose proof (Z.mul_succ_div_gt x D HD). lia. }
  assert (R1 := B Vr). assert (R2 := B Vm). assert (R3 := B Vp). fold vr vm in R1, R2.
  split; [assumption|]. split; [assumption|].
  assert (vr + 2 <= Vp / D).
  { replace (vr + 2) with ((Vr + 2 * D) / D); [apply Z.div_le_mono; lia|].
    unfold vr. rewrite Z.div_add by lia. reflexivity. }
  split; [destruct HPP as [-> |[-> _]]; nia|].
  split; [|destruct HPP as [-> |[-> _]]; lia].
  split; [apply Z.div_pos; lia|apply Z.div_le_mono; lia].
Qed.

Lemma cut x : T * (x / T) <= x < T * (x / T) + T.
Proof. pose proof (Z.mul_div_le x T). pose proof (Z.mul_succ_div_gt x T). lia. Qed.

Variable up : bool.
Let o := vr / T + b2z up.

(** the exact lower bound is not claimed *)
Lemma pick_A : vm / T < P / T -> (vr / T = vm / T -> up = true) ->
  (up = true -> vr / T = vm / T \/ T <= 2 * (vr mod T)) ->
  Vm < o * T * D /\ 0 < o /\ (o * T * D < Vp \/ (up = true /\ o * T <= P)).
Proof.
  intros H1 H2 H3. destruct pick_ranges as (R1 & R2 & R3 & R4 & R5).
  pose proof (cut vr) as C1. pose proof (cut vm) as C2. pose proof (cut P) as C3.
  assert (L : vm / T <= vr / T) by (apply Z.div_le_mono; lia).
  assert (V0 : 0 <= vm / T) by (apply Z.div_pos; lia).
  assert (O1 : vm / T + 1 <= o).
  { unfold o. destruct up; cbn [b2z]; [lia|]. destruct (Z.eq_dec (vr / T) (vm / T)); [|lia]. now discriminate H2. }
  assert (LV : Vm < o * T * D).
  { assert (vm + 1 <= o * T) by nia. nia. }
  split; [exact LV|]. split; [lia|].
  destruct up eqn:U; cbn [b2z] in o.
  - right. split; [reflexivity|].
    destruct (Z.lt_ge_cases (vr / T) (P / T)) as [L2|L2]; [unfold o; nia|exfalso].
    assert (E : vr / T = P / T) by (apply Z.le_antisymm; [apply Z.div_le_mono; lia|lia]).
    destruct (H3 eq_refl) as [H|H]; [lia|].
    rewrite Z.mod_eq in H by lia. set (B := T * (vr / T)) in *.
    (* Vr >= B D + T D / 2, Vm < B D, so Vp > (B + T) D *)
    assert (K1 : Vm < B * D). { assert (vm + 1 <= B) by (unfold B; nia). nia. }
    assert (K2 : T * D <= 2 * (Vr - B * D)) by nia.
    assert (K3 : (B + T) * D < Vp) by lia.
    assert (K4 : B + T <= P).
    { destruct HPP as [-> |[-> [c Hc]]].
      - apply Z.div_le_lower_bound; [assumption|]. lia.
      - rewrite Hc, Z.div_mul by lia. rewrite Hc in K3. assert (B + T < c) by nia. lia. }
    rewrite <- E in C3. unfold B in K4. lia.
  - left. unfold o. assert ((vr / T + 0) * T <= vr) by lia. nia.
Qed.

(** the lower end of the interval is accepted and is exact *)
Lemma pick_B : D * (T * (vm / T)) = Vm -> 0 < Vm -> (up = true -> T <= 2 * (vr mod T)) ->
  Vm <= o * T * D /\ 0 < o /\ o * T * D <= Vp.
Proof.
  intros H1 H0 H3. destruct pick_ranges as (R1 & R2 & R3 & R4 & R5).
  pose proof (cut vr) as C1. pose proof (cut vm) as C2.
  assert (L : vm / T <= vr / T) by (apply Z.div_le_mono; lia).
  assert (V0 : 0 <= vm / T) by (apply Z.div_pos; lia).
  assert (V1 : 0 < vm / T) by nia.
  destruct up eqn:U; cbn [b2z] in o; unfold o.
  - specialize (H3 eq_refl). rewrite Z.mod_eq in H3 by lia. split; [nia|]. split; [lia|].
    set (B := T * (vr / T)) in *.
    assert (K1 : Vm <= B * D). { rewrite <- H1. unfold B. nia. }
    assert (K2 : T * D <= 2 * (Vr - B * D)) by nia.
    unfold B in *. nia.
  - split; [nia|]. split; [lia|]. assert ((vr / T + 0) * T <= vr) by lia. nia.
Qed.
End pick.

(** ** The loops *)

Lemma p10_pos r : 0 <= r -> 0 < 10 ^ r.
Proof. intros. apply Z.pow_pos_nonneg; lia. Qed.
Lemma p10_S r : 0 <= r -> 10 ^ (r + 1) = 10 ^ r * 10.
Proof. intros. rewrite Z.pow_add_r by lia. reflexivity. Qed.
Lemma div_p10 x r : 0 <= r -> x / 10 ^ r / 10 = x / 10 ^ (r + 1).
Proof. intros. rewrite p10_S by lia. rewrite Z.div_div; [reflexivity| |lia]. pose proof (p10_pos r). lia. Qed.
Lemma half_p10 x r : 0 <= r -> 5 <= (x / 10 ^ r) mod 10 -> 10 ^ (r + 1) <= 2 * (x mod 10 ^ (r + 1)).
Proof.
  intros Hr H. rewrite p10_S by lia. pose proof (p10_pos r Hr) as T.
  rewrite Z.rem_mul_r by lia. pose proof (Z.mod_pos_bound x (10 ^ r) T). nia.
Qed.

Section loops.
Variables vr vp vm : Z.
Hypothesis Hm : 0 <= vm.

(** [r] digits are removed; [z] is whether the lower end was exact to begin with *)
Record cutat (z : bool) (s : d2d_state) (r : Z) : Prop := {
  c_r : 0 <= r;
  c_vr : d_vr s = vr / 10 ^ r;
  c_vp : d_vp s = vp / 10 ^ r;
  c_vm : d_vm s = vm / 10 ^ r;
  c_rem : d_removed s = r;
  c_vmz : d_vmz s = true -> z = true /\ (10 ^ r | vm);
  c_last : 5 <= d_last s -> 10 ^ r <= 2 * (vr mod 10 ^ r) }.

Lemma loop1_ok z : forall fuel s r, cutat z s r -> d_vm s < d_vp s -> vp < 10 ^ (r + Z.of_nat fuel) ->
  exists s' r', d2d_loop1 fuel s = Some s' /\ cutat z s' r' /\ d_vm s' < d_vp s' /\
    r <= r' <= r + Z.of_nat fuel /\ d_vp s' / 10 <= d_vm s' / 10.
Proof.
  induction fuel as [|fuel IH]; intros s r C L B.
  - exfalso. destruct C as [C1 _ C2 C3 _ _ _]. rewrite C2, C3 in L.
    assert (0 <= vm / 10 ^ r) by (apply Z.div_pos; [lia|now apply p10_pos]).
    assert (vp / 10 ^ r < 1); [|lia].
    apply Z.div_lt_upper_bound; [now apply p10_pos|]. rewrite Z.add_0_r in B. lia.
  - cbn [d2d_loop1]. destruct (Z.leb_spec (d_vp s / 10) (d_vm s / 10)) as [E|E].
    + exists s, r. split; [reflexivity|]. split; [assumption|]. split; [assumption|]. split; [lia|assumption].
    + destruct C as [C1 C0 C2 C3 C4 C5 C6].
      edestruct (IH (D2 (d_vr s / 10) (d_vp s / 10) (d_vm s / 10)
                 (d_vmz s && (mod32 (d_vm s) 10 =? 0)) (d_vrz s && (d_last s =? 0))
                 (mod32 (d_vr s) 10) (d_removed s + 1)) (r + 1)) as (s' & r' & A1 & A2 & A3 & A4 & A5).
      * constructor; cbn [d_vr d_vp d_vm d_vmz d_vrz d_last d_removed]; try lia.
        -- now rewrite C0, div_p10.
        -- now rewrite C2, div_p10.
        -- now rewrite C3, div_p10.
        -- rewrite mod32_mod by lia. intros H. apply andb_true_iff in H. destruct H as [H1 H2].
           destruct (C5 H1) as [Z1 [c Z2]]. split; [assumption|]. rewrite C3 in H2.
           rewrite Z2, Z.div_mul in H2 by (pose proof (p10_pos r C1); lia).
           exists (c / 10). rewrite p10_S by lia. pose proof (Z.div_mod c 10). lia.
        -- rewrite mod32_mod by lia. rewrite C0. now apply half_p10.
      * exact E.
      * replace (r + 1 + Z.of_nat fuel) with (r + Z.of_nat (S fuel)) by lia. assumption.
      * exists s', r'. split; [exact A1|]. split; [assumption|]. split; [assumption|]. split; [lia|assumption].
Qed.

Lemma loop2_ok z : 0 < vm -> forall fuel s r, cutat z s r -> d_vmz s = true -> vm < 10 ^ (r + Z.of_nat fuel) ->
  exists s' r', d2d_loop2 fuel s = Some s' /\ cutat z s' r' /\ d_vmz s' = true /\
    r <= r' <= r + Z.of_nat fuel.
Proof.
  intros V. induction fuel as [|fuel IH]; intros s r C Z B.
  - exfalso. destruct C as [C1 _ _ C3 _ C5 _]. destruct (C5 Z) as [_ [c Hc]].
    change (Z.of_nat 0) with 0 in B. rewrite Z.add_0_r in B. pose proof (p10_pos r C1) as T.
    set (t := 10 ^ r) in *. clearbody t. rewrite Hc in V, B. clear -T V B. destruct (Z.le_gt_cases c 0); nia.
  - cbn [d2d_loop2]. rewrite mod32_mod by lia. destruct (Z.eqb_spec (d_vm s mod 10) 0) as [E|E]; cbn [negb].
    2:{ exists s, r. split; [reflexivity|]. split; [assumption|]. split; [assumption|]. lia. }
    destruct C as [C1 C0 C2 C3 C4 C5 C6].
    edestruct (IH (D2 (d_vr s / 10) (d_vp s / 10) (d_vm s / 10)
                 (d_vmz s) (d_vrz s && (d_last s =? 0))
                 (mod32 (d_vr s) 10) (d_removed s + 1)) (r + 1)) as (s' & r' & A1 & A2 & A3 & A4).
    + constructor; cbn [d_vr d_vp d_vm d_vmz d_vrz d_last d_removed]; try lia.
      * now rewrite C0, div_p10.
      * now rewrite C2, div_p10.
      * now rewrite C3, div_p10.
      * intros _. destruct (C5 Z) as [Z1 [c Z2]]. split; [assumption|].
        rewrite C3, Z2, Z.div_mul in E by (pose proof (p10_pos r C1); lia).
        exists (c / 10). rewrite p10_S by lia. pose proof (Z.div_mod c 10). lia.
      * rewrite mod32_mod by lia. rewrite C0. now apply half_p10.
    + exact Z.
    + replace (r + 1 + Z.of_nat fuel) with (r + Z.of_nat (S fuel)) by lia. assumption.
    + exists s', r'. split; [exact A1|]. split; [assumption|]. split; [assumption|]. lia.
Qed.

Record cut3 (s : d2d_state) (r : Z) : Prop := {
  c3_r : 0 <= r;
  c3_vr : d_vr s = vr / 10 ^ r;
  c3_vp : d_vp s = vp / 10 ^ r;
  c3_vm : d_vm s = vm / 10 ^ r;
  c3_rem : d_removed s = r;
  c3_up : d_vrz s = true -> 10 ^ r <= 2 * (vr mod 10 ^ r) }.

Lemma loop3_ok : forall fuel s r, cut3 s r -> d_vm s < d_vp s -> vp < 10 ^ (r + Z.of_nat fuel) ->
  exists s' r', d2d_loop3 fuel s = Some s' /\ cut3 s' r' /\ d_vm s' < d_vp s' /\
    r <= r' <= r + Z.of_nat fuel /\ d_vp s' / 10 <= d_vm s' / 10.
Proof.
  induction fuel as [|fuel IH]; intros s r C L B.
  - exfalso. destruct C as [C1 _ C2 C3 _ _]. rewrite C2, C3 in L.
    assert (0 <= vm / 10 ^ r) by (apply Z.div_pos; [lia|now apply p10_pos]).
    assert (vp / 10 ^ r < 1); [|lia].
    apply Z.div_lt_upper_bound; [now apply p10_pos|]. rewrite Z.add_0_r in B. lia.
  - cbn [d2d_loop3]. destruct (Z.leb_spec (d_vp s / 10) (d_vm s / 10)) as [E|E].
    + exists s, r. split; [reflexivity|]. split; [assumption|]. split; [assumption|]. split; [lia|assumption].
    + destruct C as [C1 C0 C2 C3 C4 C6].
      edestruct (IH (D2 (d_vr s / 10) (d_vp s / 10) (d_vm s / 10)
                 (d_vmz s) (5 <=? mod32 (d_vr s) 10) (d_last s) (d_removed s + 1)) (r + 1))
        as (s' & r' & A1 & A2 & A3 & A4 & A5).
      * constructor; cbn [d_vr d_vp d_vm d_vmz d_vrz d_last d_removed]; try lia.
        -- now rewrite C0, div_p10.
        -- now rewrite C2, div_p10.
        -- now rewrite C3, div_p10.
        -- rewrite mod32_mod by lia. rewrite C0. intros H. apply half_p10; lia.
      * exact E.
      * replace (r + 1 + Z.of_nat fuel) with (r + Z.of_nat (S fuel)) by lia. assumption.
      * exists s', r'. split; [exact A1|]. split; [assumption|]. split; [assumption|]. split; [lia|assumption].
Qed.
End loops.

(** ** Step 4 *)

Lemma few_digits o T t D V K : 0 < D -> 0 < t -> t <= T -> 0 <= K -> o * T * D <= V -> V < K * t * D -> o < K.
Proof.
  intros HD Ht HT HK H1 H2. destruct (Z.lt_ge_cases o K) as [L|L]; [assumption|exfalso].
  assert (K * t <= o * T) by nia. assert (K * t * D <= o * T * D) by nia. lia.
Qed.

Section step4.
Variables D A Vm Vr Vp mp c : Z.
Variable ab : bool.
Hypothesis HD : 0 < D.
Hypothesis HA : D <= A.
Hypothesis HP : Vp = Vr + 2 * A.
Hypothesis HM : Vr - 2 * A <= Vm <= Vr - A.
Hypothesis HM0 : 0 < Vm.
Hypothesis Hmp : Vp = mp * A.
Hypothesis Hc : Vp - Vm = c * A.
Hypothesis Hmc : 0 < c /\ 0 <= mp /\ 11 * mp <= c * 100000000000000000.
Hypothesis HV : Vp < 2 ^ 64 * D.

(** the state Step 3 leaves *)
Record start (s : d2d_state) : Prop := {
  s_vr : d_vr s = Vr / D;
  s_vm : d_vm s = Vm / D;
  s_rem : d_removed s = 0;
  s_last : d_last s = 0;
  s_vmz : d_vmz s = true -> ab = true /\ (D | Vm);
  s_vp : (d_vp s = Vp / D /\ (ab = false -> ~ (10 * D | Vp))) \/
         (d_vp s = Vp / D - 1 /\ ab = false /\ (D | Vp)) }.

Definition inside (o r : Z) : Prop :=
  if ab then Vm <= o * 10 ^ r * D <= Vp else Vm < o * 10 ^ r * D < Vp.

Lemma start_HPP s : start s -> d_vp s = Vp / D \/ (d_vp s = Vp / D - 1 /\ (D | Vp)).
Proof. intros []. tauto. Qed.

Lemma small_vp s : start s -> d_vp s < 10 ^ 20.
Proof.
  intros H. assert (Vp / D < 2 ^ 64) by (apply Z.div_lt_upper_bound; lia).
  change (10 ^ 20) with 100000000000000000000. change (2 ^ 64) with 18446744073709551616 in *.
  destruct (start_HPP s H) as [-> |[-> _]]; lia.
Qed.

(** few digits are left *)
Lemma seventeen P vm r : (P = Vp / D \/ (P = Vp / D - 1 /\ (D | Vp))) -> vm = Vm / D -> 0 <= r ->
  P / 10 ^ r / 10 <= vm / 10 ^ r / 10 -> Vp < 100000000000000000 * 10 ^ r * D.
Proof.
  intros HPP Ev Hr H. rewrite !div_p10 in H by assumption. rewrite p10_S in H by assumption.
  pose proof (p10_pos r Hr) as T. set (t := 10 ^ r) in *.
  assert (C1 := Z.mul_succ_div_gt P (t * 10) ltac:(lia)). assert (C2 := Z.mul_div_le vm (t * 10) ltac:(lia)).
  assert (K : P - vm <= t * 10 - 1) by nia.
  assert (C3 := Z.mul_div_le Vm D HD). rewrite <- Ev in C3.
  assert (C4 := Z.mul_succ_div_gt Vp D HD).
  assert (K2 : Vp < D * (P + 2)) by (destruct HPP as [-> |[-> _]]; nia).
  assert (K3 : c * A < D * (t * 10 + 1)) by nia.
  clear -HD Hmp Hmc K3 T.
  assert (c * Vp < c * (100000000000000000 * t * D)); [|nia].
  rewrite Hmp. replace (c * (mp * A)) with (mp * (c * A)) by ring.
  destruct (Z.eq_dec mp 0) as [->|N]; [nia|].
  assert (mp * (c * A) < mp * (D * (t * 10 + 1))) by nia.
  assert (mp * (D * (t * 10 + 1)) <= mp * 11 * (D * t)) by nia. nia.
Qed.

Lemma up_inside P T r (up : bool) : (P = Vp / D /\ (ab = false -> ~ (10 * D | Vp))) \/
         (P = Vp / D - 1 /\ ab = false /\ (D | Vp)) -> 0 <= r -> T = 10 ^ r ->
  let vr := Vr / D in let vm := Vm / D in let o := vr / T + b2z up in
  vm / T < P / T -> (vr / T = vm / T -> up = true) ->
  (up = true -> vr / T = vm / T \/ T <= 2 * (vr mod T)) ->
  inside o r /\ 0 < o /\ o * T * D <= Vp.
Proof.
  intros HPQ Hr ET vr vm o H1 H2 H3.
  assert (HPP : P = Vp / D \/ (P = Vp / D - 1 /\ (D | Vp))) by tauto.
  assert (HT : 1 <= T) by (subst T; pose proof (p10_pos r Hr); lia).
  destruct (pick_A D A Vm Vr Vp P T HD HA HP HM ltac:(lia) HT HPP up H1 H2 H3) as (I1 & I2 & I3).
  destruct (pick_ranges D A Vm Vr Vp P HD HA HP HM ltac:(lia) HPP) as (R1 & R2 & R3 & R4 & R5).
  change (Vr / D / T + b2z up) with o in *.
  assert (I4 : o * T * D <= Vp) by (destruct I3 as [I3|[_ I3]]; nia).
  split; [|now split]. unfold inside. rewrite <- ET. destruct ab eqn:EA; [lia|]. split; [exact I1|].
  destruct I3 as [I3|[U I3]]; [exact I3|].
  destruct (Z.eq_dec (o * T * D) Vp) as [E|E]; [exfalso|lia].
  destruct HPQ as [[EP NP]|(EP & _ & [k Hk])].
  - destruct (Z.eq_dec r 0) as [->|NR].
    + subst T. unfold o in E. rewrite U in E. cbn [b2z] in E. rewrite Z.pow_0_r, Z.div_1_r in E. nia.
    + apply (NP eq_refl). exists (o * 10 ^ (r - 1)). rewrite <- E, ET.
      replace (10 ^ r) with (10 ^ (r - 1) * 10) by (rewrite <- p10_S by lia; f_equal; lia). ring.
  - rewrite Hk, Z.div_mul in EP by lia. nia.
Qed.

Lemma general_ok s : start s -> exists o r, d2d_general ab s = Some (o, r) /\
  inside o r /\ 0 < o < 100000000000000000 /\ 0 <= r <= 50.
Proof.
  intros St. pose proof (small_vp s St) as B. destruct St as [E1 E2 E3 E4 E5 E6].
  assert (HPP : d_vp s = Vp / D \/ (d_vp s = Vp / D - 1 /\ (D | Vp))) by tauto.
  destruct (pick_ranges D A Vm Vr Vp (d_vp s) HD HA HP HM ltac:(lia) HPP) as (R1 & R2 & R3 & R4 & R5).
  rewrite <- E2 in R4, R2. rewrite <- E1 in R1, R4, R5.
  unfold d2d_general.
  destruct (loop1_ok (d_vr s) (d_vp s) (d_vm s) ltac:(lia) (d_vmz s) 25 s 0) as (s1 & r1 & -> & C & L & Lr & X).
  - constructor; rewrite ?Z.pow_0_r, ?Z.div_1_r; auto; try lia.
    intros H. split; [assumption|]. exists (d_vm s). ring.
  - lia.
  - change (10 ^ (0 + Z.of_nat 25)) with (10 ^ 20 * 100000). lia.
  - pose proof (c_vr _ _ _ _ _ _ C) as V1. pose proof (c_vp _ _ _ _ _ _ C) as V2. pose proof (c_vm _ _ _ _ _ _ C) as V3.
    pose proof (c_r _ _ _ _ _ _ C) as Hr.
    assert (S17 : Vp < 100000000000000000 * 10 ^ r1 * D).
    { apply (seventeen (d_vp s) (d_vm s)); [assumption|assumption|assumption|]. now rewrite <- V2, <- V3. }
    destruct (d_vmz s1) eqn:EZ.
    + destruct (loop2_ok (d_vr s) (d_vp s) (d_vm s) (d_vmz s)) with (fuel := 25%nat) (s := s1) (r := r1)
        as (s2 & r2 & -> & C2 & EZ2 & L2); auto.
      * destruct (c_vmz _ _ _ _ _ _ C EZ) as [Z0 _]. destruct (E5 Z0) as [_ [k Hk]].
        rewrite E2, Hk, Z.div_mul by lia. nia.
      * assert (10 ^ 25 <= 10 ^ (r1 + Z.of_nat 25)) by (apply Z.pow_le_mono_r; lia).
        change (10 ^ 25) with (10 ^ 20 * 100000) in *. lia.
      * destruct C2 as [D0 D1 D2' D3 D4 D5 D6]. rewrite EZ2 in *. destruct (D5 eq_refl) as [Z0 [k Hk]].
        destruct (E5 Z0) as [Eab Hd]. rewrite Eab. cbn [negb orb]. rewrite andb_false_r. cbn [orb].
        set (up := 5 <=? _). set (T := 10 ^ r2) in *.
        assert (HT : 1 <= T) by (pose proof (p10_pos r2 D0); unfold T; lia).
        destruct (pick_B D A Vm Vr Vp (d_vp s) T HD HA HP HM ltac:(lia) HT HPP up) as (I1 & I2 & I3).
        -- rewrite <- E2, Hk, Z.div_mul by lia. destruct Hd as [k2 Hk2].
           rewrite Hk2, Z.div_mul in E2 by lia. rewrite Hk2. nia.
        -- assumption.
        -- intros U. rewrite <- E1. apply D6. subst up. revert U. destruct (_ && _ && _); [discriminate|]. lia.
        -- rewrite <- E1, <- D1 in I1, I2, I3. set (o := d_vr s2 + b2z up) in *.
           assert (Hlt : o < 100000000000000000).
           { apply (few_digits o T (10 ^ r1) D Vp); try assumption; try lia.
             apply Z.pow_le_mono_r; lia. }
           exists o, r2. rewrite D4. unfold u64. rewrite Z.mod_small by lia.
           split; [reflexivity|]. split; [unfold inside; rewrite Eab; fold T; lia|]. lia.
    + set (up := _ || _).
      assert (U1 : up = true -> d_vr s1 = d_vm s1 \/ 10 ^ r1 <= 2 * (d_vr s mod 10 ^ r1)).
      { intros U. unfold up in U. apply orb_true_iff in U. destruct U as [U|U].
        - apply andb_true_iff in U. left. lia.
        - right. apply (c_last _ _ _ _ _ _ C). revert U. destruct (_ && _ && _); [discriminate|]. lia. }
      assert (U2 : d_vr s1 = d_vm s1 -> up = true).
      { intros U. unfold up. rewrite U, Z.eqb_refl, EZ. cbn [negb andb]. rewrite orb_true_r. reflexivity. }
      clearbody up. rewrite V1, V3, E1, E2 in U1, U2. rewrite V2, V3, E2 in L.
      destruct (up_inside (d_vp s) (10 ^ r1) r1 up E6 Hr eq_refl L U2 U1) as (I1 & I2 & I3).
      rewrite <- E1, <- V1 in I1, I2, I3.
      exists (d_vr s1 + b2z up), r1. rewrite (c_rem _ _ _ _ _ _ C). unfold u64.
      assert (d_vr s1 + b2z up < 100000000000000000).
      { apply (few_digits _ (10 ^ r1) (10 ^ r1) D Vp); try assumption; try lia. }
      rewrite Z.mod_small by lia. split; [reflexivity|]. split; [exact I1|]. lia.
Qed.

Lemma common_ok s : start s -> exists o r, d2d_common s = Some (o, r) /\
  inside o r /\ 0 < o < 100000000000000000 /\ 0 <= r <= 50.
Proof.
  intros St. pose proof (small_vp s St) as B. destruct St as [E1 E2 E3 E4 E5 E6].
  assert (HPP : d_vp s = Vp / D \/ (d_vp s = Vp / D - 1 /\ (D | Vp))) by tauto.
  destruct (pick_ranges D A Vm Vr Vp (d_vp s) HD HA HP HM ltac:(lia) HPP) as (R1 & R2 & R3 & R4 & R5).
  rewrite <- E2 in R4, R2. rewrite <- E1 in R1, R4, R5.
  unfold d2d_common. cbn [d_vr d_vp d_vm d_vmz d_vrz d_last d_removed].
  set (s0 := if d_vm s / 100 <? d_vp s / 100 then _ else _).
  assert (H0 : exists r0, 0 <= r0 <= 2 /\ cut3 (d_vr s) (d_vp s) (d_vm s) s0 r0 /\ d_vm s0 < d_vp s0).
  { unfold s0. destruct (Z.ltb_spec (d_vm s / 100) (d_vp s / 100)) as [L|L].
    - exists 2. split; [lia|]. split; [|exact L].
      constructor; cbn [d_vr d_vp d_vm d_vmz d_vrz d_last d_removed]; try reflexivity; try lia.
      change (10 ^ 2) with 100. rewrite mod32_mod by lia. lia.
    - exists 0. split; [lia|]. split; [|cbn; lia].
      constructor; cbn [d_vr d_vp d_vm d_vmz d_vrz d_last d_removed]; rewrite ?Z.pow_0_r, ?Z.div_1_r; try reflexivity; try lia. }
  clearbody s0. destruct H0 as (r0 & Lr0 & C0 & L0).
  destruct (loop3_ok (d_vr s) (d_vp s) (d_vm s) ltac:(lia) 25 s0 r0) as (s1 & r1 & -> & C & L & Lr & X).
  - assumption.
  - assumption.
  - assert (10 ^ 25 <= 10 ^ (r0 + Z.of_nat 25)) by (apply Z.pow_le_mono_r; lia).
    change (10 ^ 25) with (10 ^ 20 * 100000) in *. lia.
  - destruct C as [Hr V1 V2 V3 V4 V5].
    assert (S17 : Vp < 100000000000000000 * 10 ^ r1 * D).
    { apply (seventeen (d_vp s) (d_vm s)); [assumption|assumption|assumption|]. now rewrite <- V2, <- V3. }
    set (up := _ || _).
    assert (U1 : up = true -> d_vr s1 = d_vm s1 \/ 10 ^ r1 <= 2 * (d_vr s mod 10 ^ r1)).
    { intros U. unfold up in U. apply orb_true_iff in U. destruct U as [U|U]; [left; lia|right; now apply V5]. }
    assert (U2 : d_vr s1 = d_vm s1 -> up = true).
    { intros U. unfold up. rewrite U, Z.eqb_refl. reflexivity. }
    clearbody up. rewrite V1, V3, E1, E2 in U1, U2. rewrite V2, V3, E2 in L.
    destruct (up_inside (d_vp s) (10 ^ r1) r1 up E6 Hr eq_refl L U2 U1) as (I1 & I2 & I3).
    rewrite <- E1, <- V1 in I1, I2, I3.
    exists (d_vr s1 + b2z up), r1. rewrite V4. unfold u64.
    assert (d_vr s1 + b2z up < 100000000000000000).
    { apply (few_digits _ (10 ^ r1) (10 ^ r1) D Vp); try assumption; try lia. }
    rewrite Z.mod_small by lia. split; [reflexivity|]. split; [exact I1|]. lia.
Qed.
End step4.
