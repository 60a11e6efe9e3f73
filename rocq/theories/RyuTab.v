(** * The tables of tg.c's Ryu code are precise enough

    For every exponent of a double, multiplying a number up to 2^55 by the table
    entry and shifting gives exactly the quotient the entry stands for.  The
    entry is only an approximation, so this needs that no multiple of the exact
    ratio comes too close to an integer; that is checked with two neighbouring
    fractions on both sides of the ratio. *)

From Coq Require Import ZArith Bool List Lia ZifyBool.
From Verif Require Import F64 Num Pow5Tab.
Import ListNotations.
Local Open Scope Z_scope.

Definition NMAX : Z := 36028797018963968.

(** ** Neighbouring fractions *)

Section neighbours.
Variables A D N q1 p1 q2 p2 : Z.
Hypothesis Q1 : 0 < q1.
Hypothesis Q2 : 0 < q2.
Hypothesis QN : N < q1 + q2.
Hypothesis DET : q1 * p2 - q2 * p1 = 1 \/ q1 * p2 - q2 * p1 = -1.
Hypothesis T1 : q1 * A - p1 * D < 0.
Hypothesis T2 : 0 < q2 * A - p2 * D.

Lemma combination n m : exists a b, n = a * q1 + b * q2 /\ m = a * p1 + b * p2.
Proof.
  set (d := q1 * p2 - q2 * p1) in *.
  exists (d * (n * p2 - q2 * m)), (d * (q1 * m - p1 * n)).
  assert (dd : d * d = 1) by (destruct DET as [-> | ->]; reflexivity).
  split.
  - replace (d * (n * p2 - q2 * m) * q1 + d * (q1 * m - p1 * n) * q2) with (d * d * n) by (unfold d; ring).
    rewrite dd. ring.
  - replace (d * (n * p2 - q2 * m) * p1 + d * (q1 * m - p1 * n) * p2) with (d * d * m) by (unfold d; ring).
    rewrite dd. ring.
Qed.

Lemma above n m : 0 < n <= N -> n * A - m * D < 0 -> p1 * D - q1 * A <= m * D - n * A.
Proof.
  intros Hn H. destruct (combination n m) as (a & b & -> & ->).
  set (t1 := q1 * A - p1 * D) in *. set (t2 := q2 * A - p2 * D) in *.
  replace (p1 * D - q1 * A) with (- t1) by (unfold t1; ring).
  replace ((a * p1 + b * p2) * D - (a * q1 + b * q2) * A) with (- (a * t1 + b * t2)) by (unfold t1, t2; ring).
  replace ((a * q1 + b * q2) * A - (a * p1 + b * p2) * D) with (a * t1 + b * t2) in H by (unfold t1, t2; ring).
  clearbody t1 t2. clear DET.
  destruct (Z.le_gt_cases a 0) as [Ha|Ha].
  - exfalso. assert (0 <= a * t1) by nia. assert (b < 0) by nia. nia.
  - destruct (Z.le_gt_cases b 0) as [Hb|Hb]; [nia|exfalso; nia].
Qed.

Lemma below n m : 0 < n <= N -> 0 <= n * A - m * D -> q2 * A - p2 * D <= n * A - m * D.
Proof.
  intros Hn H. destruct (combination n m) as (a & b & -> & ->).
  set (t1 := q1 * A - p1 * D) in *. set (t2 := q2 * A - p2 * D) in *.
  replace ((a * q1 + b * q2) * A - (a * p1 + b * p2) * D) with (a * t1 + b * t2) in * by (unfold t1, t2; ring).
  clearbody t1 t2. clear DET.
  destruct (Z.le_gt_cases b 0) as [Hb|Hb].
  - exfalso. assert (b * t2 <= 0) by nia. assert (a <= 0) by nia. nia.
  - destruct (Z.le_gt_cases a 0) as [Ha|Ha]; [nia|exfalso; nia].
Qed.
End neighbours.

(** ** Approximate multiplication *)

(** the entry is a little too large *)
Lemma mul_over A D mul S n t : 0 < D -> 0 < S -> 0 < n <= NMAX ->
  0 <= mul * D - A * S -> NMAX * (mul * D - A * S) < t * S ->
  (forall m, n * A - m * D < 0 -> t <= m * D - n * A) ->
  n * mul / S = n * A / D.
Proof.
  intros HD HS Hn He Ht Hm. set (f := n * A / D).
  pose proof (Z.mul_div_le (n * A) D HD) as F1. pose proof (Z.mul_succ_div_gt (n * A) D HD) as F2.
  fold f in F1, F2.
  assert (F3 : t <= (f + 1) * D - n * A) by (apply Hm; lia).
  set (eps := mul * D - A * S) in *.
  assert (E : n * mul * D = n * A * S + n * eps) by (unfold eps; ring).
  clearbody eps f. clear Hm.
  symmetry. apply Z.div_unique with (n * mul - S * f); [|ring]. left.
  assert (n * eps <= NMAX * eps) by nia.
  assert (t * S <= ((f + 1) * D - n * A) * S) by nia.
  assert (D * (f * S) <= D * (n * mul)) by nia.
  assert (D * (n * mul) < D * ((f + 1) * S)) by nia.
  split; nia.
Qed.

(** the entry is a little too small *)
Lemma mul_under A D mul S n t : 0 < D -> 0 < S -> 0 < n <= NMAX ->
  0 <= A * S - mul * D -> NMAX * (A * S - mul * D) <= t * S ->
  (forall m, 0 <= n * A - m * D -> t <= n * A - m * D) ->
  n * mul / S = n * A / D.
Proof.
  intros HD HS Hn He Ht Hm. set (f := n * A / D).
  pose proof (Z.mul_div_le (n * A) D HD) as F1. pose proof (Z.mul_succ_div_gt (n * A) D HD) as F2.
  fold f in F1, F2.
  assert (F3 : t <= n * A - f * D) by (apply Hm; lia).
  set (eps := A * S - mul * D) in *.
  assert (E : n * mul * D = n * A * S - n * eps) by (unfold eps; ring).
  clearbody eps f. clear Hm.
  symmetry. apply Z.div_unique with (n * mul - S * f); [|ring]. left.
  assert (n * eps <= NMAX * eps) by nia. assert (0 <= n * eps) by nia.
  assert (t * S <= (n * A - f * D) * S) by nia.
  assert (D * (f * S) <= D * (n * mul)) by nia.
  assert (n * A * S < (f + 1) * D * S) by nia.
  assert (D * (n * mul) < D * ((f + 1) * S)) by nia.
  split; nia.
Qed.

(** ** The check of one exponent *)

(** quotient and remainder; most quotients are small *)
Fixpoint quo (k : nat) (a b t : Z) : Z * Z :=
  match k with
  | O => let (d, m) := Z.div_eucl a b in (t + d, m)
  | S k => if a <? b then (t, a) else quo k (a - b) b (t + 1)
  end.
(** Farey neighbours of a/b with denominators up to [NMAX] *)
Fixpoint farey (fuel : nat) (a b p0 q0 p1 q1 : Z) : Z * Z * (Z * Z) :=
  match fuel with
  | O => (q0, p0, (q1, p1))
  | S k =>
      if b =? 0 then (q0, p0, (q1, p1)) else
      let (t, r) := quo 20 a b 0 in
      let q2 := t * q1 + q0 in
      if NMAX <? q2 then
        let t := (NMAX - q0) / q1 in (q0 + t * q1, p0 + t * p1, (q1, p1))
      else farey k b r p1 q1 (t * p1 + p0) q2
  end.
(** the neighbours of mul/S, the smaller one last *)
Definition neighbours (mul S : Z) : Z * Z * (Z * Z) :=
  let '(q0, p0, (q1, p1)) := farey 200 S (mul mod S) 1 0 (mul / S) 1 in
  if q0 * mul - p0 * S <? 0 then (q0, p0, (q1, p1)) else (q1, p1, (q0, p0)).

Definition good_pair (A D q1 p1 q2 p2 : Z) : bool :=
  (0 <? q1) && (0 <? q2) && (NMAX <? q1 + q2) &&
  ((q1 * p2 - q2 * p1 =? 1) || (q1 * p2 - q2 * p1 =? -1)) && (q1 * A - p1 * D <? 0) && (0 <? q2 * A - p2 * D).

(** the last argument is the pair of neighbours to be tried *)
Definition chk_over (mul S A D : Z) (c : Z * Z * (Z * Z)) : bool :=
  let eps := mul * D - A * S in
  (0 <=? eps) &&
  (if NMAX * eps <? S then true else
   let '(q1, p1, (q2, p2)) := c in
   if (NMAX <? q2 * mul - p2 * S) && (eps <=? D) then good_pair mul S q1 p1 q2 p2
   else good_pair A D q1 p1 q2 p2 && (NMAX * eps <? (p1 * D - q1 * A) * S)).

Definition chk_under (mul S A D : Z) (c : Z * Z * (Z * Z)) : bool :=
  let eps := A * S - mul * D in
  (0 <=? eps) &&
  (if eps =? 0 then true else
   let '(q1, p1, (q2, p2)) := c in
   (eps <=? D) && good_pair mul S q1 p1 q2 p2 && (NMAX <? p1 * S - q1 * mul)).

(** no multiple of mul/S up to [NMAX] comes within NMAX/S of an integer from
    above (from below), so the error of the entry does not matter *)
Lemma far_over A D mul S n : 0 < D -> 0 < S -> 0 < n <= NMAX -> 0 <= mul * D - A * S <= D ->
  (forall m, 0 <= n * mul - m * S -> NMAX < n * mul - m * S) -> n * mul / S = n * A / D.
Proof.
  intros HD HS Hn He H. set (f := n * mul / S).
  pose proof (Z.mul_div_le (n * mul) S HS) as F1. pose proof (Z.mul_succ_div_gt (n * mul) S HS) as F2.
  fold f in F1, F2. specialize (H f ltac:(lia)).
  set (eps := mul * D - A * S) in *. set (r := n * mul - f * S) in *.
  assert (E : n * A * S = D * (f * S) + D * r - n * eps) by (unfold eps, r; ring).
  assert (E2 : n * A * S = D * (n * mul) - n * eps) by (unfold eps; ring).
  assert (L1 : n * eps <= n * D) by (apply Z.mul_le_mono_nonneg_l; lia).
  assert (L2 : D * n <= D * r) by (apply Z.mul_le_mono_nonneg_l; lia).
  assert (L3 : 0 <= n * eps) by (apply Z.mul_nonneg_nonneg; lia).
  assert (L4 : D * (n * mul) < D * (S * Z.succ f)) by (apply Z.mul_lt_mono_pos_l; lia).
  apply Z.div_unique with (n * A - D * f); [|ring]. left.
  assert (G1 : S * (D * f) <= S * (n * A)) by (clear - E L1 L2; lia).
  assert (G2 : S * (n * A) < S * (D * Z.succ f)) by (clear - E2 L3 L4; lia).
  apply Z.mul_le_mono_pos_l in G1; [|lia]. apply Z.mul_lt_mono_pos_l in G2; [|lia]. lia.
Qed.
Lemma far_under A D mul S n : 0 < D -> 0 < S -> 0 < n <= NMAX -> 0 <= A * S - mul * D <= D ->
  (forall m, n * mul - m * S < 0 -> NMAX < m * S - n * mul) -> n * mul / S = n * A / D.
Proof.
  intros HD HS Hn He H. set (f := n * mul / S).
  pose proof (Z.mul_div_le (n * mul) S HS) as F1. pose proof (Z.mul_succ_div_gt (n * mul) S HS) as F2.
  fold f in F1, F2. specialize (H (f + 1) ltac:(lia)).
  set (eps := A * S - mul * D) in *. set (r := (f + 1) * S - n * mul) in *.
  assert (E : n * A * S = D * ((f + 1) * S) - D * r + n * eps) by (unfold eps, r; ring).
  assert (E2 : n * A * S = D * (n * mul) + n * eps) by (unfold eps; ring).
  assert (L1 : n * eps <= n * D) by (apply Z.mul_le_mono_nonneg_l; lia).
  assert (L2 : D * n < D * r) by (apply Z.mul_lt_mono_pos_l; lia).
  assert (L3 : 0 <= n * eps) by (apply Z.mul_nonneg_nonneg; lia).
  assert (L4 : D * (S * f) <= D * (n * mul)) by (apply Z.mul_le_mono_nonneg_l; lia).
  apply Z.div_unique with (n * A - D * f); [|ring]. left.
  assert (G1 : S * (D * f) <= S * (n * A)) by (clear - E2 L3 L4; lia).
  assert (G2 : S * (n * A) < S * (D * (f + 1))) by (clear - E L1 L2; lia).
  apply Z.mul_le_mono_pos_l in G1; [|lia]. apply Z.mul_lt_mono_pos_l in G2; [|lia]. lia.
Qed.

Lemma chk_over_ok mul S A D c n : 0 < D -> 0 < S -> chk_over mul S A D c = true -> 0 < n <= NMAX ->
  n * mul / S = n * A / D.
Proof.
  intros HD HS H Hn. unfold chk_over in H. cbv zeta in H. apply andb_true_iff in H. destruct H as [H0 H].
  destruct (NMAX * _ <? S) eqn:E.
  - clear H. rename E into H. apply (mul_over A D mul S n 1); try assumption; try lia.
  - destruct c as [[q1 p1] [q2 p2]]. destruct ((NMAX <? _) && _) eqn:F.
    + apply andb_true_iff in F. destruct F as [F1 F2]. unfold good_pair in H.
      repeat (apply andb_true_iff in H; destruct H as [H ?]).
      apply far_over; try assumption; try lia.
      intros m Hm. pose proof (below mul S NMAX q1 p1 q2 p2 ltac:(lia) ltac:(lia) ltac:(lia) ltac:(lia) ltac:(lia) ltac:(lia) n m Hn Hm). lia.
    + apply andb_true_iff in H. destruct H as [H HE]. unfold good_pair in H.
      repeat (apply andb_true_iff in H; destruct H as [H ?]).
      apply (mul_over A D mul S n (p1 * D - q1 * A)); try assumption; try lia.
      intros m. apply (above A D NMAX q1 p1 q2 p2); lia.
Qed.

Lemma chk_under_ok mul S A D c n : 0 < D -> 0 < S -> chk_under mul S A D c = true -> 0 < n <= NMAX ->
  n * mul / S = n * A / D.
Proof.
  intros HD HS H Hn. unfold chk_under in H. cbv zeta in H. apply andb_true_iff in H. destruct H as [H0 H].
  destruct (_ =? 0) eqn:E.
  - clear H. rename E into H. apply (mul_under A D mul S n 0); try assumption; try lia.
    apply Z.eqb_eq in H. rewrite H. lia.
  - destruct c as [[q1 p1] [q2 p2]]. unfold good_pair in H.
    repeat (apply andb_true_iff in H; destruct H as [H ?]).
    apply far_under; try assumption; try lia.
    intros m Hm. pose proof (above mul S NMAX q1 p1 q2 p2 ltac:(lia) ltac:(lia) ltac:(lia) ltac:(lia) ltac:(lia) ltac:(lia) n m Hn Hm). lia.
Qed.

(** ** The rows of the tables *)

(** q, the table entry and the shift for e2 >= 0 *)
Definition row_pos (e2 : Z) : option (Z * (Z * Z) * Z) :=
  match log10Pow2 e2 with
  | None => None
  | Some l =>
      let q := u32 (l - b2z (3 <? e2)) in
      match pow5bits q, nth_error DOUBLE_POW5_INV_SPLIT (Z.to_nat q) with
      | Some b, Some mul => Some (q, mul, - e2 + q + (125 + b - 1))
      | _, _ => None
      end
  end.
(** ... and for e2 < 0 *)
Definition row_neg (e2 : Z) : option (Z * (Z * Z) * Z) :=
  match log10Pow5 (- e2) with
  | None => None
  | Some l =>
      let q := u32 (l - b2z (1 <? - e2)) in
      let i := - e2 - q in
      match pow5bits i, nth_error DOUBLE_POW5_SPLIT (Z.to_nat i) with
      | Some b, Some mul => Some (q, mul, q - (b - 125))
      | _, _ => None
      end
  end.

Definition word (x : Z) : bool := (0 <=? x) && (x <? 2 ^ 64).
(** the cheap part of the check *)
Definition chk_size (mul : Z * Z) (j A D : Z) : bool :=
  word (fst mul) && word (snd mul) && (64 <=? j) && (j <? 192) &&
  (D <=? A) && (NMAX * A <? 2 ^ 64 * D - D).

(** what is to be shown of a row *)
Definition exact_row (mul : Z * Z) (j A D : Z) : Prop :=
  forall n, 0 < n <= NMAX -> n * (fst mul + snd mul * 2 ^ 64) / 2 ^ j = n * A / D.
Definition good_row (mul : Z * Z) (j A D : Z) : Prop := chk_size mul j A D = true /\ exact_row mul j A D.

(** The rows of one power of five differ by a factor of two only: from the row
    with the shift [j] follow those with larger shifts. *)
Lemma exact_half mul j A D : 0 < D -> 0 <= j -> exact_row mul j (2 * A) D -> exact_row mul (j + 1) A D.
Proof.
  intros HD Hj H n Hn. rewrite Z.pow_add_r, <- Z.div_div by (try lia; apply Z.pow_pos_nonneg; lia).
  rewrite H by assumption. change (2 ^ 1) with 2. rewrite Z.div_div by lia.
  replace (n * (2 * A)) with (n * A * 2) by ring. apply Z.div_mul_cancel_r; lia.
Qed.
Lemma exact_twice mul j A D : 0 < D -> 0 <= j -> exact_row mul j A D -> exact_row mul (j + 1) A (2 * D).
Proof.
  intros HD Hj H n Hn. rewrite Z.pow_add_r, <- Z.div_div by (try lia; apply Z.pow_pos_nonneg; lia).
  rewrite H by assumption. change (2 ^ 1) with 2. rewrite Z.div_div by lia. f_equal. ring.
Qed.

(** ** Exponents from 0 on, in increasing order; [P] is 5^q *)

Definition same_q (r : option (Z * (Z * Z) * Z)) (q : Z) : bool :=
  match r with Some (q', _, _) => q' =? q | None => false end.
Fixpoint walk_pos (cs : list (Z * Z * (Z * Z))) (k : nat) (e2 q P : Z) : bool :=
  match k with
  | O => true
  | S k =>
      match row_pos e2 with
      | Some (q', mul, j) =>
          let P' := if q' =? q then P else 5 * P in
          let old := match k with O => false | S _ => same_q (row_pos (e2 + 1)) q' end in
          ((q' =? q) || (q' =? q + 1)) && (0 <=? q') && (q' <=? e2) && (q' <=? 400) &&
          (let A := 2 ^ (e2 - q') in
           chk_size mul j A P' &&
           (if old then true
            else chk_over (fst mul + snd mul * 2 ^ 64) (2 ^ j) A P' (hd (0, 0, (0, 0)) cs))) &&
          walk_pos (if old then cs else tl cs) k (e2 + 1) q' P'
      | None => false
      end
  end.

Definition fine_pos (e2 : Z) : Prop :=
  exists q mul j, row_pos e2 = Some (q, mul, j) /\ 0 <= q <= e2 /\ q <= 400 /\ good_row mul j (2 ^ (e2 - q)) (5 ^ q).

Lemma row_pos_next e2 q mul j mul' j' : row_pos e2 = Some (q, mul, j) -> row_pos (e2 + 1) = Some (q, mul', j') ->
  mul' = mul /\ j = j' + 1.
Proof.
  unfold row_pos. destruct (log10Pow2 e2) as [l|]; [|discriminate]. destruct (log10Pow2 (e2 + 1)) as [l'|]; [|discriminate].
  cbv zeta. set (a := u32 (l - _)). set (b := u32 (l' - _)). clearbody a b.
  destruct (pow5bits a) as [x|] eqn:PA; [|discriminate]. destruct (nth_error _ (Z.to_nat a)) as [m|] eqn:NA; [|discriminate].
  intros E. injection E as -> -> <-.
  destruct (pow5bits b) as [y|] eqn:PB; [|discriminate]. destruct (nth_error _ (Z.to_nat b)) as [m'|] eqn:NB; [|discriminate].
  intros E. injection E as -> -> <-. rewrite PA in PB. rewrite NA in NB. injection PB as <-. injection NB as <-. split; [reflexivity|lia].
Qed.

Lemma walk_pos_ok k : forall cs e2 q P, P = 5 ^ q -> 0 <= q -> walk_pos cs k e2 q P = true ->
  forall e, e2 <= e < e2 + Z.of_nat k -> fine_pos e.
Proof.
  induction k as [|k IH]; intros cs e2 q P EP Hq W e He; [lia|].
  cbn [walk_pos] in W. destruct (row_pos e2) as [[[q' mul] j]|] eqn:R; [|discriminate]. cbv zeta in W.
  set (P' := if q' =? q then P else 5 * P) in *.
  rewrite !andb_true_iff in W. destruct W as (((((QQ & Q0) & Q1) & Q2) & (SZ & C)) & W).
  assert (EP' : P' = 5 ^ q').
  { unfold P'. destruct (q' =? q) eqn:E; [apply Z.eqb_eq in E; now subst|].
    assert (q' = q + 1) as -> by lia. rewrite Z.pow_add_r by lia. rewrite EP. change (5 ^ 1) with 5. ring. }
  clearbody P'. subst P'. specialize (IH _ (e2 + 1) q' _ eq_refl ltac:(lia) W).
  destruct (Z.eq_dec e e2) as [->|NE]; [|apply IH; lia].
  exists q', mul, j. split; [exact R|]. split; [lia|]. split; [lia|]. split; [exact SZ|].
  assert (HD : 0 < 5 ^ q') by (apply Z.pow_pos_nonneg; lia).
  assert (J : 64 <= j) by (unfold chk_size in SZ; lia).
  destruct (match k with O => false | S _ => same_q (row_pos (e2 + 1)) q' end) eqn:T.
  - destruct k as [|k]; [discriminate|].
    destruct (IH (e2 + 1)) as (q2 & mul2 & j2 & R2 & _ & _ & (SZ2 & X)); [lia|].
    rewrite R2 in T. cbn [same_q] in T. apply Z.eqb_eq in T. subst q2.
    destruct (row_pos_next _ _ _ _ _ _ R R2) as [-> ->].
    apply exact_half; [exact HD|unfold chk_size in SZ2; lia|].
    replace (2 * 2 ^ (e2 - q')) with (2 ^ (e2 + 1 - q')); [exact X|].
    replace (e2 + 1 - q') with (1 + (e2 - q')) by lia. rewrite Z.pow_add_r by lia. reflexivity.
  - intros n Hn. eapply chk_over_ok; [exact HD|apply Z.pow_pos_nonneg; lia|exact C|exact Hn].
Qed.

(** ** Exponents -1, -2, ...; [P] is 5^i *)

Fixpoint walk_neg (cs : list (Z * Z * (Z * Z))) (k : nat) (a i P : Z) : bool :=
  match k with
  | O => true
  | S k =>
      match row_neg (- a) with
      | Some (q, mul, j) =>
          let i' := a - q in
          let P' := if i' =? i then P else 5 * P in
          let old := (1 <? a) && (i' =? i) in
          ((i' =? i) || (i' =? i + 1)) && (0 <=? q) && (q <=? a) && (i' <=? 400) &&
          (let D := 2 ^ q in
           chk_size mul j P' D &&
           (if old then true
            else chk_under (fst mul + snd mul * 2 ^ 64) (2 ^ j) P' D (hd (0, 0, (0, 0)) cs))) &&
          walk_neg (if old then cs else tl cs) k (a + 1) i' P'
      | None => false
      end
  end.

Definition fine_neg (e2 : Z) : Prop :=
  exists q mul j, row_neg e2 = Some (q, mul, j) /\ 0 <= q <= - e2 /\ - e2 - q <= 400 /\
    good_row mul j (5 ^ (- e2 - q)) (2 ^ q).

Lemma row_neg_next a q mul j q' mul' j' : row_neg (- a) = Some (q, mul, j) -> row_neg (- (a + 1)) = Some (q', mul', j') ->
  a + 1 - q' = a - q -> mul' = mul /\ j' = j + 1.
Proof.
  unfold row_neg. rewrite !Z.opp_involutive. destruct (log10Pow5 a) as [l|]; [|discriminate].
  destruct (log10Pow5 (a + 1)) as [l'|]; [|discriminate].
  cbv zeta. set (x := u32 (l - _)). set (y := u32 (l' - _)). clearbody x y.
  destruct (pow5bits (a - x)) as [u|] eqn:PA; [|discriminate]. destruct (nth_error _ (Z.to_nat (a - x))) as [m|] eqn:NA; [|discriminate].
  intros E. injection E as -> -> <-.
  destruct (pow5bits (a + 1 - y)) as [v|] eqn:PB; [|discriminate]. destruct (nth_error _ (Z.to_nat (a + 1 - y))) as [m'|] eqn:NB; [|discriminate].
  intros E. injection E as -> -> <-. intros E. rewrite E in PB, NB. rewrite PA in PB. rewrite NA in NB.
  injection PB as <-. injection NB as <-. split; [reflexivity|lia].
Qed.

Lemma walk_neg_ok k : forall cs a i P, P = 5 ^ i -> 0 <= i -> 1 <= a ->
  (1 < a -> exists q mul j, row_neg (- (a - 1)) = Some (q, mul, j) /\ a - 1 - q = i /\ 0 <= q /\ 64 <= j /\
     exact_row mul j (5 ^ i) (2 ^ q)) ->
  walk_neg cs k a i P = true -> forall b, a <= b < a + Z.of_nat k -> fine_neg (- b).
Proof.
  induction k as [|k IH]; intros cs a i P EP Hi Ha OLD W b Hb; [lia|].
  cbn [walk_neg] in W. destruct (row_neg (- a)) as [[[q mul] j]|] eqn:R; [|discriminate]. cbv zeta in W.
  set (P' := if a - q =? i then P else 5 * P) in *.
  rewrite !andb_true_iff in W. destruct W as (((((QQ & Q0) & Q1) & Q2) & (SZ & C)) & W).
  assert (EP' : P' = 5 ^ (a - q)).
  { unfold P'. destruct (a - q =? i) eqn:E; [apply Z.eqb_eq in E; now rewrite E|].
    assert (a - q = i + 1) as -> by lia. rewrite Z.pow_add_r by lia. rewrite EP. change (5 ^ 1) with 5. ring. }
  clearbody P'. subst P'.
  assert (HD : 0 < 2 ^ q) by (apply Z.pow_pos_nonneg; lia).
  assert (J : 64 <= j) by (unfold chk_size in SZ; lia).
  assert (X : exact_row mul j (5 ^ (a - q)) (2 ^ q)).
  { destruct ((1 <? a) && (a - q =? i)) eqn:T.
    - destruct OLD as (q0 & mul0 & j0 & R0 & E0 & G0 & J0 & X0); [lia|].
      replace a with (a - 1 + 1) in R by lia.
      destruct (row_neg_next _ _ _ _ _ _ _ R0 R) as [-> ->]; [lia|].
      assert (q = q0 + 1) as -> by lia. replace (a - (q0 + 1)) with i by lia.
      rewrite Z.pow_add_r, Z.mul_comm by lia. apply exact_twice; [apply Z.pow_pos_nonneg; lia|lia|exact X0].
    - intros n Hn. eapply chk_under_ok; [exact HD|apply Z.pow_pos_nonneg; lia|exact C|exact Hn]. }
  destruct (Z.eq_dec b a) as [->|NE].
  - exists q, mul, j. split; [exact R|]. rewrite Z.opp_involutive. split; [lia|]. split; [lia|]. split; [exact SZ|exact X].
  - apply (IH (if (1 <? a) && (a - q =? i) then cs else tl cs) (a + 1) (a - q) _ eq_refl); [lia|lia| |exact W|lia].
    intros _. exists q, mul, j. replace (a + 1 - 1) with a by lia. split; [exact R|]. split; [lia|]. split; [lia|]. split; [lia|exact X].
Qed.

(** ** All exponents *)

(** the neighbours, computed once, for the rows that are checked in full *)
Definition cert (r : option (Z * (Z * Z) * Z)) : Z * Z * (Z * Z) :=
  match r with Some (_, mul, j) => neighbours (fst mul + snd mul * 2 ^ 64) (2 ^ j) | None => (0, 0, (0, 0)) end.
Definition part (r : option (Z * (Z * Z) * Z)) : Z := match r with Some (q, _, _) => q | None => -1 end.
Definition certs_pos : list (Z * Z * (Z * Z)) := Eval vm_compute in
  map (fun e => cert (row_pos e))
    (filter (fun e => negb (same_q (row_pos (e + 1)) (part (row_pos e))) || (e =? 969)) (map Z.of_nat (seq 0 970))).
Definition certs_neg : list (Z * Z * (Z * Z)) := Eval vm_compute in
  map (fun a => cert (row_neg (- a)))
    (filter (fun a => negb (same_q (row_neg (- (a - 1))) (part (row_neg (- a)) - 1)) || (a =? 1)) (map Z.of_nat (seq 1 1076))).

Lemma all_pos e2 : 0 <= e2 < 970 -> fine_pos e2.
Proof.
  assert (W : walk_pos certs_pos 970 0 0 1 = true) by (vm_compute; reflexivity).
  intros H. exact (walk_pos_ok 970 certs_pos 0 0 1 eq_refl ltac:(lia) W e2 H).
Qed.
Lemma all_neg e2 : -1076 <= e2 < 0 -> fine_neg e2.
Proof.
  assert (W : walk_neg certs_neg 1076 1 0 1 = true) by (vm_compute; reflexivity).
  intros H. replace e2 with (- - e2) by lia.
  apply (walk_neg_ok 1076 certs_neg 1 0 1 eq_refl); [lia|lia|lia|exact W|lia].
Qed.
