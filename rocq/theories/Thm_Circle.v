(** * Circles (C58) *)

From Coq Require Import ZArith Bool List Lia ZifyBool Reals Lra PeanoNat.
From Flocq Require Import Core BinarySingleNaN.
From Verif Require Import F64 Geo Series RingApi F64Order F64Real F64Mono StripeFacts Circle CircleFacts CircleJump.
Import ListNotations.
Local Open Scope Z_scope.

(** the radius that counts: negative ones are taken for zero *)
Definition used_radius (r : f64) : f64 := if flt r f_zero then f_zero else r.

(** the point that the C library's functions put at the angle t (in degrees) *)
Definition point_at (cs sn : f64 -> f64) (c : pt) (r t : f64) (p : pt) : Prop :=
  px p = fadd (px c) (fmul r (cs (fmul (fdiv f_pi (f_of_Z 180)) t))) /\
  py p = fadd (py c) (fmul r (sn (fmul (fdiv f_pi (f_of_Z 180)) t))).

(** ps are the points of a circle drawn with n of them: n - 1 around the
    center at equal angles, up to 2^-18 degrees, and the first one again *)
Definition circle_points (cs sn : f64 -> f64) (c : pt) (r : f64) (n : Z) (ps : list pt) : Prop :=
  Z.of_nat (length ps) = n /\
  (forall d, nth (length ps - 1) ps d = nth 0 ps d) /\
  forall i, Z.of_nat i < n - 1 -> exists t p, nth_error ps i = Some p /\ point_at cs sn c r t p /\ fin t /\
    (Rabs (RV t - 360 * IZR (Z.of_nat i) / IZR (n - 1)) <= / 262144)%R.

Lemma angle_list n cs sn c r k : 3 <= n <= 67108864 -> Z.of_nat k = n ->
  let ps := map (circle_point cs sn c r) (angles (fdiv f_360 (f_of_Z n)) k f_zero) in
  circle_points cs sn c r (n + 1) (ps ++ firstn 1 ps).
Proof.
  intros N K ps. assert (LP : length ps = k) by (unfold ps; now rewrite map_length, angles_length).
  assert (L1 : length (firstn 1 ps) = 1%nat) by (rewrite firstn_length; lia).
  split; [rewrite app_length; lia|]. split.
  { intros d. rewrite app_length, L1, LP, app_nth2, app_nth1 by lia. rewrite LP.
    replace (k + 1 - 1 - k)%nat with 0%nat by lia. destruct ps; [cbn in LP; lia|reflexivity]. }
  intros i I. replace (n + 1 - 1) with n in * by lia.
  destruct (turned_near n i N ltac:(lia)) as [F E].
  exists (turned (fdiv f_360 (f_of_Z n)) i f_zero), (circle_point cs sn c r (turned (fdiv f_360 (f_of_Z n)) i f_zero)).
  split.
  { rewrite nth_error_app1 by lia. unfold ps. apply map_nth_error. unfold angles.
    apply (map_nth_error (fun j => turned (fdiv f_360 (f_of_Z n)) j f_zero)).
    rewrite (nth_error_nth' _ 0%nat) by (rewrite seq_length; lia). rewrite seq_nth by lia. reflexivity. }
  split; [split; reflexivity|]. split; [exact F|]. eapply Rle_trans; [exact E|].
  rewrite half_val. assert (IZR (Z.of_nat i) <= 67108864)%R by (apply IZR_le; lia). lra.
Qed.

(** Full statement: for every int steps the circle is drawn within the memory
    that was asked for, of max(steps, 4) points at equal angles.  It is false,
    see C58_refuted.  Proved: up to 2^26 + 1 steps, for any center and radius,
    whatever cos and sin return. *)
Theorem C58_circle_partial :
  forall cs sn e c radius steps ix, -2147483648 < steps <= 67108865 ->
    exists ps, circle_points cs sn c (used_radius radius) (Z.max 4 steps) ps /\
      exists enough, forall fuel, (enough <= fuel)%nat ->
        tg_circle_new_ix fuel cs sn e c radius steps ix = CircRing (series_new_ix e ps true ix).
Proof.
  intros cs sn e c radius steps ix ST.
  set (n := if steps - 1 <? 3 then 3 else steps - 1).
  assert (N : 3 <= n <= 67108864) by (unfold n; destruct (Z.ltb_spec (steps - 1) 3); lia).
  assert (EN : Z.max 4 steps = n + 1) by (unfold n; destruct (Z.ltb_spec (steps - 1) 3); lia).
  set (inc := fdiv f_360 (f_of_Z n)). set (r := used_radius radius).
  set (ps := map (circle_point cs sn c r) (angles inc (Z.to_nat n) f_zero)).
  exists (ps ++ firstn 1 ps). split.
  { rewrite EN. apply (angle_list n cs sn c r (Z.to_nat n)); [exact N|lia]. }
  exists (Z.to_nat n + 1)%nat. intros fuel FU. unfold tg_circle_new_ix.
  destruct (Z.leb_spec steps (-2147483648)); [lia|]. cbv zeta. fold n. fold inc. change (if flt radius f_zero then f_zero else radius) with r.
  destruct (turned_ends n N) as [LO HI]. fold inc in LO, HI.
  assert (LP : length ps = Z.to_nat n) by (unfold ps; now rewrite map_length, angles_length).
  assert (LOOP : circle_loop fuel cs sn c r inc n f_zero 0 [] = Fill n (rev ps) \/
    exists p, circle_loop fuel cs sn c r inc n f_zero 0 [] = Fill (n + 1) (p :: rev ps)).
  { replace fuel with (Z.to_nat n + S (fuel - Z.to_nat n - 1))%nat by lia.
    rewrite loop_turns; [|intros j J; apply LO; lia|lia]. fold ps. rewrite app_nil_r, Z2Nat.id by lia. cbn [circle_loop Z.add].
    destruct (fle (turned inc (Z.to_nat n) f_zero) f_360); cbn [negb]; [|left; reflexivity]. right.
    destruct (Z.ltb_spec n n); [lia|].
    replace (Z.to_nat (n + 1)) with (S (Z.to_nat n)) in HI by lia. rewrite turned_S in HI.
    eexists. destruct (fuel - Z.to_nat n - 1)%nat; cbn [circle_loop]; rewrite HI; reflexivity. }
  assert (FN : forall l, firstn (Z.to_nat n) (ps ++ l) = ps).
  { intros l. rewrite firstn_app, LP, Nat.sub_diag, <- LP, firstn_all. apply app_nil_r. }
  destruct LOOP as [->|(p & ->)].
  - rewrite Z.ltb_irrefl, rev_involutive. pose proof (FN []) as F0. rewrite app_nil_r in F0. rewrite F0. reflexivity.
  - destruct (Z.ltb_spec (n + 1) n); [lia|]. cbn [rev]. rewrite rev_involutive, FN. reflexivity.
Qed.
Print Assumptions C58_circle_partial.

(** ** What goes wrong with more steps *)

Lemma fle_bits a : 0 <= a -> fle a f_360 = (a <=? f_360) \/ p63 <= a.
Proof.
  intros A. destruct (Z.le_gt_cases p63 a) as [|L]; [now right|left].
  assert (S : f_sign a = false) by (unfold f_sign; lia).
  unfold fle, f_isnan, f_key, f_mag. rewrite S. change (f_sign f_360) with false. cbv match.
  change (inf_mag <? f_360) with false. cbn [negb]. rewrite andb_true_r.
  destruct (Z.ltb_spec inf_mag a) as [G|G]; [|reflexivity]. cbn [negb andb]. symmetry. apply Z.leb_gt.
  apply Z.lt_trans with inf_mag; [reflexivity|exact G].
Qed.

Lemma circle_past cs sn e c radius steps ix t : 4 <= steps <= 2147483647 ->
  jumps 400 (fdiv f_360 (f_of_Z (steps - 1))) 0 0 steps = Some t -> 0 <= fdiv f_360 (f_of_Z (steps - 1)) -> 0 <= t <= f_360 ->
  exists enough, forall fuel, (enough <= fuel)%nat -> tg_circle_new_ix fuel cs sn e c radius steps ix = CircPast.
Proof.
  intros ST J I0 T. set (inc := fdiv f_360 (f_of_Z (steps - 1))) in *.
  destruct (jumps_sound 400 inc 0 0 steps t ltac:(lia) I0 J) as [E B]. rewrite Z.sub_0_r in *.
  exists (Z.to_nat steps + 1)%nat. intros fuel FU. unfold tg_circle_new_ix.
  destruct (Z.leb_spec steps (-2147483648)); [lia|]. cbv zeta. destruct (Z.ltb_spec (steps - 1) 3); [lia|]. fold inc.
  replace fuel with (Z.to_nat steps + S (fuel - Z.to_nat steps - 1))%nat by lia.
  rewrite loop_turns; [| |lia].
  2:{ intros j Jj. pose proof (B j Jj) as [B1 B2]. destruct (fle_bits (turned inc j f_zero) B1) as [-> | P]; [now apply Z.leb_le|].
      exfalso. apply (Z.lt_irrefl p63). apply Z.le_lt_trans with f_360; [|reflexivity]. apply Z.le_trans with (turned inc j f_zero); assumption. }
  change f_zero with 0. rewrite E. cbn [circle_loop].
  assert (FT : fle t f_360 = true).
  { destruct (fle_bits t (proj1 T)) as [Q | P]; [rewrite Q; apply Z.leb_le, T|].
    exfalso. apply (Z.lt_irrefl p63). apply Z.le_lt_trans with f_360; [|reflexivity]. apply Z.le_trans with t; [exact P|apply T]. }
  rewrite FT. cbn [negb]. destruct (Z.ltb_spec (steps - 1) (0 + Z.of_nat (Z.to_nat steps))); [reflexivity|lia].
Qed.

Lemma circle_unset cs sn e c radius steps ix m t : 4 <= steps <= 2147483647 -> 0 <= m < steps - 1 ->
  jumps 400 (fdiv f_360 (f_of_Z (steps - 1))) 0 0 m = Some t -> 0 <= fdiv f_360 (f_of_Z (steps - 1)) -> f_360 < t < p63 ->
  exists enough, forall fuel, (enough <= fuel)%nat -> tg_circle_new_ix fuel cs sn e c radius steps ix = CircUnset.
Proof.
  intros ST M J I0 T. set (inc := fdiv f_360 (f_of_Z (steps - 1))) in *.
  destruct (jumps_sound 400 inc 0 0 m t ltac:(lia) I0 J) as [E B]. rewrite Z.sub_0_r in *.
  exists (Z.to_nat m + 1)%nat. intros fuel FU. unfold tg_circle_new_ix.
  destruct (Z.leb_spec steps (-2147483648)); [lia|]. cbv zeta. destruct (Z.ltb_spec (steps - 1) 3); [lia|]. fold inc.
  replace fuel with (Z.to_nat m + S (fuel - Z.to_nat m - 1))%nat by lia.
  rewrite loop_turns; [| |lia].
  2:{ intros j Jj. pose proof (B j Jj) as [B1 B2]. destruct (fle_bits (turned inc j f_zero) B1) as [-> | P]; [now apply Z.leb_le|].
      exfalso. apply (Z.lt_irrefl p63). apply Z.le_lt_trans with f_360; [|reflexivity]. apply Z.le_trans with (turned inc j f_zero); assumption. }
  change f_zero with 0. rewrite E. cbn [circle_loop].
  assert (FT : fle t f_360 = false).
  { destruct (fle_bits t) as [Q | P]; [apply Z.le_trans with f_360; [discriminate|apply Z.lt_le_incl, T]|rewrite Q; apply Z.leb_gt, T|].
    exfalso. apply (Z.lt_irrefl p63). apply Z.le_lt_trans with t; [exact P|apply T]. }
  rewrite FT. cbn [negb]. destruct (Z.ltb_spec (0 + Z.of_nat (Z.to_nat m)) (steps - 1)); [reflexivity|lia].
Qed.

(** With 235520873 steps the rounded angles add up to so little that the loop
    stores one point past the end of the memory, with 301561927 to so much that
    points of the ring are never stored to, wherever the circle is; and the
    least int cannot be decremented. *)
Theorem C58_refuted :
  forall cs sn e c radius ix,
    (exists enough, forall fuel, (enough <= fuel)%nat -> tg_circle_new_ix fuel cs sn e c radius 235520873 ix = CircPast) /\
    (exists enough, forall fuel, (enough <= fuel)%nat -> tg_circle_new_ix fuel cs sn e c radius 301561927 ix = CircUnset) /\
    forall fuel, tg_circle_new_ix fuel cs sn e c radius (-2147483648) ix = CircOverflow.
Proof.
  intros. split; [|split; [|reflexivity]].
  - destruct (jumps 400 (fdiv f_360 (f_of_Z (235520873 - 1))) 0 0 235520873) as [t|] eqn:J; [|vm_compute in J; discriminate J].
    apply (circle_past _ _ _ _ _ _ _ t); [lia|exact J|vm_compute; discriminate|].
    vm_compute in J. injection J as <-. split; vm_compute; discriminate.
  - destruct (jumps 400 (fdiv f_360 (f_of_Z (301561927 - 1))) 0 0 301561924) as [t|] eqn:J; [|vm_compute in J; discriminate J].
    apply (circle_unset _ _ _ _ _ _ _ 301561924 t); [lia|lia|exact J|vm_compute; discriminate|].
    vm_compute in J. injection J as <-. split; vm_compute; reflexivity.
Qed.
Print Assumptions C58_refuted.

(** ** Where the points are *)

(** what C promises of cos and sin: a finite value from -1 to 1 *)
Definition unit_valued (f : f64 -> f64) : Prop := forall x, fin (f x) /\ (-1 <= RV (f x) <= 1)%R.

Lemma scaled_le r v : fin r -> (0 <= RV r)%R -> fin v -> (-1 <= RV v <= 1)%R ->
  fin (fmul r v) /\ (- RV r <= RV (fmul r v) <= RV r)%R.
Proof.
  intros Fr R0 Fv V.
  assert (UP : (RV r * RV v <= RV r)%R) by (rewrite <- (Rmult_1_r (RV r)) at 2; apply Rmult_le_compat_l; lra).
  assert (LO : (- RV r <= RV r * RV v)%R).
  { replace (- RV r)%R with (RV r * (-1))%R by ring. apply Rmult_le_compat_l; lra. }
  assert (UP' : (rnd64 (RV r * RV v) <= RV r)%R) by (rewrite <- (rnd64_RV r (proj1 Fr)) at 2; now apply rnd64_le).
  assert (LO' : (- RV r <= rnd64 (RV r * RV v))%R).
  { rewrite <- (rnd64_RV r (proj1 Fr)) at 1. pose proof (round_NE_opp radix2 (SpecFloat.fexp 53 1024) (RV r)) as O. change ZnearestE with (round_mode mode_NE) in O.
    rewrite <- O. now apply rnd64_le. }
  pose proof (fmul_correct r v Fr Fv) as C. cbv zeta in C. rewrite Rlt_bool_true in C.
  - destruct C as [F ->]. split; [exact F|split; assumption].
  - apply Rle_lt_trans with (RV r); [apply Rabs_le; split; assumption|]. eapply Rle_lt_trans; [apply Rle_abs|]. now apply RV_lt_max.
Qed.

Lemma around c r d : fin c -> fin r -> fin d -> (- RV r <= RV d <= RV r)%R -> fin (fsub c r) -> fin (fadd c r) ->
  fle (fsub c r) (fadd c d) = true /\ fle (fadd c d) (fadd c r) = true.
Proof.
  intros Fc Fr Fd D F1 F2.
  pose proof (fsub_correct c r Fc Fr) as A. pose proof (fadd_correct c r Fc Fr) as B. pose proof (fadd_correct c d Fc Fd) as C.
  cbv zeta in A, B, C.
  assert (NF : forall s, ~ fin (inf_of s)) by (intros [|] [_ H]; discriminate H).
  destruct (Rlt_bool_spec (Rabs (rnd64 (RV c - RV r))) (bpow radix2 1024)) as [A1|_]; [|rewrite A in F1; destruct (NF _ F1)].
  destruct (Rlt_bool_spec (Rabs (rnd64 (RV c + RV r))) (bpow radix2 1024)) as [B1|_]; [|rewrite B in F2; destruct (NF _ F2)].
  destruct A as [_ A], B as [_ B].
  assert (L1 : (rnd64 (RV c - RV r) <= rnd64 (RV c + RV d))%R) by (apply rnd64_le; lra).
  assert (L2 : (rnd64 (RV c + RV d) <= rnd64 (RV c + RV r))%R) by (apply rnd64_le; lra).
  apply Rabs_def2 in A1, B1. rewrite Rlt_bool_true in C by (apply Rabs_def1; lra). destruct C as [FC C].
  split; apply fle_R; auto; rewrite C; [rewrite A|rewrite B]; assumption.
Qed.

(** When cos and sin keep their promise, no point of a circle is outside the
    square of the center and the radius, computed in doubles. *)
Theorem C58_box :
  forall cs sn c r n ps, circle_points cs sn c r n ps -> unit_valued cs -> unit_valued sn -> (2 <= n) ->
    fin (px c) -> fin (py c) -> fin r -> (0 <= RV r)%R ->
    fin (fsub (px c) r) -> fin (fadd (px c) r) -> fin (fsub (py c) r) -> fin (fadd (py c) r) ->
    forall p, In p ps ->
      fle (fsub (px c) r) (px p) = true /\ fle (px p) (fadd (px c) r) = true /\
      fle (fsub (py c) r) (py p) = true /\ fle (py p) (fadd (py c) r) = true.
Proof.
  intros cs sn c r n ps (LEN & LAST & PTS) UC US N Fx Fy Fr R0 F1 F2 F3 F4.
  assert (ALL : forall i, Z.of_nat i < n - 1 -> forall p, nth_error ps i = Some p ->
      fle (fsub (px c) r) (px p) = true /\ fle (px p) (fadd (px c) r) = true /\
      fle (fsub (py c) r) (py p) = true /\ fle (py p) (fadd (py c) r) = true).
  { intros i I p E. destruct (PTS i I) as (t & p' & E' & [PX PY] & _ & _). rewrite E in E'. injection E' as <-.
    rewrite PX, PY. set (a := fmul (fdiv f_pi (f_of_Z 180)) t).
    destruct (scaled_le r (cs a) Fr R0 (proj1 (UC a)) (proj2 (UC a))) as [G1 G2].
    destruct (scaled_le r (sn a) Fr R0 (proj1 (US a)) (proj2 (US a))) as [H1 H2].
    destruct (around (px c) r _ Fx Fr G1 G2 F1 F2). destruct (around (py c) r _ Fy Fr H1 H2 F3 F4). auto. }
  intros p I. apply In_nth_error in I. destruct I as (i & E).
  assert (LI : (i < length ps)%nat) by (apply nth_error_Some; congruence).
  destruct (Z.lt_ge_cases (Z.of_nat i) (n - 1)) as [L|L]; [exact (ALL i L p E)|].
  apply (ALL O ltac:(lia)). rewrite <- E. replace i with (length ps - 1)%nat by lia.
  rewrite (nth_error_nth' ps p) by lia. rewrite (nth_error_nth' ps p) by lia. f_equal. symmetry. apply LAST.
Qed.
Print Assumptions C58_box.

(** a library whose cos is 1 at zero and 0 elsewhere and whose sin is 1; -3
    steps are as many as 4; the ring is closed and made of the points *)
Example C58_example :
  let cs := fun x : f64 => if feqb x f_zero then f_one else f_zero in
  let sn := fun _ : f64 => f_one in
  let c := Pt (f_of_Z 10) (f_of_Z 20) in
  unit_valued cs /\ unit_valued sn /\
  match tg_circle_new_ix 9 cs sn env_init c (f_of_Z 5) (-3) 0 with
  | CircRing (Some r) => (r_npoints r, firstn 4 (r_points r), r_closed r)
  | _ => (0%nat, [], false)
  end = (4%nat, [Pt (f_of_Z 15) (f_of_Z 25); Pt (f_of_Z 10) (f_of_Z 25); Pt (f_of_Z 10) (f_of_Z 25); Pt (f_of_Z 15) (f_of_Z 25)], true).
Proof.
  cbv zeta. split; [|split].
  - intros x. destruct (feqb x f_zero); [split; [split; reflexivity|]|split; [split; reflexivity|]].
    + change f_one with (f_of_Z 1). rewrite (proj2 (f_of_Z_correct 1 ltac:(lia))). lra.
    + change f_zero with (f_of_Z 0). rewrite (proj2 (f_of_Z_correct 0 ltac:(lia))). lra.
  - intros x. split; [split; reflexivity|]. change f_one with (f_of_Z 1). rewrite (proj2 (f_of_Z_correct 1 ltac:(lia))). lra.
  - vm_compute. reflexivity.
Qed.
