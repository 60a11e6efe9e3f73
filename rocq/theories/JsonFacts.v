(** * The JSON validator accepts exactly the lax grammar *)

From Coq Require Import ZArith Bool List Lia ZifyBool Arith.
From Verif Require Import Json SpecJson.
Import ListNotations.
Local Open Scope Z_scope.

(** ** Classes of bytes *)

Lemma is_ws_white b : is_ws b = white b. Proof. reflexivity. Qed.
Lemma is_digit_digit b : is_digit b = digit b. Proof. reflexivity. Qed.
Lemma is_hex_hex b : is_hex b = hex b. Proof. reflexivity. Qed.

Lemma all_bytes (f : Z -> bool) :
  forallb (fun n => f (Z.of_nat n)) (seq 0 256) = true -> forall b, byte b -> f b = true.
Proof.
  intros H b Hb. rewrite forallb_forall in H.
  specialize (H (Z.to_nat b)). rewrite Z2Nat.id in H by (unfold byte in Hb; lia).
  apply H, in_seq. unfold byte in Hb. lia.
Qed.

Lemma tok_plain b : byte b ->
  (tok strtoksu b =? 0) = (between 32 127 b && negb (b =? 34) && negb (b =? 92)).
Proof.
  intros H. apply eqb_prop. revert b H. apply all_bytes. vm_compute. reflexivity.
Qed.

Lemma land_low a k : 0 <= k -> Z.land a (Z.ones k) = a mod 2 ^ k.
Proof. intros. now apply Z.land_ones. Qed.

Lemma lor_shift a b k : 0 <= k -> 0 <= a -> 0 <= b < 2 ^ k -> Z.lor (Z.shiftl a k) b = a * 2 ^ k + b.
Proof.
  intros Hk Ha Hb.
  assert (N : Z.land (Z.shiftl a k) b = 0).
  { apply Z.bits_inj'. intros i Hi. rewrite Z.land_spec, Z.bits_0.
    destruct (Z.ltb_spec i k).
    - rewrite Z.shiftl_spec_low by lia. reflexivity.
    - destruct (Z.eq_dec b 0) as [->|]; [rewrite Z.bits_0; apply andb_false_r|].
      rewrite (Z.bits_above_log2 b i); [apply andb_false_r | lia |].
      apply Z.log2_lt_pow2; [lia|].
      apply Z.lt_le_trans with (2 ^ k); [lia | apply Z.pow_le_mono_r; lia]. }
  rewrite <- Z.lxor_lor by exact N. rewrite <- Z.add_nocarry_lxor by exact N.
  rewrite Z.shiftl_mul_pow2 by lia. reflexivity.
Qed.

Lemma two2 q1 q2 : 0 <= q1 < 4 -> 0 <= q2 < 4 ->
  (Z.lor q1 (Z.shiftl q2 2) =? 10) = ((q1 =? 2) && (q2 =? 2)).
Proof.
  intros A B. assert (q1 = 0 \/ q1 = 1 \/ q1 = 2 \/ q1 = 3) as [->|[->|[->| ->]]] by lia;
  assert (q2 = 0 \/ q2 = 1 \/ q2 = 2 \/ q2 = 3) as [->|[->|[->| ->]]] by lia; reflexivity.
Qed.
Lemma two3 q1 q2 q3 : 0 <= q1 < 4 -> 0 <= q2 < 4 -> 0 <= q3 < 4 ->
  (Z.lor (Z.lor q1 (Z.shiftl q2 2)) (Z.shiftl q3 4) =? 42) = ((q1 =? 2) && (q2 =? 2) && (q3 =? 2)).
Proof.
  intros A B C. assert (q1 = 0 \/ q1 = 1 \/ q1 = 2 \/ q1 = 3) as [->|[->|[->| ->]]] by lia;
  assert (q2 = 0 \/ q2 = 1 \/ q2 = 2 \/ q2 = 3) as [->|[->|[->| ->]]] by lia;
  assert (q3 = 0 \/ q3 = 1 \/ q3 = 2 \/ q3 = 3) as [->|[->|[->| ->]]] by lia; reflexivity.
Qed.
Lemma top6 d : byte d -> 0 <= Z.shiftr d 6 < 4 /\ (Z.shiftr d 6 =? 2) = trail d.
Proof.
  unfold byte, trail, between. rewrite Z.shiftr_div_pow2 by lia. change (2 ^ 6) with 64.
  intros. split; Z.to_euclidean_division_equations; lia.
Qed.
Lemma top5 d : byte d -> (Z.shiftr d 5 =? 6) = between 192 223 d.
Proof.
  unfold byte, between. rewrite Z.shiftr_div_pow2 by lia. change (2 ^ 5) with 32.
  intros. Z.to_euclidean_division_equations; lia.
Qed.
Lemma top4 d : byte d -> (Z.shiftr d 4 =? 14) = between 224 239 d.
Proof.
  unfold byte, between. rewrite Z.shiftr_div_pow2 by lia. change (2 ^ 4) with 16.
  intros. Z.to_euclidean_division_equations; lia.
Qed.
Lemma top3 d : byte d -> (Z.shiftr d 3 =? 30) = between 240 247 d.
Proof.
  unfold byte, between. rewrite Z.shiftr_div_pow2 by lia. change (2 ^ 3) with 8.
  intros. Z.to_euclidean_division_equations; lia.
Qed.
Lemma low6 d : trail d = true -> Z.land d 63 = d - 128.
Proof.
  unfold trail, between. intros. change 63 with (Z.ones 6). rewrite land_low by lia.
  change (2 ^ 6) with 64. Z.to_euclidean_division_equations; lia.
Qed.
Lemma low5 d : between 192 223 d = true -> Z.land d 31 = d - 192.
Proof.
  unfold between. intros. change 31 with (Z.ones 5). rewrite land_low by lia.
  change (2 ^ 5) with 32. Z.to_euclidean_division_equations; lia.
Qed.
Lemma low4 d : between 224 239 d = true -> Z.land d 15 = d - 224.
Proof.
  unfold between. intros. change 15 with (Z.ones 4). rewrite land_low by lia.
  change (2 ^ 4) with 16. Z.to_euclidean_division_equations; lia.
Qed.
Lemma low3 d : between 240 247 d = true -> Z.land d 7 = d - 240.
Proof.
  unfold between. intros. change 7 with (Z.ones 3). rewrite land_low by lia.
  change (2 ^ 3) with 8. Z.to_euclidean_division_equations; lia.
Qed.

Lemma cp2 x y : 0 <= x -> 0 <= y < 64 -> Z.lor (Z.shiftl x 6) y = x * 64 + y.
Proof. intros. rewrite lor_shift; lia. Qed.
Lemma cp3 x y z : 0 <= x -> 0 <= y < 64 -> 0 <= z < 64 ->
  Z.lor (Z.lor (Z.shiftl x 12) (Z.shiftl y 6)) z = (x * 64 + y) * 64 + z.
Proof.
  intros. rewrite <- Z.lor_assoc, cp2 by lia. rewrite lor_shift by lia. lia.
Qed.
Lemma cp4 x y z t : 0 <= x -> 0 <= y < 64 -> 0 <= z < 64 -> 0 <= t < 64 ->
  Z.lor (Z.lor (Z.shiftl x 18) (Z.shiftl y 12)) (Z.lor (Z.shiftl z 6) t) =
  ((x * 64 + y) * 64 + z) * 64 + t.
Proof.
  intros. rewrite (cp2 z t) by lia. rewrite <- Z.lor_assoc, (lor_shift y (z * 64 + t) 12) by lia.
  rewrite lor_shift by lia. lia.
Qed.

(** ** vutf8 *)

Lemma check_lax (n : nat) cp :
  (if cp <? 128 then (0%nat, 0)
   else if 0x10FFFF <=? cp then (0%nat, 0)
   else if (0xD800 <=? cp) && (cp <=? 0xDFFF) then (0%nat, 0) else (n, cp)) =
  if lax_point cp then (n, cp) else (0%nat, 0).
Proof.
  unfold lax_point, between.
  destruct (Z.ltb_spec cp 128), (Z.leb_spec 128 cp), (Z.leb_spec 0x10FFFF cp), (Z.ltb_spec cp 0x10FFFF);
    try lia; cbn [negb andb]; try reflexivity.
  destruct ((0xD800 <=? cp) && (cp <=? 0xDFFF)); reflexivity.
Qed.

Lemma trail_lo d : trail d = true -> 0 <= d - 128 < 64.
Proof. unfold trail, between. lia. Qed.

Lemma vutf8_char m r : Forall byte m -> lax_char m = true -> fst (vutf8 (m ++ r)) = length m.
Proof.
  intros HB H. unfold lax_char in H.
  destruct m as [|a [|b [|c [|d [|]]]]]; try discriminate; inversion_clear HB as [|? ? Ba HB1];
    inversion_clear HB1 as [|? ? Bb HB2].
  - apply andb_prop in H. destruct H as [H Hp]. apply andb_prop in H. destruct H as [Ha Hb].
    cbn [app vutf8]. rewrite top4, top3, top5 by assumption.
    replace (between 224 239 a) with false by (unfold between in *; lia).
    replace (between 240 247 a) with false by (unfold between in *; lia).
    rewrite Ha. rewrite (proj2 (top6 b Bb)), Hb. cbn [negb].
    rewrite check_lax, low5, low6 by assumption.
    rewrite cp2, Hp by (unfold between in *; pose proof (trail_lo b Hb); lia). reflexivity.
  - inversion_clear HB2 as [|? ? Bc HB3].
    apply andb_prop in H. destruct H as [H Hp]. apply andb_prop in H. destruct H as [H Hc].
    apply andb_prop in H. destruct H as [Ha Hb].
    cbn [app vutf8]. rewrite top4 by assumption. rewrite Ha.
    rewrite two2 by (now apply top6). rewrite (proj2 (top6 b Bb)), (proj2 (top6 c Bc)), Hb, Hc. cbn [negb andb].
    rewrite check_lax, low4, (low6 b), (low6 c) by assumption.
    rewrite cp3, Hp by (unfold between in *; pose proof (trail_lo b Hb); pose proof (trail_lo c Hc); lia).
    reflexivity.
  - inversion_clear HB2 as [|? ? Bc HB3]. inversion_clear HB3 as [|? ? Bd HB4].
    apply andb_prop in H. destruct H as [H Hp]. apply andb_prop in H. destruct H as [H Hd].
    apply andb_prop in H. destruct H as [H Hc]. apply andb_prop in H. destruct H as [Ha Hb].
    cbn [app vutf8]. rewrite top4, top3 by assumption.
    replace (between 224 239 a) with false by (unfold between in *; lia). rewrite Ha.
    rewrite two3 by (now apply top6).
    rewrite (proj2 (top6 b Bb)), (proj2 (top6 c Bc)), (proj2 (top6 d Bd)), Hb, Hc, Hd. cbn [negb andb].
    rewrite check_lax, low3, (low6 b), (low6 c), (low6 d) by assumption.
    rewrite cp4, Hp by (unfold between in *; pose proof (trail_lo b Hb); pose proof (trail_lo c Hc);
                        pose proof (trail_lo d Hd); lia).
    reflexivity.
Qed.

Lemma vutf8_inv s n : Forall byte s -> fst (vutf8 s) = S n ->
  lax_char (firstn (S n) s) = true /\ (length (firstn (S n) s) = S n).
Proof.
  intros HB H. destruct s as [|a s]; [discriminate|]. inversion_clear HB as [|? ? Ba HB1].
  unfold vutf8 in H. rewrite top4, top3, top5 in H by assumption.
  destruct (between 224 239 a) eqn:E4.
  - destruct s as [|b [|c s]]; try discriminate.
    inversion_clear HB1 as [|? ? Bb HB2]. inversion_clear HB2 as [|? ? Bc HB3].
    rewrite two2 in H by (now apply top6). rewrite (proj2 (top6 b Bb)), (proj2 (top6 c Bc)) in H.
    destruct (trail b) eqn:Hb, (trail c) eqn:Hc; cbn [negb andb] in H; try discriminate.
    rewrite check_lax, low4, (low6 b), (low6 c) in H by assumption.
    rewrite cp3 in H by (unfold between in *; pose proof (trail_lo b Hb); pose proof (trail_lo c Hc); lia).
    destruct (lax_point _) eqn:Hp; [|discriminate]. cbn [fst] in H. injection H as <-.
    cbn [firstn lax_char length]. rewrite E4, Hb, Hc, Hp. auto.
  - destruct (between 240 247 a) eqn:E3.
    + destruct s as [|b [|c [|d s]]]; try discriminate.
      inversion_clear HB1 as [|? ? Bb HB2]. inversion_clear HB2 as [|? ? Bc HB3].
      inversion_clear HB3 as [|? ? Bd HB4].
      rewrite two3 in H by (now apply top6).
      rewrite (proj2 (top6 b Bb)), (proj2 (top6 c Bc)), (proj2 (top6 d Bd)) in H.
      destruct (trail b) eqn:Hb, (trail c) eqn:Hc, (trail d) eqn:Hd; cbn [negb andb] in H; try discriminate.
      rewrite check_lax, low3, (low6 b), (low6 c), (low6 d) in H by assumption.
      rewrite cp4 in H by (unfold between in *; pose proof (trail_lo b Hb); pose proof (trail_lo c Hc);
                        pose proof (trail_lo d Hd); lia).
      destruct (lax_point _) eqn:Hp; [|discriminate]. cbn [fst] in H. injection H as <-.
      cbn [firstn lax_char length]. rewrite E3, Hb, Hc, Hd, Hp. auto.
    + destruct (between 192 223 a) eqn:E5; [|discriminate].
      destruct s as [|b s]; try discriminate.
      inversion_clear HB1 as [|? ? Bb HB2].
      rewrite (proj2 (top6 b Bb)) in H.
      destruct (trail b) eqn:Hb; cbn [negb andb] in H; try discriminate.
      rewrite check_lax, low5, (low6 b) in H by assumption.
      rewrite cp2 in H by (unfold between in *; pose proof (trail_lo b Hb); lia).
      destruct (lax_point _) eqn:Hp; [|discriminate]. cbn [fst] in H. injection H as <-.
      cbn [firstn lax_char length]. rewrite E5, Hb, Hp. auto.
Qed.

Lemma lax_char_high m : lax_char m = true -> exists a t, m = a :: t /\ 127 < a < 256 /\ t <> [].
Proof.
  destruct m as [|a [|b [|c [|d [|]]]]]; try discriminate; intros H; exists a; eexists;
    (split; [reflexivity | split; [|discriminate]]); unfold lax_char, between in H; lia.
Qed.

(** ** Strings *)

(** what may follow a value or a key *)
Definition follow (r : list Z) : Prop :=
  match r with [] => True | b :: _ => white b = true \/ In b [44; 93; 125; 58] end.
Definition hexes (h : list Z) : Prop := Forall (fun b => hex b = true) h.

Lemma chars_app ch a b : chars ch a -> chars ch b -> chars ch (a ++ b).
Proof.
  intros HA HB. induction HA; cbn [app]; try (rewrite <- app_assoc); try assumption;
    try (now constructor).
Qed.
Lemma tail_app ch br a t : chars ch a -> str_tail ch br t -> str_tail ch br (a ++ t).
Proof.
  intros HA HT. destruct HT; rewrite app_assoc; constructor; try assumption; now apply chars_app.
Qed.

Lemma vhex_sound n : forall s,
  match vhex n s with
  | VOk r => exists h, s = h ++ r /\ length h = n /\ hexes h
  | VBad r => exists h, s = h ++ r /\ (length h < n)%nat /\ hexes h
  | _ => False
  end.
Proof.
  induction n as [|n IH]; intros s; cbn [vhex].
  - exists []. repeat split. constructor.
  - destruct s as [|b s].
    + exists []. cbn. repeat split; [lia|constructor].
    + destruct (is_hex b) eqn:E.
      * specialize (IH s). destruct (vhex n s) as [r|r| |]; try contradiction;
        destruct IH as (h & -> & L & H); exists (b :: h); (repeat split);
        try (cbn [length]; lia); now constructor.
      * exists []. cbn. repeat split; [lia|constructor].
Qed.

Lemma existsb_esc b :
  ((b =? 34) || (b =? 92) || (b =? 47) || (b =? 98) || (b =? 102) || (b =? 110) ||
   (b =? 114) || (b =? 116)) = true <-> In b escapes.
Proof. unfold escapes. cbn [In]. split; intros; lia. Qed.

Lemma vesc_sound s :
  match vesc (92 :: s) with
  | VOk r => exists c, 92 :: s = c ++ r /\ chars lax_char c /\ c <> []
  | VBad r => exists c, 92 :: s = c ++ r /\ str_tail lax_char true c
  | _ => False
  end.
Proof.
  unfold vesc. destruct s as [|b s].
  - exists [92]. split; [reflexivity|]. apply (tail_esc _ _ []); constructor.
  - destruct (_ || _) eqn:E.
    + apply existsb_esc in E. exists [92; b]. split; [reflexivity|].
      split; [|discriminate]. apply chars_esc; [assumption|constructor].
    + destruct (b =? 117) eqn:E1.
      * assert (b = 117) as -> by lia. pose proof (vhex_sound 4 s) as H.
        destruct (vhex 4 s) as [r|r| |]; try contradiction; destruct H as (h & -> & L & H).
        -- destruct h as [|x1 [|x2 [|x3 [|x4 [|]]]]]; try discriminate.
           inversion_clear H as [|? ? X1 H1]. inversion_clear H1 as [|? ? X2 H2].
           inversion_clear H2 as [|? ? X3 H3]. inversion_clear H3 as [|? ? X4 H4].
           exists [92; 117; x1; x2; x3; x4]. split; [reflexivity|]. split; [|discriminate].
           apply chars_uni; try assumption. constructor.
        -- exists (92 :: 117 :: h). split; [reflexivity|].
           apply (tail_uni _ _ []); try assumption; constructor.
      * exists [92]. split; [reflexivity|]. apply (tail_esc _ _ []); constructor.
Qed.

Lemma vstring_sound fuel : forall s, (length s < fuel)%nat -> Forall byte s ->
  match vstring fuel s with
  | VOk r => exists t, s = t ++ r /\ str_tail lax_char true t
  | VBad _ => True
  | _ => False
  end.
Proof.
  induction fuel as [|fuel IH]; intros s L HB; [lia|].
  destruct s as [|b s]; [exact I|]. cbn [vstring length] in *.
  pose proof HB as HB0. inversion_clear HB as [|? ? Bb HB1].
  rewrite (tok_plain b Bb).
  destruct (between 32 127 b && negb (b =? 34) && negb (b =? 92)) eqn:E.
  - specialize (IH s ltac:(lia) HB1). destruct (vstring fuel s) as [r|r| |]; try exact IH.
    destruct IH as (t & -> & T). exists (b :: t). split; [reflexivity|].
    apply (tail_app _ _ [b] t); [|assumption]. unfold between in E. apply chars_plain; try lia. constructor.
  - destruct (b =? 34) eqn:E1.
    { assert (b = 34) as -> by lia. exists [34]. split; [reflexivity|].
      apply (tail_quote _ _ []). constructor. }
    destruct (127 <? b) eqn:E2.
    { destruct (fst (vutf8 (b :: s))) as [|n] eqn:EV; [exact I|].
      destruct (vutf8_inv _ _ HB0 EV) as [V VL].
      assert (LS : (length (skipn (S n) (b :: s)) < fuel)%nat) by
        (rewrite skipn_length; cbn [length]; lia).
      assert (BS : Forall byte (skipn (S n) (b :: s))).
      { rewrite <- (firstn_skipn (S n)) in HB0. now apply Forall_app in HB0. }
      specialize (IH _ LS BS).
      destruct (vstring fuel _) as [r|r| |]; try exact IH.
      destruct IH as (t & ET & T). exists (firstn (S n) (b :: s) ++ t).
      split; [rewrite <- app_assoc, <- ET; symmetry; apply firstn_skipn|].
      apply tail_app; [|assumption]. rewrite <- (app_nil_r (firstn _ _)).
      apply chars_char; [assumption|constructor]. }
    destruct (b =? 92) eqn:E3; [|exact I].
    assert (b = 92) as -> by lia. pose proof (vesc_sound s) as H.
    destruct (vesc (92 :: s)) as [r|r| |]; try contradiction.
    + destruct H as (c & EC & C & NC). cbn [app].
      assert (LR : (length r < fuel)%nat).
      { apply (f_equal (@length Z)) in EC. rewrite app_length in EC. cbn [length] in EC.
        destruct c; [contradiction|]. cbn [length] in EC. lia. }
      assert (BR : Forall byte r) by (rewrite EC in HB0; now apply Forall_app in HB0).
      specialize (IH r LR BR). destruct (vstring fuel r) as [r'|r'| |]; try exact IH.
      destruct IH as (t & -> & T). exists (c ++ t).
      split; [rewrite EC, app_assoc; reflexivity | now apply tail_app].
    + cbn [vneg]. exact H.
Qed.

Lemma vhex_all h r : hexes h -> vhex (length h) (h ++ r) = VOk r.
Proof.
  induction h as [|b h IH]; intros H; [reflexivity|]. inversion_clear H as [|? ? Hb HH].
  cbn [length app vhex]. rewrite is_hex_hex, Hb. now apply IH.
Qed.
Lemma follow_not_hex b r : follow (b :: r) -> hex b = false.
Proof. unfold follow, white, hex, digit. cbn [In]. lia. Qed.
Lemma follow_not_esc b r : follow (b :: r) ->
  ((b =? 34) || (b =? 92) || (b =? 47) || (b =? 98) || (b =? 102) || (b =? 110) ||
   (b =? 114) || (b =? 116)) = false /\ (b =? 117) = false.
Proof. unfold follow, white. cbn [In]. lia. Qed.

Lemma vhex_short n h r : hexes h -> (length h < n)%nat -> follow r -> vhex n (h ++ r) = VBad r.
Proof.
  revert n. induction h as [|b h IH]; intros n H L F.
  - destruct n; [cbn in L; lia|]. cbn [app vhex]. destruct r as [|b r]; [reflexivity|].
    rewrite is_hex_hex, (follow_not_hex _ _ F). reflexivity.
  - inversion_clear H as [|? ? Hb HH]. destruct n; [cbn in L; lia|].
    cbn [app vhex]. rewrite is_hex_hex, Hb. apply IH; [assumption| cbn in L; lia |assumption].
Qed.

Lemma chars_bytes c : chars lax_char c -> Forall byte c.
Proof.
  induction 1 as [|b s R N1 N2 C IH|m s M C IH|e s I C IH|x y z t s X Y Z T C IH].
  - constructor.
  - constructor; [unfold byte; lia|assumption].
  - apply Forall_app. split; [|assumption].
    unfold lax_char, trail, between in M.
    destruct m as [|a [|b [|d [|d' [|]]]]]; try discriminate;
      repeat (constructor; [unfold byte; lia|]); constructor.
  - repeat constructor; try assumption; unfold escapes in I; cbn [In] in I; unfold byte; lia.
  - unfold hex, digit in *. repeat (constructor; [unfold byte; lia|]). assumption.
Qed.

Lemma vstring_chars c : chars lax_char c -> forall fuel r, (length (c ++ r) < fuel)%nat ->
  exists fuel', (length r < fuel')%nat /\ vstring fuel (c ++ r) = vstring fuel' r.
Proof.
  induction 1 as [|b s R N1 N2 C IH|m s M C IH|e s I C IH|x y z t s X Y Z T C IH]; intros fuel r L.
  - exists fuel. auto.
  - destruct fuel as [|fuel]; [lia|]. cbn [app length] in *.
    destruct (IH fuel r ltac:(lia)) as (f' & L' & E). exists f'. split; [assumption|].
    cbn [vstring]. rewrite tok_plain by (unfold byte; lia).
    replace (between 32 127 b && negb (b =? 34) && negb (b =? 92)) with true by (unfold between; lia).
    assumption.
  - destruct fuel as [|fuel]; [lia|].
    assert (BM : Forall byte m).
    { assert (X : chars lax_char (m ++ [])) by (apply chars_char; [assumption|constructor]).
      apply chars_bytes in X. now apply Forall_app in X. }
    pose proof (vutf8_char m (s ++ r) BM M) as V.
    destruct (lax_char_high m M) as (a & tl & -> & Ha & NT).
    rewrite <- app_assoc in *. cbn [app] in *. cbn [vstring].
    rewrite tok_plain by (unfold byte; lia).
    replace (between 32 127 a) with false by (unfold between; lia).
    replace (a =? 34) with false by lia. replace (127 <? a) with true by lia. cbn [andb negb].
    rewrite V. cbn [length].
    replace (skipn (S (length tl)) (a :: tl ++ s ++ r)) with (s ++ r)
      by (cbn [skipn]; rewrite skipn_app, skipn_all, Nat.sub_diag; reflexivity).
    apply IH. cbn [length] in L. rewrite app_length in L. rewrite app_length in *. lia.
  - destruct fuel as [|fuel]; [lia|]. cbn [app length] in *.
    destruct (IH fuel r ltac:(lia)) as (f' & L' & E). exists f'. split; [assumption|].
    cbn [vstring]. rewrite tok_plain by (unfold byte; lia). cbn [between].
    replace (between 32 127 92 && negb (92 =? 34) && negb (92 =? 92)) with false by reflexivity.
    change (92 =? 34) with false. change (127 <? 92) with false. change (92 =? 92) with true. cbv iota.
    unfold vesc. apply existsb_esc in I. rewrite I. assumption.
  - destruct fuel as [|fuel]; [lia|]. cbn [app length] in *.
    destruct (IH fuel r ltac:(lia)) as (f' & L' & E). exists f'. split; [assumption|].
    cbn [vstring]. rewrite tok_plain by (unfold byte; lia).
    replace (between 32 127 92 && negb (92 =? 34) && negb (92 =? 92)) with false by reflexivity.
    change (92 =? 34) with false. change (127 <? 92) with false. change (92 =? 92) with true. cbv iota.
    unfold vesc. change (117 =? 117) with true.
    replace ((117 =? 34) || (117 =? 92) || (117 =? 47) || (117 =? 98) || (117 =? 102) ||
             (117 =? 110) || (117 =? 114) || (117 =? 116)) with false by reflexivity.
    cbv iota. pose proof (vhex_all [x; y; z; t] (s ++ r) ltac:(repeat constructor; assumption)) as V. cbn [length app] in V. rewrite V. assumption.
Qed.

Lemma vstring_complete t r fuel : str_tail lax_char true t -> follow r ->
  (length (t ++ r) < fuel)%nat -> vstring fuel (t ++ r) = VOk r.
Proof.
  intros T F L. destruct T as [s C|s _ C|s h _ C H LH]; rewrite <- app_assoc in *;
    destruct (vstring_chars s C fuel _ L) as (f' & L' & ->); cbn [app] in *;
    (destruct f' as [|f']; [lia|]); cbn [vstring].
  - reflexivity.
  - rewrite tok_plain by (unfold byte; lia).
    replace (between 32 127 92 && negb (92 =? 34) && negb (92 =? 92)) with false by reflexivity.
    change (92 =? 34) with false. change (127 <? 92) with false. change (92 =? 92) with true. cbv iota.
    unfold vesc. destruct r as [|b r]; [reflexivity|].
    destruct (follow_not_esc _ _ F) as [-> ->]. reflexivity.
  - rewrite tok_plain by (unfold byte; lia).
    replace (between 32 127 92 && negb (92 =? 34) && negb (92 =? 92)) with false by reflexivity.
    change (92 =? 34) with false. change (127 <? 92) with false. change (92 =? 92) with true. cbv iota.
    unfold vesc. change (117 =? 117) with true.
    replace ((117 =? 34) || (117 =? 92) || (117 =? 47) || (117 =? 98) || (117 =? 102) ||
             (117 =? 110) || (117 =? 114) || (117 =? 116)) with false by reflexivity.
    cbv iota. rewrite vhex_short by assumption. reflexivity.
Qed.

(** ** Numbers and literals *)

Definition head_not_digit (s : list Z) : Prop :=
  match s with [] => True | b :: _ => digit b = false end.

Lemma skip_digits_split s :
  exists ds, s = ds ++ skip_digits s /\ Forall (fun b => digit b = true) ds /\
             head_not_digit (skip_digits s).
Proof.
  induction s as [|b s (ds & E & D & N)]; cbn [skip_digits].
  - exists []. repeat split. constructor.
  - rewrite is_digit_digit. destruct (digit b) eqn:B.
    + exists (b :: ds). cbn [app]. rewrite <- E. auto.
    + exists []. repeat split; [constructor|assumption].
Qed.
Lemma skip_digits_app ds r : Forall (fun b => digit b = true) ds -> head_not_digit r ->
  skip_digits (ds ++ r) = r.
Proof.
  induction 1 as [|b ds B D IH]; intros N; cbn [app skip_digits].
  - destruct r as [|b r]; [reflexivity|]. cbn [skip_digits]. rewrite is_digit_digit, N. reflexivity.
  - rewrite is_digit_digit, B. now apply IH.
Qed.
Lemma need_skip s :
  match vbind (need_digit s) (fun s => VOk (skip_digits s)) with
  | VOk r => exists ds, s = ds ++ r /\ digits ds /\ head_not_digit r
  | VBad _ => True
  | _ => False
  end.
Proof.
  unfold need_digit. destruct s as [|b s]; [exact I|]. destruct (is_digit b) eqn:B; [|exact I].
  cbn [vbind]. destruct (skip_digits_split (b :: s)) as (ds & E & D & N).
  exists ds. split; [assumption|]. split; [|assumption]. split; [|assumption].
  intros ->. cbn [app] in E. rewrite <- E in N. cbn in N. rewrite is_digit_digit in B. congruence.
Qed.
Lemma need_skip_app ds r : digits ds -> head_not_digit r ->
  vbind (need_digit (ds ++ r)) (fun s => VOk (skip_digits s)) = VOk r.
Proof.
  intros [N D] H. destruct ds as [|b ds]; [contradiction|].
  inversion D as [|? ? B D']; subst. cbn [app need_digit]. rewrite is_digit_digit, B. cbn [vbind].
  change (b :: ds ++ r) with ((b :: ds) ++ r). now rewrite skip_digits_app.
Qed.

(** the stages after the integer *)
Definition vexp (s : list Z) : vres :=
  match s with
  | [] => VOk []
  | b :: r =>
      if (b =? 101) || (b =? 69) then
        match r with
        | [] => VBad []
        | c :: r' =>
            let s := if (c =? 43) || (c =? 45) then r' else r in
            vbind (need_digit s) (fun s => VOk (skip_digits s))
        end
      else VOk s
  end.
Definition vfrac (s : list Z) : vres :=
  match s with
  | [] => VOk []
  | b :: r =>
      vbind (if b =? 46 then vbind (need_digit r) (fun s => VOk (skip_digits s)) else VOk s) vexp
  end.
Lemma vnumber_stages s :
  vnumber s =
  vbind (match s with
         | [] => VOob
         | b :: r => if b =? 45 then need_digit r else VOk s
         end) (fun s =>
  vbind (match s with
         | [] => VOob
         | b :: r => if b =? 48 then VOk r else VOk (skip_digits s)
         end) vfrac).
Proof. reflexivity. Qed.

Lemma vexp_sound s :
  match vexp s with
  | VOk r => exists e, s = e ++ r /\ exponent e
  | VBad _ => True
  | _ => False
  end.
Proof.
  unfold vexp. destruct s as [|b s].
  - exists []. split; [reflexivity|constructor].
  - destruct ((b =? 101) || (b =? 69)) eqn:B.
    + destruct s as [|c s]; [exact I|].
      destruct ((c =? 43) || (c =? 45)) eqn:C; cbv zeta.
      * pose proof (need_skip s) as H. destruct (vbind _ _); try exact H.
        destruct H as (ds & -> & D & _). exists (b :: c :: ds). split; [reflexivity|].
        apply exp_sign; [lia|lia|assumption].
      * pose proof (need_skip (c :: s)) as H. destruct (vbind _ _); try exact H.
        destruct H as (ds & -> & D & _). exists (b :: ds). split; [reflexivity|].
        apply exp_some; [lia|assumption].
    + exists []. split; [reflexivity|constructor].
Qed.
Lemma vfrac_sound s :
  match vfrac s with
  | VOk r => exists f e, s = f ++ e ++ r /\ fraction f /\ exponent e
  | VBad _ => True
  | _ => False
  end.
Proof.
  unfold vfrac. destruct s as [|b s].
  - exists [], []. repeat split; constructor.
  - destruct (b =? 46) eqn:B.
    + pose proof (need_skip s) as H. destruct (vbind (need_digit s) _) as [r|r| |]; try exact H.
      destruct H as (ds & -> & D & _). cbn [vbind]. pose proof (vexp_sound r) as H.
      destruct (vexp r) as [r'|r'| |]; try exact H. destruct H as (e & -> & HE).
      exists (b :: ds), e. split; [reflexivity|]. split; [|assumption].
      assert (b = 46) as -> by lia. now constructor.
    + cbn [vbind]. pose proof (vexp_sound (b :: s)) as H.
      destruct (vexp (b :: s)) as [r'|r'| |]; try exact H. destruct H as (e & -> & HE).
      exists [], e. split; [reflexivity|]. split; [constructor|assumption].
Qed.
Lemma vint_sound b s : digit b = true ->
  match vbind (if b =? 48 then VOk s else VOk (skip_digits (b :: s))) vfrac with
  | VOk r => exists i f e, b :: s = i ++ f ++ e ++ r /\ integer i /\ fraction f /\ exponent e
  | VBad _ => True
  | _ => False
  end.
Proof.
  intros B. destruct (b =? 48) eqn:B0.
  - cbn [vbind]. pose proof (vfrac_sound s) as H. destruct (vfrac s); try exact H.
    destruct H as (f & e & -> & F & E). exists [48], f, e.
    assert (b = 48) as -> by lia. split; [reflexivity|]. split; [constructor|auto].
  - destruct (skip_digits_split (b :: s)) as (ds & E & D & N). cbn [vbind].
    pose proof (vfrac_sound (skip_digits (b :: s))) as H.
    destruct (vfrac _) as [r|r| |]; try exact H. destruct H as (f & e & EF & F & HE).
    rewrite EF in E. exists ds, f, e. split; [assumption|]. split; [|auto].
    assert (ND : ds <> []).
    { intros ->. cbn [skip_digits] in *. rewrite is_digit_digit, B in *.
      cbn [app] in E. rewrite <- EF in E. apply (f_equal (@length Z)) in E.
      assert (L : (length (skip_digits s) <= length s)%nat).
      { destruct (skip_digits_split s) as (d' & E' & _). apply (f_equal (@length Z)) in E'.
        rewrite app_length in E'. lia. }
      cbn [length] in E. lia. }
    apply int_pos; [split; assumption|]. destruct ds as [|c ds]; [contradiction|].
    cbn [app] in E. injection E as <- _. cbn [hd]. lia.
Qed.
Lemma vnumber_sound b s : (b =? 45) || digit b = true ->
  match vnumber (b :: s) with
  | VOk r => exists v, b :: s = v ++ r /\ number v
  | VBad _ => True
  | _ => False
  end.
Proof.
  intros B. rewrite vnumber_stages. destruct (b =? 45) eqn:B1.
  - assert (b = 45) as -> by lia. unfold need_digit. destruct s as [|c s]; [exact I|].
    destruct (is_digit c) eqn:C; [|exact I]. cbn [vbind].
    pose proof (vint_sound c s C) as H. destruct (vbind _ vfrac) as [r|r| |]; try exact H.
    destruct H as (i & f & e & -> & HI & F & E). exists (45 :: i ++ f ++ e).
    split; [cbn [app]; rewrite <- !app_assoc; reflexivity | now constructor].
  - cbn [vbind]. pose proof (vint_sound b s B) as H. destruct (vbind _ vfrac) as [r|r| |]; try exact H.
    destruct H as (i & f & e & -> & HI & F & E). exists (i ++ f ++ e).
    split; [rewrite <- !app_assoc; reflexivity | now constructor].
Qed.

Lemma follow_head_not_digit r : follow r -> head_not_digit r.
Proof. destruct r; [exact (fun _ => I)|]. unfold follow, white, head_not_digit, digit. cbn [In]. lia. Qed.

Lemma vexp_complete e r : exponent e -> follow r -> vexp (e ++ r) = VOk r.
Proof.
  intros E F. destruct E as [|b ds B D|b c ds B C D]; cbn [app vexp].
  - unfold vexp. destruct r as [|b r]; [reflexivity|].
    replace ((b =? 101) || (b =? 69)) with false; [reflexivity|].
    unfold follow, white in F. cbn [In] in F. lia.
  - replace ((b =? 101) || (b =? 69)) with true by lia.
    destruct ds as [|c ds]; [destruct D; contradiction|]. cbn [app].
    replace ((c =? 43) || (c =? 45)) with false.
    2:{ destruct D as [_ D]. inversion_clear D as [|? ? C _]. unfold digit in C. lia. }
    apply (need_skip_app (c :: ds)); [assumption|now apply follow_head_not_digit].
  - replace ((b =? 101) || (b =? 69)) with true by lia.
    replace ((c =? 43) || (c =? 45)) with true by lia.
    apply need_skip_app; [assumption|now apply follow_head_not_digit].
Qed.
Lemma exp_head e r : exponent e -> follow r ->
  head_not_digit (e ++ r) /\ match e ++ r with [] => True | b :: _ => b <> 46 end.
Proof.
  intros E F. destruct E as [|b ds B D|b c ds B C D]; cbn [app].
  - split; [now apply follow_head_not_digit|]. destruct r as [|b r]; [exact I|].
    unfold follow, white in F. cbn [In] in F. lia.
  - unfold head_not_digit, digit. lia.
  - unfold head_not_digit, digit. lia.
Qed.
Lemma vfrac_complete f e r : fraction f -> exponent e -> follow r -> vfrac (f ++ e ++ r) = VOk r.
Proof.
  intros HF E F. destruct (exp_head e r E F) as [HN HP]. destruct HF as [|ds D]; cbn [app].
  - rewrite <- (vexp_complete e r E F). unfold vfrac. destruct (e ++ r) as [|b s]; [reflexivity|].
    replace (b =? 46) with false by lia. reflexivity.
  - unfold vfrac. change (46 =? 46) with true. cbv iota.
    rewrite need_skip_app by assumption. cbn [vbind]. now apply vexp_complete.
Qed.
Lemma frac_head f e r : fraction f -> exponent e -> follow r -> head_not_digit (f ++ e ++ r).
Proof.
  intros HF E F. destruct HF; cbn [app]; [now apply exp_head|reflexivity].
Qed.
Lemma int_head i : integer i -> exists b t, i = b :: t /\ digit b = true.
Proof.
  intros [|s [N D] _]; [exists 48, []; auto|].
  destruct s as [|b s]; [contradiction|]. inversion_clear D. eauto.
Qed.
Lemma vint_complete i f e r : integer i -> fraction f -> exponent e -> follow r ->
  vbind (match i ++ f ++ e ++ r with
         | [] => VOob
         | b :: t => if b =? 48 then VOk t else VOk (skip_digits (i ++ f ++ e ++ r))
         end) vfrac = VOk r.
Proof.
  intros HI HF HE F. destruct HI as [|ds D NZ].
  - cbn [app]. change (48 =? 48) with true. cbn [vbind]. now apply vfrac_complete.
  - rewrite skip_digits_app by (first [apply D | now apply frac_head]).
    destruct D as [N D]. destruct ds as [|b ds]; [contradiction|]. cbn [app hd] in *.
    replace (b =? 48) with false by lia. cbn [vbind]. now apply vfrac_complete.
Qed.
Lemma vnumber_complete v r : number v -> follow r -> vnumber (v ++ r) = VOk r.
Proof.
  intros HN F. rewrite vnumber_stages. destruct HN as [i f e HI HF HE|i f e HI HF HE].
  - rewrite <- !app_assoc. pose proof (vint_complete i f e r HI HF HE F) as V.
    destruct (int_head i HI) as (b & t & -> & B). cbn [app] in *.
    replace (b =? 45) with false by (unfold digit in B; lia). exact V.
  - cbn [app]. rewrite <- !app_assoc. change (45 =? 45) with true. cbv iota.
    pose proof (vint_complete i f e r HI HF HE F) as V.
    destruct (int_head i HI) as (b & t & -> & B). cbn [app] in *.
    unfold need_digit. rewrite is_digit_digit, B. exact V.
Qed.
Lemma number_head v : number v -> exists b t, v = b :: t /\ (b =? 45) || digit b = true.
Proof.
  intros [i f e HI _ _|i f e HI _ _].
  - destruct (int_head i HI) as (b & t & -> & B). exists b, (t ++ f ++ e). split; [reflexivity|].
    rewrite B. apply orb_true_r.
  - exists 45, (i ++ f ++ e). auto.
Qed.

Lemma vliteral_sound l s :
  match vliteral l s with
  | VOk r => s = l ++ r
  | VBad _ => True
  | _ => False
  end.
Proof.
  unfold vliteral. destruct (list_eq_dec _ _ _) as [E|]; [|exact I].
  rewrite <- E at 1. symmetry. apply firstn_skipn.
Qed.
Lemma vliteral_complete l r : vliteral l (l ++ r) = VOk r.
Proof.
  unfold vliteral. rewrite firstn_app, Nat.sub_diag, firstn_all, app_nil_r.
  destruct (list_eq_dec _ _ _) as [|N]; [|contradiction].
  rewrite skipn_app, Nat.sub_diag, skipn_all. reflexivity.
Qed.

(** ** White space, colons and commas *)

Lemma skip_ws_split s :
  exists w, s = w ++ skip_ws s /\ ws w /\
            match skip_ws s with [] => True | b :: _ => white b = false end.
Proof.
  induction s as [|b s (w & E & W & N)]; cbn [skip_ws].
  - exists []. repeat split. constructor.
  - rewrite is_ws_white. destruct (white b) eqn:B.
    + exists (b :: w). cbn [app]. rewrite <- E. repeat split; [|assumption]. now constructor.
    + exists []. repeat split; [constructor|assumption].
Qed.
Lemma skip_ws_app w r : ws w -> match r with [] => True | b :: _ => white b = false end ->
  skip_ws (w ++ r) = r.
Proof.
  induction 1 as [|b w B D IH]; intros N; cbn [app skip_ws].
  - destruct r as [|b r]; [reflexivity|]. cbn [skip_ws]. rewrite is_ws_white, N. reflexivity.
  - rewrite is_ws_white, B. now apply IH.
Qed.

Lemma vcolon_sound s :
  match vcolon s with
  | VOk r => exists w, s = w ++ 58 :: r /\ ws w
  | VBad _ => True
  | _ => False
  end.
Proof.
  induction s as [|b s IH]; cbn [vcolon]; [exact I|]. rewrite is_ws_white. destruct (white b) eqn:B.
  - destruct (vcolon s); try exact IH. destruct IH as (w & -> & W). exists (b :: w).
    split; [reflexivity|now constructor].
  - destruct (b =? 58) eqn:B1; [|exact I]. assert (b = 58) as -> by lia.
    exists []. split; [reflexivity|constructor].
Qed.
Lemma vcolon_complete w r : ws w -> vcolon (w ++ 58 :: r) = VOk r.
Proof.
  induction 1 as [|b w B D IH]; [reflexivity|]. cbn [app vcolon]. now rewrite is_ws_white, B.
Qed.
Lemma vcomma_sound c s :
  match vcomma c s with
  | VOk r => exists w b t, s = w ++ r /\ r = b :: t /\ ws w /\ (b = 44 \/ b = c)
  | VBad _ => True
  | _ => False
  end.
Proof.
  induction s as [|b s IH]; cbn [vcomma]; [exact I|]. rewrite is_ws_white. destruct (white b) eqn:B.
  - destruct (vcomma c s); try exact IH. destruct IH as (w & b' & t & -> & -> & W & H).
    exists (b :: w), b', t. repeat split; [now constructor|assumption].
  - destruct (b =? 44) eqn:B1; [|destruct (b =? c) eqn:B2; [|exact I]];
    exists [], b, s; repeat split; try constructor; lia.
Qed.
Lemma vcomma_complete c w b r : ws w -> b = 44 \/ b = c -> white b = false ->
  vcomma c (w ++ b :: r) = VOk (b :: r).
Proof.
  intros W H N. induction W as [|x w B D IH]; cbn [app vcomma].
  - rewrite is_ws_white, N. destruct (Z.eqb_spec b 44); [reflexivity|].
    replace (b =? c) with true by lia. reflexivity.
  - now rewrite is_ws_white, B.
Qed.

(** ** Arrays and objects *)

Notation lvalue := (value lax_char true).
Notation lelements := (elements lax_char true).
Notation lmembers := (members lax_char true).
Notation ltail := (str_tail lax_char true).

Definition elem_sound (elem : list Z -> vres) (n : nat) : Prop := forall s, Forall byte s ->
  match elem s with
  | VOk r => exists w v, s = w ++ v ++ r /\ ws w /\ lvalue n v
  | VBad _ => True
  | _ => False
  end.
Definition elem_complete (elem : list Z -> vres) (n : nat) : Prop := forall w v r,
  ws w -> lvalue n v -> follow r -> elem (w ++ v ++ r) = VOk r.

Lemma value_head ch br n v : value ch br n v ->
  exists b t, v = b :: t /\ white b = false /\ b <> 93 /\ b <> 125.
Proof.
  intros [m l I|m s N|m s _|m w _|m es _|m w _|m ms _]; try (eexists; eexists; split; [reflexivity|];
    split; [reflexivity|lia]).
  - cbn [In] in I. destruct I as [<-|[<-|[<-|[]]]]; eexists; eexists; (split; [reflexivity|]);
      (split; [reflexivity|lia]).
  - destruct (number_head s N) as (b & t & -> & B). exists b, t. split; [reflexivity|].
    unfold white, digit in *. lia.
Qed.

Lemma varray_items_sound elem n : elem_sound elem n ->
  forall fuel s, (length s <= fuel)%nat -> Forall byte s ->
  match varray_items elem fuel s with
  | VOk r => exists es, s = es ++ 93 :: r /\ lelements n es
  | VBad _ => True
  | _ => False
  end.
Proof.
  intros HE. induction fuel as [|fuel IH]; intros s L HB; (destruct s as [|b0 s0]; [exact I|]);
    [cbn in L; lia|].
  cbn [varray_items]. specialize (HE _ HB). destruct (elem (b0 :: s0)) as [s1|s1| |]; try exact HE.
  destruct HE as (w & v & E & W & V). cbn [vbind].
  pose proof (vcomma_sound 93 s1) as HC. destruct (vcomma 93 s1) as [s2|s2| |]; try exact HC.
  destruct HC as (w2 & b & t & E2 & -> & W2 & Hb). cbn [vbind].
  rewrite E2 in E.
  destruct (b =? 93) eqn:B.
  - exists (w ++ v ++ w2). assert (b = 93) as -> by lia. split; [|now constructor].
    rewrite E, <- !app_assoc. reflexivity.
  - assert (b = 44) as -> by lia.
    assert (LT : (length t <= fuel)%nat).
    { apply (f_equal (@length Z)) in E. rewrite !app_length in E. cbn [length] in E, L. lia. }
    assert (BT : Forall byte t).
    { rewrite E in HB. rewrite !Forall_app in HB. destruct HB as (_ & _ & _ & H). now inversion_clear H. }
    specialize (IH t LT BT). destruct (varray_items elem fuel t) as [r|r| |]; try exact IH.
    destruct IH as (es & -> & HES). exists (w ++ v ++ w2 ++ 44 :: es).
    split; [|now apply e_more]. rewrite E, <- !app_assoc. reflexivity.
Qed.

Lemma elements_trim ch br n es : elements ch br n es ->
  exists w es', es = w ++ es' /\ ws w /\ elements ch br n es' /\
    exists b t, es' = b :: t /\ white b = false /\ b <> 93.
Proof.
  intros [m w1 v w2 W1 V W2|m w1 v w2 es' W1 V W2 H]; exists w1; eexists; (split; [reflexivity|]);
    (split; [assumption|]); destruct (value_head _ _ _ _ V) as (b & t & -> & Hw & H1 & H2).
  - split; [apply (e_one ch br m [] (b :: t) w2); [constructor|assumption|assumption]|].
    exists b, (t ++ w2). auto.
  - split; [apply (e_more ch br m [] (b :: t) w2 es'); [constructor|assumption|assumption|assumption]|].
    exists b, (t ++ w2 ++ 44 :: es'). auto.
Qed.

Lemma follow_ws w b r : ws w -> In b [44; 93; 125; 58] -> follow (w ++ b :: r).
Proof.
  intros W I. destruct W as [|x w B W]; cbn [app follow]; auto.
Qed.

Lemma varray_items_complete elem n : elem_complete elem n ->
  forall es, lelements n es -> forall fuel r, (length (es ++ 93%Z :: r) <= fuel)%nat ->
  varray_items elem fuel (es ++ 93 :: r) = VOk r.
Proof.
  intros HE es H. induction H as [m w1 v w2 W1 V W2|m w1 v w2 es W1 V W2 H IH];
    intros fuel r L.
  - rewrite <- !app_assoc in *. 
    assert (NE : exists b t, w1 ++ v ++ w2 ++ 93 :: r = b :: t).
    { destruct (value_head _ _ _ _ V) as (b & t & -> & _). destruct w1; cbn [app]; eauto. }
    destruct fuel as [|fuel].
    { destruct NE as (b & t & E). rewrite E in L. cbn in L. lia. }
    assert (ST : varray_items elem (S fuel) (w1 ++ v ++ w2 ++ 93 :: r) =
      vbind (elem (w1 ++ v ++ w2 ++ 93 :: r)) (fun s =>
          vbind (vcomma 93 s) (fun s =>
          match s with
          | [] => VOob
          | b :: r => if b =? 93 then VOk r else varray_items elem fuel r
          end))).
    { destruct NE as (b & t & ->). reflexivity. }
    rewrite ST, HE by (first [assumption | apply follow_ws; [assumption|cbn; auto]]).
    cbn [vbind]. rewrite vcomma_complete by (first [assumption | reflexivity | auto]).
    reflexivity.
  - rewrite <- !app_assoc in *. cbn [app] in *.
    assert (NE : exists b t, w1 ++ v ++ w2 ++ 44 :: es ++ 93 :: r = b :: t).
    { destruct (value_head _ _ _ _ V) as (b & t & -> & _). destruct w1; cbn [app]; eauto. }
    destruct fuel as [|fuel].
    { destruct NE as (b & t & E). rewrite E in L. cbn in L. lia. }
    assert (ST : varray_items elem (S fuel) (w1 ++ v ++ w2 ++ 44 :: es ++ 93 :: r) =
      vbind (elem (w1 ++ v ++ w2 ++ 44 :: es ++ 93 :: r)) (fun s =>
          vbind (vcomma 93 s) (fun s =>
          match s with
          | [] => VOob
          | b :: r => if b =? 93 then VOk r else varray_items elem fuel r
          end))).
    { destruct NE as (b & t & ->). reflexivity. }
    rewrite ST, HE by (first [assumption | apply follow_ws; [assumption|cbn; auto]]).
    cbn [vbind]. rewrite vcomma_complete by (first [assumption | reflexivity | auto]).
    cbn [vbind]. change (44 =? 93) with false. cbv iota. apply IH; [assumption|].
    rewrite !app_length in L. cbn [length] in L. lia.
Qed.

Lemma varray_sound elem n s : elem_sound elem n -> Forall byte s ->
  match varray elem s with
  | VOk r => exists v, 91 :: s = v ++ r /\ lvalue (S n) v
  | VBad _ => True
  | _ => False
  end.
Proof.
  intros HE HB. unfold varray. destruct (skip_ws_split s) as (w & E & W & _).
  destruct (skip_ws s) as [|b t]; [exact I|].
  assert (BT : Forall byte (b :: t)) by (rewrite E in HB; now apply Forall_app in HB).
  destruct (b =? 93) eqn:B.
  - assert (b = 93) as -> by lia. exists (91 :: w ++ [93]). split; [|now constructor].
    cbn [app]. rewrite <- app_assoc. cbn [app]. now rewrite <- E.
  - assert (L : (length (b :: t) <= S (length s))%nat).
    { apply (f_equal (@length Z)) in E. rewrite app_length in E. lia. }
    pose proof (varray_items_sound elem n HE _ _ L BT) as H.
    destruct (varray_items elem _ _) as [r|r| |]; try exact H.
    destruct H as (es & EE & HES). exists (91 :: (w ++ es) ++ [93]).
    split; [cbn [app]; rewrite <- !app_assoc; cbn [app]; rewrite <- EE, <- E; reflexivity|].
    apply v_arr. destruct HES as [m w1 v w2 W1 V W2|m w1 v w2 es' W1 V W2 H]; rewrite app_assoc.
    + apply e_one; try assumption. now apply Forall_app.
    + apply e_more; try assumption. now apply Forall_app.
Qed.

Lemma varray_complete0 elem w r : ws w -> varray elem (w ++ 93 :: r) = VOk r.
Proof.
  intros W. unfold varray. rewrite skip_ws_app by (first [assumption|reflexivity]). reflexivity.
Qed.
Lemma varray_complete elem n es r : elem_complete elem n -> lelements n es ->
  varray elem (es ++ 93 :: r) = VOk r.
Proof.
  intros HE H. destruct (elements_trim _ _ _ _ H) as (w & es' & -> & W & H' & b & t & -> & Hw & H93).
  unfold varray. rewrite <- app_assoc. rewrite skip_ws_app by (first [assumption|exact Hw]).
  cbn [app]. replace (b =? 93) with false by lia.
  apply (varray_items_complete elem n HE (b :: t) H').
  rewrite !app_length. cbn [app length]. rewrite app_length. cbn [length]. lia.
Qed.

Lemma vobject_items_sound elem n : elem_sound elem n ->
  forall fuel s, (length s < fuel)%nat -> Forall byte s ->
  match vobject_items elem fuel (34 :: s) with
  | VOk r => exists ms, 34 :: s = ms ++ 125 :: r /\ lmembers n ms
  | VBad _ => True
  | _ => False
  end.
Proof.
  intros HE. induction fuel as [|fuel IH]; intros s L HB; [lia|].
  cbn [vobject_items tl]. unfold vkey.
  pose proof (vstring_sound (S (length s)) s ltac:(lia) HB) as HK.
  destruct (vstring _ s) as [s1|s1| |]; try exact HK. destruct HK as (k & E1 & K). cbn [vbind].
  pose proof (vcolon_sound s1) as HC. destruct (vcolon s1) as [s2|s2| |]; try exact HC.
  destruct HC as (w2 & E2 & W2). cbn [vbind].
  assert (B2 : Forall byte s2).
  { rewrite E1, E2 in HB. rewrite !Forall_app in HB. destruct HB as (_ & _ & H). now inversion_clear H. }
  pose proof (HE s2 B2) as HV. destruct (elem s2) as [s3|s3| |]; try exact HV.
  destruct HV as (w3 & v & E3 & W3 & V). cbn [vbind].
  pose proof (vcomma_sound 125 s3) as HM. destruct (vcomma 125 s3) as [s4|s4| |]; try exact HM.
  destruct HM as (w4 & b & t & E4 & -> & W4 & Hb). cbn [vbind].
  assert (ES : s = k ++ w2 ++ 58 :: w3 ++ v ++ w4 ++ b :: t).
  { rewrite E1, E2, E3, E4. reflexivity. }
  clear E1 E2 E3 E4.
  destruct (b =? 125) eqn:B.
  - assert (b = 125) as -> by lia.
    exists ([] ++ 34 :: k ++ w2 ++ 58 :: w3 ++ v ++ w4).
    split; [|apply m_one; try assumption; constructor].
    rewrite ES. cbn [app]. rewrite <- !app_assoc. cbn [app]. rewrite <- !app_assoc. reflexivity.
  - assert (b = 44) as -> by lia.
    destruct (skip_ws_split t) as (w5 & E5 & W5 & _).
    destruct (skip_ws t) as [|q t']; [exact I|]. destruct (q =? 34) eqn:Q; [|exact I].
    assert (q = 34) as -> by lia.
    assert (LT : (length t' < fuel)%nat).
    { apply (f_equal (@length Z)) in ES. rewrite E5 in ES. rewrite !app_length in ES.
      cbn [length] in ES. rewrite !app_length in ES. cbn [length] in ES. rewrite !app_length in ES.
      cbn [length] in ES. lia. }
    assert (BT : Forall byte t').
    { rewrite ES, E5 in HB. rewrite Forall_app in HB. destruct HB as (_ & H).
      rewrite Forall_app in H. destruct H as (_ & H). inversion_clear H as [|? ? _ H'].
      rewrite !Forall_app in H'. destruct H' as (_ & _ & _ & H). inversion_clear H as [|? ? _ H'].
      rewrite !Forall_app in H'. destruct H' as (_ & H). now inversion_clear H. }
    specialize (IH t' LT BT). destruct (vobject_items elem fuel _) as [r|r| |]; try exact IH.
    destruct IH as (ms & EM & HM).
    exists ([] ++ 34 :: k ++ w2 ++ 58 :: w3 ++ v ++ w4 ++ 44 :: w5 ++ ms).
    split.
    + rewrite ES, E5, EM. cbn [app]. repeat (rewrite <- app_assoc; cbn [app]). reflexivity.
    + apply m_more; try assumption; [constructor|].
      destruct HM as [m x1 x2 x3 x4 x5 x6 X1 X2 X3 X4 X5 X6|m x1 x2 x3 x4 x5 x6 x7 X1 X2 X3 X4 X5 X6 X7];
        rewrite app_assoc.
      * apply m_one; try assumption. now apply Forall_app.
      * apply m_more; try assumption. now apply Forall_app.
Qed.

Lemma members_trim ch br n ms : members ch br n ms ->
  exists w t, ms = w ++ 34 :: t /\ ws w /\ members ch br n (34 :: t).
Proof.
  intros [m x1 x2 x3 x4 x5 x6 X1 X2 X3 X4 X5 X6|m x1 x2 x3 x4 x5 x6 x7 X1 X2 X3 X4 X5 X6 X7];
    exists x1; eexists; (split; [reflexivity|]); (split; [assumption|]).
  - apply (m_one _ _ _ []); try assumption. constructor.
  - apply (m_more _ _ _ []); try assumption. constructor.
Qed.

Lemma vobject_items_complete elem n : elem_complete elem n ->
  forall ms, lmembers n ms -> forall fuel r w t, ms = w ++ 34 :: t -> ws w ->
  (length (t ++ 125%Z :: r) < fuel)%nat ->
  vobject_items elem fuel (34 :: t ++ 125 :: r) = VOk r.
Proof.
  intros HE ms H.
  assert (U : forall w1 k w t, w1 ++ 34 :: k = w ++ 34 :: t -> ws w1 -> ws w -> k = t).
  { clear. induction w1 as [|a w1 IH]; intros k w t E W1 W.
    - destruct w as [|x w]; cbn [app] in E; [now injection E|].
      injection E as <- _. inversion_clear W as [|? ? C _]. discriminate.
    - destruct w as [|x w]; cbn [app] in E.
      + injection E as -> _. inversion_clear W1 as [|? ? C _]. discriminate.
      + injection E as _ E. inversion_clear W1. inversion_clear W. eapply IH; eassumption. }
  induction H as [m x1 k w2 w3 v w4 X1 K W2 W3 V W4|m x1 k w2 w3 v w4 ms X1 K W2 W3 V W4 H IH];
    intros fuel r w t E W L; apply U in E; try assumption; subst t;
    (destruct fuel as [|fuel]; [lia|]); cbn [vobject_items tl]; unfold vkey.
  - repeat (rewrite <- app_assoc in *; cbn [app] in *).
    rewrite vstring_complete by (first [assumption | apply follow_ws; [assumption|cbn; auto] | lia]).
    cbn [vbind]. rewrite vcolon_complete by assumption. cbn [vbind].
    rewrite HE by (first [assumption | apply follow_ws; [assumption|cbn; auto]]). cbn [vbind].
    rewrite vcomma_complete by (first [assumption | reflexivity | auto]). reflexivity.
  - repeat (rewrite <- app_assoc in *; cbn [app] in *).
    rewrite vstring_complete by (first [assumption | apply follow_ws; [assumption|cbn; auto] | lia]).
    cbn [vbind]. rewrite vcolon_complete by assumption. cbn [vbind].
    rewrite HE by (first [assumption | apply follow_ws; [assumption|cbn; auto]]). cbn [vbind].
    rewrite vcomma_complete by (first [assumption | reflexivity | auto]). cbn [vbind].
    change (44 =? 125) with false. cbv iota.
    destruct (members_trim _ _ _ _ H) as (w5 & t & -> & W5 & H'). rewrite <- app_assoc. cbn [app].
    rewrite skip_ws_app by (first [assumption|reflexivity]). change (34 =? 34) with true. cbv iota.
    apply (IH HE fuel r w5 t eq_refl W5).
    rewrite !app_length in L. cbn [length] in L. rewrite !app_length in L. cbn [length] in L.
    rewrite !app_length in L. cbn [length] in L. rewrite app_length. cbn [length]. lia.
Qed.

Lemma vobject_sound elem n s : elem_sound elem n -> Forall byte s ->
  match vobject elem s with
  | VOk r => exists v, 123 :: s = v ++ r /\ lvalue (S n) v
  | VBad _ => True
  | _ => False
  end.
Proof.
  intros HE HB. unfold vobject. destruct (skip_ws_split s) as (w & E & W & _).
  destruct (skip_ws s) as [|b t]; [exact I|].
  destruct (b =? 34) eqn:Q.
  - assert (b = 34) as -> by lia.
    assert (BT : Forall byte t).
    { rewrite E in HB. apply Forall_app in HB. destruct HB as [_ H]. now inversion_clear H. }
    assert (L : (length t < S (length s))%nat).
    { apply (f_equal (@length Z)) in E. rewrite app_length in E. cbn [length] in E. lia. }
    pose proof (vobject_items_sound elem n HE _ _ L BT) as H.
    destruct (vobject_items elem _ _) as [r|r| |]; try exact H.
    destruct H as (ms & EM & HM). exists (123 :: (w ++ ms) ++ [125]).
    split; [cbn [app]; rewrite <- !app_assoc; cbn [app]; rewrite <- EM, <- E; reflexivity|].
    apply v_obj.
    destruct HM as [m x1 x2 x3 x4 x5 x6 X1 X2 X3 X4 X5 X6|m x1 x2 x3 x4 x5 x6 x7 X1 X2 X3 X4 X5 X6 X7];
      rewrite app_assoc.
    + apply m_one; try assumption. now apply Forall_app.
    + apply m_more; try assumption. now apply Forall_app.
  - destruct (b =? 125) eqn:B; [|exact I]. assert (b = 125) as -> by lia.
    exists (123 :: w ++ [125]). split; [|now constructor].
    cbn [app]. rewrite <- app_assoc. cbn [app]. now rewrite <- E.
Qed.
Lemma vobject_complete0 elem w r : ws w -> vobject elem (w ++ 125 :: r) = VOk r.
Proof.
  intros W. unfold vobject. rewrite skip_ws_app by (first [assumption|reflexivity]). reflexivity.
Qed.
Lemma vobject_complete elem n ms r : elem_complete elem n -> lmembers n ms ->
  vobject elem (ms ++ 125 :: r) = VOk r.
Proof.
  intros HE H. destruct (members_trim _ _ _ _ H) as (w & t & -> & W & H').
  unfold vobject. rewrite <- app_assoc. cbn [app].
  rewrite skip_ws_app by (first [assumption|reflexivity]). change (34 =? 34) with true. cbv iota.
  apply (vobject_items_complete elem n HE (34 :: t) H' _ r [] t eq_refl ltac:(constructor)).
  rewrite !app_length. cbn [length]. rewrite app_length. cbn [length]. lia.
Qed.

(** ** Values and texts *)

Lemma vany_sound dfuel : forall depth, (1 <= dfuel)%nat -> (S JSON_MAXDEPTH < depth + dfuel)%nat ->
  elem_sound (vany dfuel depth) (S JSON_MAXDEPTH - depth).
Proof.
  induction dfuel as [|dfuel IH]; intros depth L1 L2 s HB; [lia|]. cbn [vany].
  destruct (Nat.ltb_spec JSON_MAXDEPTH depth) as [|Hd]; [exact I|].
  assert (EN : (S JSON_MAXDEPTH - depth = S (S JSON_MAXDEPTH - S depth))%nat) by lia.
  assert (HE : elem_sound (vany dfuel (S depth)) (S JSON_MAXDEPTH - S depth)).
  { apply IH; [|lia]. lia. }
  rewrite EN. remember (S JSON_MAXDEPTH - S depth)%nat as n eqn:En. clear En EN IH.
  destruct (skip_ws_split s) as (w & E & W & _). destruct (skip_ws s) as [|b t]; [exact I|].
  assert (BT : Forall byte t).
  { rewrite E in HB. apply Forall_app in HB. destruct HB as [_ H]. now inversion_clear H. }
  assert (FIN : forall x, 
    match x with
    | VOk r => exists v, b :: t = v ++ r /\ lvalue (S n) v
    | VBad _ => True
    | _ => False
    end ->
    match x with
    | VOk r => exists w v, s = w ++ v ++ r /\ ws w /\ lvalue (S n) v
    | VBad _ => True
    | _ => False
    end).
  { intros [r|r| |] H; try exact H. destruct H as (v & EV & V). exists w, v.
    rewrite E, EV. auto. }
  apply FIN. clear FIN E HB.
  destruct (Z.eqb_spec b 123) as [->|]; [now apply vobject_sound|].
  destruct (Z.eqb_spec b 91) as [->|]; [now apply varray_sound|].
  destruct (Z.eqb_spec b 34) as [->|].
  { pose proof (vstring_sound (S (length t)) t ltac:(lia) BT) as H.
    destruct (vstring _ t); try exact H. destruct H as (k & -> & K). exists (34 :: k).
    split; [reflexivity|now constructor]. }
  destruct (Z.eqb_spec b 116) as [->|].
  { pose proof (vliteral_sound [114; 117; 101] t) as H. destruct (vliteral _ t); try exact H.
    subst t. exists lit_true. split; [reflexivity|]. constructor. cbn. auto. }
  destruct (Z.eqb_spec b 102) as [->|].
  { pose proof (vliteral_sound [97; 108; 115; 101] t) as H. destruct (vliteral _ t); try exact H.
    subst t. exists lit_false. split; [reflexivity|]. constructor. cbn. auto. }
  destruct (Z.eqb_spec b 110) as [->|].
  { pose proof (vliteral_sound [117; 108; 108] t) as H. destruct (vliteral _ t); try exact H.
    subst t. exists lit_null. split; [reflexivity|]. constructor. cbn. auto. }
  rewrite is_digit_digit. destruct ((b =? 45) || digit b) eqn:B; [|exact I].
  pose proof (vnumber_sound b t B) as H. destruct (vnumber (b :: t)); try exact H.
  destruct H as (v & E & V). exists v. split; [assumption|now constructor].
Qed.

Lemma value_pos ch br n v : value ch br n v -> (0 < n)%nat.
Proof. intros H. destruct H; lia. Qed.

Lemma vany_complete dfuel : forall depth, (S JSON_MAXDEPTH < depth + dfuel)%nat ->
  elem_complete (vany dfuel depth) (S JSON_MAXDEPTH - depth).
Proof.
  induction dfuel as [|dfuel IH]; intros depth L2 w v r W V F.
  { apply value_pos in V. lia. }
  assert (Hd : (depth <= JSON_MAXDEPTH)%nat) by (apply value_pos in V; lia).
  assert (EN : (S JSON_MAXDEPTH - depth = S (S JSON_MAXDEPTH - S depth))%nat) by lia.
  assert (HE : elem_complete (vany dfuel (S depth)) (S JSON_MAXDEPTH - S depth)) by (apply IH; lia).
  rewrite EN in V. remember (S JSON_MAXDEPTH - S depth)%nat as n eqn:En. clear En EN IH.
  cbn [vany]. destruct (Nat.ltb_spec JSON_MAXDEPTH depth); [lia|].
  rewrite skip_ws_app; [|assumption|].
  2:{ destruct (value_head _ _ _ _ V) as (b & t & -> & Hw & _). exact Hw. }
  inversion V as [m l I|m s N|m s T|m w' W'|m es H'|m w' W'|m ms H']; subst.
  - cbn [In] in I. destruct I as [<-|[<-|[<-|[]]]].
    + exact (vliteral_complete [114; 117; 101] r).
    + exact (vliteral_complete [97; 108; 115; 101] r).
    + exact (vliteral_complete [117; 108; 108] r).
  - pose proof (vnumber_complete v r N F) as E.
    destruct (number_head v N) as (b & t & -> & B). cbn [app] in *.
    unfold digit in B.
    destruct (Z.eqb_spec b 123); [lia|]. destruct (Z.eqb_spec b 91); [lia|].
    destruct (Z.eqb_spec b 34); [lia|]. destruct (Z.eqb_spec b 116); [lia|].
    destruct (Z.eqb_spec b 102); [lia|]. destruct (Z.eqb_spec b 110); [lia|].
    replace ((b =? 45) || is_digit b) with true by (symmetry; exact B). exact E.
  - cbn [app]. change (34 =? 123) with false. change (34 =? 91) with false. change (34 =? 34) with true.
    cbv iota. apply vstring_complete; [assumption|assumption|lia].
  - cbn [app]. rewrite <- app_assoc. cbn [app]. change (91 =? 123) with false. change (91 =? 91) with true.
    cbv iota. now apply varray_complete0.
  - cbn [app]. rewrite <- app_assoc. cbn [app]. change (91 =? 123) with false. change (91 =? 91) with true.
    cbv iota. eapply varray_complete; eassumption.
  - cbn [app]. rewrite <- app_assoc. cbn [app]. change (123 =? 123) with true.
    cbv iota. now apply vobject_complete0.
  - cbn [app]. rewrite <- app_assoc. cbn [app]. change (123 =? 123) with true.
    cbv iota. eapply vobject_complete; eassumption.
Qed.

Lemma depth_ok : (S JSON_MAXDEPTH < 1 + (JSON_MAXDEPTH + 1))%nat.
Proof. lia. Qed.

Lemma json_valid_sound s : Forall byte s ->
  match json_validn s with
  | Some true => lax_json JSON_MAXDEPTH s
  | Some false => True
  | None => False
  end.
Proof.
  intros HB. unfold json_validn, vpayload.
  destruct (skip_ws_split s) as (w & E & W & _). destruct (skip_ws s) as [|b t]; [exact I|].
  assert (BT : Forall byte (b :: t)) by (rewrite E in HB; now apply Forall_app in HB).
  pose proof (vany_sound (JSON_MAXDEPTH + 1) 1 ltac:(lia) depth_ok _ BT) as H.
  destruct (vany _ _ _) as [r|r| |]; try exact H.
  destruct H as (w1 & v & EV & W1 & V). cbn [vbind].
  destruct (skip_ws_split r) as (w2 & E2 & W2 & _). destruct (skip_ws r) as [|c r']; [|exact I].
  rewrite app_nil_r in E2. subst w2. exists (w ++ w1), v, r.
  split; [rewrite E, EV, <- app_assoc; reflexivity|]. split; [now apply Forall_app|].
  split; [|assumption].
  replace (S JSON_MAXDEPTH - 1)%nat with JSON_MAXDEPTH in V by lia. exact V.
Qed.
Lemma json_valid_complete s : lax_json JSON_MAXDEPTH s -> json_validn s = Some true.
Proof.
  intros (w1 & v & w2 & -> & W1 & V & W2). unfold json_validn, vpayload.
  destruct (value_head _ _ _ _ V) as (b & t & EB & Hw & _).
  rewrite skip_ws_app; [|assumption|rewrite EB; exact Hw].
  assert (V' : lvalue (S JSON_MAXDEPTH - 1) v).
  { replace (S JSON_MAXDEPTH - 1)%nat with JSON_MAXDEPTH by lia. assumption. }
  assert (F : follow w2) by (destruct W2; cbn; auto).
  pose proof (vany_complete (JSON_MAXDEPTH + 1) 1 depth_ok [] v w2 ltac:(constructor) V' F) as E.
  cbn [app] in E. revert E. rewrite EB. cbn [app]. intros ->. cbn [vbind].
  rewrite <- (app_nil_r w2), skip_ws_app by (first [assumption | exact I]). reflexivity.
Qed.
