(** * Printed numbers have the form of a number and read back *)

From Coq Require Import ZArith Bool String List Lia ZifyBool Reals Lra Psatz.
From Coq Require Import Floats.SpecFloat.
From Flocq Require Import Core.
From Verif Require Import F64 Geo F64Order F64Real Bytes Writer Num NumFacts NumRound SpecText.
Import ListNotations.
Local Open Scope Z_scope.

(** sign, integer digits without a leading zero, fraction, exponent *)
Definition num_form (t : list Z) : Prop :=
  exists neg ip fp ex,
    t = sgn neg ++ ip ++ frac_chars fp ++ ex /\
    digits ip /\ ip <> [] /\ (ip = [48] \/ hd 0 ip <> 48) /\ digits fp /\
    (ex = [] \/ exists e, -1000 < e < 1000 /\ ex = 101 :: exp_chars e).

(** the text is a number that reads back as [x] *)
Definition reads_as (t : list Z) (x : f64) : Prop :=
  num_form t /\ (forall rest, stops rest -> strtod (t ++ rest) = (x, rest)) /\ (length t < 512)%nat.

(** the texts of the first and of the rewriting pass of fp_utoa *)
Definition num_texts (g : bool) (x : f64) (t1 : list Z) (t2 : option (list Z)) : Prop :=
  exists buf, d2s_buffered_n x = Some buf /\ fp_utoa_text g buf = (t1, t2).

Lemma print_decimal g x m e :
  f_wf x = true -> f_isnormal x = true ->
  d2s_buffered_n x = to_chars64 m e (f_sign x) ->
  0 < m < 100000000000000000 -> -470 < e < 470 -> in_interval x m e ->
  exists t1 t2, num_texts g x t1 t2 /\ reads_as t1 x /\ (forall t, t2 = Some t -> reads_as t x) /\
    (0 <= e -> plain_decimal (if f_sign x then - (m * 10 ^ e) else m * 10 ^ e) t1 /\ (e < 3 -> t2 = None)).
Proof.
  intros W N HB HM HE HI. unfold num_texts. rewrite HB.
  destruct (to_chars64_ok m e (f_sign x) HM) as (d & ds & D & ->).
  assert (L : Z.of_nat (length ds) < 17).
  { pose proof (dlist_bounds _ m D ltac:(lia)) as Bd. cbn [length] in Bd.
    destruct (Z.lt_ge_cases (Z.of_nat (length ds)) 17) as [X|X]; [exact X|exfalso].
    assert (10 ^ 17 <= 10 ^ (Z.of_nat (S (length ds)) - 1)) by (apply Z.pow_le_mono_r; lia).
    change (10 ^ 17) with 100000000000000000 in *. lia. }
  destruct D as (D1 & D2 & D3).
  assert (HD : dlist (d :: ds) (val (d :: ds))) by (split; [|split]; auto).
  set (en := e + Z.of_nat (length ds)).
  assert (Hen : -1000 < en < 1000) by (unfold en; lia).
  change (d :: match ds with [] => [] | _ => str "." ++ ds end ++ str "E" ++ exp_chars en)
    with (mant_chars d ds ++ str "E" ++ exp_chars en).
  change (if f_sign x then str "-" else []) with (sgn (f_sign x)).
  eexists _, _. split; [eexists; split; [reflexivity|exact (fp_utoa_shape g (f_sign x) d ds en D1 Hen)]|].
  assert (HLm : (length (mant_chars d ds) <= 18)%nat).
  { unfold mant_chars, frac_chars. destruct ds as [|c r]; [cbn; lia|].
    cbn [app length]. rewrite app_length. change (length (str ".")) with 1%nat. cbn [length] in *. lia. }
  assert (HLs : (length (sgn (f_sign x)) <= 1)%nat) by (destruct (f_sign x); cbn; lia).
  assert (HL1 : (length (sgn (f_sign x) ++ fixed_chars (mant_chars d ds) en) < 512)%nat).
  { rewrite app_length. unfold fixed_chars. destruct (Z.ltb_spec en 0) as [X|X].
    - rewrite !app_length, repeat_length. change (length (str "0.")) with 2%nat.
      unfold mant_chars, frac_chars in *. destruct ds as [|c r].
      + cbn [length]. unfold en in *. cbn [length] in *. lia.
      + change (str "." ++ c :: r) with (46 :: c :: r). unfold en in *. cbn [length] in *. lia.
    - change (mant_chars d ds) with (d :: frac_chars ds). cbv iota beta.
      assert (X1 : tl (frac_chars ds) = ds) by (destruct ds; reflexivity).
      rewrite X1, pad_digits_ok. cbn [length]. rewrite !app_length, firstn_length, repeat_length.
      assert (X2 : (length (match skipn (Z.to_nat en) ds with [] => [] | 48%Z :: [] => []
                            | _ => str "." ++ skipn (Z.to_nat en) ds end) <= 18)%nat).
      { assert (X3 : (length (skipn (Z.to_nat en) ds) <= 17)%nat) by (rewrite skipn_length; lia).
        destruct (skipn (Z.to_nat en) ds) as [|c r]; [cbn; lia|].
        assert (X4 : (length (str "." ++ c :: r) <= 18)%nat)
          by (rewrite app_length; change (length (str ".")) with 1%nat; cbn [length] in *; lia).
        revert X4. generalize (str "." ++ c :: r). intros w X4.
        destruct c as [|p|p]; try exact X4. do 6 (try (destruct p as [p|p|]; try exact X4)).
        destruct r; [cbn; lia|exact X4]. }
      unfold en in *. lia. }
  assert (HL2 : (length (sgn (f_sign x) ++ mant_chars d ds ++ str "e" ++ exp_chars en) < 512)%nat).
  { rewrite !app_length. change (length (str "e")) with 1%nat.
    assert ((length (exp_chars en) <= 5)%nat); [|lia].
    unfold exp_chars, digit_pair. rewrite app_length.
    destruct (en <? 0), (100 <=? Z.abs en), (10 <=? Z.abs en); cbn; lia. }
  split.
  { destruct (fixed_parts d ds en HD) as (ip & fp & F1 & F2 & F3 & F4 & F5 & F6); [lia|].
    split.
    - exists (f_sign x), ip, fp, []. rewrite F1, app_nil_r. tauto.
    - split; [|exact HL1]. intros rest S. rewrite F1, <- !app_assoc.
      rewrite (strtod_parts (f_sign x) ip fp rest 0 rest F2 F3 F4 (or_introl S) (dec_exp_none rest S)).
      f_equal. apply dec_round_interval; auto.
      + assert (V : 0 <= val (ip ++ fp)) by (apply val_nonneg, Forall_app; auto).
        destruct (Z.eq_dec (val (ip ++ fp)) 0) as [V0|V0]; [exfalso|lia].
        rewrite V0 in F5. pose proof (DR_pos (val (d :: ds)) (en - Z.of_nat (length ds)) ltac:(lia)) as P.
        rewrite <- F5 in P. unfold DR in P. rewrite F2R_0 in P. lra.
      + unfold in_interval in *. rewrite Z.sub_0_l, F5.
        replace (en - Z.of_nat (length ds)) with e by (unfold en; lia). rewrite D2. exact HI. }
  assert (Hd : digit d) by (inversion D1; assumption).
  assert (Hds : digits ds) by (inversion D1; assumption).
  assert (Hm : mant_chars d ds = [d] ++ frac_chars ds) by reflexivity.
  assert (Nd : d <> 48).
  { intros X. specialize (D3 X). subst d ds. rewrite <- D2 in HM. cbn in HM. lia. }
  split.
  { intros t Ht. destruct (g && _); [|discriminate].
    apply (f_equal (fun o => match o with Some z => z | None => [] end)) in Ht. cbv beta iota in Ht. subst t.
    split.
    + exists (f_sign x), [d], ds, (101 :: exp_chars en). rewrite Hm. split; [now rewrite <- app_assoc|].
      split; [repeat constructor; apply Hd|]. split; [discriminate|]. split; [right; exact Nd|].
      split; [assumption|]. right. eauto.
    + split; [|exact HL2]. intros rest S. rewrite Hm, <- !app_assoc.
      change (str "e" ++ exp_chars en ++ rest) with (101 :: exp_chars en ++ rest).
      rewrite (strtod_parts (f_sign x) [d] ds (101 :: exp_chars en ++ rest) en rest).
      * f_equal. change ([d] ++ ds) with (d :: ds). rewrite D2.
        replace (en - Z.of_nat (length ds)) with e by (unfold en; lia).
        apply dec_round_interval; auto; lia.
      * repeat constructor; apply Hd.
      * discriminate.
      * assumption.
      * right. split; [cbn; unfold digit; lia|eauto].
      * now apply dec_exp_ok. }
  intros E0.
  assert (HF : fixed_chars (mant_chars d ds) en = (d :: ds) ++ repeat 48 (Z.to_nat e)).
  { unfold fixed_chars. replace (en <? 0) with false by (unfold en; lia). rewrite Hm. cbn [app].
    assert (X : tl (frac_chars ds) = ds) by (destruct ds; reflexivity).
    rewrite X, pad_digits_ok.
    rewrite skipn_all2, firstn_all2 by (unfold en; lia). rewrite app_nil_r.
    f_equal. f_equal. f_equal. unfold en. lia. }
  rewrite HF. split.
  - exists d, (ds ++ repeat 48 (Z.to_nat e)). rewrite <- D2.
    assert (P : 0 < 10 ^ e) by (apply Z.pow_pos_nonneg; lia).
    split; [|split; [|split]].
    + unfold sgn. assert (0 < m * 10 ^ e) by nia. rewrite D2.
      destruct (f_sign x).
      * replace (- (m * 10 ^ e) <? 0) with true by lia. reflexivity.
      * replace (m * 10 ^ e <? 0) with false by lia. reflexivity.
    + intros c Hc. assert (digits ((d :: ds) ++ repeat 48 (Z.to_nat e))) as HA
        by (apply Forall_app; split; [assumption|apply zeros_digits]).
      exact (proj1 (Forall_forall _ _) HA c Hc).
    + intros X. contradiction.
    + change (decimal_value (d :: ds ++ repeat 48 (Z.to_nat e))) with (val ((d :: ds) ++ repeat 48 (Z.to_nat e))).
      rewrite val_app, val_zeros, repeat_length. rewrite Z2Nat.id by lia. rewrite D2.
      assert (0 < m * 10 ^ e) by nia. destruct (f_sign x); lia.
  - intros E3.
    assert (Hl : (length (sgn (f_sign x) ++ (d :: ds) ++ repeat 48%Z (Z.to_nat e))
                  <= length (sgn (f_sign x) ++ mant_chars d ds ++ str "E" ++ exp_chars en))%nat).
    { rewrite Hm, !app_length, repeat_length. cbn [length].
      assert (HX : (1 <= length (exp_chars en))%nat).
      { unfold exp_chars. rewrite app_length. destruct (100 <=? Z.abs en); [cbn; lia|].
        destruct (10 <=? Z.abs en); cbn; lia. }
      destruct ds as [|c r]; unfold frac_chars; cbn [length app]; change (length (str "E")) with 1%nat;
        [|change (length (str "." ++ c :: r)) with (S (S (length r)))]; lia. }
    replace (_ <? _)%nat with false by (symmetry; apply Nat.ltb_ge; exact Hl).
    now rewrite andb_false_r.
Qed.

(** ** Small integers *)

Lemma f_mod_mag x : f_wf x = true -> x mod p52 = man x /\ (x / p52) mod 2048 = exq x.
Proof.
  intros W. unfold man, exq. pose proof (mag_bounds x W) as B.
  assert (H : x = f_mag x + (if f_sign x then 2048 else 0) * p52).
  { unfold f_mag, p63, p52. destruct (f_sign x); lia. }
  split.
  - rewrite H at 1. apply Z.mod_add. unfold p52; lia.
  - rewrite H at 1. rewrite Z.div_add by (unfold p52; lia).
    assert (0 <= f_mag x / p52 < 2048).
    { split; [apply Z.div_pos; unfold p52; lia|]. apply Z.div_lt_upper_bound; unfold p52, p63 in *; lia. }
    destruct (f_sign x).
    + rewrite <- (Z.mul_1_l 2048) at 1. rewrite Z.mod_add by lia. now apply Z.mod_small.
    + rewrite Z.add_0_r. now apply Z.mod_small.
Qed.

Lemma trim_zeros_ok : forall fuel m e, 0 < m < 10 ^ Z.of_nat fuel ->
  exists m' e', trim_zeros fuel m e = Some (m', e') /\ 0 < m' <= m /\ e <= e' <= e + Z.of_nat fuel /\
    m = m' * 10 ^ (e' - e).
Proof.
  induction fuel as [|k IH]; intros m e H.
  - change (10 ^ Z.of_nat 0) with 1 in H. lia.
  - cbn [trim_zeros]. rewrite mod32_eq by lia.
    destruct (m mod 10 =? 0) eqn:E; cbn [negb].
    + apply Z.eqb_eq in E. pose proof (Z.div_mod m 10 ltac:(lia)) as DM. rewrite E in DM.
      rewrite Nat2Z.inj_succ, Z.pow_succ_r in H by lia.
      destruct (IH (m / 10) (e + 1)) as (m' & e' & T & A & B & C); [lia|].
      exists m', e'. split; [assumption|]. split; [lia|]. split; [lia|].
      rewrite DM at 1. rewrite C at 1. replace (e' - e) with (1 + (e' - (e + 1))) by lia.
      rewrite Z.pow_add_r by lia. lia.
    + exists m, e. split; [reflexivity|]. split; [lia|]. split; [lia|].
      rewrite Z.sub_diag. change (10 ^ 0) with 1. lia.
Qed.

Lemma exact_interval x m e : 0 <= man x < p52 ->
  DR m e = F2R (Float radix2 (p52 + man x) (exq x - 1075)) -> in_interval x m e.
Proof.
  intros HM H. unfold in_interval. rewrite H, <- quarter_4.
  set (m2 := p52 + man x). set (E := exq x - 1075).
  assert (low m2 E < 4 * m2) by (unfold low; destruct (_ && _); lia).
  destruct (Z.even m2).
  - split; apply quarter_le; lia.
  - split; apply F2R_lt; lia.
Qed.

(** what d2d has to deliver *)
Definition d2d_good (x : f64) : Prop :=
  exists m e, d2d (man x) (exq x) = Some (m, e) /\
    0 < m < 100000000000000000 /\ -470 < e < 470 /\ in_interval x m e.

Lemma small_int_spec x n : f_wf x = true -> f_isnormal x = true ->
  d2d_small_int (man x) (exq x) = Some n ->
  0 < n < 2 ^ 53 /\ F2R (Float radix2 (p52 + man x) (exq x - 1075)) = IZR n.
Proof.
  intros W N. destruct (normal_parts x W N) as (_ & HQ & HM & _).
  unfold d2d_small_int.
  destruct (0 <? exq x - 1023 - 52) eqn:E1; [discriminate|].
  destruct (exq x - 1023 - 52 <? -52) eqn:E2; [discriminate|].
  set (k := - (exq x - 1023 - 52)).
  destruct (Z.land (p52 + man x) (2 ^ k - 1) =? 0) eqn:E3; [|discriminate]. cbn [negb].
  intros HH. apply (f_equal (fun o => match o with Some z => z | None => 0 end)) in HH.
  cbv beta iota in HH. subst n. apply Z.eqb_eq in E3.
  assert (Hk : 0 <= k <= 52) by (unfold k; lia).
  replace (2 ^ k - 1) with (Z.ones k) in E3 by (rewrite Z.ones_equiv; lia).
  rewrite Z.land_ones in E3 by lia.
  assert (P : 0 < 2 ^ k) by (apply Z.pow_pos_nonneg; lia).
  pose proof (Z.div_mod (p52 + man x) (2 ^ k) ltac:(lia)) as DM. rewrite E3, Z.add_0_r in DM.
  assert (P52 : 2 ^ k <= 2 ^ 52) by (apply Z.pow_le_mono_r; lia).
  change (2 ^ 52) with p52 in P52. change (2 ^ 53) with (2 * p52).
  split.
  - split; [nia|]. apply Z.div_lt_upper_bound; nia.
  - rewrite DM at 1. unfold F2R. cbn [Fnum Fexp]. rewrite Z.mul_comm, mult_IZR.
    rewrite (IZR_Zpower radix2 k : _ -> IZR (2 ^ k) = _) by lia.
    rewrite Rmult_assoc, <- bpow_plus. replace (k + (exq x - 1075)) with 0 by (unfold k; lia).
    cbn [bpow]. ring.
Qed.

Lemma d2s_normal x : f_wf x = true -> f_isnormal x = true ->
  d2s_buffered_n x =
    match d2d_small_int (man x) (exq x) with
    | Some m => match trim_zeros 20 m 0 with
                | Some (m, e) => to_chars64 m e (f_sign x) | None => None end
    | None => match d2d (man x) (exq x) with
              | Some (m, e) => to_chars64 m e (f_sign x) | None => None end
    end.
Proof.
  intros W N. destruct (normal_parts x W N) as (_ & HQ & HM & _).
  destruct (f_mod_mag x W) as [M1 M2].
  unfold d2s_buffered_n. rewrite M1, M2. replace (exq x =? 2047) with false by lia.
  replace (exq x =? 0) with false by lia. reflexivity.
Qed.

(** integers *)
Lemma int_texts g x n : f_wf x = true -> f_isnormal x = true ->
  d2d_small_int (man x) (exq x) = Some n ->
  exists t1 t2, num_texts g x t1 t2 /\ reads_as t1 x /\ (forall t, t2 = Some t -> reads_as t x) /\
    plain_decimal (if f_sign x then - n else n) t1 /\ (n mod 1000 <> 0 -> t2 = None).
Proof.
  intros W N ES. destruct (normal_parts x W N) as (_ & HQ & HM & _).
  pose proof (d2s_normal x W N) as HB. rewrite ES in HB.
  destruct (small_int_spec x n W N ES) as [HN HV].
  assert (2 ^ 53 < 10 ^ Z.of_nat 20) by reflexivity.
  destruct (trim_zeros_ok 20 n 0 ltac:(lia)) as (m & e & T & A & B & C). rewrite T in HB.
  destruct (print_decimal g x m e W N HB) as (t1 & t2 & H1 & H2 & H3 & H4).
  - change (2 ^ 53) with 9007199254740992 in HN. lia.
  - lia.
  - apply exact_interval; [lia|]. rewrite HV, C, Z.sub_0_r. apply DR_pos_exp. lia.
  - rewrite Z.sub_0_r in C. rewrite <- C in H4. destruct (H4 ltac:(lia)) as [H5 H6].
    exists t1, t2. repeat split; auto; try (apply H2); try (now apply H3).
    intros Hn. apply H6. destruct (Z.lt_ge_cases e 3) as [L|L]; [exact L|exfalso]. apply Hn.
    replace e with (3 + (e - 3)) in C by lia. rewrite Z.pow_add_r in C by lia.
    change (10 ^ 3) with 1000 in C. rewrite C.
    replace (m * (1000 * 10 ^ (e - 3))) with (m * 10 ^ (e - 3) * 1000) by ring.
    apply Z.mod_mul. lia.
Qed.

(** all normal doubles, given d2d *)
Lemma double_texts g x : f_wf x = true -> f_isnormal x = true ->
  (d2d_small_int (man x) (exq x) = None -> d2d_good x) ->
  exists t1 t2, num_texts g x t1 t2 /\ reads_as t1 x /\ (forall t, t2 = Some t -> reads_as t x).
Proof.
  intros W N HG. destruct (d2d_small_int (man x) (exq x)) as [n|] eqn:ES.
  - destruct (int_texts g x n W N ES) as (t1 & t2 & H1 & H2 & H3 & _). eauto 6.
  - destruct (HG eq_refl) as (m & e & D & A & B & C).
    pose proof (d2s_normal x W N) as HB. rewrite ES, D in HB.
    destruct (print_decimal g x m e W N HB A B C) as (t1 & t2 & H1 & H2 & H3 & _). eauto 6.
Qed.
