(** * Decoding and escaping of JSON strings *)

From Coq Require Import ZArith Bool List Lia ZifyBool Arith.
From Verif Require Import Bytes Writer WriterFacts Json JsonTok SpecJson JsonFacts JsonRfc.
Import ListNotations.
Local Open Scope Z_scope.

(** ** Hexadecimal digits *)

Lemma hex_byte b : hex b = true -> byte b.
Proof. unfold hex, digit, byte. lia. Qed.
Lemma hexval_range b : hex b = true -> 0 <= hexval b < 16.
Proof.
  unfold hex, hexval, digit. intros H.
  destruct ((48 <=? b) && (b <=? 57)) eqn:E; [lia|]. destruct (97 <=? b) eqn:E2; lia.
Qed.
Lemma hextoks_hexval b : hex b = true -> tok json_hextoks b = hexval b.
Proof.
  intros H. pose proof (hex_byte b H) as B.
  assert (G : forall b, byte b -> (if hex b then tok json_hextoks b =? hexval b else true) = true).
  { apply all_bytes. vm_compute. reflexivity. }
  specialize (G b B). rewrite H in G. lia.
Qed.

Lemma decode_hex_unit a b c d r :
  hex a = true -> hex b = true -> hex c = true -> hex d = true ->
  decode_hex (a :: b :: c :: d :: r) = unit16 a b c d.
Proof.
  intros A B C D. unfold decode_hex, unit16. cbn [nth].
  rewrite !hextoks_hexval by assumption.
  pose proof (hexval_range a A). pose proof (hexval_range b B). pose proof (hexval_range c C).
  pose proof (hexval_range d D).
  rewrite <- !Z.lor_assoc. rewrite (lor_shift (hexval c)) by lia.
  rewrite (lor_shift (hexval b)) by lia. rewrite (lor_shift (hexval a)) by lia. lia.
Qed.
Lemma unit16_range a b c d :
  hex a = true -> hex b = true -> hex c = true -> hex d = true -> 0 <= unit16 a b c d < 65536.
Proof.
  intros A B C D. unfold unit16.
  pose proof (hexval_range a A). pose proof (hexval_range b B). pose proof (hexval_range c C).
  pose proof (hexval_range d D). lia.
Qed.

(** ** Code points *)

Lemma lor_const k x y : 0 <= k -> 0 <= y < 2 ^ k -> 0 <= x -> Z.lor (x * 2 ^ k) y = x * 2 ^ k + y.
Proof. intros. rewrite <- Z.shiftl_mul_pow2 by lia. now rewrite lor_shift, Z.shiftl_mul_pow2 by lia. Qed.
Lemma lor_192 y : 0 <= y < 64 -> Z.lor 192 y = 192 + y.
Proof. intros. apply (lor_const 6 3 y); lia. Qed.
Lemma lor_224 y : 0 <= y < 32 -> Z.lor 224 y = 224 + y.
Proof. intros. apply (lor_const 5 7 y); lia. Qed.
Lemma lor_240 y : 0 <= y < 16 -> Z.lor 240 y = 240 + y.
Proof. intros. apply (lor_const 4 15 y); lia. Qed.
Lemma lor_128 y : 0 <= y < 64 -> Z.lor 128 y = 128 + y.
Proof. intros. apply (lor_const 6 2 y); lia. Qed.
Lemma land_63 x : Z.land x 63 = x mod 64.
Proof. change 63 with (Z.ones 6). now rewrite land_low. Qed.

Lemma encode_utf8 cp : scalar cp -> encode_codepoint cp = utf8 cp.
Proof.
  intros [R S]. unfold encode_codepoint, utf8.
  destruct (Z.ltb_spec cp 128) as [|H1]; [reflexivity|].
  destruct (Z.ltb_spec cp 2048) as [H2|H2].
  - rewrite Z.shiftr_div_pow2 by lia. change (2 ^ 6) with 64. rewrite land_63.
    rewrite lor_192, lor_128; [reflexivity| |]; Z.to_euclidean_division_equations; lia.
  - cbv zeta. replace (1114111 <? cp) with false by lia.
    replace (is_surrogate cp) with false by (unfold is_surrogate; lia). cbn [orb].
    rewrite !land_63, !Z.shiftr_div_pow2 by lia.
    change (2 ^ 6) with 64. change (2 ^ 12) with 4096. change (2 ^ 18) with 262144.
    destruct (Z.ltb_spec cp 65536) as [H3|H3].
    + rewrite lor_224, !lor_128; [reflexivity| | |]; Z.to_euclidean_division_equations; lia.
    + rewrite lor_240, !lor_128; [reflexivity| | | |]; Z.to_euclidean_division_equations; lia.
Qed.
Lemma encode_surrogate cp : 55296 < cp < 57344 -> encode_codepoint cp = utf8 65533.
Proof.
  intros H. unfold encode_codepoint. replace (cp <? 128) with false by lia.
  replace (cp <? 2048) with false by lia. cbv zeta. replace (1114111 <? cp) with false by lia.
  replace (is_surrogate cp) with true by (unfold is_surrogate; lia). reflexivity.
Qed.

(** the characters of RFC 3629 are the encodings of the scalar values above ASCII *)
Lemma utf8_rfc cp : scalar cp -> 128 <= cp -> rfc_char (utf8 cp) = true.
Proof.
  intros [R S] H. unfold utf8. replace (cp <? 128) with false by lia.
  destruct (Z.ltb_spec cp 2048) as [H2|H2]; [|destruct (Z.ltb_spec cp 65536) as [H3|H3]];
    unfold rfc_char, trail, between; Z.to_euclidean_division_equations; lia.
Qed.
Lemma lax_point_scalar cp : lax_point cp = true -> scalar cp /\ 128 <= cp < 0x10FFFF.
Proof. unfold lax_point, scalar, between. lia. Qed.

Lemma vutf8_point m r : Forall byte m -> lax_char m = true ->
  exists cp, vutf8 (m ++ r) = (length m, cp) /\ scalar cp /\ 128 <= cp < 0x10FFFF /\
             (rfc_char m = true -> utf8 cp = m).
Proof.
  intros HB H. unfold lax_char in H.
  destruct m as [|a [|b [|c [|d [|]]]]]; try discriminate; inversion_clear HB as [|? ? Ba HB1];
    inversion_clear HB1 as [|? ? Bb HB2].
  - apply andb_prop in H. destruct H as [H Hp]. apply andb_prop in H. destruct H as [Ha Hb].
    cbn [app vutf8]. rewrite top4, top3, top5 by assumption.
    replace (between 224 239 a) with false by (unfold between in *; lia).
    replace (between 240 247 a) with false by (unfold between in *; lia).
    rewrite Ha. rewrite (proj2 (top6 b Bb)), Hb. cbn [negb].
    rewrite check_lax, low5, low6 by assumption.
    rewrite cp2, Hp by (unfold between in *; pose proof (trail_lo b Hb); lia).
    eexists. split; [reflexivity|]. destruct (lax_point_scalar _ Hp) as [HS HL].
    split; [assumption|]. split; [assumption|]. intros HR. unfold utf8.
    unfold rfc_char, trail, between in HR. 
    replace (_ <? 128) with false by lia. replace (_ <? 2048) with true by lia.
    f_equal; [|f_equal]; Z.to_euclidean_division_equations; lia.
  - inversion_clear HB2 as [|? ? Bc HB3].
    apply andb_prop in H. destruct H as [H Hp]. apply andb_prop in H. destruct H as [H Hc].
    apply andb_prop in H. destruct H as [Ha Hb].
    cbn [app vutf8]. rewrite top4 by assumption. rewrite Ha.
    rewrite two2 by (now apply top6). rewrite (proj2 (top6 b Bb)), (proj2 (top6 c Bc)), Hb, Hc. cbn [negb andb].
    rewrite check_lax, low4, (low6 b), (low6 c) by assumption.
    rewrite cp3, Hp by (unfold between in *; pose proof (trail_lo b Hb); pose proof (trail_lo c Hc); lia).
    eexists. split; [reflexivity|]. destruct (lax_point_scalar _ Hp) as [HS HL].
    split; [assumption|]. split; [assumption|]. intros HR. unfold utf8.
    unfold rfc_char, trail, between in *.
    replace (_ <? 128) with false by lia. replace (_ <? 2048) with false by lia.
    replace (_ <? 65536) with true by lia.
    f_equal; [|f_equal; [|f_equal]]; Z.to_euclidean_division_equations; lia.
  - inversion_clear HB2 as [|? ? Bc HB3]. inversion_clear HB3 as [|? ? Bd HB4].
    apply andb_prop in H. destruct H as [H Hp]. apply andb_prop in H. destruct H as [H Hd].
    apply andb_prop in H. destruct H as [H Hc]. apply andb_prop in H. destruct H as [Ha Hb].
    cbn [app vutf8]. rewrite top4, top3 by assumption.
    replace (between 224 239 a) with false by (unfold between in *; lia). rewrite Ha.
    rewrite two3 by (now apply top6).
    rewrite (proj2 (top6 b Bb)), (proj2 (top6 c Bc)), (proj2 (top6 d Bd)), Hb, Hc, Hd. cbn [negb andb].
    rewrite check_lax, low3, (low6 b), (low6 c), (low6 d) by assumption.
    rewrite cp4, Hp by (unfold between in *; pose proof (trail_lo b Hb); pose proof (trail_lo c Hc);
                        pose proof (trail_lo d Hd); lia).
    eexists. split; [reflexivity|]. destruct (lax_point_scalar _ Hp) as [HS HL].
    split; [assumption|]. split; [assumption|]. intros HR. unfold utf8.
    unfold rfc_char, trail, between in *.
    replace (_ <? 128) with false by lia. replace (_ <? 2048) with false by lia.
    replace (_ <? 65536) with false by lia.
    f_equal; [|f_equal; [|f_equal; [|f_equal]]]; Z.to_euclidean_division_equations; lia.
Qed.

(** ** Unescaping *)

(** the pairs that are decoded as they should be *)
Definition good_pair (cp : Z) : Prop :=
  high_unit cp <> 0xD800 /\ low_unit cp <> 0xDC00 /\ Z.odd (cp / 65536) = true.

Lemma pair_units cp : supplementary cp ->
  exists h l, cp = 65536 + h * 1024 + l /\ 0 <= h < 1024 /\ 0 <= l < 1024 /\
              high_unit cp = 55296 + h /\ low_unit cp = 56320 + l.
Proof.
  intros S. unfold supplementary, high_unit, low_unit in *.
  exists ((cp - 65536) / 1024), ((cp - 65536) mod 1024).
  pose proof (Z.div_mod (cp - 65536) 1024 ltac:(lia)).
  pose proof (Z.mod_pos_bound (cp - 65536) 1024 ltac:(lia)).
  repeat split; try lia; Z.to_euclidean_division_equations; lia.
Qed.

(** with the 17th bit of h shifted already set, adding 65536 by "or" is lost *)
Lemma or_pair h l : 0 <= h < 1024 -> 0 <= l < 1024 ->
  Z.lor (Z.shiftl h 10) (l + 65536) =
  if Z.odd (h / 64) then h * 1024 + l else 65536 + h * 1024 + l.
Proof.
  intros H L. replace (l + 65536) with (Z.lor (Z.shiftl 64 10) l)
    by (rewrite lor_shift by lia; lia).
  rewrite Z.lor_assoc. rewrite <- Z.shiftl_lor.
  assert (E : Z.lor h 64 = if Z.odd (h / 64) then h else h + 64).
  { rewrite (Z.div_mod h 64) at 1 by lia.
    pose proof (Z.mod_pos_bound h 64 ltac:(lia)) as M.
    assert (Q : 0 <= h / 64 < 16) by (Z.to_euclidean_division_equations; lia).
    remember (h mod 64) as m. remember (h / 64) as q.
    assert (Eh : h = q * 64 + m) by (subst; pose proof (Z.div_mod h 64 ltac:(lia)); lia).
    replace (64 * q + m) with (Z.lor (Z.shiftl q 6) m) by (rewrite lor_shift by lia; lia).
    rewrite <- Z.lor_assoc, (Z.lor_comm m), Z.lor_assoc.
    replace (Z.lor (Z.shiftl q 6) 64) with (Z.shiftl (Z.lor q 1) 6) by (rewrite Z.shiftl_lor; reflexivity).
    assert (OQ : Z.lor q 1 = if Z.odd q then q else q + 1).
    { clear -Q. assert (In q [0;1;2;3;4;5;6;7;8;9;10;11;12;13;14;15]) as I by (cbn; lia).
      cbn [In] in I. repeat destruct I as [<-|I]; try reflexivity. contradiction. }
    rewrite OQ. rewrite lor_shift by (destruct (Z.odd q); lia).
    subst h. destruct (Z.odd q); lia. }
  rewrite E. rewrite lor_shift by (destruct (Z.odd (h / 64)); lia).
  destruct (Z.odd (h / 64)); lia.
Qed.
Lemma plane_odd h l : 0 <= h < 1024 -> 0 <= l < 1024 ->
  Z.odd ((65536 + h * 1024 + l) / 65536) = negb (Z.odd (h / 64)).
Proof.
  intros H L. replace ((65536 + h * 1024 + l) / 65536) with (Z.succ (h / 64))
    by (Z.to_euclidean_division_equations; lia).
  rewrite Z.odd_succ. now rewrite <- Z.negb_odd.
Qed.

Lemma decode_good cp : supplementary cp -> good_pair cp ->
  decode_codepoint (high_unit cp) (low_unit cp) = cp.
Proof.
  intros S (G1 & G2 & G3). destruct (pair_units cp S) as (h & l & E & H & L & EH & EL).
  rewrite E in G3. rewrite plane_odd in G3 by assumption.
  rewrite EH, EL in *. unfold decode_codepoint.
  replace (_ && _ && _ && _) with true by lia.
  replace (55296 + h - 55296) with h by lia. replace (56320 + l - 56320) with l by lia.
  rewrite or_pair by assumption. destruct (Z.odd (h / 64)); [discriminate|]. lia.
Qed.

Lemma decodes_chars ok s t : decodes ok s t -> chars rfc_char s.
Proof.
  induction 1; try (now constructor).
  - apply chars_uni; try assumption. now apply chars_uni.
Qed.

Lemma uni_not_surrogate a b c d : between 55296 57343 (unit16 a b c d) = false ->
  is_surrogate (unit16 a b c d) = false.
Proof. unfold between, is_surrogate. lia. Qed.

Lemma unescape_decodes s t : decodes good_pair s t ->
  forall fuel, (length s < fuel)%nat -> unescape fuel s = Some t.
Proof.
  induction 1 as [|b s t R N1 N2 D IH|m s t M D IH|e s t I D IH|a b c d s t A B C D' U D IH
                 |cp a b c d a' b' c' d' s t A B C D' A' B' C' D'' S G E1 E2 D IH];
    intros fuel L.
  - destruct fuel; [cbn in L; lia|reflexivity].
  - destruct fuel as [|fuel]; [lia|]. cbn [unescape length] in *.
    replace (b =? 92) with false by lia. cbn [negb]. rewrite IH by lia. reflexivity.
  - assert (NB : Forall (fun b => b <> 92) m) by (now apply rfc_not_92). clear M.
    revert fuel L. induction NB as [|x m X NB IHm]; intros fuel L; [now apply IH|].
    destruct fuel as [|fuel]; [lia|]. cbn [app unescape length] in *.
    replace (x =? 92) with false by lia. cbn [negb]. rewrite IHm by lia. reflexivity.
  - destruct fuel as [|fuel]; [lia|]. cbn [unescape length] in *. 
    change (92 =? 92) with true. cbn [negb].
    specialize (IH fuel ltac:(lia)).
    unfold escapes in I. cbn [In] in I.
    repeat destruct I as [<-|I]; [..|contradiction];
      cbn [Z.eqb Pos.eqb]; rewrite IH; reflexivity.
  - destruct fuel as [|fuel]; [lia|]. cbn [unescape length] in *.
    change (92 =? 92) with true. change (117 =? 117) with true. cbn [negb]. cbn [Z.eqb Pos.eqb].
    cbn [Nat.ltb Nat.leb]. rewrite decode_hex_unit by assumption.
    rewrite uni_not_surrogate by assumption. cbn [andb skipn].
    rewrite IH by lia. cbn [option_map]. rewrite encode_utf8; [reflexivity|].
    pose proof (unit16_range a b c d A B C D'). unfold scalar, between in *. lia.
  - destruct fuel as [|fuel]; [lia|]. cbn [unescape length] in *.
    change (92 =? 92) with true. change (117 =? 117) with true. cbn [negb]. cbn [Z.eqb Pos.eqb].
    cbn [Nat.ltb Nat.leb]. rewrite decode_hex_unit by assumption.
    cbn [skipn length Nat.leb nth]. change (92 =? 92) with true. change (117 =? 117) with true.
    rewrite decode_hex_unit by assumption. rewrite E1, E2.
    replace (is_surrogate (high_unit cp)) with true.
    2:{ destruct (pair_units cp S) as (h & l & E & H & LL & EH & EL). destruct G as (G1 & _).
        unfold is_surrogate. lia. }
    cbn [andb]. rewrite decode_good by assumption. rewrite IH by lia. cbn [option_map].
    rewrite encode_utf8; [reflexivity|]. unfold scalar, supplementary in *. lia.
Qed.

(** ** The extent of a string *)

Lemma strtoksa_plain b : byte b -> tok strtoksa b =? 0 = negb (b =? 34) && negb (b =? 92).
Proof. intros H. apply eqb_prop. revert b H. apply all_bytes. vm_compute. reflexivity. Qed.

Definition esc_info (s : list Z) (info : Z) : Z :=
  if existsb (Z.eqb 92) s then Z.lor info IESC else info.
Lemma esc_info_app a b info : esc_info (a ++ b) info = esc_info b (esc_info a info).
Proof.
  unfold esc_info. rewrite existsb_app.
  destruct (existsb (Z.eqb 92) a), (existsb (Z.eqb 92) b); cbn [orb]; try reflexivity.
  now rewrite <- Z.lor_assoc.
Qed.
Lemma count_plain m r i info : Forall (fun b => byte b /\ b <> 34 /\ b <> 92) m ->
  count_string_loop (m ++ r) i info false = count_string_loop r (i + length m) (esc_info m info) false.
Proof.
  intros H. assert (esc_info m info = info) as ->.
  { unfold esc_info. induction H as [|b m (_ & _ & B) H IH]; [reflexivity|]. cbn [existsb].
    replace (92 =? b) with false by lia. exact IH. }
  revert i. induction H as [|b m (B & B1 & B2) H IH]; intros i; cbn [app length].
  - now rewrite Nat.add_0_r.
  - cbn [count_string_loop]. rewrite strtoksa_plain by assumption.
    replace (negb (b =? 34) && negb (b =? 92)) with true by lia. rewrite IH. f_equal. lia.
Qed.
Lemma count_esc b r i info : byte b ->
  count_string_loop (92 :: b :: r) i info false =
  count_string_loop r (i + 2) (esc_info [92; b] info) false.
Proof.
  intros B. unfold esc_info. cbn [existsb]. change (92 =? 92) with true. cbn [orb].
  cbn [count_string_loop]. rewrite !strtoksa_plain by (first [assumption | unfold byte; lia]).
  change (92 =? 34) with false. change (92 =? 92) with true. cbn [negb andb].
  replace (i + 2)%nat with (S (S i)) by lia.
  destruct (Z.eqb_spec b 34); [reflexivity|]. destruct (Z.eqb_spec b 92); cbn [negb andb].
  - now rewrite <- Z.lor_assoc.
  - reflexivity.
Qed.
Lemma rfc_bytes m : rfc_char m = true -> Forall (fun b => byte b /\ b <> 34 /\ b <> 92) m.
Proof.
  unfold rfc_char, trail, between, byte. destruct m as [|a [|b [|c [|d [|]]]]]; try discriminate; intros H;
    repeat (constructor; [lia|]); constructor.
Qed.
Lemma escapes_byte e : In e escapes -> byte e.
Proof. unfold escapes, byte. cbn [In]. lia. Qed.

Lemma count_chars s : chars rfc_char s -> forall r i info,
  count_string_loop (s ++ r) i info false = count_string_loop r (i + length s) (esc_info s info) false.
Proof.
  induction 1 as [|b s R N1 N2 C IH|m s M C IH|e s I C IH|x y z t s X Y Z T C IH]; intros r i info.
  - now rewrite Nat.add_0_r.
  - change (b :: s) with ([b] ++ s). rewrite <- app_assoc, count_plain, IH.
    + rewrite <- esc_info_app. f_equal. cbn [length app]. lia.
    + repeat constructor; unfold byte; lia.
  - rewrite <- app_assoc, count_plain, IH by (now apply rfc_bytes).
    rewrite <- esc_info_app. f_equal. rewrite app_length. lia.
  - change ((92 :: e :: s) ++ r) with (92 :: e :: s ++ r).
    rewrite count_esc by (now apply escapes_byte). rewrite IH, <- esc_info_app. f_equal. cbn [length]. lia.
  - change ((92 :: 117 :: x :: y :: z :: t :: s) ++ r) with (92 :: 117 :: [x; y; z; t] ++ s ++ r).
    rewrite count_esc by (unfold byte; lia).
    rewrite count_plain, IH.
    + rewrite <- !esc_info_app. f_equal. cbn [length]. lia.
    + unfold hex, digit, byte in *. repeat (constructor; [lia|]). constructor.
Qed.
Lemma count_string_lit s r : chars rfc_char s ->
  count_string (34 :: s ++ 34 :: r) = (length s + 2, esc_info s 0)%nat.
Proof.
  intros C. unfold count_string. cbn [tl]. rewrite count_chars by assumption.
  cbn [count_string_loop]. rewrite strtoksa_plain by (unfold byte; lia).
  change (34 =? 34) with true. cbn [negb andb]. f_equal. lia.
Qed.

Lemma parse_string_lit s r : chars rfc_char s ->
  json_parsen (34 :: s ++ 34 :: r) = J (esc_info s 0) (34 :: s ++ 34 :: r) (length s + 2).
Proof.
  intros C. unfold json_parsen. change ((34 =? 91) || (34 =? 123)) with false. cbv iota.
  cbn [peek_any]. change ((34 =? 125) || (34 =? 93)) with false.
  change ((34 =? 123) || (34 =? 91)) with false. change (34 =? 34) with true. cbv iota.
  unfold take_string. rewrite count_string_lit by assumption. reflexivity.
Qed.

(** what the string functions see of such a token *)
Definition string_token (s r : list Z) : json := J (esc_info s 0) (34 :: s ++ 34 :: r) (length s + 2).
Lemma string_token_facts s r :
  json_type (string_token s r) = JSON_STRING /\ json_raw_length (string_token s r) = (length s + 2)%nat /\
  string_inner (string_token s r) = s /\
  json_string_is_escaped (string_token s r) = existsb (Z.eqb 92) s.
Proof.
  assert (L : json_raw_length (string_token s r) = (length s + 2)%nat).
  { unfold string_token, json_raw_length. destruct (Nat.eqb_spec (length s + 2) 0); [lia|reflexivity]. }
  split; [reflexivity|]. split; [assumption|]. split.
  - unfold string_inner. rewrite L. destruct (Nat.ltb_spec (length s + 2) 2); [lia|].
    replace (length s + 2 - 2)%nat with (length s) by lia. cbn [string_token json_raw tl].
    rewrite firstn_app, firstn_all, Nat.sub_diag, firstn_O. apply app_nil_r.
  - unfold string_token, json_string_is_escaped, esc_info, IESC. destruct (existsb (Z.eqb 92) s); reflexivity.
Qed.

Lemma decodes_plain ok s t : decodes ok s t -> existsb (Z.eqb 92) s = false -> t = s.
Proof.
  induction 1; intros E; cbn [existsb] in E; try discriminate; try reflexivity.
  - f_equal. apply IHdecodes. now apply orb_false_iff in E.
  - f_equal. apply IHdecodes. rewrite existsb_app in E. now apply orb_false_iff in E.
Qed.

Lemma put_ok dst i bs : (i + length bs <= length dst)%nat -> put dst i bs = Some (store dst i bs).
Proof. intros H. unfold put. destruct (Nat.leb_spec (i + length bs) (length dst)); [reflexivity|lia]. Qed.
Lemma store_length dst i bs : (i + length bs <= length dst)%nat -> length (store dst i bs) = length dst.
Proof.
  intros H. unfold store. rewrite !app_length, firstn_length, skipn_length. lia.
Qed.

Lemma skipn_plus (A : Type) (l : list A) : forall a b, skipn a (skipn b l) = skipn (a + b) l.
Proof.
  induction l as [|x l IH]; intros a b; [now rewrite !skipn_nil|].
  destruct b as [|b]; [now rewrite Nat.add_0_r|]. rewrite Nat.add_succ_r. cbn [skipn]. apply IH.
Qed.
Lemma store_head dst i ch : (i < length dst)%nat ->
  firstn (S i) (store dst i [ch]) = firstn i dst ++ [ch].
Proof.
  intros H. unfold store. assert (L : length (firstn i dst) = i) by (rewrite firstn_length; lia).
  rewrite firstn_app, L. rewrite firstn_all2 by lia. replace (S i - i)%nat with 1%nat by lia. reflexivity.
Qed.
Lemma store_tail dst i ch k : (i < length dst)%nat ->
  skipn (S i + k) (store dst i [ch]) = skipn (S i + k) dst.
Proof.
  intros H. unfold store. assert (L : length (firstn i dst) = i) by (rewrite firstn_length; lia).
  rewrite skipn_app, L. rewrite skipn_all2 by lia. replace (S i + k - i)%nat with (S k) by lia.
  cbn [app skipn length]. rewrite skipn_plus. f_equal. lia.
Qed.

Lemma copy_loop_spec chs : forall count dst,
  exists dst', copy_loop chs count dst = Some ((count + length chs)%nat, dst') /\
    dst' = firstn count dst ++ firstn (length dst - count) chs ++ skipn (count + length chs) dst.
Proof.
  induction chs as [|ch chs IH]; intros count dst; cbn [copy_loop].
  - exists dst. rewrite Nat.add_0_r. split; [reflexivity|]. rewrite firstn_nil. cbn [app].
    now rewrite firstn_skipn.
  - destruct (Nat.ltb_spec count (length dst)) as [H|H].
    + rewrite put_ok by (cbn [length]; lia).
      destruct (IH (S count) (store dst count [ch])) as (d & E & ED). exists d.
      rewrite E. split; [f_equal; f_equal; cbn [length]; lia|].
      rewrite ED, store_length by (cbn [length]; lia).
      replace (length dst - count)%nat with (S (length dst - S count)) by lia.
      rewrite store_head, store_tail by assumption. cbn [firstn length]. rewrite <- app_assoc. cbn [app].
      do 4 f_equal. lia.
    + destruct (IH (S count) dst) as (d & E & ED). exists d. rewrite E.
      split; [f_equal; f_equal; cbn [length]; lia|].
      rewrite ED. replace (length dst - S count)%nat with 0%nat by lia.
      replace (length dst - count)%nat with 0%nat by lia. rewrite !firstn_O.
      rewrite !firstn_all2 by lia. rewrite !skipn_all2 by (cbn [length]; lia). reflexivity.
Qed.

Lemma copied_text chs dst :
  match copy_loop chs 0 dst with
  | None => None
  | Some (count, dst') =>
      if (count <? length dst)%nat then
        match put dst' count [0] with Some dst => Some (count, dst) | None => None end
      else if (0 <? length dst)%nat then
        match put dst' (length dst - 1) [0] with Some dst => Some (count, dst) | None => None end
      else Some (count, dst')
  end = Some (length chs, text_into chs dst).
Proof.
  destruct (copy_loop_spec chs 0 dst) as (d & -> & ED). cbn [Nat.add firstn app] in *.
  rewrite Nat.sub_0_r in ED.
  assert (LD : length d = length dst).
  { rewrite ED, app_length, firstn_length, skipn_length. lia. }
  unfold text_into. destruct (Nat.ltb_spec (length chs) (length dst)) as [H|H].
  - rewrite put_ok by (cbn [length]; lia). do 2 f_equal. rewrite ED. unfold store. cbn [length].
    rewrite (firstn_all2 chs) by lia.
    rewrite firstn_app, firstn_all, Nat.sub_diag, firstn_O, app_nil_r. f_equal. cbn [app].
    f_equal. rewrite skipn_app. rewrite skipn_all2 by lia. cbn [app].
    replace (length chs + 1 - length chs)%nat with 1%nat by lia.
    rewrite skipn_plus. f_equal.
  - destruct (Nat.ltb_spec 0 (length dst)) as [H1|H1].
    + rewrite put_ok by (cbn [length]; lia). do 2 f_equal. rewrite ED. unfold store. cbn [length].
      rewrite (skipn_all2 dst) by lia. rewrite app_nil_r.
      rewrite firstn_firstn. replace (Nat.min (length dst - 1) (length dst)) with (length dst - 1)%nat by lia.
      f_equal. rewrite skipn_all2; [reflexivity|]. rewrite firstn_length. lia.
    + assert (dst = []) as -> by (destruct dst; [reflexivity|cbn in H1; lia]).
      do 2 f_equal. rewrite ED. cbn [length firstn app]. apply skipn_nil.
Qed.
Lemma plain_text body dst :
  (if (length dst =? 0)%nat then Some (length body, dst)
   else
     let m := if (length dst - 1 <? length body)%nat then (length dst - 1)%nat else length body in
     match put dst 0 (firstn m body) with
     | Some dst => match put dst m [0] with Some dst => Some (length body, dst) | None => None end
     | None => None
     end) = Some (length body, text_into body dst).
Proof.
  unfold text_into. destruct (Nat.eqb_spec (length dst) 0) as [H0|H0].
  { rewrite H0. reflexivity. }
  destruct (Nat.ltb_spec 0 (length dst)) as [HP|HP]; [|lia].
  destruct (Nat.ltb_spec (length dst - 1) (length body)) as [H|H];
  destruct (Nat.ltb_spec (length body) (length dst)) as [H2|H2]; try lia; cbv zeta.
  - assert (LM : length (firstn (length dst - 1) body) = (length dst - 1)%nat) by (rewrite firstn_length; lia).
    rewrite put_ok by lia. rewrite put_ok by (rewrite store_length by lia; cbn [length]; lia).
    do 2 f_equal. unfold store. cbn [firstn app length].
    rewrite LM, firstn_app, LM, Nat.sub_diag, firstn_O, app_nil_r, firstn_all2 by lia. f_equal. cbn [app].
    rewrite skipn_all2; [reflexivity|]. rewrite app_length, LM, skipn_length. lia.
  - rewrite (firstn_all2 body) by lia.
    rewrite put_ok by lia. rewrite put_ok by (rewrite store_length by lia; cbn [length]; lia).
    do 2 f_equal. unfold store. cbn [firstn app length].
    rewrite firstn_app, firstn_all, Nat.sub_diag, firstn_O, app_nil_r. f_equal. cbn [app]. f_equal.
    rewrite skipn_app. rewrite skipn_all2 by lia. cbn [app].
    replace (length body + 1 - length body)%nat with 1%nat by lia.
    rewrite skipn_plus. f_equal.
Qed.

Lemma string_copy_token s t r dst : decodes good_pair s t ->
  json_string_copy (string_token s r) dst = Some (length t, text_into t dst).
Proof.
  intros D. destruct (string_token_facts s r) as (T & L & I & E).
  unfold json_string_copy. rewrite T, I, E. cbv zeta. change (JSON_STRING =? JSON_STRING) with true.
  cbn [andb]. destruct (existsb (Z.eqb 92) s) eqn:X; cbn [negb].
  - rewrite (unescape_decodes s t D) by lia. apply copied_text.
  - apply (decodes_plain _ _ _ D) in X. subst t. apply plain_text.
Qed.
Lemma string_length_token s t r : decodes good_pair s t ->
  json_string_length (string_token s r) = length t.
Proof.
  intros D. destruct (string_token_facts s r) as (T & L & I & E).
  unfold json_string_length. rewrite T, I, E, L. cbv zeta. change (JSON_STRING =? JSON_STRING) with true.
  cbn [negb]. destruct (existsb (Z.eqb 92) s) eqn:X; cbn [negb].
  - now rewrite (unescape_decodes s t D) by lia.
  - apply (decodes_plain _ _ _ D) in X. subst t. destruct (Nat.ltb_spec (length s + 2) 2); lia.
Qed.

(** ** Escaping *)

Fixpoint escape_bytes (fuel : nat) (s : list Z) : list Z :=
  match s with
  | [] => []
  | _ :: _ =>
      match fuel with
      | O => []
      | S fuel => let (chs, n) := escape_step s in chs ++ escape_bytes fuel (skipn n s)
      end
  end.
Definition escaped (s : list Z) : list Z := 34 :: escape_bytes (length s) s ++ [34].

(** the state of the buffer after the bytes [full] *)
Definition jesc_after (dst full : list Z) : jesc :=
  let pos := Nat.min (length full) (length dst - 1) in
  Je (firstn pos full ++ skipn pos dst) pos (length dst - pos) (length full).

Lemma jesc_append_after dst full ch :
  jesc_append ch (jesc_after dst full) = Some (jesc_after dst (full ++ [ch])).
Proof.
  unfold jesc_append, jesc_after. cbn [je_len je_dst je_pos je_count].
  rewrite app_length. cbn [length].
  destruct (Nat.ltb_spec 1 (length dst - Nat.min (length full) (length dst - 1))) as [H|H].
  - assert (M : Nat.min (length full) (length dst - 1) = length full) by lia.
    assert (M2 : Nat.min (length full + 1) (length dst - 1) = S (length full)) by lia.
    rewrite M, M2. rewrite firstn_all.
    rewrite put_ok by (rewrite app_length, skipn_length; cbn [length]; lia).
    f_equal. f_equal; [|lia|lia].
    unfold store. cbn [length].
    rewrite firstn_app, firstn_all, Nat.sub_diag, firstn_O, app_nil_r.
    rewrite skipn_app, skipn_all2 by lia. cbn [app].
    rewrite (firstn_all2 (full ++ [ch])) by (rewrite app_length; cbn [length]; lia).
    rewrite <- app_assoc. cbn [app]. do 2 f_equal. rewrite skipn_plus. f_equal. lia.
  - assert (M : Nat.min (length full) (length dst - 1) = (length dst - 1)%nat) by lia.
    assert (M2 : Nat.min (length full + 1) (length dst - 1) = (length dst - 1)%nat) by lia.
    rewrite M, M2. do 2 f_equal; [|lia]. rewrite firstn_app.
    replace (length dst - 1 - length full)%nat with 0%nat by lia. rewrite firstn_O. now rewrite app_nil_r.
Qed.
Lemma jesc_appends_after dst chs : forall full,
  jesc_appends chs (jesc_after dst full) = Some (jesc_after dst (full ++ chs)).
Proof.
  induction chs as [|ch chs IH]; intros full; cbn [jesc_appends].
  - now rewrite app_nil_r.
  - rewrite jesc_append_after, IH, <- app_assoc. reflexivity.
Qed.

Lemma escape_step_pos s : s <> [] -> (1 <= snd (escape_step s))%nat.
Proof.
  intros N. destruct s as [|c s]; [contradiction|]. unfold escape_step.
  repeat (match goal with |- context [if ?b then _ else _] => destruct b end; cbn [snd]; try lia).
  destruct (vutf8 (c :: s)) as [[|n] cp]; cbn [snd]; lia.
Qed.
Lemma escape_loop_after dst fuel : forall s full, (length s <= fuel)%nat ->
  escape_loop fuel s (jesc_after dst full) = Some (jesc_after dst (full ++ escape_bytes fuel s)).
Proof.
  induction fuel as [|fuel IH]; intros s full L; destruct s as [|c s]; cbn [escape_loop escape_bytes];
    try (rewrite app_nil_r; reflexivity); try (cbn in L; lia).
  pose proof (escape_step_pos (c :: s) ltac:(discriminate)) as P.
  destruct (escape_step (c :: s)) as [chs n]. cbn [snd] in P.
  rewrite jesc_appends_after, IH, <- app_assoc; [reflexivity|].
  rewrite skipn_length. cbn [length] in *. lia.
Qed.

Lemma jesc_start dst : Je dst 0 (length dst) 0 = jesc_after dst [].
Proof. unfold jesc_after. cbn [length Nat.min firstn app skipn]. now rewrite Nat.sub_0_r. Qed.
Lemma escapen_text s dst : json_escapen s dst = Some (length (escaped s), text_into (escaped s) dst).
Proof.
  unfold json_escapen. rewrite jesc_start, jesc_append_after.
  rewrite escape_loop_after by lia. rewrite jesc_append_after.
  replace (([] ++ [34]) ++ escape_bytes (length s) s) with (34 :: escape_bytes (length s) s) by reflexivity.
  change ((34 :: escape_bytes (length s) s) ++ [34]) with (escaped s).
  remember (escaped s) as full. unfold jesc_after. cbn [je_len je_dst je_pos je_count]. unfold text_into.
  destruct (Nat.ltb_spec 0 (length dst - Nat.min (length full) (length dst - 1))) as [H|H].
  - rewrite put_ok by (rewrite app_length, firstn_length, skipn_length; cbn [length]; lia).
    do 2 f_equal. destruct (Nat.ltb_spec (length full) (length dst)) as [H2|H2].
    + assert (M : Nat.min (length full) (length dst - 1) = length full) by lia. rewrite M.
      rewrite firstn_all. unfold store. cbn [length].
      rewrite firstn_app, firstn_all, Nat.sub_diag, firstn_O, app_nil_r. f_equal. cbn [app]. f_equal.
      rewrite skipn_app, skipn_all2 by lia. cbn [app]. rewrite skipn_plus. f_equal. lia.
    + assert (M : Nat.min (length full) (length dst - 1) = (length dst - 1)%nat) by lia. rewrite M.
      destruct (Nat.ltb_spec 0 (length dst)) as [H3|H3]; [|lia].
      unfold store. cbn [length].
      assert (LF : length (firstn (length dst - 1) full) = (length dst - 1)%nat) by (rewrite firstn_length; lia).
      rewrite firstn_app, LF, Nat.sub_diag, firstn_O, app_nil_r, firstn_all2 by lia. f_equal. cbn [app]. f_equal.
      rewrite skipn_all2; [reflexivity|]. rewrite app_length, LF, skipn_length. lia.
  - assert (dst = []) as -> by (destruct dst; [reflexivity|cbn [length] in H; lia]).
    cbn [length Nat.sub]. rewrite Nat.min_0_r. cbn [firstn app skipn].
    destruct (Nat.ltb_spec (length full) 0); [lia|]. reflexivity.
Qed.

Lemma ux_facts c : 0 <= c < 128 ->
  exists a b d e, escape_ux c = [92; 117; a; b; d; e] /\
    hex a = true /\ hex b = true /\ hex d = true /\ hex e = true /\ unit16 a b d e = c.
Proof.
  intros H.
  assert (G : forall c, byte c -> (match escape_ux c with
     | [x; y; a; b; d; e] => (x =? 92) && (y =? 117) && hex a && hex b && hex d && hex e && (unit16 a b d e =? c)
     | _ => false end) = true).
  { apply all_bytes. vm_compute. reflexivity. }
  specialize (G c ltac:(unfold byte; lia)).
  destruct (escape_ux c) as [|x [|y [|a [|b [|d [|e [|]]]]]]]; try discriminate.
  exists a, b, d, e. repeat (apply andb_prop in G; destruct G as [G ?]).
  repeat split; try assumption; [|lia]. repeat f_equal; lia.
Qed.

Lemma escape_step_ascii ok c s t r : 0 <= c <= 127 -> decodes ok s t ->
  exists chs, escape_step (c :: r) = (chs, 1%nat) /\ decodes ok (chs ++ s) (c :: t).
Proof.
  intros R D. unfold escape_step.
  assert (UX : c <> 34 -> exists chs, (escape_ux c, 1%nat) = (chs, 1%nat) /\ decodes ok (chs ++ s) (c :: t)).
  { intros _. destruct (ux_facts c ltac:(lia)) as (a & b & d & e & -> & A & B & HD & E & U).
    eexists. split; [reflexivity|]. cbn [app].
    replace (c :: t) with (utf8 (unit16 a b d e) ++ t).
    - apply dec_uni; try assumption. unfold between. lia.
    - rewrite U. unfold utf8. replace (c <? 128) with true by lia. reflexivity. }
  assert (ES : forall e, In e escapes -> escape_value e = c ->
    exists chs, ([92; e], 1%nat) = (chs, 1%nat) /\ decodes ok (chs ++ s) (c :: t)).
  { intros e I V. eexists. split; [reflexivity|]. cbn [app]. rewrite <- V. now apply dec_esc. }
  destruct (Z.ltb_spec c 32) as [H|H].
  - destruct (Z.eqb_spec c 10) as [->|N1]; [apply ES; [cbn; tauto|reflexivity]|].
    destruct (Z.eqb_spec c 8) as [->|N2]; [apply ES; [cbn; tauto|reflexivity]|].
    destruct (Z.eqb_spec c 12) as [->|N3]; [apply ES; [cbn; tauto|reflexivity]|].
    destruct (Z.eqb_spec c 13) as [->|N4]; [apply ES; [cbn; tauto|reflexivity]|].
    destruct (Z.eqb_spec c 9) as [->|N5]; [apply ES; [cbn; tauto|reflexivity]|].
    apply UX. lia.
  - destruct ((c =? 62) || (c =? 60) || (c =? 38)) eqn:E1; [apply UX; lia|].
    destruct (Z.eqb_spec c 92) as [->|N6]; [apply ES; [cbn; tauto|reflexivity]|].
    destruct (Z.eqb_spec c 34) as [->|N7]; [apply ES; [cbn; tauto|reflexivity]|].
    destruct (Z.ltb_spec 127 c); [lia|].
    eexists. split; [reflexivity|]. cbn [app]. apply dec_plain; try assumption; lia.
Qed.

Lemma vutf8_cases s n cp : Forall byte s -> vutf8 s = (S n, cp) -> scalar cp /\ 128 <= cp < 0x10FFFF.
Proof.
  intros HB E. assert (V : fst (vutf8 s) = S n) by (rewrite E; reflexivity).
  destruct (vutf8_inv s n HB V) as [L LN].
  assert (HB2 : Forall byte (firstn (S n) s)).
  { rewrite <- (firstn_skipn (S n) s) in HB. now apply Forall_app in HB. }
  destruct (vutf8_point _ (skipn (S n) s) HB2 L) as (cp' & E' & S' & L' & _).
  rewrite firstn_skipn, E in E'. injection E' as _ ->. auto.
Qed.

Lemma chars_ascii ch l : chars rfc_char l -> Forall (fun b => b < 128) l -> chars ch l.
Proof.
  induction 1 as [|x s A1 A2 A3 CS IH|m s M CS IH|e s I CS IH|a b c d s A B C D CS IH]; intros F.
  - constructor.
  - apply Forall_inv_tail in F. constructor; auto.
  - exfalso. apply Forall_app in F. destruct F as [F _].
    unfold rfc_char, between in M. destruct m as [|x m]; [discriminate|].
    inversion_clear F. destruct m as [|y [|z [|w [|]]]]; try discriminate; lia.
  - do 2 (apply Forall_inv_tail in F). apply chars_esc; auto.
  - do 6 (apply Forall_inv_tail in F). apply chars_uni; auto.
Qed.
Lemma escape_step_head c r : c <= 127 -> escape_step (c :: r) = escape_step [c].
Proof. intros H. unfold escape_step. replace (127 <? c) with false by lia. reflexivity. Qed.
Lemma escape_step_ascii_out c : 0 <= c <= 127 -> Forall (fun b => b < 128) (fst (escape_step [c])).
Proof.
  intros H.
  assert (G : forall c, byte c -> (127 <? c) || forallb (fun b => b <? 128) (fst (escape_step [c])) = true).
  { apply all_bytes. vm_compute. reflexivity. }
  specialize (G c ltac:(unfold byte; lia)). replace (127 <? c) with false in G by lia. cbn [orb] in G.
  rewrite forallb_forall in G. apply Forall_forall. intros x I. specialize (G x I). lia.
Qed.

Lemma escape_chars ch fuel :
  (forall cp, scalar cp -> 128 <= cp < 0x10FFFF -> ch (utf8 cp) = true) ->
  forall s, (length s <= fuel)%nat -> Forall byte s -> chars ch (escape_bytes fuel s).
Proof.
  intros CH. induction fuel as [|fuel IH]; intros s L HB; destruct s as [|c s]; cbn [escape_bytes]; try constructor.
  pose proof (escape_step_pos (c :: s) ltac:(discriminate)) as P.
  assert (BS : forall n, Forall byte (skipn n (c :: s))).
  { intros n. rewrite <- (firstn_skipn n) in HB. now apply Forall_app in HB. }
  assert (LS : forall n, (1 <= n)%nat -> (length (skipn n (c :: s)) <= fuel)%nat).
  { intros n N. rewrite skipn_length. cbn [length] in *. lia. }
  pose proof (Forall_inv HB) as Bc. unfold byte in Bc.
  destruct (Z.leb_spec c 127) as [H|H].
  - destruct (escape_step_ascii (fun _ => True) c [] [] s ltac:(lia) (dec_nil _)) as (chs & E & D).
    pose proof (escape_step_ascii_out c ltac:(lia)) as AO.
    rewrite <- (escape_step_head c s) in AO by lia. rewrite E in *. cbn [fst] in AO.
    rewrite app_nil_r in D. apply chars_app.
    + apply chars_ascii; [now apply decodes_chars in D|assumption].
    + apply IH; [apply LS; lia|apply BS].
  - unfold escape_step in *.
    replace (c <? 32) with false in * by lia.
    replace ((c =? 62) || (c =? 60) || (c =? 38)) with false in * by lia.
    replace (c =? 92) with false in * by lia. replace (c =? 34) with false in * by lia.
    replace (127 <? c) with true in * by lia.
    destruct (vutf8 (c :: s)) as [[|n] cp] eqn:V.
    + rewrite encode_utf8 by (unfold scalar; lia). apply chars_char; [apply CH; unfold scalar; lia|].
      apply IH; [apply LS; lia|apply BS].
    + destruct (vutf8_cases _ _ _ HB V) as [S1 S2]. rewrite encode_utf8 by assumption.
      apply chars_char; [now apply CH|]. apply IH; [apply LS; lia|apply BS].
Qed.
Lemma four_eq (a b c d a' b' c' d' : Z) : [a; b; c; d] = [a'; b'; c'; d'] -> a = a' /\ b = b' /\ c = c' /\ d = d'.
Proof. intros E. injection E. auto. Qed.
Lemma utf8_digits cp : cp = ((cp / 262144 * 64 + cp / 4096 mod 64) * 64 + cp / 64 mod 64) * 64 + cp mod 64.
Proof.
  pose proof (Z.div_mod cp 64 ltac:(lia)). pose proof (Z.div_mod (cp / 64) 64 ltac:(lia)) as A.
  pose proof (Z.div_mod (cp / 4096) 64 ltac:(lia)) as B.
  rewrite Z.div_div in A by lia. rewrite Z.div_div in B by lia.
  change (64 * 64) with 4096 in A. change (4096 * 64) with 262144 in B. lia.
Qed.
Lemma utf8_lax cp : scalar cp -> 128 <= cp < 0x10FFFF -> lax_char (utf8 cp) = true.
Proof.
  intros S H. apply rfc_lax; [apply utf8_rfc; [assumption|lia]|].
  unfold utf8. replace (cp <? 128) with false by lia.
  destruct (Z.ltb_spec cp 2048) as [H2|H2]; [discriminate|].
  destruct (Z.ltb_spec cp 65536) as [H3|H3]; [discriminate|].
  intros E. apply four_eq in E. pose proof (utf8_digits cp). lia.
Qed.
Lemma escaped_tail ch brk s :
  (forall cp, scalar cp -> 128 <= cp < 0x10FFFF -> ch (utf8 cp) = true) ->
  Forall byte s -> str_tail ch brk (escape_bytes (length s) s ++ [34]).
Proof. intros CH HB. constructor. now apply escape_chars. Qed.

Lemma escape_decodes s : utf8_text s -> no_10FFFF s -> forall fuel, (length s <= fuel)%nat ->
  decodes good_pair (escape_bytes fuel s) s.
Proof.
  induction 1 as [|b s B U IH|m s M U IH]; intros N fuel L.
  - destruct fuel; constructor.
  - assert (N' : no_10FFFF s) by (intros x y ->; now apply (N (b :: x) y)).
    destruct fuel as [|fuel]; [cbn in L; lia|]. cbn [length] in L. cbn [escape_bytes].
    destruct (escape_step_ascii good_pair b (escape_bytes fuel s) s s B (IH N' fuel ltac:(lia)))
      as (chs & -> & D). exact D.
  - assert (N' : no_10FFFF s) by (intros x y ->; apply (N (m ++ x) y); now rewrite <- app_assoc).
    assert (LC : lax_char m = true).
    { apply rfc_lax; [assumption|]. intros ->. now apply (N [] s). }
    assert (BM : Forall byte m) by (eapply Forall_impl; [|now apply rfc_bytes]; cbn; tauto).
    destruct (vutf8_point m s BM LC) as (cp & V & S1 & S2 & E).
    destruct (lax_char_high m LC) as (c & t & Em & Hc & _).
    destruct fuel as [|fuel]; [subst m; cbn in L; lia|].
    assert (ST : escape_step (m ++ s) = (m, length m)).
    { unfold escape_step. rewrite Em. cbn [app].
      replace (c <? 32) with false by lia.
      replace ((c =? 62) || (c =? 60) || (c =? 38)) with false by lia.
      replace (c =? 92) with false by lia. replace (c =? 34) with false by lia.
      replace (127 <? c) with true by lia.
      change (c :: t ++ s) with ((c :: t) ++ s). rewrite <- Em, V.
      rewrite Em at 1. cbn [length]. rewrite encode_utf8, E by assumption. rewrite Em. reflexivity. }
    assert (SH : escape_bytes (S fuel) (m ++ s) = m ++ escape_bytes fuel s).
    { assert (SK : skipn (length m) (m ++ s) = s).
      { rewrite skipn_app, skipn_all, Nat.sub_diag. reflexivity. }
      rewrite <- SK at 2. revert ST. rewrite Em. cbn [app escape_bytes]. intros ->. reflexivity. }
    rewrite SH. apply dec_char; [assumption|]. apply IH; [assumption|].
    rewrite app_length in L. subst m. cbn [length] in L. lia.
Qed.

(** ** Pairs that are not decoded *)

Lemma utf8_long cp : 65536 <= cp -> length (utf8 cp) = 4%nat.
Proof.
  intros H. unfold utf8. replace (cp <? 128) with false by lia. replace (cp <? 2048) with false by lia.
  replace (cp <? 65536) with false by lia. reflexivity.
Qed.
Lemma utf8_inj a b : supplementary a -> supplementary b -> utf8 a = utf8 b -> a = b.
Proof.
  unfold supplementary, utf8. intros A B.
  replace (a <? 128) with false by lia. replace (a <? 2048) with false by lia.
  replace (a <? 65536) with false by lia. replace (b <? 128) with false by lia.
  replace (b <? 2048) with false by lia. replace (b <? 65536) with false by lia.
  intros E. apply four_eq in E. pose proof (utf8_digits a). pose proof (utf8_digits b). lia.
Qed.

Lemma unescape_step a b c d r fuel :
  hex a = true -> hex b = true -> hex c = true -> hex d = true ->
  unescape (S fuel) (92 :: 117 :: a :: b :: c :: d :: r) =
  if is_surrogate (unit16 a b c d) && (6 <=? length r)%nat && (nth 0 r 0 =? 92) && (nth 1 r 0 =? 117)
  then option_map (app (encode_codepoint (decode_codepoint (unit16 a b c d) (decode_hex (skipn 2 r)))))
                  (unescape fuel (skipn 6 r))
  else option_map (app (encode_codepoint (unit16 a b c d))) (unescape fuel r).
Proof.
  intros A B C D. cbn [unescape length]. change (92 =? 92) with true. cbn [negb]. cbn [Z.eqb Pos.eqb].
  cbn [Nat.ltb Nat.leb]. rewrite decode_hex_unit by assumption. reflexivity.
Qed.
Lemma unescape_nil fuel : unescape (S fuel) [] = Some [].
Proof. reflexivity. Qed.

Lemma unescape_pair cp a b c d a' b' c' d' fuel :
  hex a = true -> hex b = true -> hex c = true -> hex d = true ->
  hex a' = true -> hex b' = true -> hex c' = true -> hex d' = true ->
  supplementary cp -> unit16 a b c d = high_unit cp -> unit16 a' b' c' d' = low_unit cp ->
  unescape (S (S (S fuel))) [92; 117; a; b; c; d; 92; 117; a'; b'; c'; d'] =
  Some (if high_unit cp =? 0xD800 then
          [0xED; 0xA0; 0x80] ++ utf8 65533
        else if low_unit cp =? 0xDC00 then utf8 65533
        else if Z.odd (cp / 65536) then utf8 cp else utf8 (cp - 65536)).
Proof.
  intros A B C D A' B' C' D' SU E1 E2.
  destruct (pair_units cp SU) as (h & l & E & H & L & EH & EL).
  rewrite unescape_step by assumption. cbn [skipn length Nat.leb nth].
  change (92 =? 92) with true. change (117 =? 117) with true. rewrite !andb_true_r.
  rewrite decode_hex_unit by assumption. rewrite E1, E2.
  destruct (Z.eqb_spec (high_unit cp) 55296) as [X|X].
  - rewrite X. change (is_surrogate 55296) with false. cbv iota.
    change (encode_codepoint 55296) with [0xED; 0xA0; 0x80].
    rewrite unescape_step by assumption. rewrite E2. cbn [length Nat.leb]. rewrite andb_false_r. cbn [andb].
    rewrite unescape_nil. cbn [option_map]. rewrite app_nil_r.
    clear A B C D A' B' C' D' E1 E2. rewrite encode_surrogate by lia.
    reflexivity.
  - clear A B C D A' B' C' D' E1 E2.
    replace (is_surrogate (high_unit cp)) with true by (unfold is_surrogate; lia). cbv iota.
    rewrite unescape_nil. cbn [option_map]. rewrite app_nil_r.
    destruct (Z.eqb_spec (low_unit cp) 56320) as [Y|Y].
    + unfold decode_codepoint. replace (_ && _ && _ && _) with false by lia.
      rewrite encode_utf8 by (unfold scalar; lia). reflexivity.
    + replace (Z.odd (cp / 65536)) with (negb (Z.odd (h / 64))) by (rewrite E; now rewrite plane_odd).
      unfold decode_codepoint. rewrite EH, EL in *. replace (_ && _ && _ && _) with true by lia.
      replace (55296 + h - 55296) with h by lia. replace (56320 + l - 56320) with l by lia.
      rewrite or_pair by assumption. unfold supplementary in SU.
      destruct (Z.odd (h / 64)) eqn:O; cbn [negb].
      * assert (64 <= h) by (destruct (Z.leb_spec 64 h); [lia|]; rewrite Z.div_small in O by lia; discriminate).
        replace (cp - 65536) with (h * 1024 + l) by lia. rewrite encode_utf8 by (unfold scalar; lia). reflexivity.
      * rewrite <- E. rewrite encode_utf8 by (unfold scalar; lia). reflexivity.
Qed.

Lemma pair_good cp a b c d a' b' c' d' fuel :
  hex a = true -> hex b = true -> hex c = true -> hex d = true ->
  hex a' = true -> hex b' = true -> hex c' = true -> hex d' = true ->
  supplementary cp -> unit16 a b c d = high_unit cp -> unit16 a' b' c' d' = low_unit cp ->
  unescape (S (S (S fuel))) [92; 117; a; b; c; d; 92; 117; a'; b'; c'; d'] = Some (utf8 cp) ->
  good_pair cp.
Proof.
  intros A B C D A' B' C' D' SU E1 E2 U. rewrite (unescape_pair cp) in U by assumption.
  clear A B C D A' B' C' D' E1 E2.
  unfold good_pair. injection U as U.
  pose proof (utf8_long cp ltac:(unfold supplementary in SU; lia)) as L4.
  destruct (Z.eqb_spec (high_unit cp) 55296) as [X|X].
  { rewrite <- U in L4. discriminate. }
  destruct (Z.eqb_spec (low_unit cp) 56320) as [Y|Y].
  { rewrite <- U in L4. discriminate. }
  split; [assumption|]. split; [assumption|].
  destruct (Z.odd (cp / 65536)) eqn:O; [reflexivity|exfalso].
  assert (SU' : supplementary (cp - 65536)).
  { unfold supplementary in *. destruct (Z.leb_spec 131072 cp); [lia|].
    assert (cp / 65536 = 1) as Q by (Z.to_euclidean_division_equations; lia). rewrite Q in O. discriminate. }
  apply utf8_inj in U; [lia|assumption|assumption].
Qed.
Lemma string_copy_escaped s t r dst : In 92 s -> unescape (S (length s)) s = Some t ->
  json_string_copy (string_token s r) dst = Some (length t, text_into t dst).
Proof.
  intros N U. destruct (string_token_facts s r) as (T & L & I & E).
  unfold json_string_copy. rewrite T, I, E. cbv zeta. change (JSON_STRING =? JSON_STRING) with true.
  assert (existsb (Z.eqb 92) s = true) as -> by (apply existsb_exists; exists 92; auto).
  cbn [andb negb]. rewrite U. apply copied_text.
Qed.
