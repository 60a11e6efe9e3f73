(** * Hex text: the rewriting in place and the decoding *)

From Coq Require Import ZArith Bool List Lia ZifyBool.
From Verif Require Import F64 Geo Series RingApi Bytes Geom Writer WkbWrite WkbParse Geobin Hex.
From Verif Require Import SpecWkb SpecJson SpecBin WriterFacts.
Import ListNotations.
Local Open Scope Z_scope.

Lemma put_in_length dst i b : length (put_in dst i b) = length dst.
Proof.
  unfold put_in. destruct (Nat.ltb_spec i (length dst)); [|reflexivity].
  apply store_length. cbn. lia.
Qed.

Lemma put_in_nth dst i b p : nth p (put_in dst i b) 0 =
  if ((p =? i) && (i <? length dst))%nat then b else nth p dst 0.
Proof.
  unfold put_in. destruct (Nat.ltb_spec i (length dst)) as [H|H].
  2:{ now rewrite andb_false_r. }
  rewrite andb_true_r. unfold store. cbn [length].
  destruct (Nat.eqb_spec p i) as [->|N].
  - rewrite app_nth2 by (rewrite firstn_length; lia). rewrite firstn_length.
    replace (i - Nat.min i (length dst))%nat with 0%nat by lia. reflexivity.
  - destruct (Nat.lt_ge_cases p i) as [L|L].
    + rewrite app_nth1 by (rewrite firstn_length; lia).
      rewrite <- (firstn_skipn i dst) at 2. rewrite app_nth1; [reflexivity|].
      rewrite firstn_length. lia.
    + rewrite app_nth2 by (rewrite firstn_length; lia). rewrite firstn_length.
      replace (p - Nat.min i (length dst))%nat with (S (p - i - 1))%nat by lia.
      cbn [app nth]. rewrite <- (firstn_skipn (i + 1) dst) at 2.
      rewrite app_nth2 by (rewrite firstn_length; lia).
      rewrite firstn_length. f_equal. lia.
Qed.

(** the digit at position [p] of the text of a byte *)
Definition hexc (p : nat) (ch : Z) : Z :=
  if Nat.odd p then hex_char (ch mod 16) else hex_char (ch / 16 mod 16).

Lemma hex_loop_length k : forall dst, length (hex_loop k dst) = length dst.
Proof.
  induction k as [|i IH]; intros dst; [reflexivity|]. cbn [hex_loop]. rewrite IH.
  destruct (i <? length dst)%nat; [|reflexivity]. now rewrite !put_in_length.
Qed.

Lemma hex_loop_nth k : forall dst p, (p < length dst)%nat ->
  nth p (hex_loop k dst) 0 =
  if (p <? 2 * k)%nat then hexc p (nth (Nat.div2 p) dst 0) else nth p dst 0.
Proof.
  induction k as [|i IH]; intros dst p Hp; [reflexivity|]. cbn [hex_loop].
  set (dst' := if (i <? length dst)%nat then _ else _).
  assert (HL : length dst' = length dst).
  { unfold dst'. destruct (i <? length dst)%nat; [|reflexivity]. now rewrite !put_in_length. }
  rewrite IH by lia.
  pose proof (Nat.div2_odd p) as Hd.
  assert (HN : forall q, (q < 2 * i)%nat -> nth q dst' 0 = nth q dst 0).
  { intros q Hq. unfold dst'. destruct (i <? length dst)%nat; [|reflexivity].
    rewrite !put_in_nth. rewrite (proj2 (Nat.eqb_neq q (2 * i))) by lia.
    rewrite (proj2 (Nat.eqb_neq q (2 * i + 1))) by lia. reflexivity. }
  destruct (Nat.ltb_spec p (2 * i)) as [L|L].
  - replace (p <? 2 * S i)%nat with true by (symmetry; apply Nat.ltb_lt; lia).
    rewrite HN; [reflexivity|]. lia.
  - destruct (Nat.ltb_spec p (2 * S i)) as [L2|L2].
    + assert (Hdiv : Nat.div2 p = i) by (destruct (Nat.odd p); cbn [Nat.b2n] in Hd; lia).
      rewrite Hdiv. unfold dst'. replace (i <? length dst)%nat with true
        by (symmetry; apply Nat.ltb_lt; lia).
      rewrite !put_in_nth, put_in_length. unfold hexc.
      destruct (Nat.odd p) eqn:O; cbn [Nat.b2n] in Hd; rewrite Hdiv in Hd.
      * rewrite (proj2 (Nat.eqb_neq p (2 * i))) by lia. cbn [andb].
        rewrite (proj2 (Nat.eqb_eq p (2 * i + 1))) by lia.
        rewrite (proj2 (Nat.ltb_lt _ _)) by lia. reflexivity.
      * rewrite (proj2 (Nat.eqb_eq p (2 * i))) by lia.
        rewrite (proj2 (Nat.ltb_lt _ _)) by lia. reflexivity.
    + unfold dst'. destruct (i <? length dst)%nat; [|reflexivity].
      rewrite !put_in_nth. rewrite (proj2 (Nat.eqb_neq p (2 * i))) by lia.
      rewrite (proj2 (Nat.eqb_neq p (2 * i + 1))) by lia. reflexivity.
Qed.

(** the upper case text of some bytes *)
Definition hex_upper (bs : list Z) : list Z :=
  concat (map (fun b => [hexc 0 b; hexc 1 b]) bs).

Lemma hex_upper_length bs : length (hex_upper bs) = (2 * length bs)%nat.
Proof.
  unfold hex_upper. induction bs as [|b bs IH]; [reflexivity|]. cbn [map concat].
  rewrite app_length, IH. cbn. lia.
Qed.

Lemma hex_upper_nth bs : forall p, (p < 2 * length bs)%nat ->
  nth p (hex_upper bs) 0 = hexc p (nth (Nat.div2 p) bs 0).
Proof.
  induction bs as [|b bs IH]; intros p Hp; [cbn in Hp; lia|].
  unfold hex_upper. cbn [map concat app]. destruct p as [|[|p]]; [reflexivity|reflexivity|].
  cbn [nth]. fold (hex_upper bs). rewrite IH by (cbn in Hp; lia). reflexivity.
Qed.

Lemma nth_overlap (full dst : list Z) p : (p < length full)%nat -> (p < length dst)%nat ->
  nth p (firstn (length dst) full ++ skipn (length full) dst) 0 = nth p full 0.
Proof.
  intros H1 H2. rewrite app_nth1 by (rewrite firstn_length; lia).
  rewrite <- (firstn_skipn (length dst) full) at 2. rewrite app_nth1; [reflexivity|].
  rewrite firstn_length. lia.
Qed.

Lemma nth_skip (l : list Z) a p : nth p (skipn a l) 0 = nth (a + p) l 0.
Proof.
  revert l. induction a as [|a IH]; intros l; [reflexivity|].
  destruct l; cbn; [now destruct p|apply IH].
Qed.

Lemma nth_beyond (full dst : list Z) p : (length full <= p)%nat -> (p < length dst)%nat ->
  nth p (firstn (length dst) full ++ skipn (length full) dst) 0 = nth p dst 0.
Proof.
  intros H1 H2. rewrite app_nth2 by (rewrite firstn_length; lia). rewrite firstn_length, nth_skip.
  f_equal. lia.
Qed.

(** the hex writer stores the text of the bytes of the WKB writer *)
Lemma hex_written g w : written (tg_geom_wkb g) w -> written_text (tg_geom_hex g) (hex_upper w).
Proof.
  intros HW dst. unfold tg_geom_hex. rewrite HW.
  destruct (Nat.eqb_spec (length w) 0) as [H0|H0].
  - destruct w; [|discriminate]. unfold hex_upper. cbn. rewrite firstn_nil. cbn.
    unfold text_into, put_in, store. destruct dst; [reflexivity|]. cbn. reflexivity.
  - set (d0 := firstn (length dst) w ++ skipn (length w) dst).
    assert (HL0 : length d0 = length dst).
    { unfold d0. rewrite app_length, firstn_length, skipn_length. lia. }
    pose proof (hex_loop_length (length w) d0) as HL.
    pose proof (hex_upper_length w) as HU.
    rewrite HL, HL0, HU. f_equal. f_equal; [lia|].
    set (d1 := hex_loop (length w) d0) in *.
    assert (HN : forall p, (p < length dst)%nat ->
      nth p d1 0 = if (p <? 2 * length w)%nat then nth p (hex_upper w) 0 else nth p dst 0).
    { intros p Hp. unfold d1. rewrite hex_loop_nth by lia.
      pose proof (Nat.div2_odd p) as Hd.
      destruct (Nat.ltb_spec p (2 * length w)).
      - rewrite hex_upper_nth by lia. unfold d0. rewrite nth_overlap; [reflexivity| |]; lia.
      - unfold d0. apply nth_beyond; lia. }
    unfold text_into. rewrite HU.
    replace (length w * 2)%nat with (2 * length w)%nat by lia.
    destruct (Nat.ltb_spec (2 * length w) (length dst)) as [L|L].
    + apply nth_ext with (d := 0) (d' := 0).
      { rewrite put_in_length, app_length. cbn [length]. rewrite skipn_length. lia. }
      intros p Hp. rewrite put_in_length, HL, HL0 in Hp. rewrite put_in_nth, HN by lia.
      rewrite HL, HL0.
      destruct (Nat.ltb_spec p (2 * length w)) as [Lp|Lp].
      * rewrite (proj2 (Nat.eqb_neq p _)) by lia. cbn [andb]. rewrite app_nth1; [reflexivity|lia].
      * rewrite app_nth2 by lia. rewrite HU. destruct (Nat.eqb_spec p (2 * length w)) as [->|Np].
        -- rewrite (proj2 (Nat.ltb_lt _ _)) by lia. rewrite Nat.sub_diag. reflexivity.
        -- cbn [andb]. replace (p - 2 * length w)%nat with (S (p - 2 * length w - 1))%nat by lia.
           cbn [nth]. rewrite nth_skip. f_equal. lia.
    + destruct (Nat.ltb_spec 0 (length dst)) as [P|P].
      * apply nth_ext with (d := 0) (d' := 0).
        { rewrite put_in_length, app_length, firstn_length. cbn. lia. }
        intros p Hp. rewrite put_in_length, HL, HL0 in Hp. rewrite put_in_nth, HN by lia.
        rewrite HL, HL0. destruct (Nat.eqb_spec p (length dst - 1)) as [->|Np].
        -- rewrite (proj2 (Nat.ltb_lt _ _)) by lia. cbn [andb].
           rewrite app_nth2 by (rewrite firstn_length; lia). rewrite firstn_length, HU.
           replace (_ - _)%nat with 0%nat by lia. reflexivity.
        -- cbn [andb]. rewrite (proj2 (Nat.ltb_lt _ _)) by lia.
           rewrite app_nth1 by (rewrite firstn_length; lia).
           rewrite <- (firstn_skipn (length dst - 1) (hex_upper w)) at 1.
           rewrite app_nth1; [reflexivity|]. rewrite firstn_length. lia.
      * destruct d1; [destruct dst; [reflexivity|cbn in P; lia]|cbn in HL; lia].
Qed.

(** ** Decoding *)

Lemma hextok_table : forallb (fun c => hextok c =?
  (if (48 <=? c) && (c <=? 57) then c - 47
   else if (65 <=? c) && (c <=? 70) then c - 54
   else if (97 <=? c) && (c <=? 102) then c - 86 else 0)) (map Z.of_nat (seq 0 256)) = true.
Proof. vm_compute. reflexivity. Qed.

Lemma hextok_val c : is_byte c -> hextok c =
  if (48 <=? c) && (c <=? 57) then c - 47
  else if (65 <=? c) && (c <=? 70) then c - 54
  else if (97 <=? c) && (c <=? 102) then c - 86 else 0.
Proof.
  intros H. pose proof hextok_table as T. rewrite forallb_forall in T. apply Z.eqb_eq, T.
  unfold is_byte in H. replace c with (Z.of_nat (Z.to_nat c)) by lia.
  apply in_map, in_seq. lia.
Qed.

Lemma hextok_digit c v : hex_digit c v -> hextok c = v + 1.
Proof.
  unfold hex_digit. intros H. rewrite hextok_val by (unfold is_byte; lia).
  destruct ((48 <=? c) && (c <=? 57)) eqn:?; [lia|].
  destruct ((65 <=? c) && (c <=? 70)) eqn:?; [lia|].
  destruct ((97 <=? c) && (c <=? 102)) eqn:?; lia.
Qed.

Lemma hextok_inv c : is_byte c -> hextok c <> 0 -> hex_digit c (hextok c - 1).
Proof.
  unfold hex_digit. intros H. rewrite hextok_val by assumption.
  destruct ((48 <=? c) && (c <=? 57)) eqn:?; [lia|].
  destruct ((65 <=? c) && (c <=? 70)) eqn:?; [lia|].
  destruct ((97 <=? c) && (c <=? 102)) eqn:?; lia.
Qed.

Lemma hex_decode_ok bs : forall t, hex_text bs t -> hex_decode t = Some bs.
Proof.
  induction bs as [|b bs IH]; intros t H.
  - destruct t; [reflexivity|contradiction].
  - destruct t as [|h [|l t]]; try contradiction. destruct H as ((vh & vl & Hh & Hl & E) & H).
    cbn [hex_decode]. rewrite (hextok_digit _ _ Hh), (hextok_digit _ _ Hl), (IH _ H).
    unfold hex_digit in *. rewrite !(proj2 (Z.eqb_neq _ _)) by lia. cbn. f_equal. f_equal. lia.
Qed.

Lemma hex_decode_inv : forall n t bs, (length t <= n)%nat -> Forall is_byte t ->
  Nat.odd (length t) = false -> hex_decode t = Some bs -> hex_text bs t.
Proof.
  induction n as [|n IH]; intros t bs Hn HB Ho H.
  - destruct t; [|cbn in Hn; lia]. injection H as <-. exact I.
  - destruct t as [|h [|l t]].
    + injection H as <-. exact I.
    + discriminate.
    + inversion HB as [|? ? Bh HB1 ]; subst. inversion HB1 as [|? ? Bl HB2]; subst.
      cbn [hex_decode] in H.
      destruct (Z.eqb_spec (hextok h) 0) as [|Nh]; [discriminate|].
      destruct (Z.eqb_spec (hextok l) 0) as [|Nl]; [discriminate|]. cbn [orb] in H.
      destruct (hex_decode t) as [bs'|] eqn:D; [|discriminate]. cbn [option_map] in H.
      assert (E : bs = ((hextok h - 1) * 16 + (hextok l - 1)) :: bs') by congruence. subst bs.
      cbn [hex_text]. split.
      * exists (hextok h - 1), (hextok l - 1). split; [now apply hextok_inv|].
        split; [now apply hextok_inv|lia].
      * apply IH; [cbn in Hn; lia|assumption|exact Ho|assumption].
Qed.

Lemma hex_text_length bs : forall t, hex_text bs t -> length t = (2 * length bs)%nat.
Proof.
  induction bs as [|b bs IH]; intros t H; [destruct t; [reflexivity|contradiction]|].
  destruct t as [|h [|l t]]; try contradiction. destruct H as (_ & H). cbn. rewrite (IH _ H). lia.
Qed.

Lemma hex_text_bytes bs : forall t, hex_text bs t -> Forall is_byte bs.
Proof.
  induction bs as [|b bs IH]; intros t H; constructor;
    destruct t as [|h [|l t]]; try contradiction; destruct H as ((vh & vl & Hh & Hl & E) & H).
  - unfold hex_digit, is_byte in *. lia.
  - eauto.
Qed.

Lemma hex_char_digit v : 0 <= v < 16 -> hex_digit (hex_char v) v.
Proof.
  intros H. assert (V : hex_char v = if v <? 10 then 48 + v else 55 + v).
  { assert (E : v = 0 \/ v = 1 \/ v = 2 \/ v = 3 \/ v = 4 \/ v = 5 \/ v = 6 \/ v = 7 \/ v = 8 \/
    v = 9 \/ v = 10 \/ v = 11 \/ v = 12 \/ v = 13 \/ v = 14 \/ v = 15) by lia.
    repeat destruct E as [E|E]; subst v; reflexivity. }
  rewrite V. unfold hex_digit. destruct (Z.ltb_spec v 10); lia.
Qed.

Lemma hex_upper_text bs : Forall is_byte bs -> hex_text bs (hex_upper bs).
Proof.
  unfold is_byte. induction 1 as [|b bs Hb _ IH]; [exact I|].
  unfold hex_upper. cbn [map concat app hex_text]. split; [|exact IH].
  exists (b / 16 mod 16), (b mod 16). split; [|split].
  - apply hex_char_digit. apply Z.mod_pos_bound. lia.
  - apply hex_char_digit. apply Z.mod_pos_bound. lia.
  - rewrite (Z.mod_small (b / 16)). { pose proof (Z.div_mod b 16). lia. }
    split; [apply Z.div_pos; lia|apply Z.div_lt_upper_bound; lia].
Qed.

(** ** The parser *)

Lemma odd_double n : Nat.odd (2 * n) = false.
Proof. rewrite <- Nat.negb_even, (proj2 (Nat.even_spec _)); [reflexivity|]. now exists n. Qed.

Lemma parse_hex_text e ix bs t : hex_text bs t -> bs <> [] ->
  tg_parse_hexn_ix e ix t =
  if (2 <=? nth 0 bs 0) && (nth 0 bs 0 <=? 4)
  then tg_parse_geobin_ix e ix bs else tg_parse_wkb_ix e ix bs.
Proof.
  intros H N. unfold tg_parse_hexn_ix, parse_hex.
  pose proof (hex_text_length _ _ H) as HL.
  rewrite HL, odd_double, orb_false_r.
  replace (2 * length bs =? 0)%nat with false
    by (symmetry; apply Nat.eqb_neq; destruct bs; [contradiction|cbn; lia]).
  rewrite (hex_decode_ok _ _ H).
  replace (0 <? length bs)%nat with true by (symmetry; apply Nat.ltb_lt; destruct bs; [contradiction|cbn; lia]).
  cbn [andb]. destruct ((2 <=? nth 0 bs 0) && (nth 0 bs 0 <=? 4)).
  - unfold tg_parse_geobin_ix. destruct (parse_geobin _ _ _ _ _); reflexivity.
  - unfold tg_parse_wkb_ix. destruct (parse_wkb _ _ _ _ _) as [[r g]|m| | |]; reflexivity.
Qed.

Lemma hex_decode_bad : forall n t, (length t <= n)%nat -> Forall is_byte t ->
  Nat.odd (length t) = false ->
  (exists c, In c t /\ forall v, ~ hex_digit c v) -> hex_decode t = None.
Proof.
  induction n as [|n IH]; intros t Hn HB Ho (c & Hc & Hv).
  - destruct t; [contradiction|cbn in Hn; lia].
  - destruct t as [|h [|l t]]; [contradiction|discriminate|].
    inversion HB as [|? ? Bh HB1 ]; subst. inversion HB1 as [|? ? Bl HB2]; subst.
    cbn [hex_decode].
    destruct (Z.eqb_spec (hextok h) 0) as [|Nh]; [reflexivity|].
    destruct (Z.eqb_spec (hextok l) 0) as [|Nl]; [reflexivity|]. cbn [orb].
    destruct Hc as [->|[->|Hc]].
    + exfalso. eapply Hv, hextok_inv; eassumption.
    + exfalso. eapply Hv, hextok_inv; eassumption.
    + rewrite (IH t); [reflexivity|cbn in Hn; lia|assumption|exact Ho|eauto].
Qed.
