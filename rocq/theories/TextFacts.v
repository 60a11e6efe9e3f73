(** * Text written through the bounded writer *)

From Coq Require Import ZArith Bool List Lia ZifyBool.
From Verif Require Import F64 Geo Bytes Writer WriterFacts Num NumFacts NumPrint SpecText.
Import ListNotations.
Local Open Scope Z_scope.

(** [bs] has been counted, and is in the buffer up to its last byte *)
Definition holds (w : writer) (bs : list Z) : Prop :=
  w_count w = length bs /\
  forall i, (i < length bs)%nat -> (i + 1 < w_n w)%nat -> nth_error (w_dst w) i = nth_error bs i.

Definition types (f : W) (t : list Z) : Prop :=
  forall w bs, holds w bs -> exists w', f w = Some w' /\ w_n w' = w_n w /\ holds w' (bs ++ t).

Lemma types_skip : types wskip [].
Proof. intros w bs H. exists w. rewrite app_nil_r. auto. Qed.

Lemma types_seq f g a b : types f a -> types g b -> types (f ;; g) (a ++ b).
Proof.
  intros Hf Hg w bs H. destruct (Hf w bs H) as (w1 & E1 & N1 & H1).
  destruct (Hg w1 _ H1) as (w2 & E2 & N2 & H2). exists w2.
  unfold wseq. rewrite E1, app_assoc. split; [assumption|]. split; [congruence|assumption].
Qed.

Lemma types_loop {A} (f : A -> W) (bs : A -> list Z) l :
  (forall a, In a l -> types (f a) (bs a)) -> types (wloop (map f l)) (concat (map bs l)).
Proof.
  induction l as [|a l IH]; intros H; [apply types_skip|].
  cbn. apply types_seq; [apply H; now left|]. apply IH. intros. apply H. now right.
Qed.

Lemma store_nth dst i b j : (i < length dst)%nat ->
  nth_error (store dst i [b]) j = if (j =? i)%nat then Some b else nth_error dst j.
Proof.
  intros H. unfold store. cbn [length].
  destruct (Nat.eqb_spec j i) as [->|N].
  - rewrite nth_error_app2 by (rewrite firstn_length; lia).
    rewrite firstn_length. replace (i - Nat.min i (length dst))%nat with 0%nat by lia. reflexivity.
  - destruct (Nat.lt_ge_cases j i).
    + rewrite nth_error_app1 by (rewrite firstn_length; lia).
      rewrite <- (firstn_skipn i dst) at 2. rewrite nth_error_app1; [reflexivity|].
      rewrite firstn_length. lia.
    + rewrite nth_error_app2 by (rewrite firstn_length; lia). rewrite firstn_length.
      replace (Nat.min i (length dst)) with i by lia.
      destruct (j - i)%nat as [|k] eqn:E; [lia|]. cbn [app nth_error].
      rewrite <- (firstn_skipn (i + 1) dst) at 2. rewrite nth_error_app2 by (rewrite firstn_length; lia).
      rewrite firstn_length. f_equal. lia.
Qed.

Lemma types_byte b : 0 <= b < 256 -> types (write_byte b) [b].
Proof.
  intros B w bs [H1 H2]. eexists. split; [reflexivity|]. rewrite Z.mod_small by assumption.
  assert (N : w_n (Wr (if (w_count w <? w_n w)%nat then store (w_dst w) (w_count w) [b] else w_dst w)
                      (S (w_count w))) = w_n w).
  { unfold w_n. cbn [w_dst]. destruct (Nat.ltb_spec (w_count w) (length (w_dst w))); [|reflexivity].
    apply store_length. cbn. lia. }
  split; [assumption|]. split; [cbn; rewrite app_length; cbn; lia|].
  intros i Hi Hn. rewrite N in Hn. cbn [w_dst]. rewrite app_length in Hi. cbn [length] in Hi.
  assert (L : (w_count w < length (w_dst w))%nat \/ (i < length bs)%nat).
  { unfold w_n in Hn. destruct (Nat.eq_dec i (length bs)); [left|right]; lia. }
  destruct (Nat.ltb_spec (w_count w) (w_n w)) as [C|C].
  - rewrite store_nth by exact C. destruct (Nat.eqb_spec i (w_count w)) as [->|Ne].
    + rewrite H1, nth_error_app2 by lia. rewrite Nat.sub_diag. reflexivity.
    + rewrite nth_error_app1 by lia. apply H2; lia.
  - unfold w_n in C. rewrite nth_error_app1 by lia. apply H2; [lia|assumption].
Qed.

Lemma types_string s : Forall (fun b => 0 <= b < 256) s -> types (write_string s) s.
Proof.
  intros H. unfold write_string. replace s with (concat (map (fun b => [b]) s)) at 2.
  - apply types_loop. intros a Ha. apply types_byte. now apply (proj1 (Forall_forall _ _) H).
  - clear H. induction s; cbn; congruence.
Qed.

Lemma holds_nullterm b w bs : holds w bs ->
  exists w', fp_write_nullterm b w = Some w' /\ w_n w' = w_n w /\ holds w' bs.
Proof.
  intros [H1 H2]. unfold fp_write_nullterm.
  destruct (Nat.ltb_spec (w_count w) (w_n w)) as [C|C];
    [|destruct (Nat.ltb_spec b (w_n w)) as [D|D]]; eexists; (split; [reflexivity|]).
  - assert (N : w_n (Wr (store (w_dst w) (w_count w) [0]) (w_count w)) = w_n w)
      by (unfold w_n; cbn [w_dst]; apply store_length; unfold w_n in C; cbn; lia).
    split; [exact N|]. split; [exact H1|]. intros i Hi Hn. rewrite N in Hn. cbn [w_dst].
    rewrite store_nth by exact C. destruct (Nat.eqb_spec i (w_count w)); [lia|]. now apply H2.
  - assert (N : w_n (Wr (store (w_dst w) (w_n w - 1) [0]) (w_count w)) = w_n w)
      by (unfold w_n in *; cbn [w_dst]; apply store_length; cbn; lia).
    split; [exact N|]. split; [exact H1|]. intros i Hi Hn. rewrite N in Hn. cbn [w_dst].
    rewrite store_nth by (unfold w_n in *; lia). destruct (Nat.eqb_spec i (w_n w - 1)); [lia|].
    now apply H2.
  - split; [reflexivity|]. split; assumption.
Qed.

Lemma holds_prefix w a b : holds w (a ++ b) -> holds (Wr (w_dst w) (length a)) a.
Proof.
  intros [H1 H2]. split; [reflexivity|]. intros i Hi Hn. cbn [w_dst].
  rewrite H2; [apply nth_error_app1; lia|rewrite app_length; lia|exact Hn].
Qed.

Definition bytes_ok (t : list Z) : Prop := Forall (fun b => 0 <= b < 256) t.

Lemma types_dtoa g x buf t1 t2 : d2s_buffered_n x = Some buf -> fp_utoa_text g buf = (t1, t2) ->
  bytes_ok t1 -> (forall t, t2 = Some t -> bytes_ok t) ->
  types (fp_dtoa g x) (match t2 with Some t => t | None => t1 end).
Proof.
  intros HB HT B1 B2 w bs H. unfold fp_dtoa. rewrite HB, HT.
  destruct (types_string t1 B1 w bs H) as (w1 & E1 & N1 & H1).
  destruct (holds_nullterm (w_count w) w1 _ H1) as (w2 & E2 & N2 & H2).
  destruct t2 as [t|].
  - unfold wseq. rewrite E1, E2. cbn [fp_rewind].
    assert (H3 : holds (Wr (w_dst w2) (w_count w)) bs).
    { destruct H as [Hc _]. rewrite Hc. exact (holds_prefix w2 bs t1 H2). }
    destruct (types_string t (B2 t eq_refl) _ bs H3) as (w3 & E3 & N3 & H4). rewrite E3.
    destruct (holds_nullterm (w_count w) w3 _ H4) as (w4 & E4 & N4 & H5).
    exists w4. split; [exact E4|]. split; [|assumption].
    change (w_n (Wr (w_dst w2) (w_count w))) with (w_n w2) in N3. congruence.
  - unfold wseq. rewrite E1. exists w2. split; [assumption|]. split; [congruence|assumption].
Qed.

(** at the end: the zero byte *)
Lemma printed_types f t : types f t -> printed (f ;; write_nullterm) t.
Proof.
  intros H dst. destruct (H (Wr dst 0) []) as (w & E & N & Hc & Hn).
  { split; [reflexivity|]. intros i Hi. cbn in Hi. lia. }
  cbn [app] in Hc, Hn. unfold w_n in N. cbn [w_dst] in N.
  unfold wseq. rewrite E. unfold write_nullterm.
  assert (Nth : forall k (l : list Z), (k <= length (w_dst w))%nat -> (k <= length t)%nat ->
    (k + 1 <= length dst)%nat -> firstn k (w_dst w) = firstn k t).
  { intros k _ K1 K2 K3.
    revert K1 K2 K3. induction k as [|k IH]; intros K1 K2 K3; [reflexivity|].
    assert (X : nth_error (w_dst w) k = nth_error t k) by (apply Hn; unfold w_n; lia).
    assert (S : forall (l : list Z), firstn (S k) l = firstn k l ++ match nth_error l k with Some a => [a] | None => [] end).
    { clear. induction k; intros [|a l]; try reflexivity.
      change (firstn (S (S k)) (a :: l)) with (a :: firstn (S k) l). rewrite IHk. reflexivity. }
    rewrite !S, X, IH by lia. reflexivity. }
  destruct (Nat.ltb_spec (w_count w) (w_n w)) as [C|C];
    [|destruct (Nat.ltb_spec 0 (w_n w)) as [D|D]]; eexists; (split; [reflexivity|]);
    (split; [exact Hc|]); cbn [w_dst]; unfold w_n in *.
  - split; [rewrite store_length; [exact N|cbn; lia]|]. intros _.
    unfold store. rewrite (Nth (w_count w) []) by lia. rewrite Hc, firstn_all.
    rewrite (firstn_all2 t) by lia. eexists. reflexivity.
  - split; [rewrite store_length; [exact N|cbn; lia]|]. intros _.
    unfold store. rewrite (Nth (length (w_dst w) - 1)%nat []) by lia. rewrite N.
    eexists. reflexivity.
  - split; [exact N|]. intros NE. destruct dst; [easy|]. cbn in N. lia.
Qed.

Lemma num_form_bytes t : num_form t -> bytes_ok t.
Proof.
  intros (neg & ip & fp & ex & -> & H1 & _ & _ & H2 & H3).
  assert (D : forall l, digits l -> bytes_ok l).
  { intros l. apply Forall_impl. unfold digit. lia. }
  unfold bytes_ok. rewrite !Forall_app.
  split; [|split; [now apply D|split]].
  - destruct neg; repeat constructor; lia.
  - destruct fp; [constructor|]. cbn. constructor; [lia|]. now apply D.
  - destruct H3 as [->|(e & He & ->)]; [constructor|]. constructor; [lia|].
    unfold exp_chars. rewrite Forall_app. split; [destruct (e <? 0); repeat constructor; lia|].
    unfold digit_pair.
    destruct (100 <=? Z.abs e) eqn:E1; [|destruct (10 <=? Z.abs e) eqn:E2]; cbn [app];
      repeat (apply Forall_cons; [Z.to_euclidean_division_equations; lia|]); apply Forall_nil.
Qed.

(** the number writer types one of the two texts *)
Lemma types_double fixed x t1 t2 : f_isnormal x = true ->
  num_texts (negb fixed) x t1 t2 -> num_form t1 -> (forall t, t2 = Some t -> num_form t) ->
  types (write_string_double fixed x) (match t2 with Some t => t | None => t1 end).
Proof.
  intros N (buf & HB & HT) F1 F2. unfold write_string_double. rewrite N. cbn [negb].
  apply (types_dtoa _ _ buf t1 t2 HB HT).
  - now apply num_form_bytes.
  - intros t Ht. now apply num_form_bytes, F2.
Qed.
Lemma types_zero fixed x : f_isnormal x = false -> types (write_string_double fixed x) [48].
Proof. intros N. unfold write_string_double. rewrite N. apply types_byte. lia. Qed.
