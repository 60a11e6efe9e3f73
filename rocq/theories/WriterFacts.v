(** * The bounded writer: what is stored and what is counted *)

From Coq Require Import ZArith Bool List Lia.
From Verif Require Import F64 Geo Bytes Writer.
Import ListNotations.
Local Open Scope Z_scope.

(** one byte appended *)
Definition put (b : Z) (w : writer) : writer :=
  Wr (if (w_count w <? w_n w)%nat then store (w_dst w) (w_count w) [b] else w_dst w)
     (S (w_count w)).
Definition emit (bs : list Z) (w : writer) : writer := fold_left (fun w b => put b w) bs w.
Definition emits (f : W) (bs : list Z) : Prop := forall w, f w = Some (emit bs w).

Lemma store_length dst i bs :
  (i + length bs <= length dst)%nat -> length (store dst i bs) = length dst.
Proof.
  intros H. unfold store. rewrite !app_length, firstn_length, skipn_length. lia.
Qed.

Lemma put_n b w : w_n (put b w) = w_n w.
Proof.
  unfold put, w_n. cbn [w_dst]. destruct (Nat.ltb_spec (w_count w) (length (w_dst w))); [|reflexivity].
  apply store_length. cbn. lia.
Qed.

Lemma emit_n bs : forall w, w_n (emit bs w) = w_n w.
Proof.
  induction bs as [|b bs IH]; intros w; [reflexivity|].
  unfold emit in *. cbn. rewrite IH. apply put_n.
Qed.

Lemma emit_count bs : forall w, w_count (emit bs w) = (w_count w + length bs)%nat.
Proof.
  induction bs as [|b bs IH]; intros w; [cbn; lia|].
  unfold emit in *. cbn. rewrite IH. unfold put. cbn. lia.
Qed.

Lemma emit_app a b w : emit (a ++ b) w = emit b (emit a w).
Proof. unfold emit. apply fold_left_app. Qed.

(** a full buffer only counts *)
Lemma emit_full bs : forall w, (w_n w <= w_count w)%nat ->
  emit bs w = Wr (w_dst w) (w_count w + length bs).
Proof.
  induction bs as [|b bs IH]; intros w H.
  - cbn. rewrite Nat.add_0_r. now destruct w.
  - cbn [emit fold_left]. change (fold_left _ bs (put b w)) with (emit bs (put b w)).
    rewrite IH by (rewrite put_n; unfold put; cbn; lia).
    unfold put. cbn [w_dst w_count length]. replace (w_count w <? w_n w)%nat with false
      by (symmetry; apply Nat.ltb_ge; lia).
    f_equal. lia.
Qed.

Lemma skipn_add {A} a b : forall l : list A, skipn a (skipn b l) = skipn (b + a) l.
Proof.
  induction b as [|b IH]; intros l; [reflexivity|]. destruct l; cbn; [apply skipn_nil|apply IH].
Qed.

Lemma store_nil dst i : store dst i [] = dst.
Proof. unfold store. cbn. rewrite Nat.add_0_r. apply firstn_skipn. Qed.

Lemma store_cons dst i b bs : (i < length dst)%nat ->
  store (store dst i [b]) (S i) bs = store dst i (b :: bs).
Proof.
  intros H. unfold store. cbn [length].
  rewrite firstn_app, firstn_length. replace (Nat.min i (length dst)) with i by lia.
  rewrite firstn_all2 by (rewrite firstn_length; lia).
  replace (S i - i)%nat with 1%nat by lia. cbn [firstn app].
  rewrite <- app_assoc. cbn [app]. f_equal. f_equal. f_equal.
  rewrite skipn_app, firstn_length. replace (Nat.min i (length dst)) with i by lia.
  rewrite skipn_all2 by (rewrite firstn_length; lia). cbn [app].
  replace (S i + length bs - i)%nat with (S (length bs)) by lia. cbn [skipn].
  rewrite skipn_add. f_equal. lia.
Qed.

(** enough room: the bytes are stored one after the other *)
Lemma emit_store bs : forall w, (w_count w + length bs <= w_n w)%nat ->
  emit bs w = Wr (store (w_dst w) (w_count w) bs) (w_count w + length bs).
Proof.
  induction bs as [|b bs IH]; intros w H.
  - cbn. rewrite store_nil, Nat.add_0_r. now destruct w.
  - cbn [length] in H.
    cbn [emit fold_left]. change (fold_left _ bs (put b w)) with (emit bs (put b w)).
    assert (Hp : put b w = Wr (store (w_dst w) (w_count w) [b]) (S (w_count w))).
    { unfold put. replace (w_count w <? w_n w)%nat with true; [reflexivity|].
      symmetry. apply Nat.ltb_lt. lia. }
    rewrite IH.
    + rewrite Hp. cbn [w_dst w_count length]. rewrite store_cons by (unfold w_n in H; lia).
      f_equal. lia.
    + rewrite put_n. rewrite Hp. cbn. lia.
Qed.

(** in general, what fits is stored *)
Lemma emit_char bs w : (w_count w <= w_n w)%nat ->
  emit bs w = Wr (firstn (w_count w) (w_dst w) ++ firstn (w_n w - w_count w) bs ++
                  skipn (w_count w + length bs) (w_dst w)) (w_count w + length bs).
Proof.
  intros H. destruct (Nat.le_gt_cases (w_count w + length bs) (w_n w)) as [L|L].
  - rewrite emit_store by assumption. unfold store. rewrite (firstn_all2 bs) by lia. reflexivity.
  - rewrite <- (firstn_skipn (w_n w - w_count w) bs) at 1. rewrite emit_app.
    rewrite (emit_store (firstn _ bs)).
    2:{ rewrite firstn_length. lia. }
    rewrite emit_full.
    2:{ unfold w_n at 1. cbn [w_dst w_count]. rewrite store_length.
        - rewrite firstn_length. fold (w_n w). lia.
        - rewrite firstn_length. fold (w_n w). lia. }
    cbn [w_dst w_count]. unfold store. rewrite firstn_length, skipn_length.
    f_equal; [|lia]. f_equal. f_equal.
    rewrite !skipn_all2; [reflexivity| |]; fold (w_n w); lia.
Qed.

Lemma emit_start bs dst :
  emit bs (Wr dst 0) = Wr (firstn (length dst) bs ++ skipn (length bs) dst) (length bs).
Proof.
  rewrite emit_char by (cbn; lia). cbn. unfold w_n. cbn. now rewrite Nat.sub_0_r.
Qed.

Lemma emit_inj a b : (forall w, emit a w = emit b w) -> a = b.
Proof.
  intros H. specialize (H (Wr (repeat 0 (length a)) 0)). rewrite !emit_start in H.
  injection H as E1 E2. rewrite repeat_length in E1. rewrite <- E2 in E1.
  rewrite firstn_all, (firstn_all2 b) in E1 by lia.
  rewrite skipn_all2 in E1 by (rewrite repeat_length; lia). now rewrite !app_nil_r in E1.
Qed.

(** ** The write operations *)

Lemma emits_unique f a b : emits f a -> emits f b -> a = b.
Proof. intros Ha Hb. apply emit_inj. intros w. specialize (Ha w). specialize (Hb w). congruence. Qed.

Lemma emits_skip : emits wskip [].
Proof. intros w. reflexivity. Qed.

Lemma emits_seq f g a b : emits f a -> emits g b -> emits (f ;; g) (a ++ b).
Proof. intros Hf Hg w. unfold wseq. rewrite Hf, Hg, emit_app. reflexivity. Qed.

Lemma emits_loop {A} (f : A -> W) (bs : A -> list Z) l :
  (forall a, In a l -> emits (f a) (bs a)) ->
  emits (wloop (map f l)) (concat (map bs l)).
Proof.
  induction l as [|a l IH]; intros H.
  - apply emits_skip.
  - cbn. apply emits_seq; [apply H; now left|apply IH; intros; apply H; now right].
Qed.

Definition is_byte (b : Z) : Prop := 0 <= b < 256.

Lemma emits_byte b : emits (write_byte b) [b mod 256].
Proof. intros w. reflexivity. Qed.

Lemma emits_byte_ok b : is_byte b -> emits (write_byte b) [b].
Proof. intros H w. unfold write_byte, emit, put. cbn. rewrite Z.mod_small by exact H. reflexivity. Qed.

Lemma le_bytes_byte k : forall x, Forall is_byte (le_bytes k x).
Proof.
  induction k as [|k IH]; intros x; cbn; constructor; [|apply IH].
  apply Z.mod_pos_bound. lia.
Qed.

Lemma le_bytes_length k : forall x, length (le_bytes k x) = k.
Proof. induction k as [|k IH]; intros x; cbn; [reflexivity|now rewrite IH]. Qed.

Lemma emits_string s : Forall is_byte s -> emits (write_string s) s.
Proof.
  intros H. unfold write_string.
  replace s with (concat (map (fun b => [b]) s)) at 2.
  - apply emits_loop. intros a Ha. apply emits_byte_ok.
    rewrite Forall_forall in H. auto.
  - clear H. induction s; cbn; congruence.
Qed.

Lemma emits_le k x : emits (write_le k x) (le_bytes k x).
Proof. apply emits_string, le_bytes_byte. Qed.

Lemma memcpy_emit bs w : (w_count w + length bs <= w_n w)%nat ->
  write_memcpy bs w = Some (emit bs w).
Proof.
  intros H. unfold write_memcpy. rewrite emit_store by assumption.
  replace (w_count w + length bs <=? w_n w)%nat with true; [reflexivity|].
  symmetry. apply Nat.leb_le. exact H.
Qed.

Lemma skip_emit bs k w : (w_n w <= w_count w)%nat -> length bs = k ->
  write_skip k w = Some (emit bs w).
Proof. intros H <-. unfold write_skip. now rewrite emit_full. Qed.

(** ** Code that either always has undefined behaviour or always emits the same *)

Definition settled (f : W) : Prop :=
  (forall w, f w = None) \/ exists bs, emits f bs /\ Forall is_byte bs.

Lemma settled_emits f bs : emits f bs -> Forall is_byte bs -> settled f.
Proof. right. eauto. Qed.

Lemma settled_undef : settled wundef.
Proof. left. reflexivity. Qed.

Lemma settled_skip : settled wskip.
Proof. apply (settled_emits _ []); [apply emits_skip|constructor]. Qed.

Lemma settled_le k x : settled (write_le k x).
Proof. eapply settled_emits; [apply emits_le|apply le_bytes_byte]. Qed.

Lemma settled_byte b : settled (write_byte b).
Proof.
  eapply settled_emits; [apply emits_byte|]. repeat constructor; apply Z.mod_pos_bound; lia.
Qed.

Lemma settled_seq f g : settled f -> settled g -> settled (f ;; g).
Proof.
  intros [Hf|(a & Hf & Ba)] Hg.
  - left. intros w. unfold wseq. now rewrite Hf.
  - destruct Hg as [Hg|(b & Hg & Bb)].
    + left. intros w. unfold wseq. now rewrite Hf, Hg.
    + right. exists (a ++ b). split; [now apply emits_seq|]. now apply Forall_app.
Qed.

Lemma settled_loop {A} (f : A -> W) l : (forall a, In a l -> settled (f a)) ->
  settled (wloop (map f l)).
Proof.
  induction l as [|a l IH]; intros H.
  - apply settled_skip.
  - cbn. apply settled_seq; [apply H; now left|apply IH; intros; apply H; now right].
Qed.
