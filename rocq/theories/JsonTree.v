(** * Walking over JSON values *)

From Coq Require Import ZArith Bool List Lia ZifyBool Arith.
From Verif Require Import Json SpecJson JsonFacts JsonTok JsonStrFacts SpecTree.
Import ListNotations.
Local Open Scope Z_scope.

(** ** Strings inside nested values *)

Definition run (pre : list Z) : Prop :=
  exists k q t, pre = repeat 92 (2 * k) ++ q :: t /\ q <> 92.

Lemma count_back_run k q t e : q <> 92 ->
  count_back (repeat 92 k ++ q :: t) e = xorb e (Nat.odd k).
Proof.
  intros Q. revert e. induction k as [|k IH]; intros e.
  - cbn [repeat app]. destruct t; cbn [count_back]; [now destruct e|].
    replace (q =? 92) with false by lia. now destruct e.
  - cbn [repeat app]. destruct (repeat 92 k ++ q :: t) as [|b l] eqn:E.
    { destruct k; discriminate. }
    rewrite <- E in *. replace (count_back (92 :: repeat 92 k ++ q :: t) e)
      with (count_back (repeat 92 k ++ q :: t) (negb e)) by (rewrite E; reflexivity).
    rewrite IH. rewrite Nat.odd_succ, <- Nat.negb_odd. destruct e, (Nat.odd k); reflexivity.
Qed.

Lemma nested_plain m : Forall (fun b => b <> 34) m -> forall pre r,
  nested_string pre (m ++ r) = nested_string (rev m ++ pre) r.
Proof.
  induction 1 as [|b m B _ IH]; intros pre r; [reflexivity|].
  cbn [app rev nested_string]. replace (b =? 34) with false by lia. rewrite IH.
  f_equal. now rewrite <- app_assoc.
Qed.
Lemma run_last m pre : m <> [] -> Forall (fun b => b <> 34 /\ b <> 92) m -> run (rev m ++ pre).
Proof.
  intros N F. destruct (exists_last N) as (m' & b & ->). exists 0%nat, b, (rev m' ++ pre).
  rewrite rev_app_distr. cbn. split; [reflexivity|]. apply Forall_app in F as [_ F].
  inversion_clear F. tauto.
Qed.
Lemma run_escaped pre b : run pre -> b <> 92 -> run (b :: 92 :: pre).
Proof. intros _ B. now exists 0%nat, b, (92 :: pre). Qed.

Lemma nested_escaped pre b r : run pre ->
  nested_string pre (92 :: b :: r) = nested_string (b :: 92 :: pre) r /\ run (b :: 92 :: pre).
Proof.
  intros R. cbn [nested_string]. change (92 =? 34) with false. cbv iota.
  destruct (Z.eqb_spec b 34) as [->|B].
  - destruct R as (k & q & t & -> & Q). rewrite count_back_run by assumption.
    replace (Nat.odd (2 * k)) with false
      by (symmetry; rewrite Nat.odd_mul; reflexivity).
    split; [reflexivity|]. now eexists 0%nat, 34, _.
  - split; [reflexivity|]. destruct (Z.eq_dec b 92) as [->|B2].
    + destruct R as (k & q & t & -> & Q). exists (S k), q, t. split; [|assumption].
      replace (2 * S k)%nat with (S (S (2 * k))) by lia. reflexivity.
    + now exists 0%nat, b, (92 :: pre).
Qed.

Lemma nested_chars s : chars rfc_char s -> forall pre r, run pre ->
  nested_string pre (s ++ r) = nested_string (rev s ++ pre) r /\ run (rev s ++ pre).
Proof.
  induction 1 as [|b s R N1 N2 C IH|m s M C IH|e s I C IH|x y z t s X Y Z T C IH]; intros pre r RN.
  - now split.
  - change (b :: s) with ([b] ++ s). rewrite <- app_assoc, nested_plain by (repeat constructor; lia).
    rewrite rev_app_distr, <- app_assoc. apply IH. apply run_last; [discriminate|]. repeat constructor; lia.
  - apply rfc_bytes in M as M'. rewrite <- app_assoc, nested_plain by (eapply Forall_impl; [|exact M']; cbv beta; tauto).
    rewrite rev_app_distr, <- app_assoc. apply IH. apply run_last; [now destruct m|].
    eapply Forall_impl; [|exact M']. cbv beta. tauto.
  - change ((92 :: e :: s) ++ r) with (92 :: e :: s ++ r).
    destruct (nested_escaped pre e (s ++ r) RN) as [-> R2].
    destruct (IH _ r R2) as [-> R3]. cbn [rev]. rewrite <- !app_assoc in *. cbn [app] in *. now split.
  - change ((92 :: 117 :: x :: y :: z :: t :: s) ++ r) with (92 :: 117 :: [x; y; z; t] ++ s ++ r).
    assert (F : Forall (fun b => b <> 34 /\ b <> 92) [x; y; z; t]).
    { unfold hex, digit in *. repeat (constructor; [lia|]). constructor. }
    destruct (nested_escaped pre 117 ([x; y; z; t] ++ s ++ r) RN) as [-> R2].
    rewrite nested_plain by (eapply Forall_impl; [|exact F]; cbv beta; tauto).
    destruct (IH (rev [x; y; z; t] ++ 117 :: 92 :: pre) r) as [-> R3].
    { apply run_last; [discriminate|assumption]. }
    cbn [rev] in *. rewrite <- !app_assoc in *. cbn [app] in *. now split.
Qed.

Lemma nested_close pre r : run pre -> nested_string pre (34 :: r) = (34 :: pre, r).
Proof.
  intros (k & q & t & -> & Q). cbn [nested_string]. change (34 =? 34) with true. cbv iota.
  destruct k as [|k].
  - cbn [repeat app Nat.mul]. destruct q as [|p|p]; try reflexivity.
    do 7 (destruct p; try reflexivity). contradiction Q. reflexivity.
  - replace (2 * S k)%nat with (S (S (2 * k))) by lia. cbn [repeat app].
    change (92 :: repeat 92 (2 * k) ++ q :: t) with (repeat 92 (S (2 * k)) ++ q :: t).
    rewrite count_back_run by assumption.
    replace (Nat.odd (S (2 * k))) with true
      by (symmetry; rewrite Nat.odd_succ, Nat.even_mul; reflexivity).
    reflexivity.
Qed.

(** ** Skipping a value *)

Definition skips (v : list Z) : Prop := forall fuel pre r d,
  (length (v ++ r) < fuel)%nat -> 0 < d ->
  exists fuel', (length r < fuel')%nat /\
    nested_loop fuel pre (v ++ r) d = nested_loop fuel' (rev v ++ pre) r d.

Lemma skips_nil : skips [].
Proof. intros fuel pre r d F D. now exists fuel. Qed.
Lemma skips_app u v : skips u -> skips v -> skips (u ++ v).
Proof.
  intros U V fuel pre r d F D. rewrite <- app_assoc in *.
  destruct (U fuel pre (v ++ r) d F D) as (f1 & F1 & ->).
  destruct (V f1 (rev u ++ pre) r d F1 D) as (f2 & F2 & ->).
  exists f2. split; [assumption|]. now rewrite rev_app_distr, <- app_assoc.
Qed.

Definition quiet (b : Z) : Prop := byte b /\ b <> 34 /\ b <> 91 /\ b <> 93 /\ b <> 123 /\ b <> 125.
Lemma quiet_tok b : quiet b -> tok nesttoks b = 0.
Proof.
  intros (B & H).
  assert (E : ((tok nesttoks b =? 0) || (b =? 34) || (b =? 91) || (b =? 93) || (b =? 123) || (b =? 125)) = true).
  { revert b B H. intros b B _. revert b B. apply all_bytes. vm_compute. reflexivity. }
  lia.
Qed.
Lemma skips_quiet v : Forall quiet v -> skips v.
Proof.
  induction 1 as [|b v B _ IH]; [apply skips_nil|].
  intros [|fuel] pre r d F D; [lia|]. cbn [app nested_loop] in *. replace (d =? 0) with false by lia.
  rewrite (quiet_tok b B). change (0 =? 0) with true. cbv iota.
  destruct (IH fuel (b :: pre) r d) as (f' & F' & ->); [cbn [length] in F; lia|assumption|].
  exists f'. split; [assumption|]. cbn [rev]. now rewrite <- app_assoc.
Qed.
Lemma skips_string s : chars rfc_char s -> skips (34 :: s ++ [34]).
Proof.
  intros C [|fuel] pre r d F D; [lia|]. cbn [app nested_loop]. replace (d =? 0) with false by lia.
  change (tok nesttoks 34) with 1. change (1 =? 0) with false. change (negb (1 - 1 =? 0)) with false.
  cbv iota. rewrite <- app_assoc. cbn [app].
  destruct (nested_chars s C (34 :: pre) (34 :: r)) as [-> R].
  { now exists 0%nat, 34, pre. }
  rewrite nested_close by assumption. exists fuel. split.
  - cbn [length app] in F. rewrite !app_length in F. cbn [length] in F. lia.
  - cbn [rev]. rewrite rev_app_distr. cbn [rev app]. now rewrite <- app_assoc.
Qed.
Lemma skips_group b e v : (b = 91 \/ b = 123) -> (e = 93 \/ e = 125) -> skips v ->
  skips (b :: v ++ [e]).
Proof.
  intros HB HE V [|fuel] pre r d F D; [lia|]. cbn [app nested_loop]. replace (d =? 0) with false by lia.
  assert (tok nesttoks b = 4) as -> by (destruct HB as [->| ->]; reflexivity).
  change (4 =? 0) with false. change (negb (4 - 1 =? 0)) with true. change (4 - 3) with 1. cbv iota.
  rewrite <- app_assoc. cbn [app]. cbn [length app] in F. rewrite <- app_assoc in F. cbn [app] in F.
  destruct (V fuel (b :: pre) (e :: r) (d + 1)) as ([|f1] & F1 & ->); [lia|lia|lia|].
  cbn [nested_loop]. replace (d + 1 =? 0) with false by lia.
  assert (tok nesttoks e = 2) as -> by (destruct HE as [->| ->]; reflexivity).
  change (2 =? 0) with false. change (negb (2 - 1 =? 0)) with true. change (2 - 3) with (-1). cbv iota.
  replace (d + 1 + -1) with d by lia. exists f1. split; [cbn [length] in F1; lia|].
  cbn [rev]. rewrite rev_app_distr. cbn [rev app]. now rewrite <- app_assoc.
Qed.

Lemma ws_quiet w : ws w -> Forall quiet w.
Proof. apply Forall_impl. unfold white, quiet, byte. intros. lia. Qed.
Lemma digits_quiet s : Forall (fun b => digit b = true) s -> Forall quiet s.
Proof. apply Forall_impl. unfold digit, quiet, byte. intros. lia. Qed.

(** bytes of a number *)
Definition numb (b : Z) : Prop :=
  digit b = true \/ b = 43 \/ b = 45 \/ b = 46 \/ b = 69 \/ b = 101.
Lemma numb_digits s : Forall (fun b => digit b = true) s -> Forall numb s.
Proof. apply Forall_impl. unfold numb. tauto. Qed.
Lemma number_bytes s : number s -> Forall numb s.
Proof.
  assert (I : forall i, integer i -> Forall numb i).
  { intros i [|? [_ H] _]; [repeat constructor; left; reflexivity|now apply numb_digits]. }
  assert (F : forall i, fraction i -> Forall numb i).
  { intros i [|? [_ H]]; [constructor|]. constructor; [unfold numb; lia|now apply numb_digits]. }
  assert (E : forall i, exponent i -> Forall numb i).
  { intros i [|e ? ? [_ H]|e g ? ? ? [_ H]]; [constructor| |];
      repeat (constructor; [unfold numb; lia|]); now apply numb_digits. }
  intros [i f e HI HF HE|i f e HI HF HE]; [|constructor; [unfold numb; lia|]];
    rewrite !Forall_app; auto.
Qed.
Lemma numb_quiet b : numb b -> quiet b.
Proof. unfold numb, quiet, digit, byte. lia. Qed.
Lemma lit_quiet l : In l [lit_true; lit_false; lit_null] -> Forall quiet l.
Proof.
  intros [<-|[<-|[<-|[]]]]; unfold lit_true, lit_false, lit_null, quiet, byte; repeat (constructor; [lia|]); constructor.
Qed.
Lemma skips_ws w : ws w -> skips w.
Proof. intros W. apply skips_quiet, ws_quiet, W. Qed.
Lemma skips_one b : quiet b -> skips [b].
Proof. intros B. apply skips_quiet. now constructor. Qed.

Lemma skips_all :
  (forall n v, value rfc_char false n v -> skips v) /\
  (forall n es, elements rfc_char false n es -> skips es) /\
  (forall n ms, members rfc_char false n ms -> skips ms).
Proof.
  assert (QC : quiet 44) by (unfold quiet, byte; lia).
  assert (QD : quiet 58) by (unfold quiet, byte; lia).
  assert (K : forall k, str_tail rfc_char false k -> skips (34 :: k)).
  { intros k [s C|s B|s h B]; [now apply skips_string|discriminate|discriminate]. }
  apply value_mutind; intros.
  - now apply skips_quiet, lit_quiet.
  - apply skips_quiet. eapply Forall_impl; [|now apply number_bytes]. apply numb_quiet.
  - now apply K.
  - apply skips_group; [now left|now left|]. now apply skips_ws.
  - now apply skips_group; [left|left|].
  - apply skips_group; [now right|now right|]. now apply skips_ws.
  - now apply skips_group; [right|right|].
  - repeat apply skips_app; auto using skips_ws.
  - repeat apply skips_app; auto using skips_ws.
    change (44 :: es) with ([44] ++ es). apply skips_app; auto using skips_one.
  - apply skips_app; [now apply skips_ws|].
    change (34 :: k ++ w2 ++ 58 :: w3 ++ v ++ w4) with ((34 :: k) ++ w2 ++ [58] ++ w3 ++ v ++ w4).
    repeat apply skips_app; auto using skips_ws, skips_one.
  - apply skips_app; [now apply skips_ws|].
    change (34 :: k ++ w2 ++ 58 :: w3 ++ v ++ w4 ++ 44 :: ms)
      with ((34 :: k) ++ w2 ++ [58] ++ w3 ++ v ++ w4 ++ [44] ++ ms).
    repeat apply skips_app; auto using skips_ws, skips_one.
Qed.

(** the whole of an array or object is counted *)
Lemma count_group b e v r : (b = 91 \/ b = 123) -> (e = 93 \/ e = 125) -> skips v ->
  count_nested ((b :: v ++ [e]) ++ r) = length (b :: v ++ [e]).
Proof.
  intros HB HE V. cbn [app count_nested]. rewrite <- app_assoc. cbn [app].
  destruct (V (S (length (v ++ e :: r))) [b] (e :: r) 1) as ([|f1] & F1 & ->); [lia|lia|lia|].
  cbn [nested_loop]. change (1 =? 0) with false. cbv iota.
  assert (tok nesttoks e = 2) as -> by (destruct HE as [->| ->]; reflexivity).
  change (2 =? 0) with false. change (negb (2 - 1 =? 0)) with true. change (1 + (2 - 3)) with 0. cbv iota.
  assert (Z0 : forall f pre s, nested_loop f pre s 0 = Some (length pre)) by (now destruct f).
  rewrite Z0. cbn [length]. rewrite !app_length, rev_length. cbn [length]. lia.
Qed.

(** ** Meeting a value *)

Definition between_values (b : Z) : Prop := white b = true \/ b = 44 \/ b = 58.
Lemma peek_skip w : Forall between_values w -> forall r, peek_any (w ++ r) = peek_any r.
Proof.
  induction 1 as [|b w B _ IH]; intros r; [reflexivity|]. cbn [app peek_any].
  unfold between_values, white in B.
  replace ((b =? 125) || (b =? 93)) with false by lia.
  replace ((b =? 123) || (b =? 91)) with false by lia.
  replace (b =? 34) with false by lia. replace (b =? 110) with false by lia.
  replace (b =? 116) with false by lia. replace (b =? 102) with false by lia.
  replace ((b =? 45) || is_digit b) with false by (unfold is_digit; lia). apply IH.
Qed.
Lemma ws_between w : ws w -> Forall between_values w.
Proof. apply Forall_impl. unfold between_values. tauto. Qed.
Lemma peek_ws w r : ws w -> peek_any (w ++ r) = peek_any r.
Proof. intros W. apply peek_skip. now apply ws_between. Qed.

Lemma numtoks_num b : byte b -> (tok numtoks b =? 0) = negb (digit b || (b =? 43) || (b =? 45) || (b =? 46) || (b =? 69) || (b =? 101)).
Proof. intros H. apply eqb_prop. revert b H. apply all_bytes. vm_compute. reflexivity. Qed.

Lemma number_loop s : Forall numb s -> forall r i info, follow r ->
  fst (take_number_loop (s ++ r) i info) = (i + length s)%nat.
Proof.
  induction 1 as [|b s B _ IH]; intros r i info F; cbn [app length].
  - destruct r as [|b r]; cbn [take_number_loop]; [cbn; lia|].
    assert (byte b) by (unfold follow, white, byte in *; cbn [In] in F; lia).
    rewrite numtoks_num by assumption. unfold follow, white, digit in *. cbn [In] in F.
    replace (negb _) with true by lia. cbn. lia.
  - cbn [take_number_loop].
    assert (byte b) by (unfold numb, digit, byte in *; lia).
    rewrite numtoks_num by assumption. unfold numb in B.
    replace (negb _) with false by lia. rewrite IH by assumption. lia.
Qed.

Lemma denotes_pos info v r : (0 < length v)%nat -> denotes (J info (v ++ r) (length v)) v r.
Proof.
  intros L. unfold denotes, json_raw_length. replace (length v =? 0)%nat with false by lia. now repeat split.
Qed.
Lemma denotes_group info b e v r : (b = 91 \/ b = 123) -> (e = 93 \/ e = 125) -> skips v ->
  denotes (J info ((b :: v ++ [e]) ++ r) 0) (b :: v ++ [e]) r.
Proof.
  intros HB HE V. split; [reflexivity|]. split; [reflexivity|].
  unfold json_raw_length. cbn [Nat.eqb negb]. rewrite <- (count_group b e v r HB HE V). reflexivity.
Qed.

Lemma peek_string s r : chars rfc_char s -> peek_any (34 :: s ++ 34 :: r) = string_token s r.
Proof.
  intros C. exact (parse_string_lit s r C).
Qed.
Lemma denotes_string s r : denotes (string_token s r) (34 :: s ++ [34]) r.
Proof.
  destruct (string_token_facts s r) as (_ & L & _). split; [reflexivity|]. split.
  - cbn [json_raw string_token app]. now rewrite <- app_assoc.
  - rewrite L. cbn [length]. rewrite app_length. cbn. lia.
Qed.

Lemma peek_value n v r : jvalue n v -> follow r -> denotes (peek_any (v ++ r)) v r.
Proof.
  intros V F.
  assert (TN : forall b t, (b =? 45) || digit b = true -> number (b :: t) ->
            denotes (take_number ((b :: t) ++ r)) (b :: t) r).
  { intros b t B N. unfold take_number. cbn [app tl].
    apply number_bytes in N. inversion_clear N as [|? ? _ NT].
    set (info := if b =? 45 then ISIGN else 0).
    pose proof (number_loop t NT r 1 info F) as L.
    destruct (take_number_loop (t ++ r) 1 info) as [i info']. cbn [fst] in L. subst i.
    change (b :: t ++ r) with ((b :: t) ++ r). apply (denotes_pos info' (b :: t) r). cbn. lia. }
  destruct skips_all as (_ & SE & SM). unfold jvalue in V.
  assert (SK : forall v', value rfc_char false n v' -> skips v') by (apply skips_all).
  inversion V as [m l I E1 E2|m s N E1 E2|m s T E1 E2|m w W E1 E2|m es E E1 E2|m w W E1 E2|m ms M E1 E2]; subst.
  - assert (TL : forall l k, length l = k -> (0 < k)%nat -> denotes (take_literal (l ++ r) k) l r).
    { intros l k <- L. unfold take_literal. rewrite app_length.
      replace (length l + length r <? length l)%nat with false by lia. now apply denotes_pos. }
    destruct I as [<-|[<-|[<-|[]]]].
    + apply (TL lit_true 4%nat); cbn; lia.
    + apply (TL lit_false 5%nat); cbn; lia.
    + apply (TL lit_null 4%nat); cbn; lia.
  - destruct (number_head v N) as (b & t & -> & B). specialize (TN b t B N).
    cbn [app peek_any]. unfold digit in B.
    replace ((b =? 125) || (b =? 93)) with false by lia.
    replace ((b =? 123) || (b =? 91)) with false by lia.
    replace (b =? 34) with false by lia. replace (b =? 110) with false by lia.
    replace (b =? 116) with false by lia. replace (b =? 102) with false by lia.
    replace ((b =? 45) || is_digit b) with true by (unfold is_digit; lia). exact TN.
  - inversion T as [s' C E|s' B|s' h B]; [subst|discriminate|discriminate].
    change ((34 :: s' ++ [34]) ++ r) with (34 :: (s' ++ [34]) ++ r). rewrite <- app_assoc. cbn [app].
    rewrite peek_string by assumption. apply denotes_string.
  - apply (denotes_group 0 91 93 w r); auto using skips_ws.
  - apply (denotes_group 0 91 93 es r); eauto.
  - apply (denotes_group 0 123 125 w r); auto using skips_ws.
  - apply (denotes_group 0 123 125 ms r); eauto.
Qed.

Lemma next_denotes j v r : denotes j v r -> v <> [] -> json_next j = peek_any r.
Proof.
  intros (E & R & L) N. destruct j as [|info raw len]; [discriminate|]. cbn [json_raw] in R. subst raw.
  unfold json_next, json_raw_length in *. destruct v as [|b v]; [contradiction|].
  cbn [app] in *. destruct (Nat.eqb_spec len 0) as [->|NZ]; cbn [negb] in L; rewrite L.
  all: change (b :: v ++ r) with ((b :: v) ++ r); rewrite skipn_app, Nat.sub_diag; cbn [skipn].
  all: now rewrite skipn_all.
Qed.
Lemma value_nonempty n v : jvalue n v -> v <> [].
Proof.
  intros V. inversion V as [m l I E1 E2|m s N E1 E2|m s T E1 E2|m w W E1 E2|m es E E1 E2|m w W E1 E2|m ms M E1 E2];
    subst; try discriminate.
  - now destruct I as [<-|[<-|[<-|[]]]].
  - now destruct (number_head v N) as (b & t & -> & _).
Qed.

Lemma follow_ws w r : ws w -> follow r -> follow (w ++ r).
Proof. intros [|b w' B W] F; [assumption|]. now left. Qed.
Lemma follow_in b r : In b [44; 93; 125; 58] -> follow (b :: r).
Proof. now right. Qed.

(** ** Walking over the parts *)

(** [walk l j]: the tokens j, json_next j, ... stand for the texts of l, and then
    there are no more *)
Fixpoint walk (l : list (list Z * list Z)) (rest : list Z) (j : json) : Prop :=
  match l with
  | [] => j = JNone
  | (v, r) :: l => v <> [] /\ denotes j v (r ++ rest) /\ walk l rest (json_next j)
  end.

Lemma walk_behind e l rest : forall j, walk l (e ++ rest) j -> walk (map (behind e) l) rest j.
Proof.
  induction l as [|[v r] l IH]; intros j; [auto|]. cbn [map behind fst snd walk].
  rewrite <- app_assoc. intros (N & D & W). auto.
Qed.

Lemma walk_elements n es l : elements_are n es l -> forall rest b,
  b = 93 -> walk l (b :: rest) (peek_any (es ++ b :: rest)).
Proof.
  induction 1 as [w1 v w2 W1 V W2|w1 v w2 es l W1 V W2 E IH]; intros rest b ->; cbn [walk];
    rewrite <- !app_assoc; rewrite (peek_ws w1) by assumption; (split; [now apply (value_nonempty n)|]).
  - assert (D : denotes (peek_any (v ++ w2 ++ 93 :: rest)) v (w2 ++ 93 :: rest)).
    { apply (peek_value n); [assumption|]. apply follow_ws; [assumption|]. right. cbn. tauto. }
    split; [assumption|]. rewrite (next_denotes _ _ _ D (value_nonempty n v V)), peek_ws by assumption.
    reflexivity.
  - assert (D : denotes (peek_any (v ++ w2 ++ (44 :: es) ++ 93 :: rest)) v (w2 ++ (44 :: es) ++ 93 :: rest)).
    { apply (peek_value n); [assumption|]. apply follow_ws; [assumption|]. right. cbn. tauto. }
    split; [assumption|]. rewrite (next_denotes _ _ _ D (value_nonempty n v V)), peek_ws by assumption.
    change ((44 :: es) ++ 93 :: rest) with ([44] ++ es ++ 93 :: rest).
    rewrite peek_skip by (repeat constructor; unfold between_values; tauto).
    now apply IH.
Qed.

Lemma behind_app a b p : behind b (behind a p) = behind (a ++ b) p.
Proof. unfold behind. cbn [fst snd]. now rewrite app_assoc. Qed.

Lemma walk_array n a l : array_is n a l -> forall j rest, denotes j a rest -> walk l rest (json_first j).
Proof.
  intros A j rest (E & R & _). destruct j as [|info raw len]; [discriminate|]. cbn [json_raw] in R. subst raw.
  unfold json_first. destruct A as [w W|es l EL]; cbn [app].
  - change (negb (91 =? 123) && negb (91 =? 91)) with false. cbv iota.
    rewrite <- app_assoc, peek_ws by assumption. reflexivity.
  - change (negb (91 =? 123) && negb (91 =? 91)) with false. cbv iota. rewrite <- app_assoc.
    apply walk_behind. cbn [app]. now apply (walk_elements n).
Qed.

Lemma parts_behind e l : parts_of (map (mbehind e) l) = map (behind e) (parts_of l).
Proof. induction l as [|[[k r1] [v r2]] l IH]; [reflexivity|]. cbn. f_equal. now f_equal. Qed.

(** the keys are string tokens *)
Fixpoint walk_members (l : list member) (rest : list Z) (j : json) : Prop :=
  match l with
  | [] => j = JNone
  | ((k, r1), (v, r2)) :: l =>
      chars rfc_char k /\ v <> [] /\ j = string_token k (r1 ++ rest) /\
      denotes (json_next j) v (r2 ++ rest) /\ walk_members l rest (json_next (json_next j))
  end.
Lemma walk_mbehind e l rest : forall j, walk_members l (e ++ rest) j -> walk_members (map (mbehind e) l) rest j.
Proof.
  induction l as [|[[k r1] [v r2]] l IH]; intros j; [auto|].
  cbn [map mbehind behind fst snd walk_members]. rewrite <- !app_assoc. intros (C & N & D & D2 & W). auto 10.
Qed.

Lemma walk_object_members n ms l : members_are n ms l -> forall rest,
  walk_members l (125 :: rest) (peek_any (ms ++ 125 :: rest)).
Proof.
  induction 1 as [w1 k w2 w3 v w4 W1 K W2 W3 V W4|w1 k w2 w3 v w4 ms l W1 K W2 W3 V W4 M IH];
    intros rest; cbn [walk_members]; rewrite <- !app_assoc; rewrite (peek_ws w1) by assumption;
    (split; [assumption|split; [now apply (value_nonempty n)|]]).
  - set (tl := v ++ w4 ++ 125 :: rest).
    assert (E1 : (34 :: k ++ 34 :: w2 ++ 58 :: w3 ++ v ++ w4) ++ 125 :: rest
                 = 34 :: k ++ 34 :: w2 ++ [58] ++ w3 ++ tl).
    { unfold tl. cbn [app]. now rewrite <- !app_assoc; cbn [app]; rewrite <- !app_assoc; cbn [app]; rewrite <- !app_assoc. }
    assert (E2 : w2 ++ (58 :: w3 ++ v ++ w4) ++ 125 :: rest = w2 ++ [58] ++ w3 ++ tl).
    { unfold tl. cbn [app]. now rewrite <- !app_assoc. }
    rewrite E1, E2, peek_string by assumption.
    rewrite (next_denotes _ _ _ (denotes_string k _)) by discriminate.
    rewrite peek_ws by assumption.
    rewrite peek_skip by (repeat constructor; unfold between_values; tauto).
    rewrite peek_ws by assumption.
    assert (D : denotes (peek_any tl) v (w4 ++ 125 :: rest)).
    { apply (peek_value n); [assumption|]. apply follow_ws; [assumption|]. right. cbn. tauto. }
    split; [reflexivity|]. split; [assumption|].
    rewrite (next_denotes _ _ _ D (value_nonempty n v V)), peek_ws by assumption. reflexivity.
  - set (tl := v ++ w4 ++ [44] ++ ms ++ 125 :: rest).
    assert (E1 : (34 :: k ++ 34 :: w2 ++ 58 :: w3 ++ v ++ w4 ++ 44 :: ms) ++ 125 :: rest
                 = 34 :: k ++ 34 :: w2 ++ [58] ++ w3 ++ tl).
    { unfold tl. cbn [app]. now rewrite <- !app_assoc; cbn [app]; rewrite <- !app_assoc; cbn [app]; rewrite <- !app_assoc. }
    assert (E2 : w2 ++ (58 :: w3 ++ v ++ w4 ++ 44 :: ms) ++ 125 :: rest = w2 ++ [58] ++ w3 ++ tl).
    { unfold tl. cbn [app]. now rewrite <- !app_assoc. }
    rewrite E1, E2, peek_string by assumption.
    rewrite (next_denotes _ _ _ (denotes_string k _)) by discriminate.
    rewrite peek_ws by assumption.
    rewrite peek_skip by (repeat constructor; unfold between_values; tauto).
    rewrite peek_ws by assumption.
    assert (D : denotes (peek_any tl) v (w4 ++ (44 :: ms) ++ 125 :: rest)).
    { apply (peek_value n); [assumption|]. apply follow_ws; [assumption|]. right. cbn. tauto. }
    split; [reflexivity|]. split; [assumption|].
    rewrite (next_denotes _ _ _ D (value_nonempty n v V)), peek_ws by assumption.
    change ((44 :: ms) ++ 125 :: rest) with ([44] ++ ms ++ 125 :: rest).
    rewrite peek_skip by (repeat constructor; unfold between_values; tauto).
    apply IH.
Qed.

Lemma walk_object n a l : object_is n a l -> forall j rest,
  denotes j a rest -> walk_members l rest (json_first j).
Proof.
  intros A j rest (E & R & _). destruct j as [|info raw len]; [discriminate|]. cbn [json_raw] in R. subst raw.
  unfold json_first. destruct A as [w W|ms l M]; cbn [app].
  - change (negb (123 =? 123) && negb (123 =? 91)) with false. cbv iota.
    rewrite <- app_assoc, peek_ws by assumption. reflexivity.
  - change (negb (123 =? 123) && negb (123 =? 91)) with false. cbv iota. rewrite <- app_assoc.
    apply walk_mbehind. cbn [app]. now apply (walk_object_members n).
Qed.

Lemma walk_parts l rest : forall j, walk_members l rest j -> walk (parts_of l) rest j.
Proof.
  induction l as [|[[k r1] [v r2]] l IH]; intros j; [auto|].
  cbn [parts_of flat_map app fst snd walk walk_members]. intros (C & N & -> & D & W).
  split; [discriminate|]. split; [apply denotes_string|]. split; [assumption|]. split; [assumption|].
  now apply IH.
Qed.
