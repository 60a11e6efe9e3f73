(** * JSON tokens stay inside the text *)

From Coq Require Import ZArith Bool List Lia.
From Verif Require Import Bytes Json JsonTok SpecJson JsonStrFacts.
Import ListNotations.
Local Open Scope Z_scope.

Lemma nested_string_lengths s : forall pre, exists m, s = m ++ snd (nested_string pre s) /\
  (length (fst (nested_string pre s)) = length pre + length m)%nat.
Proof.
  induction s as [|b s IH]; intros pre; cbn [nested_string].
  - exists []. cbn. split; [reflexivity|lia].
  - destruct (IH (b :: pre)) as (m & E & L).
    assert (A : exists m0, b :: s = m0 ++ snd (nested_string (b :: pre) s) /\
      (length (fst (nested_string (b :: pre) s)) = length pre + length m0)%nat).
    { exists (b :: m). cbn [app length] in *. rewrite <- E. split; [reflexivity|lia]. }
    assert (B : exists m0, b :: s = m0 ++ s /\ (length (b :: pre) = length pre + length m0)%nat).
    { exists [b]. cbn. split; [reflexivity|lia]. }
    destruct (b =? 34); [|exact A].
    destruct pre as [|p pre']; [exact B|].
    destruct (Z.eq_dec p 92) as [->|N].
    + destruct (count_back pre' true); [exact A|exact B].
    + replace (match p with 92 => if count_back pre' true then nested_string (b :: p :: pre') s else (b :: p :: pre', s)
                 | _ => (b :: p :: pre', s) end) with (b :: p :: pre', s); [exact B|].
      destruct p as [|q|q]; try reflexivity. repeat (destruct q as [q|q|]; try reflexivity). congruence.
Qed.

Lemma nested_loop_total fuel : forall pre s d, (length s < fuel)%nat ->
  exists i, nested_loop fuel pre s d = Some i /\ (length pre <= i <= length pre + length s)%nat.
Proof.
  induction fuel as [|fuel IH]; intros pre s d H; [lia|]. cbn [nested_loop].
  destruct (d =? 0); [exists (length pre); split; [reflexivity|lia]|].
  destruct s as [|b s]; [exists (length pre); split; [reflexivity|lia]|]. cbn [length] in *.
  destruct (tok nesttoks b =? 0).
  { destruct (IH (b :: pre) s d ltac:(lia)) as (i & -> & L). exists i. cbn [length] in L. split; [reflexivity|lia]. }
  destruct (negb (tok nesttoks b - 1 =? 0)).
  { destruct (IH (b :: pre) s (d + (tok nesttoks b - 3)) ltac:(lia)) as (i & -> & L). exists i.
    cbn [length] in L. split; [reflexivity|lia]. }
  destruct (nested_string_lengths s (b :: pre)) as (m & E & L).
  destruct (nested_string (b :: pre) s) as [pre' s']. cbn [fst snd length] in *.
  assert (LS : (length s = length m + length s')%nat) by (rewrite E, app_length; lia).
  destruct (IH pre' s' d ltac:(lia)) as (i & -> & L2). exists i. split; [reflexivity|lia].
Qed.
Lemma count_nested_range raw : raw <> [] -> (1 <= count_nested raw <= length raw)%nat.
Proof.
  destruct raw as [|b r]; [congruence|]. intros _. unfold count_nested.
  destruct (nested_loop_total (S (length r)) [b] r 1 ltac:(lia)) as (i & -> & L). cbn [length] in *. lia.
Qed.

Lemma count_string_loop_range s : forall i info e,
  (i <= fst (count_string_loop s i info e) <= i + length s)%nat.
Proof.
  induction s as [|b s IH]; intros i info e; cbn [count_string_loop length]; [cbn; lia|].
  pose proof (IH (S i) info false). pose proof (IH (S i) info e).
  pose proof (IH (S i) (Z.lor info IESC) (negb e)).
  destruct (tok strtoksa b =? 0); [lia|].
  destruct (b =? 34); [destruct e; cbn [negb fst]; lia|]. destruct (b =? 92); lia.
Qed.
Lemma take_number_loop_range s : forall i info, (i <= fst (take_number_loop s i info) <= i + length s)%nat.
Proof.
  induction s as [|b s IH]; intros i info; cbn [take_number_loop length]; [cbn; lia|].
  destruct (tok numtoks b =? 0); [cbn [fst]; lia|].
  pose proof (IH (S i) (Z.lor info (tok numtoks b - 1))). lia.
Qed.

(** a token inside its text: its bytes, at least one, are there *)
Definition in_text (j : json) : Prop :=
  match j with
  | JNone => True
  | J _ raw len => raw <> [] /\ (len <= length raw)%nat
  end.
Lemma inside_length j : in_text j -> j = JNone \/ (1 <= json_raw_length j <= length (json_raw j))%nat.
Proof.
  destruct j as [|info raw len]; intros H; [now left|]. right. cbn in *. destruct H as [H1 H2].
  destruct (Nat.eqb_spec len 0); cbn [negb]; [|lia].
  pose proof (count_nested_range raw H1). destruct raw; [congruence|exact H].
Qed.

Lemma peek_in_text raw : in_text (peek_any raw) /\ exists pre, raw = pre ++ json_raw (peek_any raw) \/ peek_any raw = JNone.
Proof.
  induction raw as [|b r [IH1 [pre IH2]]]; [split; [exact I|now exists []; right]|].
  assert (S1 : in_text (take_string (b :: r)) /\ exists pre, b :: r = pre ++ json_raw (take_string (b :: r)) \/ take_string (b :: r) = JNone).
  { unfold take_string, count_string. pose proof (count_string_loop_range r 1 0 false) as H. cbn [tl].
    destruct (count_string_loop r 1 0 false) as [i info]. cbn [fst] in H. split; [|exists []; now left].
    split; [discriminate|cbn [length]; lia]. }
  assert (S2 : forall n, in_text (take_literal (b :: r) n) /\ exists pre, b :: r = pre ++ json_raw (take_literal (b :: r) n) \/ take_literal (b :: r) n = JNone).
  { intros n. unfold take_literal. split; [|exists []; now left]. split; [discriminate|].
    destruct (Nat.ltb_spec (length (b :: r)) n); lia. }
  assert (S3 : in_text (take_number (b :: r)) /\ exists pre, b :: r = pre ++ json_raw (take_number (b :: r)) \/ take_number (b :: r) = JNone).
  { unfold take_number. cbn [tl]. set (info := if b =? 45 then _ else _).
    pose proof (take_number_loop_range r 1 info) as H.
    destruct (take_number_loop r 1 info) as [i info']. cbn [fst] in H. split; [|exists []; now left].
    split; [discriminate|cbn [length]; lia]. }
  cbn [peek_any].
  destruct ((b =? 125) || (b =? 93)); [split; [exact I|exists []; now right]|].
  destruct ((b =? 123) || (b =? 91)); [split; [split; [discriminate|lia]|exists []; now left]|].
  destruct (b =? 34); [exact S1|]. destruct (b =? 110); [apply S2|]. destruct (b =? 116); [apply S2|].
  destruct (b =? 102); [apply S2|]. destruct ((b =? 45) || is_digit b); [exact S3|].
  split; [exact IH1|]. destruct IH2 as [E|E]; [exists (b :: pre)|exists []]; [left|now right].
  cbn [app]. now rewrite <- E.
Qed.
Lemma suffix_le (pre a b : list Z) : a = pre ++ b -> (length b <= length a)%nat.
Proof. intros ->. rewrite app_length. lia. Qed.
Lemma peek_shorter raw : (length (json_raw (peek_any raw)) <= length raw)%nat.
Proof.
  destruct (peek_in_text raw) as [_ [pre [E|E]]]; [exact (suffix_le _ _ _ E)|].
  rewrite E. cbn. lia.
Qed.

Lemma first_inside j : in_text (json_first j).
Proof.
  destruct j as [|i [|b r] l]; [exact I..|]. cbn [json_first].
  destruct (negb (b =? 123) && negb (b =? 91)); [exact I|apply peek_in_text].
Qed.
Lemma next_inside j : in_text (json_next j).
Proof. destruct j as [|i [|b r] l]; [exact I..|]. apply peek_in_text. Qed.
Lemma parsen_inside s : in_text (json_parsen s).
Proof.
  destruct s as [|b r]; [exact I|]. cbn [json_parsen].
  destruct ((b =? 91) || (b =? 123)); [split; [discriminate|lia]|apply peek_in_text].
Qed.
Lemma ensure_inside j : in_text j -> in_text (json_ensure j).
Proof.
  intros H. destruct (inside_length j H) as [->|L]; [exact I|].
  destruct j as [|i r l]; [exact I|]. cbn [json_ensure]. split; [exact (proj1 H)|cbn [json_raw] in L; lia].
Qed.

(** strictly shorter along the walk *)
Lemma first_shorter j : json_exists (json_first j) = true ->
  (length (json_raw (json_first j)) < length (json_raw j))%nat.
Proof.
  destruct j as [|i [|b r] l]; [discriminate..|]. cbn [json_first json_raw].
  destruct (negb (b =? 123) && negb (b =? 91)); [discriminate|]. intros _.
  pose proof (peek_shorter r). cbn [length]. lia.
Qed.
Lemma next_shorter j : json_exists (json_next j) = true ->
  (length (json_raw (json_next j)) < length (json_raw j))%nat.
Proof.
  destruct j as [|i [|b r] l]; [discriminate..|]. intros _. cbn [json_next json_raw].
  set (n := if (l =? 0)%nat then _ else _).
  assert (1 <= n)%nat.
  { pose proof (count_nested_range (b :: r) ltac:(discriminate)). unfold n. destruct (Nat.eqb_spec l 0); lia. }
  pose proof (peek_shorter (skipn n (b :: r))). rewrite skipn_length in H0. cbn [length] in *. lia.
Qed.
Lemma next_le j : (length (json_raw (json_next j)) <= length (json_raw j))%nat.
Proof.
  pose proof (next_shorter j). destruct (json_next j) eqn:E; [cbn; lia|]. specialize (H eq_refl). lia.
Qed.
Lemma first_le j : (length (json_raw (json_first j)) <= length (json_raw j))%nat.
Proof.
  pose proof (first_shorter j). destruct (json_first j) eqn:E; [cbn; lia|]. specialize (H eq_refl). lia.
Qed.
Lemma parsen_le s : (length (json_raw (json_parsen s)) <= length s)%nat.
Proof.
  destruct s as [|b r]; [cbn; lia|]. cbn [json_parsen].
  destruct ((b =? 91) || (b =? 123)); [cbn; lia|apply peek_shorter].
Qed.
Lemma ensure_raw j : json_raw (json_ensure j) = json_raw j.
Proof. now destruct j. Qed.
Lemma exists_raw j : in_text j -> json_exists j = true -> (0 < length (json_raw j))%nat.
Proof. destruct j as [|i [|b r] l]; cbn; intros; [discriminate|now destruct H|lia]. Qed.

(** the loops over children end *)
Lemma children_total fuel : forall j, in_text j -> (length (json_raw j) < fuel)%nat ->
  exists l, children fuel j = Some l /\
    Forall (fun v => in_text v /\ json_exists v = true /\ (length (json_raw v) <= length (json_raw j))%nat) l.
Proof.
  induction fuel as [|fuel IH]; intros j I0 H; [lia|]. cbn [children].
  destruct (json_exists j) eqn:E; [|now exists []].
  pose proof (next_le j) as N1. pose proof (next_shorter j) as N2. pose proof (exists_raw j I0 E) as N3.
  assert (L : (length (json_raw (json_next j)) < fuel)%nat).
  { destruct (json_exists (json_next j)) eqn:E2; [specialize (N2 eq_refl); lia|].
    destruct (json_next j); [cbn; lia|discriminate]. }
  destruct (IH (json_next j) (next_inside j) L) as (l & -> & F). exists (j :: l). split; [reflexivity|].
  constructor; [repeat split; auto|]. eapply Forall_impl; [|exact F]. cbv beta. intros v (V1 & V2 & V3).
  repeat split; auto. lia.
Qed.
Lemma object_get_total fuel key : forall j, in_text j -> (length (json_raw j) < fuel)%nat ->
  exists v, object_get_loop fuel j key = Some v /\ in_text v /\ (length (json_raw v) <= length (json_raw j))%nat.
Proof.
  induction fuel as [|fuel IH]; intros j I0 H; [lia|]. cbn [object_get_loop].
  destruct (json_exists j) eqn:E; [|exists JNone; cbn; repeat split; lia].
  pose proof (next_le j) as N1. pose proof (next_le (json_next j)) as N2.
  destruct (json_string_compare_eq j key); [exists (json_next j); auto using next_inside|].
  assert (L : (length (json_raw (json_next (json_next j))) < fuel)%nat).
  { pose proof (exists_raw j I0 E). pose proof (next_shorter (json_next j)) as N3. pose proof (next_shorter j) as N4.
    destruct (json_next j) eqn:E3; [cbn; lia|]. specialize (N4 eq_refl). rewrite <- E3 in *. lia. }
  destruct (IH _ (next_inside _) L) as (v & -> & V1 & V2). exists v. repeat split; auto. lia.
Qed.

(** unescaping ends, and copying a string stays inside the buffer *)
Lemma unescape_total fuel : forall s, (length s < fuel)%nat -> exists t, unescape fuel s = Some t.
Proof.
  induction fuel as [|fuel IH]; intros s H; [lia|]. cbn [unescape].
  assert (O : forall bs r, (length r < fuel)%nat -> exists t, option_map (app bs) (unescape fuel r) = Some t).
  { intros bs r L. destruct (IH r L) as [t ->]. now eexists. }
  destruct s as [|b r]; [now eexists|]. cbn [length] in H.
  destruct (negb (b =? 92)); [apply O; lia|]. destruct r as [|c r]; [now eexists|]. cbn [length] in H.
  repeat (match goal with |- context [if c =? ?k then _ else _] => destruct (c =? k); [try (apply O; lia)|] end).
  - destruct (length r <? 4)%nat; [now eexists|].
    destruct (is_surrogate _ && _ && _ && _); apply O; rewrite !skipn_length; lia.
  - apply IH. lia.
Qed.
Lemma string_copy_total j dst : exists n, exists body, json_string_copy j dst = Some (n, text_into body dst).
Proof.
  unfold json_string_copy. cbv zeta. set (body := if json_type j =? JSON_STRING then _ else _).
  destruct (negb ((json_type j =? JSON_STRING) && json_string_is_escaped j)).
  - exists (length body), body. apply plain_text.
  - destruct (unescape_total (S (length body)) body ltac:(lia)) as [t ->].
    exists (length t), t. apply copied_text.
Qed.
