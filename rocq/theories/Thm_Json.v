(** * Theorems about the JSON check (C23, part of C26) *)

From Coq Require Import ZArith Bool String List Lia ZifyBool Arith Ascii.
From Verif Require Import Json SpecJson JsonFacts JsonRfc.
Import ListNotations.
Local Open Scope Z_scope.

(** bytes of a string literal, for examples *)
Definition bytes_of (s : string) : list Z :=
  map (fun c => Z.of_nat (nat_of_ascii c)) (list_ascii_of_string s).
Lemma bytes_of_ok s : Forall byte (bytes_of s).
Proof.
  unfold bytes_of. apply Forall_map, Forall_forall. intros c _. unfold byte.
  pose proof (nat_ascii_bounded c). lia.
Qed.

(** ** C23: the texts the check accepts *)

(** Full statement: for every byte string, the check accepts it exactly when it is
    a text of RFC 8259 in UTF-8 with nesting at most 1024.  That is false in both
    directions, see C23_accepts_more_refuted and C23_accepts_less_refuted. *)

(** no read outside the text *)
Theorem C23_in_bounds : forall s, Forall byte s -> json_validn s <> None.
Proof. intros s H E. pose proof (json_valid_sound s H) as J. now rewrite E in J. Qed.
Print Assumptions C23_in_bounds.

(** Missing from the full statement: the accepted texts are those of a laxer
    grammar, where a string may end in an unfinished escape and characters may be
    overlong, but not U+10FFFF. *)
Theorem C23_accepted_texts_partial : forall s, Forall byte s ->
  (json_validn s = Some true <-> lax_json 1024 s).
Proof.
  intros s H. split; [|apply json_valid_complete].
  intros E. pose proof (json_valid_sound s H) as J. now rewrite E in J.
Qed.
Print Assumptions C23_accepted_texts_partial.

(** Where the two grammars agree the full statement holds. *)
Theorem C23_rfc_partial : forall s, Forall byte s -> no_10FFFF s ->
  (json_validn s = Some true /\ escapes_ok s /\ utf8_text s <-> rfc_json 1024 s).
Proof.
  intros s H N. split.
  - intros (E & X & U). apply C23_accepted_texts_partial in E; [|assumption]. now apply lax_rfc.
  - intros R. split; [|split; [now apply rfc_escapes in R | now apply rfc_utf8 in R]].
    apply json_valid_complete. now apply rfc_lax_json.
Qed.
Print Assumptions C23_rfc_partial.

Ltac compute_text t := let l := eval vm_compute in t in change t with l.
Definition ex_text : list Z := bytes_of "{ ""a\n"": [-1.5e3, true,null] }"%string.

Lemma no_10FFFF_ascii s : Forall (fun b => b < 128) s -> no_10FFFF s.
Proof. intros H a b ->. rewrite !Forall_app in H. destruct H as (_ & H & _). inversion_clear H. lia. Qed.

Example C23_example :
  Forall byte ex_text /\ no_10FFFF ex_text /\ json_validn ex_text = Some true /\
  escapes_ok ex_text /\ utf8_text ex_text /\ rfc_json 1024 ex_text.
Proof.
  assert (B : Forall byte ex_text) by apply bytes_of_ok.
  assert (N : no_10FFFF ex_text).
  { apply no_10FFFF_ascii. compute_text ex_text. repeat (constructor; [lia|]). constructor. }
  assert (E : json_validn ex_text = Some true) by (vm_compute; reflexivity).
  assert (X : escapes_ok ex_text).
  { compute_text ex_text. repeat (apply esc_other; [lia|]). apply esc_short; [cbn; tauto|].
    repeat (apply esc_other; [lia|]). constructor. }
  assert (U : utf8_text ex_text).
  { compute_text ex_text. repeat (apply utf8_ascii; [lia|]). constructor. }
  repeat (split; [assumption|]). apply C23_rfc_partial; auto.
Qed.

(** A bracket, a quote, a backslash and a closing bracket are accepted and are no
    JSON text at any depth of nesting: after a backslash that begins no escape the
    string counts as finished.  So is a string with the overlong form e0 82 80. *)
Theorem C23_accepts_more_refuted :
  (exists s, Forall byte s /\ utf8_text s /\ json_validn s = Some true /\ forall n, ~ rfc_json n s) /\
  (exists s, Forall byte s /\ escapes_ok s /\ json_validn s = Some true /\ forall n, ~ rfc_json n s).
Proof.
  split.
  - exists (bytes_of "[""\]"%string). split; [apply bytes_of_ok|].
    compute_text (bytes_of "[""\]"%string).
    split; [repeat (apply utf8_ascii; [lia|]); constructor|].
    split; [vm_compute; reflexivity|].
    intros n R. apply rfc_escapes in R. inversion R as [|b s _ R1| |]; subst; clear R.
    inversion R1 as [|b s _ R2| |]; subst; clear R1.
    inversion R2 as [|b s B _|e s I _|]; subst; [contradiction|]. cbn in I. lia.
  - exists [34; 224; 130; 128; 34]. split; [repeat (constructor; [unfold byte; lia|]); constructor|].
    split; [repeat (apply esc_other; [lia|]); constructor|].
    split; [vm_compute; reflexivity|].
    intros n R. apply rfc_utf8 in R. inversion R as [|b s _ R1|m s M _ E].
    + inversion R1 as [|b' s' B' _|m s' M _ E]; subst; [lia|].
      destruct m as [|x [|y [|z [|t [|]]]]]; try discriminate; cbn [app] in E.
      * injection E as -> -> _. discriminate.
      * injection E as -> -> -> _. discriminate.
      * injection E as -> -> -> -> _. discriminate.
    + destruct m as [|x m]; [discriminate|]. cbn [app] in E. injection E as -> _.
      destruct m as [|? [|? [|? [|]]]]; try discriminate M; unfold rfc_char, between in M; lia.
Qed.
Print Assumptions C23_accepts_more_refuted.

(** The string of the one character U+10FFFF is a JSON text and is not accepted. *)
Theorem C23_accepts_less_refuted :
  exists s, Forall byte s /\ rfc_json 1 s /\ json_validn s = Some false.
Proof.
  exists [34; 244; 143; 191; 191; 34].
  split; [repeat (constructor; [unfold byte; lia|]); constructor|].
  split; [|vm_compute; reflexivity].
  exists [], [34; 244; 143; 191; 191; 34], []. split; [reflexivity|]. split; [constructor|].
  split; [|constructor]. apply v_str. apply (tail_quote _ _ [244; 143; 191; 191]).
  apply (chars_char _ [244; 143; 191; 191] []); [reflexivity|constructor].
Qed.
Print Assumptions C23_accepts_less_refuted.

(** ** C26 for JSON: a JSON text nested deeper than the limit is not accepted *)

(** Missing from the full statement of C26: the other formats. *)
Theorem C26_json_too_deep_partial : forall n s, Forall byte s ->
  rfc_json n s -> ~ rfc_json 1024 s -> json_validn s = Some false.
Proof.
  intros n s H R D. destruct (json_validn s) as [[|]|] eqn:E; [exfalso|reflexivity|].
  - apply D. apply C23_accepted_texts_partial in E; [|assumption].
    apply lax_rfc; [assumption|now apply rfc_escapes in R|now apply rfc_utf8 in R].
  - now apply C23_in_bounds in E.
Qed.
Print Assumptions C26_json_too_deep_partial.

Fixpoint nested (n : nat) : list Z := match n with O => [] | S n => 91 :: nested n ++ [93] end.
Lemma nested_rfc n : rfc_json (S n) (nested (S n)).
Proof.
  assert (V : value rfc_char false (S n) (nested (S n))).
  { induction n as [|n IH]; [apply (v_arr0 _ _ 0 []); constructor|].
    change (nested (S (S n))) with (91 :: nested (S n) ++ [93]). apply v_arr.
    rewrite <- (app_nil_r (nested (S n))). apply (e_one _ _ _ [] _ []); [constructor|assumption|constructor]. }
  exists [], (nested (S n)), []. rewrite app_nil_r. split; [reflexivity|]. split; [constructor|].
  split; [assumption|constructor].
Qed.
Lemma nested_ascii n : Forall (fun b => 0 <= b < 128) (nested n).
Proof.
  induction n as [|n IH]; cbn [nested]; [constructor|].
  constructor; [lia|]. apply Forall_app. split; [assumption|repeat constructor; lia].
Qed.

Example C26_json_example :
  rfc_json 1025 (nested 1025) /\ ~ rfc_json 1024 (nested 1025) /\
  json_validn (nested 1025) = Some false /\ json_validn (nested 1024) = Some true.
Proof.
  assert (R : json_validn (nested 1025) = Some false) by (vm_compute; reflexivity).
  split; [apply nested_rfc|]. split; [|split; [assumption|vm_compute; reflexivity]].
  intros H. apply C23_rfc_partial in H.
  - destruct H as (E & _). congruence.
  - eapply Forall_impl; [|apply nested_ascii]. unfold byte. cbn. lia.
  - apply no_10FFFF_ascii. eapply Forall_impl; [|apply nested_ascii]. cbn. lia.
Qed.
