(** * Theorems about JSON strings (C24, C44) *)

From Coq Require Import ZArith Bool String List Lia ZifyBool Arith Ascii.
From Verif Require Import Json SpecJson JsonFacts JsonRfc JsonTok JsonStrFacts Thm_Json.
Import ListNotations.
Local Open Scope Z_scope.

(** ** C44: pairs of surrogate escapes *)

(** Full statement: for every supplementary character, the literal with its pair of
    escapes is decoded as the UTF-8 encoding of the character.  False: see
    C44_refuted, and C44_exact_partial for exactly which pairs are decoded right. *)

Lemma same_prefix (A : Type) (t u x y : list A) : length t = length u -> t ++ x = u ++ y -> t = u.
Proof.
  revert u. induction t as [|a t IH]; intros [|b u] L E; try discriminate; [reflexivity|].
  injection E as -> E. f_equal. apply IH; [now injection L|assumption].
Qed.

(** Missing from the full statement: characters of the even planes, those of which
    the first unit is D800 and those of which the second is DC00. *)
Theorem C44_exact_partial : forall cp a b c d a' b' c' d' dst,
  supplementary cp ->
  Forall (fun x => hex x = true) [a; b; c; d; a'; b'; c'; d'] ->
  unit16 a b c d = high_unit cp -> unit16 a' b' c' d' = low_unit cp ->
  (4 < length dst)%nat ->
  let lit := [34; 92; 117; a; b; c; d; 92; 117; a'; b'; c'; d'; 34] in
  (json_string_copy (json_parsen lit) dst = Some (4%nat, text_into (utf8 cp) dst) <->
   (high_unit cp <> 0xD800 /\ low_unit cp <> 0xDC00 /\ Z.odd (cp / 0x10000) = true)).
Proof.
  intros cp a b c d a' b' c' d' dst SU F E1 E2 L lit.
  assert (HX : hex a = true /\ hex b = true /\ hex c = true /\ hex d = true /\
               hex a' = true /\ hex b' = true /\ hex c' = true /\ hex d' = true).
  { repeat match goal with F : Forall _ (_ :: _) |- _ => inversion_clear F end. auto 10. }
  destruct HX as (A & B & C & D & A' & B' & C' & D').
  change (high_unit cp <> 55296 /\ low_unit cp <> 56320 /\ Z.odd (cp / 65536) = true) with (good_pair cp).
  set (s := [92; 117; a; b; c; d; 92; 117; a'; b'; c'; d']).
  assert (CS : chars rfc_char s) by (unfold s; repeat (apply chars_uni; try assumption); constructor).
  assert (P : json_parsen lit = string_token s []) by (exact (parse_string_lit s [] CS)).
  rewrite P. split.
  - intros E.
    assert (exists t, unescape (S (length s)) s = Some t) as [t U].
    { eexists. exact (unescape_pair cp a b c d a' b' c' d' 10 A B C D A' B' C' D' SU E1 E2). }
    rewrite (string_copy_escaped s t [] dst (or_introl eq_refl) U) in E.
    assert (EL : length t = 4%nat) by congruence. assert (ET : text_into t dst = text_into (utf8 cp) dst) by congruence.
    clear E. apply (pair_good cp a b c d a' b' c' d' 10); try assumption. fold s.
    change 13%nat with (S (length s)). rewrite U. f_equal. clear U E1 E2 A B C D A' B' C' D'.
    pose proof (utf8_long cp ltac:(unfold supplementary in SU; lia)) as L4.
    unfold text_into in ET. rewrite EL, L4 in ET.
    destruct (Nat.ltb_spec 4 (length dst)); [|lia].
    apply (same_prefix _ t (utf8 cp) _ _) in ET; [assumption|]. now rewrite EL, L4.
  - intros G.
    assert (D0 : decodes good_pair s (utf8 cp ++ [])) by (apply dec_pair; try assumption; constructor).
    rewrite app_nil_r in D0. rewrite (string_copy_token s (utf8 cp) [] dst D0).
    rewrite utf8_long by (unfold supplementary in SU; lia). reflexivity.
Qed.
Print Assumptions C44_exact_partial.

(** Missing from the full statement: as above.  The text around the pairs is any
    valid string text, the buffer has any size. *)
Theorem C44_decode_partial : forall s t r dst,
  decodes (fun cp => high_unit cp <> 0xD800 /\ low_unit cp <> 0xDC00 /\ Z.odd (cp / 0x10000) = true) s t ->
  let j := json_parsen (34 :: s ++ 34 :: r) in
  json_string_length j = length t /\ json_string_copy j dst = Some (length t, text_into t dst).
Proof.
  intros s t r dst D j. unfold j. rewrite (parse_string_lit s r (decodes_chars _ _ _ D)).
  split; [now apply string_length_token|now apply string_copy_token].
Qed.
Print Assumptions C44_decode_partial.

(** a string with text, short escapes and the pair of U+1F600 *)
Definition ex_pair : list Z := bytes_of "a\n\uD83D\uDE00\u00e9z"%string.
Example C44_example :
  supplementary 0x1F600 /\
  decodes (fun cp => high_unit cp <> 0xD800 /\ low_unit cp <> 0xDC00 /\ Z.odd (cp / 0x10000) = true)
    ex_pair ([97; 10] ++ utf8 0x1F600 ++ utf8 0xE9 ++ [122]) /\
  json_string_copy (json_parsen (34 :: ex_pair ++ [34])) (repeat 1 12) =
    Some (9%nat, [97; 10; 240; 159; 152; 128; 195; 169; 122; 0; 1; 1]) /\
  json_string_copy (json_parsen (34 :: ex_pair ++ [34])) (repeat 1 4) = Some (9%nat, [97; 10; 240; 0]).
Proof.
  split; [unfold supplementary; lia|].
  split; [|split; vm_compute; reflexivity].
  compute_text ex_pair. cbn [app]. apply dec_plain; try lia. apply (dec_esc _ 110); [cbn; tauto|].
  apply dec_pair; try reflexivity; [unfold supplementary; lia|split; [|split]; vm_compute; congruence|].
  apply dec_uni; try reflexivity. apply dec_plain; try lia. constructor.
Qed.

(** U+10001, U+10400 and U+20021 are all decoded as something else *)
Theorem C44_refuted :
  exists lit cp, supplementary cp /\
    (exists a b c d a' b' c' d', lit = [34; 92; 117; a; b; c; d; 92; 117; a'; b'; c'; d'; 34] /\
       Forall (fun x => hex x = true) [a; b; c; d; a'; b'; c'; d'] /\
       unit16 a b c d = high_unit cp /\ unit16 a' b' c' d' = low_unit cp) /\
    json_validn lit = Some true /\
    json_string_length (json_parsen lit) = 4%nat /\
    json_string_copy (json_parsen lit) (repeat 1 5) = Some (4%nat, utf8 (cp - 0x10000) ++ [0]) /\
    utf8 (cp - 0x10000) <> utf8 cp.
Proof.
  exists (34 :: bytes_of "\uD840\uDC21"%string ++ [34]), 0x20021. split; [unfold supplementary; lia|]. split.
  - compute_text (34 :: bytes_of "\uD840\uDC21"%string ++ [34]). do 8 eexists. split; [reflexivity|].
    split; [repeat (constructor; [reflexivity|]); constructor|]. split; reflexivity.
  - repeat split; try (vm_compute; reflexivity). vm_compute. discriminate.
Qed.
Print Assumptions C44_refuted.
Example C44_refuted_units :
  json_string_copy (json_parsen (34 :: bytes_of "\uD800\uDC01"%string ++ [34])) (repeat 1 7) =
    Some (6%nat, [0xED; 0xA0; 0x80] ++ utf8 0xFFFD ++ [0]) /\
  json_string_copy (json_parsen (34 :: bytes_of "\uD801\uDC00"%string ++ [34])) (repeat 1 7) =
    Some (3%nat, utf8 0xFFFD ++ [0; 1; 1; 1]).
Proof. split; vm_compute; reflexivity. Qed.

(** ** C24: escaping *)

(** the text that json_escapen writes, for every buffer: it is a string literal of
    RFC 8259, and the library's own check accepts it *)
Theorem C24_escape_valid : forall s, Forall byte s ->
  exists t, str_tail rfc_char false t /\
    (forall dst, json_escapen s dst = Some (length (34 :: t), text_into (34 :: t) dst)) /\
    json_validn (34 :: t) = Some true.
Proof.
  intros s HB. exists (escape_bytes (length s) s ++ [34]).
  split; [|split].
  - apply escaped_tail; [|assumption]. intros cp S H. apply utf8_rfc; [assumption|lia].
  - intros dst. apply escapen_text.
  - apply json_valid_complete. exists [], (34 :: escape_bytes (length s) s ++ [34]), [].
    rewrite app_nil_r. split; [reflexivity|]. split; [constructor|]. split; [|constructor].
    apply v_str. apply escaped_tail; [apply utf8_lax|assumption].
Qed.
Print Assumptions C24_escape_valid.

(** Full statement: the same without [no_10FFFF s].  False: see C24_refuted. *)
Theorem C24_round_trip_partial : forall s, Forall byte s -> utf8_text s -> no_10FFFF s ->
  exists lit, (forall dst, json_escapen s dst = Some (length lit, text_into lit dst)) /\
    forall r, let j := json_parsen (lit ++ r) in
      json_string_length j = length s /\
      (forall dst, json_string_copy j dst = Some (length s, text_into s dst)) /\
      json_raw_length j = length lit.
Proof.
  intros s HB U N. exists (escaped s). split; [intros dst; apply escapen_text|].
  intros r j. unfold j, escaped.
  pose proof (escape_decodes s U N (length s) (Nat.le_refl _)) as D.
  replace ((34 :: escape_bytes (length s) s ++ [34]) ++ r) with (34 :: escape_bytes (length s) s ++ 34 :: r)
    by (cbn [app]; now rewrite <- app_assoc).
  rewrite (parse_string_lit _ r (decodes_chars _ _ _ D)).
  split; [now apply string_length_token|]. split; [intros dst; now apply string_copy_token|].
  destruct (string_token_facts (escape_bytes (length s) s) r) as (_ & E & _).
  unfold string_token in E. rewrite E. cbn [length]. rewrite app_length. cbn [length]. lia.
Qed.
Print Assumptions C24_round_trip_partial.

Definition ex_esc : list Z := [34; 92; 10; 1; 60; 65; 0; 31] ++ utf8 0x20AC ++ utf8 0x1F600.
Example C24_example :
  Forall byte ex_esc /\ utf8_text ex_esc /\ no_10FFFF ex_esc /\
  json_escapen ex_esc (repeat 7 60) =
    Some (40%nat, [34] ++ bytes_of "\""\\\n\u0001\u003cA\u0000\u001f"%string ++ utf8 0x20AC ++ utf8 0x1F600 ++ [34; 0]
                  ++ repeat 7 19) /\
  json_escapen ex_esc (repeat 7 4) = Some (40%nat, [34; 92; 34; 0]).
Proof.
  assert (B : Forall byte ex_esc).
  { compute_text ex_esc. unfold byte. repeat (constructor; [lia|]). constructor. }
  split; [assumption|]. split; [|split; [|split; vm_compute; reflexivity]].
  - unfold ex_esc. cbn [app]. do 8 (apply utf8_ascii; [lia|]). apply utf8_more; [reflexivity|].
    rewrite <- (app_nil_r (utf8 128512)). apply utf8_more; [reflexivity|constructor].
  - intros a b E. assert (In 143 ex_esc) as I by (rewrite E, in_app_iff; cbn; tauto).
    revert I. compute_text ex_esc. cbn [In]. lia.
Qed.

(** U+10FFFF becomes four replacement characters *)
Theorem C24_refuted : exists s t, Forall byte s /\ utf8_text s /\
  json_escapen s (repeat 0 64) = Some (14%nat, [34] ++ t ++ [34] ++ repeat 0 50) /\ length t = 12%nat /\
  json_string_copy (json_parsen (34 :: t ++ [34])) (repeat 0 64) = Some (12%nat, t ++ repeat 0 52) /\ t <> s.
Proof.
  exists (utf8 0x10FFFF), (utf8 0xFFFD ++ utf8 0xFFFD ++ utf8 0xFFFD ++ utf8 0xFFFD).
  split; [compute_text (utf8 0x10FFFF); unfold byte; repeat (constructor; [lia|]); constructor|].
  split; [rewrite <- (app_nil_r (utf8 0x10FFFF)); apply utf8_more; [reflexivity|constructor]|].
  repeat split; try (vm_compute; reflexivity). discriminate.
Qed.
Print Assumptions C24_refuted.
