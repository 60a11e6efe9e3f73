(** * The lax grammar of the validator against RFC 8259 *)

From Coq Require Import ZArith Bool List Lia ZifyBool Arith.
From Verif Require Import Json SpecJson JsonFacts.
Import ListNotations.
Local Open Scope Z_scope.

(** ** Changing the characters *)

Definition infix (m s : list Z) : Prop := exists a b, s = a ++ m ++ b.
Lemma infix_l m a b : infix m a -> infix m (a ++ b).
Proof. intros (x & y & ->). exists x, (y ++ b). now rewrite <- !app_assoc. Qed.
Lemma infix_r m a b : infix m b -> infix m (a ++ b).
Proof. intros (x & y & ->). exists (a ++ x), y. now rewrite <- !app_assoc. Qed.
Lemma infix_c m a b : infix m b -> infix m (a :: b).
Proof. apply (infix_r m [a] b). Qed.

Section Change.
Variables ch1 ch2 : list Z -> bool.
Variables br1 br2 : bool.
Hypothesis BR : br1 = true -> br2 = true.
Definition okfor (s : list Z) : Prop := forall m, ch1 m = true -> infix m s -> ch2 m = true.

Lemma okfor_app a b : okfor (a ++ b) -> okfor a /\ okfor b.
Proof. intros H. split; intros m M I; apply H; auto using infix_l, infix_r. Qed.
Lemma okfor_cons a b : okfor (a :: b) -> okfor b.
Proof. intros H m M I. apply H; auto using infix_c. Qed.

Lemma chars_change s : chars ch1 s -> okfor s -> chars ch2 s.
Proof.
  induction 1 as [|b s R N1 N2 C IH|m s M C IH|e s I C IH|x y z t s X Y Z T C IH]; intros H.
  - constructor.
  - apply chars_plain; auto. apply IH. eauto using okfor_cons.
  - pose proof (okfor_app _ _ H) as [_ H2]. apply chars_char; [|auto].
    apply H; [assumption|]. exists [], s. reflexivity.
  - apply chars_esc; [assumption|]. apply IH. eauto using okfor_cons.
  - apply chars_uni; try assumption. apply IH. do 6 apply okfor_cons in H. assumption.
Qed.
Lemma tail_change s : str_tail ch1 br1 s -> okfor s -> str_tail ch2 br2 s.
Proof.
  intros T H. destruct T as [s C|s B C|s h B C HH L]; apply okfor_app in H; destruct H as [H _];
    constructor; auto; now apply chars_change.
Qed.
Lemma grammar_change :
  (forall n v, value ch1 br1 n v -> okfor v -> value ch2 br2 n v) /\
  (forall n es, elements ch1 br1 n es -> okfor es -> elements ch2 br2 n es) /\
  (forall n ms, members ch1 br1 n ms -> okfor ms -> members ch2 br2 n ms).
Proof.
  apply value_mutind.
  - intros. now constructor.
  - intros. now constructor.
  - intros n s T H. apply v_str. apply tail_change; [assumption|eauto using okfor_cons].
  - intros. now constructor.
  - intros n es E IH H. apply v_arr, IH. apply okfor_cons, okfor_app in H. tauto.
  - intros. now constructor.
  - intros n es E IH H. apply v_obj, IH. apply okfor_cons, okfor_app in H. tauto.
  - intros n w1 v w2 W1 V IH W2 H. apply okfor_app in H. destruct H as [_ H].
    apply okfor_app in H. constructor; tauto.
  - intros n w1 v w2 es W1 V IH W2 E IHE H. apply okfor_app in H. destruct H as [_ H].
    apply okfor_app in H. destruct H as [H1 H]. apply okfor_app in H. destruct H as [_ H].
    apply okfor_cons in H. apply e_more; auto.
  - intros n w1 k w2 w3 v w4 W1 K W2 W3 V IH W4 H. apply okfor_app in H. destruct H as [_ H].
    apply okfor_cons, okfor_app in H. destruct H as [H1 H]. apply okfor_app in H. destruct H as [_ H].
    apply okfor_cons, okfor_app in H. destruct H as [_ H]. apply okfor_app in H. destruct H as [H2 _].
    apply m_one; auto. now apply tail_change.
  - intros n w1 k w2 w3 v w4 ms W1 K W2 W3 V IH W4 M IHM H. apply okfor_app in H. destruct H as [_ H].
    apply okfor_cons, okfor_app in H. destruct H as [H1 H]. apply okfor_app in H. destruct H as [_ H].
    apply okfor_cons, okfor_app in H. destruct H as [_ H]. apply okfor_app in H. destruct H as [H2 H].
    apply okfor_app in H. destruct H as [_ H]. apply okfor_cons in H.
    apply m_more; auto. now apply tail_change.
Qed.
Lemma text_change n s : text ch1 br1 n s -> okfor s -> text ch2 br2 n s.
Proof.
  intros (w1 & v & w2 & -> & W1 & V & W2) H. exists w1, v, w2. split; [reflexivity|].
  apply okfor_app in H. destruct H as [_ H]. apply okfor_app in H. destruct H as [H _].
  split; [assumption|]. split; [|assumption]. now apply (proj1 grammar_change).
Qed.
End Change.

(** ** Escapes *)

Lemma escapes_skip s r : Forall (fun b => b <> 92) s -> escapes_ok (s ++ r) <-> escapes_ok r.
Proof.
  induction 1 as [|b s B D IH]; [tauto|]. cbn [app]. rewrite <- IH. split; intros H.
  - inversion H; subst; [assumption|contradiction|contradiction].
  - now apply esc_other.
Qed.
Lemma escapes_drop s r : Forall (fun b => b <> 92) s -> escapes_ok (s ++ r) -> escapes_ok r.
Proof. intros H. now apply escapes_skip. Qed.
Lemma hex_not_quote c : hex c = true -> c <> 92.
Proof. unfold hex, digit. lia. Qed.

Lemma esc_chars ch s r : (forall m, ch m = true -> Forall (fun b => b <> 92) m) ->
  chars ch s -> escapes_ok (s ++ r) <-> escapes_ok r.
Proof.
  intros HC. induction 1 as [|b s R N1 N2 C IH|m s M C IH|e s I C IH|x y z t s X Y Z T C IH].
  - tauto.
  - rewrite <- IH. apply (escapes_skip [b]). now repeat constructor.
  - rewrite <- app_assoc, escapes_skip by auto. assumption.
  - cbn [app]. rewrite <- IH. split; intros H.
    + inversion H; subst; [contradiction|assumption|]. unfold escapes in I. cbn in I. lia.
    + now apply esc_short.
  - cbn [app]. rewrite <- IH. split; intros H.
    + inversion H as [|? ? ? ?|? ? I ?|]; subst; [contradiction| |assumption].
      unfold escapes in I. cbn in I. lia.
    + now apply esc_uni.
Qed.
Lemma esc_chars_drop ch s r : (forall m, ch m = true -> Forall (fun b => b <> 92) m) ->
  chars ch s -> escapes_ok (s ++ r) -> escapes_ok r.
Proof. intros HC C. now apply (esc_chars ch s r HC C). Qed.
Lemma lax_not_92 m : lax_char m = true -> Forall (fun b => b <> 92) m.
Proof.
  unfold lax_char, trail, between. destruct m as [|a [|b [|c [|d [|]]]]]; try discriminate; intros H;
    repeat (constructor; [lia|]); constructor.
Qed.
Lemma rfc_not_92 m : rfc_char m = true -> Forall (fun b => b <> 92) m.
Proof.
  unfold rfc_char, trail, between. destruct m as [|a [|b [|c [|d [|]]]]]; try discriminate; intros H;
    repeat (constructor; [lia|]); constructor.
Qed.

Lemma esc_broken r : escapes_ok (92 :: r) -> ~ follow r.
Proof.
  intros H. inversion H as [| |e s I|]; subst; [contradiction| |].
  - unfold follow, white, escapes in *. cbn [In] in *. lia.
  - unfold follow, white. cbn [In]. lia.
Qed.
Lemma esc_broken_uni h r : escapes_ok (92 :: 117 :: h ++ r) -> (length h < 4)%nat -> ~ follow r.
Proof.
  intros H L. inversion H as [| |e s I|a b c d s A B C D HS E]; subst; [contradiction| |].
  - unfold escapes in I. cbn [In] in I. lia.
  - assert (NH : forall x y, hex x = true -> r = x :: y -> ~ follow r).
    { intros x y X -> F. apply follow_not_hex in F. congruence. }
    destruct h as [|h1 [|h2 [|h3 [|]]]]; cbn [app length] in *; try lia.
    + eapply (NH a); eauto.
    + injection E as _ E. eapply (NH b); eauto.
    + injection E as _ _ E. eapply (NH c); eauto.
    + injection E as _ _ _ E. eapply (NH d); eauto.
Qed.
Lemma tail_unbroken t r : ltail t -> follow r -> escapes_ok (t ++ r) ->
  str_tail lax_char false t /\ escapes_ok r.
Proof.
  intros T F H. destruct T as [s C|s _ C|s h _ C HH L]; rewrite <- app_assoc in H;
    apply (esc_chars_drop lax_char s _ lax_not_92 C) in H; cbn [app] in H.
  - split; [now constructor|]. now apply (escapes_drop [34]) in H; [|repeat constructor].
  - now apply esc_broken in H.
  - now apply esc_broken_uni in H.
Qed.

Lemma ws_not_92 w : ws w -> Forall (fun b => b <> 92) w.
Proof. intros W. eapply Forall_impl; [|exact W]. intros b. unfold white. cbn. lia. Qed.
Lemma digits_not_92 w : Forall (fun b => digit b = true) w -> Forall (fun b => b <> 92) w.
Proof. intros W. eapply Forall_impl; [|exact W]. intros b. unfold digit. cbn. lia. Qed.
Lemma number_plain (P : Z -> Prop) v :
  (forall b, digit b = true -> P b) -> P 45 -> P 43 -> P 46 -> P 101 -> P 69 ->
  number v -> Forall P v.
Proof.
  intros HD P1 P2 P3 P4 P5 N.
  assert (D : forall s, Forall (fun b => digit b = true) s -> Forall P s).
  { intros s H. eapply Forall_impl; [|exact H]. exact HD. }
  assert (FI : forall i, integer i -> Forall P i).
  { intros i [|s [_ H] _]; [repeat constructor; now apply HD | now apply D]. }
  assert (FF : forall i, fraction i -> Forall P i).
  { intros i [|s [_ H]]; [constructor| constructor; [assumption|now apply D]]. }
  assert (FE : forall i, exponent i -> Forall P i).
  { intros i [|e s [->| ->] [_ H]|e g s [->| ->] [->| ->] [_ H]]; repeat constructor; try assumption;
    now apply D. }
  destruct N as [i f e I F E|i f e I F E]; [|constructor; [assumption|]];
    repeat (apply Forall_app; split); auto.
Qed.
Lemma number_not_92 v : number v -> Forall (fun b => b <> 92) v.
Proof. intros N. apply number_plain; try lia; try assumption. unfold digit. lia. Qed.
Lemma lit_not_92 v : In v [lit_true; lit_false; lit_null] -> Forall (fun b => b <> 92) v.
Proof.
  cbn [In]. intros [<-|[<-|[<-|[]]]]; repeat (constructor; [lia|]); constructor.
Qed.

Lemma grammar_unbroken :
  (forall n v, lvalue n v -> forall r, follow r -> escapes_ok (v ++ r) ->
     value lax_char false n v /\ escapes_ok r) /\
  (forall n es, lelements n es -> forall r, follow (r) -> escapes_ok (es ++ r) ->
     elements lax_char false n es /\ escapes_ok r) /\
  (forall n ms, lmembers n ms -> forall r, follow (r) -> escapes_ok (ms ++ r) ->
     members lax_char false n ms /\ escapes_ok r).
Proof.
  assert (K1 : forall b s, b <> 92 -> escapes_ok (b :: s) -> escapes_ok s).
  { intros b s B H. apply (escapes_drop [b]) in H; [assumption|now repeat constructor]. }
  assert (KW : forall w s, ws w -> escapes_ok (w ++ s) -> escapes_ok s).
  { intros w s W H. apply escapes_drop in H; [assumption|now apply ws_not_92]. }
  assert (FW : forall w r, ws w -> follow r -> follow (w ++ r)).
  { intros w r W F. destruct W as [|b w B W]; [exact F|]. cbn. auto. }
  apply value_mutind.
  - intros n l I r F H. apply escapes_drop in H; [|now apply lit_not_92]. split; [now constructor|assumption].
  - intros n s N r F H. apply escapes_drop in H; [|now apply number_not_92]. split; [now constructor|assumption].
  - intros n s T r F H. cbn [app] in H. apply K1 in H; [|lia].
    destruct (tail_unbroken s r T F H). split; [now constructor|assumption].
  - intros n w W r F H. cbn [app] in H. apply K1 in H; [|lia]. rewrite <- app_assoc in H.
    apply KW in H; [|assumption]. apply K1 in H; [|lia]. split; [now constructor|assumption].
  - intros n es E IH r F H. cbn [app] in H. apply K1 in H; [|lia]. rewrite <- app_assoc in H.
    apply IH in H; [|right; cbn; tauto]. destruct H as [H1 H]. apply K1 in H; [|lia].
    split; [now constructor|assumption].
  - intros n w W r F H. cbn [app] in H. apply K1 in H; [|lia]. rewrite <- app_assoc in H.
    apply KW in H; [|assumption]. apply K1 in H; [|lia]. split; [now constructor|assumption].
  - intros n es E IH r F H. cbn [app] in H. apply K1 in H; [|lia]. rewrite <- app_assoc in H.
    apply IH in H; [|right; cbn; tauto]. destruct H as [H1 H]. apply K1 in H; [|lia].
    split; [now constructor|assumption].
  - intros n w1 v w2 W1 V IH W2 r F H. rewrite <- !app_assoc in H. apply KW in H; [|assumption].
    apply IH in H; [|now apply FW]. destruct H as [H1 H]. apply KW in H; [|assumption].
    split; [now constructor|assumption].
  - intros n w1 v w2 es W1 V IH W2 E IHE r F H. rewrite <- !app_assoc in H. apply KW in H; [|assumption].
    apply IH in H; [|apply FW; [assumption|right; cbn; tauto]]. destruct H as [H1 H]. apply KW in H; [|assumption].
    cbn [app] in H. apply K1 in H; [|lia]. apply IHE in H; [|assumption]. destruct H as [H2 H].
    split; [now apply e_more|assumption].
  - intros n w1 k w2 w3 v w4 W1 K W2 W3 V IH W4 r F H.
    repeat (rewrite <- app_assoc in H; cbn [app] in H). apply KW in H; [|assumption].
    apply K1 in H; [|lia]. apply tail_unbroken in H; [|assumption|apply FW; [assumption|right; cbn; tauto]].
    destruct H as [H1 H]. apply KW in H; [|assumption]. apply K1 in H; [|lia]. apply KW in H; [|assumption].
    apply IH in H; [|now apply FW]. destruct H as [H2 H]. apply KW in H; [|assumption].
    split; [now apply m_one|assumption].
  - intros n w1 k w2 w3 v w4 ms W1 K W2 W3 V IH W4 M IHM r F H.
    repeat (rewrite <- app_assoc in H; cbn [app] in H). apply KW in H; [|assumption].
    apply K1 in H; [|lia]. apply tail_unbroken in H; [|assumption|apply FW; [assumption|right; cbn; tauto]].
    destruct H as [H1 H]. apply KW in H; [|assumption]. apply K1 in H; [|lia]. apply KW in H; [|assumption].
    apply IH in H; [|apply FW; [assumption|right; cbn; tauto]]. destruct H as [H2 H]. apply KW in H; [|assumption].
    apply K1 in H; [|lia]. apply IHM in H; [|assumption]. destruct H as [H3 H].
    split; [now apply m_more|assumption].
Qed.
Lemma text_unbroken n s : lax_json n s -> escapes_ok s -> text lax_char false n s.
Proof.
  intros (w1 & v & w2 & -> & W1 & V & W2) H. exists w1, v, w2. split; [reflexivity|].
  split; [assumption|]. split; [|assumption].
  apply escapes_drop in H; [|now apply ws_not_92].
  apply (proj1 grammar_unbroken n v V w2); [destruct W2; cbn; auto|assumption].
Qed.

(** texts of RFC 8259 have well formed escapes *)
Lemma tail_escapes t r : str_tail rfc_char false t -> escapes_ok r -> escapes_ok (t ++ r).
Proof.
  intros T H. destruct T as [s C|s B C|s h B C HH L]; try discriminate.
  rewrite <- app_assoc. apply (esc_chars rfc_char s _ rfc_not_92 C). now apply esc_other.
Qed.
Lemma grammar_escapes :
  (forall n v, value rfc_char false n v -> forall r, escapes_ok r -> escapes_ok (v ++ r)) /\
  (forall n v, elements rfc_char false n v -> forall r, escapes_ok r -> escapes_ok (v ++ r)) /\
  (forall n v, members rfc_char false n v -> forall r, escapes_ok r -> escapes_ok (v ++ r)).
Proof.
  assert (KW : forall w s, ws w -> escapes_ok s -> escapes_ok (w ++ s)).
  { intros w s W H. apply escapes_skip; [now apply ws_not_92|assumption]. }
  apply value_mutind; intros; cbn [app]; repeat (rewrite <- app_assoc; cbn [app]);
    try (apply escapes_skip; [first [now apply lit_not_92|now apply number_not_92]|assumption]);
    repeat first [ assumption | apply KW; [assumption|] | apply tail_escapes; [assumption|]
                 | match goal with [ H : forall r, escapes_ok r -> escapes_ok (?v ++ r) |- escapes_ok (?v ++ _) ] => apply H end
                 | apply esc_other; [lia|] ].
Qed.
Lemma rfc_escapes n s : rfc_json n s -> escapes_ok s.
Proof.
  intros (w1 & v & w2 & -> & W1 & V & W2). apply escapes_skip; [now apply ws_not_92|].
  apply (proj1 grammar_escapes n v V). rewrite <- (app_nil_r w2).
  apply escapes_skip; [now apply ws_not_92|constructor].
Qed.

(** ** UTF-8 *)

Lemma utf8_app a b : utf8_text a -> utf8_text b -> utf8_text (a ++ b).
Proof.
  induction 1; intros HB; cbn [app]; [assumption| | rewrite <- app_assoc]; constructor; auto.
Qed.
Lemma utf8_asciis s : Forall (fun b => 0 <= b <= 127) s -> utf8_text s.
Proof. induction 1; constructor; auto. Qed.
Lemma ws_ascii w : ws w -> Forall (fun b => 0 <= b <= 127) w.
Proof. intros W. eapply Forall_impl; [|exact W]. intros b. unfold white. cbn. lia. Qed.
Lemma chars_utf8 s : chars rfc_char s -> utf8_text s.
Proof.
  induction 1 as [|b s R N1 N2 C IH|m s M C IH|e s I C IH|x y z t s X Y Z T C IH].
  - constructor.
  - apply utf8_ascii; [lia|assumption].
  - now apply utf8_more.
  - unfold escapes in I. cbn [In] in I. repeat (apply utf8_ascii; [lia|]). assumption.
  - unfold hex, digit in *. repeat (apply utf8_ascii; [lia|]). assumption.
Qed.
Lemma tail_utf8 t : str_tail rfc_char false t -> utf8_text t.
Proof.
  intros T. destruct T as [s C|s B C|s h B C HH L]; try discriminate.
  apply utf8_app; [now apply chars_utf8|]. apply utf8_ascii; [lia|constructor].
Qed.
Lemma grammar_utf8 :
  (forall n v, value rfc_char false n v -> utf8_text v) /\
  (forall n v, elements rfc_char false n v -> utf8_text v) /\
  (forall n v, members rfc_char false n v -> utf8_text v).
Proof.
  assert (KW : forall w, ws w -> utf8_text w) by (intros; now apply utf8_asciis, ws_ascii).
  apply value_mutind; intros;
    repeat first [ assumption | apply utf8_nil | apply KW; assumption | apply tail_utf8; assumption
                 | apply utf8_ascii; [lia|] | apply utf8_app ].
  - cbn [In] in i. destruct i as [<-|[<-|[<-|[]]]]; repeat (apply utf8_ascii; [lia|]); constructor.
  - apply utf8_asciis, number_plain; try lia; try assumption. unfold digit. lia.
Qed.
Lemma rfc_utf8 n s : rfc_json n s -> utf8_text s.
Proof.
  intros (w1 & v & w2 & -> & W1 & V & W2).
  apply utf8_app; [now apply utf8_asciis, ws_ascii|].
  apply utf8_app; [now apply (proj1 grammar_utf8 n)|now apply utf8_asciis, ws_ascii].
Qed.

(** the bytes of a text of UTF-8 that look like a character are one *)
Lemma rfc_lax m : rfc_char m = true -> m <> [244; 143; 191; 191] -> lax_char m = true.
Proof.
  unfold rfc_char, lax_char, lax_point, trail, between.
  destruct m as [|a [|b [|c [|d [|]]]]]; try discriminate; intros H N; try lia.
  assert (~ (a = 244 /\ b = 143 /\ c = 191 /\ d = 191)) by (intros (-> & -> & -> & ->); now apply N).
  lia.
Qed.

Lemma utf8_at s : utf8_text s -> forall a x t, s = a ++ x :: t -> ~ 128 <= x <= 191 -> utf8_text (x :: t).
Proof.
  induction 1 as [|b s B H IH|m s M H IH]; intros a x t E N.
  - destruct a; discriminate.
  - destruct a as [|y a]; cbn [app] in E.
    + rewrite <- E. now constructor.
    + injection E as _ E. eapply IH; eassumption.
  - destruct a as [|y a].
    { cbn [app] in E. rewrite <- E. now constructor. }
    assert (TL : forall q, In q (tl m) -> 128 <= q <= 191).
    { revert M. unfold rfc_char, trail, between.
      destruct m as [|q1 [|q2 [|q3 [|q4 [|]]]]]; try discriminate; intros M q Hq; cbn [tl In] in Hq; lia. }
    destruct m as [|m0 m]; [discriminate|]. cbn [app] in E. injection E as <- E. cbn [tl] in TL.
    assert (G : forall m a, (forall q, In q m -> 128 <= q <= 191) -> m ++ s = a ++ x :: t ->
                exists a', s = a' ++ x :: t).
    { clear -N. induction m as [|q m IH]; intros a TL E; [exists a; assumption|].
      destruct a as [|y a]; cbn [app] in E.
      - injection E as <- _. exfalso. apply N, TL. now left.
      - injection E as <- E. apply (IH a); [intros; apply TL; now right | assumption]. }
    destruct (G m a TL E) as (a' & E'). eapply IH; eassumption.
Qed.

Lemma utf8_char_in s m : utf8_text s -> infix m s -> lax_char m = true -> rfc_char m = true.
Proof.
  intros U (a & b & E) M. destruct (lax_char_high m M) as (x & t & -> & X & _).
  assert (X2 : 192 <= x).
  { unfold lax_char, between in M. destruct t as [|? [|? [|? [|]]]]; try discriminate; lia. }
  cbn [app] in E. pose proof (utf8_at s U _ _ _ E ltac:(lia)) as U2. clear E U. rename U2 into U.
  inversion U as [|b' s' B H|m' s' M' H E]; subst; [lia|].
  assert (P : forall y u, m' = y :: u -> x = y /\ length t = length u).
  { intros y u ->. cbn [app] in E. injection E as -> E. split; [reflexivity|].
    unfold rfc_char, lax_char, between in *.
    destruct t as [|? [|? [|? [|]]]]; try discriminate; destruct u as [|? [|? [|? [|]]]]; try discriminate;
      cbn [length]; lia. }
  destruct m' as [|y u]; [discriminate|]. destruct (P y u eq_refl) as [<- L].
  cbn [app] in E. injection E as E.
  assert (t = u) as ->; [|assumption].
  clear -E L. revert u E L. induction t as [|z t IH]; intros [|w u] E L; try discriminate; [reflexivity|].
  cbn [app] in E. injection E as <- E. f_equal. apply IH; [assumption|]. now injection L.
Qed.

Lemma lax_rfc n s : lax_json n s -> escapes_ok s -> utf8_text s -> rfc_json n s.
Proof.
  intros H E U. apply text_unbroken in H; [|assumption].
  apply (text_change lax_char rfc_char false false); [tauto|assumption|].
  intros m M I. eapply utf8_char_in; eassumption.
Qed.
Lemma rfc_lax_json n s : rfc_json n s -> no_10FFFF s -> lax_json n s.
Proof.
  intros H N. apply (text_change rfc_char lax_char false true); [reflexivity|assumption|].
  intros m M (a & b & E). apply rfc_lax; [assumption|]. intros ->. now apply (N a b).
Qed.
