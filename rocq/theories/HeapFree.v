(** * The release functions keep the invariant *)

From Coq Require Import ZArith Bool List Lia Arith.
From Verif Require Import F64 Geo Series Geom Heap HeapGeom SpecHeap HeapFacts HeapStep.
Import ListNotations.
Local Open Scope nat_scope.

Definition wp {A} (m : M A) (Q : A -> heap -> Prop) (h : heap) : Prop :=
  match m h with Some (x, h') => Q x h' | None => False end.

Lemma wp_ret {A} (x : A) (Q : A -> heap -> Prop) h : Q x h -> wp (ret x) Q h.
Proof. exact id. Qed.
Lemma wp_bind {A B} (m : M A) (k : A -> M B) Q h : wp m (fun x h' => wp (k x) Q h') h -> wp (bind m k) Q h.
Proof. unfold wp, bind. destruct (m h) as [[x h']|]; auto. Qed.
Lemma wp_conseq {A} (m : M A) (Q Q' : A -> heap -> Prop) h : wp m Q h -> (forall x h', Q x h' -> Q' x h') -> wp m Q' h.
Proof. unfold wp. destruct (m h) as [[x h']|]; auto. Qed.
Lemma wp_load p b (Q : block -> heap -> Prop) h : get h p = Some b -> Q b h -> wp (load p) Q h.
Proof. unfold wp, load. now intros ->. Qed.
Lemma wp_store p b (Q : unit -> heap -> Prop) h : get h p <> None -> Q tt (upd h p (Some b)) -> wp (store p b) Q h.
Proof. unfold wp, store. destruct (get h p); [auto|congruence]. Qed.
Lemma wp_free p (Q : unit -> heap -> Prop) h : get h p <> None -> Q tt (upd h p None) -> wp (tg_free p) Q h.
Proof. unfold wp, tg_free. destruct (get h p); [auto|congruence]. Qed.
Lemma wp_malloc b (Q : option ptr -> heap -> Prop) h :
  Q (Some (length (cells h))) (alloc h (b (length (cells h)))) -> Q None (bump h) -> wp (tg_malloc b) Q h.
Proof. unfold wp, tg_malloc, alloc, bump. destruct (ok h (calls h)); auto. Qed.

Section Free.
Context (cp : bool) (rk : ptr -> nat).

(** the state in the middle of a release that began in [h0] with [D0] *)
Record FSt (h0 : heap) (D0 : list ptr) (h : heap) (E D : list ptr) : Prop := {
  fs_inv : Inv cp h E D;
  fs_rank : Rank rk h D;
  fs_fr : Fr D0 h0 h;
  fs_incl : incl D0 D;
  fs_len : length (cells h) = length (cells h0)
}.

Lemma FSt_start h E D : Inv cp h E D -> Rank rk h D -> FSt h D h E D.
Proof. intros I R. constructor; auto using Fr_refl, incl_refl. Qed.
Lemma FSt_call h0 D0 h E D h' E' : FSt h0 D0 h E D -> FSt h D h' E' D -> FSt h0 D0 h' E' D.
Proof.
  intros A B. constructor; try apply A; try apply B.
  - apply (Fr_trans D0 D h0 h h'); [apply A|apply B|apply A].
  - etransitivity; [apply B|apply A].
Qed.
Lemma FSt_E h0 D0 h E E' D : (forall p, cnt E p = cnt E' p) -> FSt h0 D0 h E D -> FSt h0 D0 h E' D.
Proof. intros C A. constructor; try apply A. apply (Inv_E _ _ _ _ _ C), A. Qed.
Lemma FSt_enter h0 D0 h q b E D : FSt h0 D0 h (q :: E) D -> get h q = Some b -> isnh b = false -> refs b = 1%Z ->
  FSt h0 D0 h (owned b ++ E) (q :: D) /\ ~ In q D.
Proof.
  intros A G NH R. split; [|now apply (inv_E _ _ _ _ q (fs_inv _ _ _ _ _ A) (or_introl eq_refl))].
  constructor; try apply A.
  - apply Inv_enter; try assumption. apply A.
  - apply (Rank_D _ _ D); [apply A|]. apply incl_tl, incl_refl.
  - apply incl_tl, A.
Qed.
Lemma FSt_free h0 D0 h q E D : FSt h0 D0 h E (q :: D) -> ~ In q D -> incl D0 D -> (forall b, get h q = Some b -> isnh b = false) ->
  FSt h0 D0 (upd h q None) E D.
Proof.
  intros A N S NH. pose proof (fs_inv _ _ _ _ _ A) as I.
  destruct (get h q) as [b|] eqn:G; [|exfalso; now apply (inv_dl _ _ _ _ I q (or_introl eq_refl))].
  apply get_lt in G as Hq. constructor.
  - now apply Inv_free.
  - apply (Rank_sub rk h _ (q :: D)); [apply A|]. intros p b' Gp Np. rewrite get_upd in Gp by assumption.
    destruct (Nat.eqb_spec p q) as [e|ne]; [discriminate|]. exists b'. repeat split; auto. intros [H|H]; congruence.
  - apply (Fr_upd D0 h0 h q b); [apply A|assumption|now apply NH| |now left]. intros H. apply N, S, H.
  - assumption.
  - rewrite len_upd by assumption. apply A.
Qed.
(** a block in [D] can be freed *)
Lemma wp_free_D h0 D0 h q E D (Q : _ -> heap -> Prop) : FSt h0 D0 h E (q :: D) -> ~ In q D -> incl D0 D ->
  (forall b, get h q = Some b -> isnh b = false) ->
  (FSt h0 D0 (upd h q None) E D -> Q tt (upd h q None)) -> wp (tg_free q) Q h.
Proof.
  intros A N S NH K. apply wp_free; [|apply K; now apply FSt_free].
  apply (inv_dl _ _ _ _ (fs_inv _ _ _ _ _ A)). now left.
Qed.
(** an array or string without pointers *)
Lemma wp_free_leaf h0 D0 h q b E D (Q : _ -> heap -> Prop) : FSt h0 D0 h (q :: E) D -> get h q = Some b -> head_of b = None -> owned b = [] ->
  (FSt h0 D0 (upd h q None) E D -> Q tt (upd h q None)) -> wp (tg_free q) Q h.
Proof.
  intros A G H O K. assert (NH : isnh b = false) by (unfold isnh; now rewrite H).
  destruct (FSt_enter _ _ _ _ b _ _ A G NH) as [A' N]; [unfold refs; now rewrite H|]. rewrite O in A'. cbn [app] in A'.
  apply (wp_free_D h0 D0 h q E D); auto.
  - apply A.
  - intros c Gc. congruence.
Qed.
Lemma wp_free_opt h0 D0 h o f E D (Q : _ -> heap -> Prop) : FSt h0 D0 h (olist o ++ E) D -> pk h f o ->
  (forall b, f b = true -> head_of b = None /\ owned b = []) ->
  (forall h', FSt h0 D0 h' E D -> Fr D h h' -> Q tt h') -> wp (free_opt o) Q h.
Proof.
  intros A P HF K. destruct o as [q|]; cbn [free_opt olist app] in *.
  - destruct P as (b & G & Fb). destruct (HF b Fb) as [H O].
    apply (wp_free_leaf h0 D0 h q b E D); auto. intros A'. apply K; [assumption|].
    apply (Fr_upd D h h q b); [apply Fr_refl|assumption|unfold isnh; now rewrite H| |now left].
    apply (inv_E _ _ _ _ q (fs_inv _ _ _ _ _ A)). now left.
  - apply wp_ret, K; [assumption|apply Fr_refl].
Qed.

(** head.noheap || !rc_release *)
Lemma wp_stays h0 D0 h p b hd E D (Q : _ -> heap -> Prop) : FSt h0 D0 h (p :: E) D -> get h p = Some b -> head_of b = Some hd ->
  (forall h', FSt h0 D0 h' E D -> Q true h') ->
  (forall h', let b' := set_head (Head 0 (h_noheap hd) (h_flags hd)) b in
     FSt h0 D0 h' (owned b ++ E) (p :: D) -> ~ In p D -> incl D0 D -> isnh b = false ->
     get h' p = Some b' -> typed cp h' b -> (forall x, x <> p -> get h' x = get h x) -> Q false h') ->
  wp (stays p) Q h.
Proof.
  intros A G H KT KF. unfold stays. apply wp_bind, (wp_load p b); [assumption|]. rewrite H.
  pose proof (fs_inv _ _ _ _ _ A) as I.
  destruct (inv_E _ _ _ _ p I (or_introl eq_refl)) as [L N]. apply get_lt in G as Hp.
  destruct (h_noheap hd) eqn:NH.
  - apply wp_ret, KT. constructor; try apply A. apply (Inv_nh_drop cp h p b); auto. unfold isnh. now rewrite H.
  - assert (NB : isnh b = false) by (unfold isnh; now rewrite H).
    apply wp_bind. unfold rc_release. apply wp_bind, (wp_load p b); [assumption|]. rewrite H.
    apply wp_bind, wp_store; [congruence|]. apply wp_ret, wp_ret. rewrite NH.
    destruct (inv_cnt _ _ _ _ I p b G N NB) as [C1 C2].
    assert (R : refs b = h_rc hd) by (unfold refs; now rewrite H).
    set (b' := set_head (Head (h_rc hd - 1) false (h_flags hd)) b).
    assert (S' : strip b' = strip b) by (unfold b'; rewrite <- NH; now apply strip_set).
    assert (RB : refs b' = (h_rc hd - 1)%Z) by (unfold b'; now rewrite (refs_set b hd)).
    destruct (Z.eqb_spec (h_rc hd) 1) as [e|ne]; cbn [negb].
    + destruct (FSt_enter _ _ _ _ b _ _ A G NB) as [A' _]; [congruence|].
      replace b' with (set_head (Head 0 false (h_flags hd)) b) in * by (unfold b'; rewrite e; reflexivity).
      apply KF.
      * constructor.
        -- apply Inv_write; [now left|apply A'].
        -- apply (Rank_sub rk h _ D); [apply A|]. intros q c Gq Nq. rewrite get_upd in Gq by assumption.
           destruct (Nat.eqb_spec q p) as [e'|ne']; [exfalso; apply Nq; now left|].
           exists c. repeat split; auto. intros Hd. apply Nq. now right.
        -- apply (Fr_upd D0 h0 h p b); [apply A|assumption|assumption| |].
           ++ intros Hd. apply N, (fs_incl _ _ _ _ _ A), Hd.
           ++ right. eauto.
        -- apply A'.
        -- rewrite len_upd by assumption. apply A.
      * assumption.
      * apply A.
      * assumption.
      * rewrite get_upd by assumption. now rewrite Nat.eqb_refl.
      * apply (inv_ty_keep cp h _ (p :: E) D I) with p; try assumption.
        intros x Lx Nx c Gc. rewrite get_upd by assumption. destruct (Nat.eqb_spec x p) as [->|]; [|now exists c].
        eexists. split; [reflexivity|]. congruence.
      * intros x ne'. rewrite get_upd by assumption. apply Nat.eqb_neq in ne'. now rewrite ne'.
    + apply KT. constructor.
      * apply (Inv_rc cp h p b b' (p :: E) E D); try assumption.
        -- intros x nx. cbn [count_occ]. destruct (Nat.eq_dec p x); [congruence|reflexivity].
        -- rewrite RB, R. cbn [count_occ]. destruct (Nat.eq_dec p p); [|congruence]. lia.
        -- rewrite RB. lia.
      * apply (Rank_sub rk h _ D); [apply A|]. intros q c Gq Nq. rewrite get_upd in Gq by assumption.
        destruct (Nat.eqb_spec q p) as [e'|ne']; [|eauto].
        subst q. inversion Gq; subst c. exists b. repeat split; auto. now apply strip_owned.
      * apply (Fr_upd D0 h0 h p b); [apply A|assumption|assumption| |].
        -- intros Hd. apply N, (fs_incl _ _ _ _ _ A), Hd.
        -- right. eauto.
      * apply A.
      * rewrite len_upd by assumption. apply A.
Qed.

(** what a release function does *)
Definition frees (k : block -> bool) (bound : ptr -> Prop) (f : option ptr -> M unit) : Prop :=
  (forall h, f None h = Some (tt, h)) /\
  forall h E D p, Inv cp h (p :: E) D -> Rank rk h D -> pk h k (Some p) -> bound p ->
    wp (f (Some p)) (fun _ h' => FSt h D h' E D) h.

Lemma frees_opt k bound f h0 D0 h o E D (Q : _ -> heap -> Prop) : frees k bound f -> FSt h0 D0 h (olist o ++ E) D -> pk h k o ->
  (forall q, In q (olist o) -> bound q) ->
  (forall h', FSt h0 D0 h' E D -> Fr D h h' -> Q tt h') -> wp (f o) Q h.
Proof.
  intros [FN FS] A P B K. destruct o as [q|].
  - cbn [olist app] in A. eapply wp_conseq.
    + apply (FS h E D q); [apply A|apply A|assumption|apply B; now left].
    + intros [] h' A'. apply K; [eapply FSt_call; eauto|apply A'].
  - unfold wp. rewrite FN. apply K; [exact A|apply Fr_refl].
Qed.
Lemma wp_free_each k bound f (Sk : stripped k) : frees k bound f ->
  forall l h0 D0 h E D (Q : unit -> heap -> Prop), FSt h0 D0 h (flat_map olist l ++ E) D -> Forall (pk h k) l ->
  (forall q, In q (flat_map olist l) -> bound q) ->
  (forall h', FSt h0 D0 h' E D -> Fr D h h' -> Q tt h') -> wp (free_each f l) Q h.
Proof.
  intros FF l. induction l as [|o l IH]; intros h0 D0 h E D Q A P B K; cbn [free_each flat_map] in *.
  - apply wp_ret, K; [exact A|apply Fr_refl].
  - apply wp_bind. inversion P as [|? ? Po Pl]; subst. rewrite <- app_assoc in A.
    apply (frees_opt k bound f h0 D0 h o (flat_map olist l ++ E) D); auto.
    + intros q Hq. apply B, in_or_app. now left.
    + intros h' A' F'. apply (IH h0 D0 h' E D); auto.
      * rewrite Forall_forall in *. intros [q|] Hq; [|exact I]. apply (Fr_pk D h h'); [assumption|assumption|now apply Pl|].
        apply (inv_E _ _ _ _ q (fs_inv _ _ _ _ _ A')). apply in_or_app. left. apply in_flat_map. exists (Some q). now split; [|left].
      * intros q Hq. apply B, in_or_app. now right.
      * intros h2 A2 F2. apply K; [assumption|]. apply (Fr_trans D D h h' h2); auto using incl_refl.
Qed.

Lemma leaf_ys b : is_ys b = true -> head_of b = None /\ owned b = [].
Proof. destruct b; try discriminate; auto. Qed.
Lemma leaf_ix b : is_ix b = true -> head_of b = None /\ owned b = [].
Proof. destruct b; try discriminate; auto. Qed.
Lemma leaf_ints n b : is_ints n b = true -> head_of b = None /\ owned b = [].
Proof. destruct b; try discriminate; auto. Qed.
Lemma leaf_dbls n b : is_dbls n b = true -> head_of b = None /\ owned b = [].
Proof. destruct b; try discriminate; auto. Qed.
Lemma leaf_str b : is_str b = true -> head_of b = None /\ owned b = [].
Proof. destruct b; try discriminate; auto. Qed.

Definition top (_ : ptr) : Prop := True.

Lemma ring_free_ok : frees is_ring top tg_ring_free.
Proof.
  split; [reflexivity|]. intros h E D p I R (b & G & K) _.
  destruct b as [hd r ix ys| | | | | | | | | |]; try discriminate K.
  cbn [tg_ring_free]. apply wp_bind.
  apply (wp_stays h D h p (BRing hd r ix ys) hd E D); [now apply FSt_start|assumption|reflexivity| |].
  - intros h' A. now apply wp_ret.
  - intros h' b' A N S NH G' T X. apply wp_bind, (wp_load p b'); [assumption|]. cbn [b' set_head].
    apply wp_bind. cbn [owned] in A.
    apply (wp_free_opt h D h' ys is_ys E (p :: D)); [assumption|apply T|apply leaf_ys|].
    intros h2 A2 F2. apply (wp_free_D h D h2 p E D); auto.
    intros c Gc. rewrite (fr_nh _ _ _ F2 p b' G') in Gc by (right; now left). inversion Gc. exact NH.
Qed.
Lemma ring_free_any k bound : (forall b, k b = true -> is_ring b = true) -> frees k bound tg_ring_free.
Proof.
  intros H. destruct ring_free_ok as [A B]. split; [exact A|]. intros h E D p I R (b & G & K) _.
  apply B; try assumption; [|exact Logic.I]. exists b. auto.
Qed.

(** the pointers of an array in an object that is taken apart *)
Lemma wp_free_array k bound f (Sk : stripped k) n : frees k bound f -> forall a h0 D0 h E D (Q : unit -> heap -> Prop),
  FSt h0 D0 h (olist a ++ E) D -> parr h k n a ->
  (forall q l r, a = Some q -> get h q = Some (BPtrs l) -> In r (flat_map olist l) -> bound r) ->
  (forall h', FSt h0 D0 h' E D -> Fr D h h' -> Q tt h') ->
  wp (match a with
      | None => ret tt
      | Some a =>
          ba <- load a ;;
          match ba with
          | BPtrs l => if (n =? length l)%nat then free_each f l ;;; tg_free a else ub
          | _ => ub
          end
      end) Q h.
Proof.
  intros FF a h0 D0 h E D Q A P B K. destruct a as [a|]; [|apply wp_ret, K; [exact A|apply Fr_refl]].
  destruct P as (l & G & L & F). cbn [olist app] in A.
  apply wp_bind, (wp_load a (BPtrs l)); [assumption|].
  assert (E1 : (n =? length l) = true) by (apply Nat.eqb_eq; lia). rewrite E1.
  apply wp_bind. destruct (FSt_enter _ _ _ _ _ _ _ A G eq_refl eq_refl) as [A1 N1].
  apply (wp_free_each k bound f Sk FF l h0 D0 h E (a :: D)); auto.
  - intros q Hq. now apply (B a l).
  - intros h2 A2 F2. assert (G2 : get h2 a = Some (BPtrs l)) by (apply (fr_nh _ _ _ F2 a _ G); right; now left).
    apply (wp_free_D h0 D0 h2 a E D); auto.
    + apply A.
    + intros c Gc. rewrite G2 in Gc. inversion Gc. reflexivity.
    + intros A3. apply K; [assumption|].
      apply (Fr_upd D h h2 a (BPtrs l)); auto. apply (Fr_D D (a :: D) h h2); [assumption|]. apply incl_tl, incl_refl.
Qed.

Lemma poly_free_ok : frees is_pol top tg_poly_free.
Proof.
  split; [reflexivity|]. intros h E D p I R (b & G & K) _.
  cbn [tg_poly_free]. apply wp_bind, (wp_load p b); [assumption|].
  destruct b as [hd r ix ys| |hd e n hs| | | | | | | |]; try discriminate K.
  - apply ring_free_ok; auto; [|exact Logic.I]. now exists (BRing hd r ix ys).
  - apply wp_bind. apply (wp_stays h D h p (BPoly hd e n hs) hd E D); [now apply FSt_start|assumption|reflexivity| |].
    + intros h' A. now apply wp_ret.
    + intros h' b' A N S NH G' T X. apply wp_bind, (wp_load p b'); [assumption|]. cbn [b' set_head].
      apply wp_bind. cbn [owned] in A. rewrite <- app_assoc in A. destruct T as [_ [T1 T2]].
      apply (frees_opt is_ring top tg_ring_free h D h' e (olist hs ++ E) (p :: D)); auto using ring_free_ok; [intros; exact Logic.I|].
      intros h2 A2 F2. apply wp_bind.
      assert (KK : forall q, In q (olist hs) -> keep h' h2 q).
      { intros q Hq c Gc. destruct (fr_live _ _ _ F2 q c Gc) as [G2|]; [|assumption]. exfalso.
        apply (proj1 (inv_E _ _ _ _ q (fs_inv _ _ _ _ _ A2) ltac:(apply in_or_app; now left))), G2. }
      apply (wp_free_array is_ring top tg_ring_free st_ring n ring_free_ok hs h D h2 E (p :: D)); auto.
      * apply (parr_keep h'); auto using st_ring. intros q Hq. split; [now apply KK|].
        intros c Gc r Hr. destruct (KK q Hq c Gc) as (c2 & G2 & S2).
        destruct (inv_E _ _ _ _ q (fs_inv _ _ _ _ _ A2) ltac:(apply in_or_app; now left)) as [_ Nq].
        rewrite <- (strip_owned _ _ S2) in Hr.
        destruct (inv_owned _ _ _ _ _ _ _ (fs_inv _ _ _ _ _ A2) G2 Nq Hr) as [Lr _].
        intros x Gx. destruct (fr_live _ _ _ F2 r x Gx) as [G3|]; [congruence|assumption].
      * intros; exact Logic.I.
      * intros h3 A3 F3. apply (wp_free_D h D h3 p E D); auto.
        intros c Gc. rewrite (fr_nh _ _ _ F3 p b') in Gc; [inversion Gc; exact NH| |right; now left].
        apply (fr_nh _ _ _ F2 p b' G'). right. now left.
Qed.

Lemma point_free_ok h E D p : Inv cp h (p :: E) D -> Rank rk h D -> (exists hd x, get h p = Some (BPoint hd x)) ->
  wp (boxed_point_free p) (fun _ h' => FSt h D h' E D) h.
Proof.
  intros I R (hd & x & G). unfold boxed_point_free. apply wp_bind.
  apply (wp_stays h D h p (BPoint hd x) hd E D); [now apply FSt_start|assumption|reflexivity| |].
  - intros h' A. now apply wp_ret.
  - intros h' b' A N S NH G' T X. cbn [owned app] in A.
    apply (wp_free_D h D h' p E D); auto. intros c Gc. rewrite G' in Gc. inversion Gc. exact NH.
Qed.

(** what remains held keeps its type *)
Lemma pk_held D h h2 D0 h0 E o : Fr D h h2 -> FSt h0 D0 h2 E D -> forall f, stripped f -> (forall q, In q (olist o) -> In q E) ->
  pk h f o -> pk h2 f o.
Proof.
  intros F A f Sf HE P. apply (pk_keep h); auto. intros q Hq c Gc.
  destruct (fr_live _ _ _ F q c Gc) as [G2|]; [|assumption]. exfalso.
  apply (proj1 (inv_E _ _ _ _ q (fs_inv _ _ _ _ _ A) (HE q Hq))), G2.
Qed.

Lemma geom_free_ok f bound p : frees is_obj bound f ->
  (forall q, rk q < rk p -> bound q) ->
  forall h E D, Inv cp h (p :: E) D -> Rank rk h D -> (exists hd pl c nc xj, get h p = Some (BGeom hd pl c nc xj)) ->
  wp (geom_free f p) (fun _ h' => FSt h D h' E D) h.
Proof.
  intros FF B h E D I R (hd & pl & c & nc & xj & G). unfold geom_free. apply wp_bind.
  apply (wp_stays h D h p (BGeom hd pl c nc xj) hd E D); [now apply FSt_start|assumption|reflexivity| |].
  - intros h' A. now apply wp_ret.
  - intros h' b' A N S NH G' T X. apply wp_bind, (wp_load p b'); [assumption|]. cbn [b' set_head].
    apply wp_bind. cbn [owned] in A. rewrite <- !app_assoc in A. destruct T as [_ [T1 T2]].
    assert (Rp : forall q, In q (match pl with PlPoint _ _ _ => [] | PlLine l => olist l | PlPoly q => olist q | PlMulti _ m => olist m end) -> rk q < rk p).
    { intros q Hq. apply (R p _ q G); [|cbn [owned]; apply in_or_app; now left].
      intros H. apply N, H. }
    (* the second half, after the payload is released *)
    assert (REST : forall h2, FSt h D h2 (olist c ++ olist xj ++ E) (p :: D) -> Fr (p :: D) h' h2 ->
      wp ((match pl with PlPoint _ _ _ => ret tt | _ => free_opt c end ;;; free_opt xj ;;; tg_free p))
         (fun _ h' => FSt h D h' E D) h2).
    { intros h2 A2 F2. apply wp_bind.
      assert (RR : forall h3, FSt h D h3 (olist xj ++ E) (p :: D) -> Fr (p :: D) h2 h3 ->
                wp (free_opt xj ;;; tg_free p) (fun _ h' => FSt h D h' E D) h3).
      { intros h3 A3 F3. apply wp_bind.
        assert (F13 : Fr (p :: D) h' h3) by (apply (Fr_trans (p :: D) (p :: D) h' h2 h3); auto using incl_refl).
        apply (wp_free_opt h D h3 xj is_str E (p :: D)); [assumption| |apply leaf_str|].
        - apply (pk_held (p :: D) h' h3 D h (olist xj ++ E) xj); auto using st_str. intros; apply in_or_app; now left.
        - intros h4 A4 F4. apply (wp_free_D h D h4 p E D); auto.
          intros z Gz. rewrite (fr_nh _ _ _ F4 p b') in Gz; [inversion Gz; exact NH| |right; now left].
          apply (fr_nh _ _ _ F13 p b' G'). right. now left. }
      assert (PC : match pl with PlPoint _ _ _ => c = None | _ => pk h2 (is_dbls nc) c end).
      { destruct pl; [exact T2| | |]; destruct T2 as [T2 T3];
        (apply (pk_held (p :: D) h' h2 D h (olist c ++ olist xj ++ E) c); auto using st_dbls; intros; apply in_or_app; now left). }
      destruct pl.
      - subst c. cbn [olist app] in A2. apply wp_ret, RR; [assumption|apply Fr_refl].
      - apply (wp_free_opt h D h2 c (is_dbls nc) (olist xj ++ E) (p :: D)); [assumption|assumption|apply leaf_dbls|].
        intros h3 A3 F3. now apply RR.
      - apply (wp_free_opt h D h2 c (is_dbls nc) (olist xj ++ E) (p :: D)); [assumption|assumption|apply leaf_dbls|].
        intros h3 A3 F3. now apply RR.
      - apply (wp_free_opt h D h2 c (is_dbls nc) (olist xj ++ E) (p :: D)); [assumption|assumption|apply leaf_dbls|].
        intros h3 A3 F3. now apply RR. }
    destruct pl as [x z m|l|q|t [m|]].
    + apply wp_ret, REST; [exact A|apply Fr_refl].
    + apply (frees_opt is_ring top tg_ring_free h D h' l (olist c ++ olist xj ++ E) (p :: D)); auto using ring_free_ok; [apply T2|intros; exact Logic.I].
    + apply (frees_opt is_pol top tg_poly_free h D h' q (olist c ++ olist xj ++ E) (p :: D)); auto using poly_free_ok; [apply T2|intros; exact Logic.I].
    + destruct T2 as (_ & bm & Gm & Km). destruct bm as [| | | | | |gs n r ix ixg| | | |]; try discriminate Km.
      apply wp_bind, (wp_load m (BMulti gs n r ix ixg)); [assumption|].
      pose proof (inv_E _ _ _ _ m (fs_inv _ _ _ _ _ A) (or_introl eq_refl)) as [Lm Nm].
      pose proof (inv_ty _ _ _ _ (fs_inv _ _ _ _ _ A) m _ Gm Nm) as [_ (Tg & Ti & Tx)].
      destruct (FSt_enter _ _ _ _ _ _ _ A Gm eq_refl eq_refl) as [A1 N1]. cbn [owned] in A1. rewrite <- !app_assoc in A1.
      apply wp_bind.
      apply (wp_free_array is_obj bound f st_obj n FF gs h D h' (olist ix ++ olist ixg ++ olist c ++ olist xj ++ E) (m :: p :: D)); auto.
      * intros a l q -> Ga Hq. apply B.
        assert (rk m < rk p) by (apply Rp; now left).
        assert (Na : ~ In a (m :: p :: D)).
        { apply (inv_E _ _ _ _ a (fs_inv _ _ _ _ _ A1)). cbn [olist app]. now left. }
        assert (rk a < rk m) by (apply (fs_rank _ _ _ _ _ A m _ a Gm Nm); cbn [owned olist app]; now left).
        assert (rk q < rk a); [|lia].
        apply (fs_rank _ _ _ _ _ A1 a _ q Ga Na). exact Hq.
      * intros h2 A2 F2. apply wp_bind.
        apply (wp_free_opt h D h2 ix is_ix (olist ixg ++ olist c ++ olist xj ++ E) (m :: p :: D)); [assumption| |apply leaf_ix|].
        { apply (pk_held (m :: p :: D) h' h2 D h (olist ix ++ olist ixg ++ olist c ++ olist xj ++ E) ix); auto using st_ix.
          intros; rewrite !in_app_iff; tauto. }
        intros h3 A3 F3. apply wp_bind.
        assert (F13 : Fr (m :: p :: D) h' h3) by (apply (Fr_trans (m :: p :: D) (m :: p :: D) h' h2 h3); auto using incl_refl).
        apply (wp_free_opt h D h3 ixg (is_ints n) (olist c ++ olist xj ++ E) (m :: p :: D)); [assumption| |apply leaf_ints|].
        { apply (pk_held (m :: p :: D) h' h3 D h (olist ixg ++ olist c ++ olist xj ++ E) ixg); auto using st_ints.
          intros; rewrite !in_app_iff; tauto. }
        intros h4 A4 F4.
        assert (F14 : Fr (m :: p :: D) h' h4) by (apply (Fr_trans (m :: p :: D) (m :: p :: D) h' h3 h4); auto using incl_refl).
        assert (G4 : get h4 m = Some (BMulti gs n r ix ixg)) by (apply (fr_nh _ _ _ F14 m _ Gm); right; now left).
        apply (wp_free_D h D h4 m (olist c ++ olist xj ++ E) (p :: D)); auto.
        -- now apply incl_tl.
        -- intros z Gz. rewrite G4 in Gz. inversion Gz. reflexivity.
        -- intros A5. apply REST; [assumption|].
           apply (Fr_upd (p :: D) h' h4 m (BMulti gs n r ix ixg)); auto.
           apply (Fr_D (p :: D) (m :: p :: D) h' h4); [assumption|]. apply incl_tl, incl_refl.
    + apply wp_ret, REST; [exact A|apply Fr_refl].
Qed.

Lemma geom_free_fuel_ok n : 0 < n -> frees is_obj (fun q => S (rk q) < n) (geom_free_fuel n).
Proof.
  induction n as [|n IH]; intros Hn; [lia|]. split; [reflexivity|].
  intros h E D p I R (b & G & K) L. cbn [geom_free_fuel]. apply wp_bind, (wp_load p b); [assumption|].
  destruct b as [hd r ix ys|y base|hd e m hs|l|hd x|hd pl c nc xj|gs m r ix ixg|i base|l|l|s]; try discriminate K.
  - apply ring_free_ok; auto; [|exact Logic.I]. eexists. split; [exact G|reflexivity].
  - apply poly_free_ok; auto; [|exact Logic.I]. eexists. split; [exact G|reflexivity].
  - apply point_free_ok; eauto.
  - apply (geom_free_ok _ (fun q => S (rk q) < n) p); eauto 8; [apply IH; lia|].
    cbv beta. intros. lia.
Qed.
End Free.

(** tg_geom_free *)
Lemma tg_geom_free_ok cp h E D p : Inv cp h (p :: E) D -> (exists rk, Rank rk h D) -> pk h is_obj (Some p) ->
  wp (tg_geom_free (Some p)) (fun _ h' => Inv cp h' E D /\ Fr D h h' /\ length (cells h') = length (cells h)) h.
Proof.
  intros I [rk R] K. pose proof (Rank_norm _ _ _ _ _ I R) as RN.
  destruct (geom_free_fuel_ok cp (rnorm rk h) (S (S (length (cells h)))) (Nat.lt_0_succ _)) as [_ FF].
  eapply wp_conseq; [apply (FF h E D p I RN K)|].
  - destruct K as (b & G & _). pose proof (rnorm_lt rk h p b G). lia.
  - intros [] h' A. split; [|split]; apply A.
Qed.
