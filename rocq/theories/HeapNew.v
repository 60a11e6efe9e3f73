(** * Steps of the functions that allocate *)

From Coq Require Import ZArith Bool List Lia Arith.
From Verif Require Import F64 Geo Series Geom Heap HeapGeom SpecHeap HeapFacts HeapStep HeapFree HeapDen.
Import ListNotations.
Local Open Scope nat_scope.

(** some call of tg_malloc between the two states failed *)
Definition oom (h h' : heap) : Prop := exists k, calls h <= k < calls h' /\ ok h k = false.

(** [h] is a state in the middle of a function that began in [h0] with the
    references [E0] held and the blocks [D0] not counted: it holds in addition
    the references [X], and the new blocks [Y] are under construction *)
Record St (cp : bool) (rk0 : ptr -> nat) (h0 : heap) (E0 D0 : list ptr) (h : heap) (X Y : list ptr) : Prop := {
  st_inv0 : Inv cp h0 E0 D0;
  st_rank0 : Rank rk0 h0 D0;
  st_inv : Inv cp h (X ++ E0) (Y ++ D0);
  st_rank : exists rk, Rank rk h (Y ++ D0) /\ forall x, x < length (cells h0) -> rk x = rk0 x;
  st_fr : Fr D0 h0 h;
  st_new : forall y, In y Y -> length (cells h0) <= y;
  st_ok : ok h = ok h0;
  st_calls : calls h0 <= calls h
}.

Section Steps.
Context {cp : bool} {rk0 : ptr -> nat} {h0 : heap} {E0 D0 : list ptr}.
Notation St' := (St cp rk0 h0 E0 D0).

Lemma St_start : Inv cp h0 E0 D0 -> Rank rk0 h0 D0 -> St' h0 [] [].
Proof.
  intros I R. constructor; auto using Fr_refl.
  - exists rk0. auto.
  - intros y [].
Qed.
Lemma St_X h X X' Y : (forall p, cnt X p = cnt X' p) -> St' h X Y -> St' h X' Y.
Proof.
  intros C A. constructor; try apply A. apply (Inv_E _ _ (X ++ E0)); [|apply A].
  intros p. rewrite !cnt_app. now rewrite C.
Qed.
Lemma St_Y h X Y Y' : (forall p, In p Y <-> In p Y') -> NoDup Y' -> St' h X Y -> St' h X Y'.
Proof.
  intros C N A. pose proof (st_inv _ _ _ _ _ _ _ _ A) as I.
  assert (Q : forall p, In p (Y ++ D0) <-> In p (Y' ++ D0)) by (intros p; rewrite !in_app_iff, C; tauto).
  constructor; try apply A.
  - apply (Inv_D _ _ _ (Y ++ D0)); [assumption| |assumption].
    assert (ND0 : NoDup D0) by apply (inv_nd _ _ _ _ (st_inv0 _ _ _ _ _ _ _ _ A)).
    assert (FR : forall y, In y Y' -> ~ In y D0).
    { intros y Hy Hd. apply (inv_dl _ _ _ _ (st_inv0 _ _ _ _ _ _ _ _ A)) in Hd.
      apply Hd, get_ge. apply (st_new _ _ _ _ _ _ _ _ A). now apply C. }
    clear - N ND0 FR. induction Y' as [|y Y' IH]; [assumption|]. inversion N; subst. cbn [app]. constructor.
    + rewrite in_app_iff. intros [H|H]; [contradiction|]. apply (FR y); [now left|assumption].
    + apply IH; [assumption|]. intros z Hz. apply FR. now right.
  - destruct (st_rank _ _ _ _ _ _ _ _ A) as (rk & R & EQ). exists rk. split; [|assumption].
    apply (Rank_D _ _ (Y ++ D0)); [assumption|]. intros p. apply Q.
  - intros y Hy. apply (st_new _ _ _ _ _ _ _ _ A). now apply C.
Qed.
Lemma St_lt h X Y : St' h X Y -> forall p, In p (Y ++ D0) -> get h p <> None /\ p < length (cells h).
Proof.
  intros A p Hp. pose proof (inv_dl _ _ _ _ (st_inv _ _ _ _ _ _ _ _ A) p Hp) as L. split; [assumption|].
  destruct (get h p) eqn:G; [eapply get_lt, G|congruence].
Qed.
(** old blocks stay *)
Lemma St_keep h X Y : St' h X Y -> forall p, ~ In p D0 -> keep h0 h p.
Proof.
  intros A. apply (survive cp h0 E0 D0 h (X ++ E0) (Y ++ D0)); try apply A.
  - exists rk0. apply A.
  - intros p. rewrite cnt_app. lia.
  - intros p Hp L. apply in_app_iff in Hp. destruct Hp as [Hp|Hp]; [|assumption].
    apply (st_new _ _ _ _ _ _ _ _ A) in Hp. lia.
Qed.
Lemma St_len h X Y : St' h X Y -> length (cells h0) <= length (cells h).
Proof. intros A. apply A. Qed.

Lemma wp_alloc h X Y (b : ptr -> block) (Q : option ptr -> heap -> Prop) : St' h X Y ->
  (forall p, isnh (b p) = false) ->
  (forall h' q, q = length (cells h) -> St' h' X (q :: Y) -> get h' q = Some (b q) ->
     (forall x, x <> q -> get h' x = get h x) -> length (cells h') = S (length (cells h)) -> calls h' = S (calls h) -> Q (Some q) h') ->
  (forall h', St' h' X Y -> cells h' = cells h -> calls h' = S (calls h) -> oom h h' -> Q None h') ->
  wp (tg_malloc b) Q h.
Proof.
  intros A NH KS KN. unfold wp, tg_malloc. destruct (ok h (calls h)) eqn:OK.
  - apply (KS (alloc h (b (length (cells h))))); [reflexivity| | | | |reflexivity].
    + constructor; try apply A.
      * apply (Inv_alloc cp h _ (X ++ E0) (Y ++ D0)), A.
      * destruct (st_rank _ _ _ _ _ _ _ _ A) as (rk & R & EQ). exists rk. split; [|assumption].
        apply (Rank_sub rk h _ (Y ++ D0)); [assumption|]. intros p c Gp Np. rewrite get_alloc in Gp.
        destruct (Nat.eqb_spec p (length (cells h))) as [e|ne]; [exfalso; apply Np; now left|].
        exists c. repeat split; auto. intros H. apply Np. now right.
      * apply Fr_alloc; [apply A|apply NH].
      * intros y [<-|Hy]; [eapply St_len, A|]. now apply A.
      * cbn. pose proof (st_calls _ _ _ _ _ _ _ _ A). lia.
    + rewrite get_alloc. now rewrite Nat.eqb_refl.
    + intros x Hx. rewrite get_alloc. apply Nat.eqb_neq in Hx. now rewrite Hx.
    + apply len_alloc.
  - apply (KN (bump h)); [|reflexivity|reflexivity|].
    + constructor; try apply A.
      * apply (Inv_cells cp h); [reflexivity|apply A].
      * apply (Fr_cells D0 h0 h); [reflexivity|apply A].
      * cbn. pose proof (st_calls _ _ _ _ _ _ _ _ A). lia.
    + exists (calls h). cbn. split; [lia|assumption].
Qed.
Lemma wp_write h X Y q b (Q : unit -> heap -> Prop) : St' h X Y -> In q Y -> isnh b = false ->
  (forall h', St' h' X Y -> get h' q = Some b -> (forall x, x <> q -> get h' x = get h x) ->
     length (cells h') = length (cells h) -> calls h' = calls h -> Q tt h') ->
  wp (store q b) Q h.
Proof.
  intros A Hq NH K. assert (Hq' : In q (Y ++ D0)) by (apply in_or_app; now left).
  destruct (St_lt _ _ _ A q Hq') as [L Lq].
  apply wp_store; [assumption|]. apply K.
  - constructor; try apply A.
    + apply Inv_write; [assumption|apply A].
    + destruct (st_rank _ _ _ _ _ _ _ _ A) as (rk & R & EQ). exists rk. split; [|assumption].
      apply (Rank_sub rk h _ (Y ++ D0)); [assumption|]. intros p c Gp Np. rewrite get_upd in Gp by assumption.
      destruct (Nat.eqb_spec p q) as [e|ne]; [congruence|]. eauto.
    + apply Fr_new; [apply A|now apply (st_new _ _ _ _ _ _ _ _ A)|assumption|congruence].
  - rewrite get_upd by assumption. now rewrite Nat.eqb_refl.
  - intros x Hx. rewrite get_upd by assumption. apply Nat.eqb_neq in Hx. now rewrite Hx.
  - now apply len_upd.
  - reflexivity.
Qed.
Lemma St_publish h X Y q b : St' h (owned b ++ X) (q :: Y) -> get h q = Some b -> isnh b = false -> refs b = 1%Z ->
  typed cp h b -> St' h (q :: X) Y.
Proof.
  intros A G NH R T. pose proof (st_inv _ _ _ _ _ _ _ _ A) as I. rewrite <- app_assoc in I. cbn [app] in I.
  constructor; try apply A.
  - cbn [app]. eapply Inv_publish; eauto.
  - destruct (st_rank _ _ _ _ _ _ _ _ A) as (rk & RK & EQ).
    eexists. split; [apply (Rank_publish cp rk h q b (X ++ E0)); eauto|].
    intros x Lx. cbv beta. destruct (Nat.eqb_spec x q) as [e|ne]; [|now apply EQ].
    subst x. pose proof (st_new _ _ _ _ _ _ _ _ A q (or_introl eq_refl)). lia.
  - intros y Hy. apply (st_new _ _ _ _ _ _ _ _ A). now right.
Qed.
Lemma St_call h X Y h' X' Y' : St' h X Y ->
  (forall rk, Inv cp h (X ++ E0) (Y ++ D0) -> Rank rk h (Y ++ D0) -> St cp rk h (X ++ E0) (Y ++ D0) h' X' Y') ->
  St' h' (X' ++ X) (Y' ++ Y).
Proof.
  intros A B. destruct (st_rank _ _ _ _ _ _ _ _ A) as (rk & R & EQ).
  specialize (B rk (st_inv _ _ _ _ _ _ _ _ A) R). pose proof (St_len _ _ _ A) as L.
  constructor; try apply A.
  - rewrite <- !app_assoc. apply B.
  - destruct (st_rank _ _ _ _ _ _ _ _ B) as (rk' & R' & EQ'). exists rk'. rewrite <- app_assoc. split; [assumption|].
    intros x Lx. rewrite EQ' by lia. now apply EQ.
  - apply (Fr_trans D0 (Y ++ D0) h0 h h'); [apply A|apply B|]. apply incl_appr, incl_refl.
  - intros y Hy. apply in_app_iff in Hy. destruct Hy as [Hy|Hy]; [|now apply A].
    apply (st_new _ _ _ _ _ _ _ _ B) in Hy. lia.
  - rewrite (st_ok _ _ _ _ _ _ _ _ B). apply A.
  - pose proof (st_calls _ _ _ _ _ _ _ _ A). pose proof (st_calls _ _ _ _ _ _ _ _ B). lia.
Qed.
(** a new block without an owner is given back *)
Lemma wp_drop h X Y q (Q : unit -> heap -> Prop) : St' h X (q :: Y) ->
  (forall h', St' h' X Y -> (forall x, x <> q -> get h' x = get h x) -> calls h' = calls h -> Q tt h') ->
  wp (tg_free q) Q h.
Proof.
  intros A K. destruct (St_lt _ _ _ A q (or_introl eq_refl)) as [L Lq].
  apply wp_free; [assumption|]. apply K.
  - constructor; try apply A.
    + apply Inv_free, A.
    + destruct (st_rank _ _ _ _ _ _ _ _ A) as (rk & R & EQ). exists rk. split; [|assumption].
      apply (Rank_sub rk h _ (q :: Y ++ D0)); [assumption|]. intros p c Gp Np. rewrite get_upd in Gp by assumption.
      destruct (Nat.eqb_spec p q) as [e|ne]; [discriminate|]. exists c. repeat split; auto. intros [H|H]; congruence.
    + apply Fr_new; [apply A|apply (st_new _ _ _ _ _ _ _ _ A); now left|assumption|discriminate].
    + intros y Hy. apply (st_new _ _ _ _ _ _ _ _ A). now right.
  - intros x Hx. rewrite get_upd by assumption. apply Nat.eqb_neq in Hx. now rewrite Hx.
  - reflexivity.
Qed.
(** the answer [None] of the function and the failed allocation behind it *)
Lemma oom_0 h X Y h' X' Y' : St' h X Y -> St' h' X' Y' -> oom h h' -> oom h0 h'.
Proof.
  intros A B (k & L & O). exists k. rewrite <- (st_ok _ _ _ _ _ _ _ _ A).
  pose proof (st_calls _ _ _ _ _ _ _ _ A). split; [lia|assumption].
Qed.
Lemma St_D_same h X Y h' X' Y' rk : St cp rk h (X ++ E0) (Y ++ D0) h' X' Y' -> forall y, In y Y -> get h' y = get h y.
Proof.
  intros B y Hy. pose proof (inv_dl _ _ _ _ (st_inv0 _ _ _ _ _ _ _ _ B) y ltac:(apply in_or_app; now left)) as L.
  destruct (get h y) as [b|] eqn:G; [|congruence]. apply (fr_nh _ _ _ (st_fr _ _ _ _ _ _ _ _ B) y b G).
  right. apply in_or_app. now left.
Qed.
End Steps.

(** calls do not go backwards and the oracle stays *)
Definition mono {A} (m : M A) : Prop := forall h x h', m h = Some (x, h') -> ok h' = ok h /\ calls h <= calls h'.
Lemma mono_ret {A} (x : A) : mono (ret x).
Proof. intros h y h' E. inversion E; subst. auto. Qed.
Lemma mono_ub {A} : mono (@ub A).
Proof. intros h y h' E. discriminate. Qed.
Lemma mono_bind {A B} (m : M A) (k : A -> M B) : mono m -> (forall x, mono (k x)) -> mono (bind m k).
Proof.
  intros P Q h y h' E. unfold bind in E. destruct (m h) as [[x h1]|] eqn:E1; [|discriminate].
  destruct (P _ _ _ E1). destruct (Q x _ _ _ E). split; [congruence|lia].
Qed.
Lemma mono_load p : mono (load p).
Proof. intros h y h' E. unfold load in E. destruct (get h p); inversion E; subst; auto. Qed.
Lemma mono_store p b : mono (store p b).
Proof. intros h y h' E. unfold store in E. destruct (get h p); inversion E; subst; auto. Qed.
Lemma mono_free p : mono (tg_free p).
Proof. intros h y h' E. unfold tg_free in E. destruct (get h p); inversion E; subst; auto. Qed.
Lemma mono_stays p : mono (stays p).
Proof.
  unfold stays, rc_release. apply mono_bind; [apply mono_load|]. intros b. destruct (head_of b) as [h|]; [|apply mono_ub].
  destruct (h_noheap h); [apply mono_ret|]. apply mono_bind; [|intros; apply mono_ret].
  apply mono_bind; [apply mono_load|]. intros c. destruct (head_of c); [|apply mono_ub].
  apply mono_bind; [apply mono_store|]. intros; apply mono_ret.
Qed.
Lemma mono_free_opt p : mono (free_opt p).
Proof. destruct p; [apply mono_free|apply mono_ret]. Qed.
Ltac mono_with tac := repeat first
  [ tac tt | apply mono_ret | apply mono_ub | apply mono_load | apply mono_store | apply mono_free | apply mono_free_opt
  | apply mono_stays | match goal with |- mono (bind _ _) => (apply mono_bind; [|intros ?]) end
  | match goal with |- mono (match ?x with _ => _ end) => destruct x end ].
Ltac mono := mono_with ltac:(fun _ => fail).
Lemma mono_ring_free p : mono (tg_ring_free p).
Proof. destruct p; cbn [tg_ring_free]; mono. Qed.
Lemma mono_free_each f l : (forall p, mono (f p)) -> mono (free_each f l).
Proof. intros H. induction l; cbn [free_each]; mono_with ltac:(fun _ => first [apply H|assumption]). Qed.
Lemma mono_poly_free p : mono (tg_poly_free p).
Proof.
  destruct p; cbn [tg_poly_free]; mono_with ltac:(fun _ => first [apply mono_ring_free | apply mono_free_each, mono_ring_free]).
Qed.
Lemma mono_geom_free n p : mono (geom_free_fuel n p).
Proof.
  revert p. induction n as [|n IH]; intros p; cbn [geom_free_fuel]; unfold geom_free, boxed_point_free;
    mono_with ltac:(fun _ => first [apply mono_ring_free | apply mono_poly_free | apply mono_free_each, IH]).
Qed.

(** a new geometry that cannot be finished is released *)
Lemma wp_release {cp rk0 h0 E0 D0} h X Y q (Q : unit -> heap -> Prop) : St cp rk0 h0 E0 D0 h (q :: X) Y -> pk h is_obj (Some q) ->
  (forall h', St cp rk0 h0 E0 D0 h' X Y -> calls h <= calls h' -> Q tt h') -> wp (tg_geom_free (Some q)) Q h.
Proof.
  intros A P K. pose proof (st_inv _ _ _ _ _ _ _ _ A) as I. cbn [app] in I.
  destruct (st_rank _ _ _ _ _ _ _ _ A) as (rk & R & EQ).
  pose proof (tg_geom_free_ok cp h (X ++ E0) (Y ++ D0) q I (ex_intro _ rk R) P) as W.
  unfold wp in *. destruct (tg_geom_free (Some q) h) as [[[] h']|] eqn:E; [|exact W]. destruct W as (I' & F & L).
  destruct (mono_geom_free _ _ _ _ _ E) as [OK C]. apply K; [|assumption]. constructor; try apply A.
  - assumption.
  - exists rk. split; [|assumption]. apply (Rank_sub rk h _ (Y ++ D0)); [assumption|]. intros p c Gp Np.
    destruct (get h p) as [b|] eqn:Gb.
    + destruct (fr_live _ _ _ F p b Gb) as [G'|(b' & G' & S')]; [congruence|].
      exists b. repeat split; auto. assert (b' = c) by congruence. subst. now apply strip_owned.
    + rewrite (fr_dead _ _ _ F p) in Gp; [discriminate| |assumption]. rewrite <- L. eapply get_lt, Gp.
  - apply (Fr_trans D0 (Y ++ D0) h0 h h'); [apply A|assumption|]. apply incl_appr, incl_refl.
  - rewrite OK. apply A.
  - pose proof (st_calls _ _ _ _ _ _ _ _ A). lia.
Qed.
