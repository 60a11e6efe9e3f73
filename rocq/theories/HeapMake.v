(** * Functions that answer a new reference *)

From Coq Require Import ZArith Bool List Lia Arith.
From Verif Require Import F64 Geo Series Geom MultiIx Heap HeapGeom SpecHeap HeapFacts HeapStep HeapFree HeapDen HeapNew.
Import ListNotations.
Local Open Scope nat_scope.

(** [f x] answers a reference to a new or retained object of kind [k], or NULL *)
Definition makes (cp : bool) {A : Type} (k : block -> bool) (arg : (ptr -> nat) -> heap -> list ptr -> A -> Prop)
  (post : heap -> A -> option ptr -> heap -> Prop) (f : A -> M (option ptr)) : Prop :=
  forall rk h E D x, Inv cp h E D -> Rank rk h D -> arg rk h D x ->
    wp (f x) (fun r h' => St cp rk h E D h' (olist r) [] /\ pk h' k r /\ post h x r h') h.

(** what [h] has outside of [D] is kept in [h'] *)
Definition kept (D : list ptr) (h h' : heap) : Prop := forall p, ~ In p D -> keep h h' p.
Lemma kept_refl D h : kept D h h.
Proof. intros p _. apply keep_refl. Qed.
Lemma kept_trans D h1 h2 h3 : kept D h1 h2 -> kept D h2 h3 -> kept D h1 h3.
Proof. intros A B p N. eapply keep_trans; [now apply A|now apply B]. Qed.
Lemma kept_sub D D' h h' : incl D D' -> kept D h h' -> kept D' h h'.
Proof. intros S A p N. apply A. intros H. apply N, S, H. Qed.
Lemma kept_others D h h' q : In q D -> (forall x, x <> q -> get h' x = get h x) -> kept D h h'.
Proof. intros Hq O p N b G. exists b. split; [|reflexivity]. rewrite O; [assumption|]. intros ->. contradiction. Qed.
Lemma kept_fresh D h h' q : get h q = None -> (forall x, x <> q -> get h' x = get h x) -> kept D h h'.
Proof. intros Gq O p N b G. exists b. split; [|reflexivity]. rewrite O; [assumption|]. intros ->. congruence. Qed.
Lemma kept_cells D h h' : cells h' = cells h -> kept D h h'.
Proof. intros C p N b G. exists b. split; [|reflexivity]. unfold get in *. now rewrite C. Qed.
Lemma kept_pk D h h' k o : kept D h h' -> stripped k -> (forall q, In q (olist o) -> ~ In q D) -> pk h k o -> pk h' k o.
Proof. intros K Sk N P. apply (pk_keep h); auto. Qed.

(** a view without the blocks [D] *)
Definition off (D : list ptr) (v : view) : view := fun x => if in_dec Nat.eq_dec x D then None else v x.
Lemma off_vle D v : vle (off D v) v.
Proof. intros x b. unfold off. destruct (in_dec _ _ _); [discriminate|]. eauto. Qed.
Lemma off_kept D n h h' : kept D h h' -> vle (fresh n (off D (get h))) (fresh n (off D (get h'))).
Proof.
  intros K x b. unfold fresh, off. destruct (x <? n); [discriminate|]. destruct (in_dec _ _ _) as [|N]; [discriminate|].
  intros G. destruct (K x N b G) as (b' & G' & S'). eauto.
Qed.
Lemma fresh_off_vle n n' D v : n' <= n -> (forall p, In p D -> p < n) -> vle (fresh n v) (fresh n' (off D v)).
Proof.
  intros L H x b. unfold fresh, off. destruct (Nat.ltb_spec x n); [discriminate|]. intros G.
  destruct (Nat.ltb_spec x n'); [lia|]. destruct (in_dec _ _ _) as [i|]; [|eauto]. apply H in i. lia.
Qed.
Lemma fresh_off_sub n D D' v : (forall x, In x D' -> In x D \/ v x = None) -> vle (fresh n (off D v)) (fresh n (off D' v)).
Proof.
  intros S x b. unfold fresh, off. destruct (x <? n); [discriminate|]. destruct (in_dec Nat.eq_dec x D); [discriminate|].
  intros G. destruct (in_dec Nat.eq_dec x D') as [i|]; [|eauto]. apply S in i. destruct i; [contradiction|congruence].
Qed.
Lemma fresh_off_drop n D v : vle (fresh n (off D v)) (fresh n v).
Proof.
  intros x b. unfold fresh, off. destruct (x <? n); [discriminate|]. destruct (in_dec Nat.eq_dec x D); [discriminate|]. eauto.
Qed.

Definition one (a p : ptr) : nat := if Nat.eq_dec a p then 1 else 0.
Lemma cnt_cons a l p : cnt (a :: l) p = one a p + cnt l p.
Proof. unfold one. cbn. destruct (Nat.eq_dec a p); reflexivity. Qed.
Lemma cnt_nil p : cnt [] p = 0.
Proof. reflexivity. Qed.
Ltac perm := let x := fresh in intros x; cbn [olist flat_map app owned]; repeat rewrite ?cnt_app, ?cnt_cons, ?cnt_nil; lia.

(** blocks without a head and without references of their own *)
Definition leafb (b : block) : bool :=
  match b with BYs _ _ | BIx _ _ | BInts _ | BDbls _ | BStr _ => true | _ => false end.

Section Make.
Context {cp : bool} {rk0 : ptr -> nat} {h0 : heap} {E0 D0 : list ptr}.
Notation St' := (St cp rk0 h0 E0 D0).

(** everything of the start is still there *)
Lemma St_vle h X Y : St' h X Y -> vle (get h0) (get h).
Proof.
  intros A x b G. destruct (in_dec Nat.eq_dec x D0) as [i|n].
  - exists b. split; [|reflexivity]. apply (fr_nh _ _ _ (st_fr _ _ _ _ _ _ _ _ A) x b G). now right.
  - now apply (St_keep _ _ _ A x n).
Qed.
Lemma St_arg h X Y p b : St' h X Y -> get h0 p = Some b -> ~ In p D0 -> ~ In p (Y ++ D0).
Proof.
  intros A G N H. apply in_app_iff in H. destruct H as [H|H]; [|contradiction].
  apply (st_new _ _ _ _ _ _ _ _ A) in H. apply get_lt in G. lia.
Qed.

Lemma St_compose h X Y rk h' X' Y' : St' h X Y -> Rank rk h (Y ++ D0) -> (forall x, x < length (cells h0) -> rk x = rk0 x) ->
  St cp rk h (X ++ E0) (Y ++ D0) h' X' Y' -> St' h' (X' ++ X) (Y' ++ Y).
Proof.
  intros A R EQ B. pose proof (St_len _ _ _ A) as L. constructor; try apply A.
  - rewrite <- !app_assoc. apply B.
  - destruct (st_rank _ _ _ _ _ _ _ _ B) as (rk' & R' & EQ'). exists rk'. rewrite <- app_assoc. split; [assumption|].
    intros x Lx. rewrite EQ' by lia. now apply EQ.
  - apply (Fr_trans D0 (Y ++ D0) h0 h h'); [apply A|apply B|]. apply incl_appr, incl_refl.
  - intros y Hy. apply in_app_iff in Hy. destruct Hy as [Hy|Hy]; [|now apply A].
    apply (st_new _ _ _ _ _ _ _ _ B) in Hy. lia.
  - rewrite (st_ok _ _ _ _ _ _ _ _ B). apply A.
  - pose proof (st_calls _ _ _ _ _ _ _ _ A). pose proof (st_calls _ _ _ _ _ _ _ _ B). lia.
Qed.

Lemma wp_call {T} k arg post (f : T -> M (option ptr)) h X Y x (Q : option ptr -> heap -> Prop) :
  makes cp k arg post f -> St' h X Y ->
  (forall rk, (forall x, x < length (cells h0) -> rk x = rk0 x) -> arg rk h (Y ++ D0) x) ->
  (forall r h', St' h' (olist r ++ X) Y -> pk h' k r -> post h x r h' -> (forall y, In y Y -> get h' y = get h y) ->
     kept (Y ++ D0) h h' -> calls h <= calls h' -> length (cells h) <= length (cells h') -> Q r h') ->
  wp (f x) Q h.
Proof.
  intros F A AR K. destruct (st_rank _ _ _ _ _ _ _ _ A) as (rk & R & EQ).
  eapply wp_conseq; [apply (F rk h (X ++ E0) (Y ++ D0) x (st_inv _ _ _ _ _ _ _ _ A) R (AR rk EQ))|].
  intros r h' (B & P & PO). apply K; auto.
  - apply (St_compose h X Y rk h' (olist r) [] A R EQ B).
  - apply (St_D_same _ _ _ _ _ _ _ B).
  - intros p N. apply (St_keep _ _ _ B p N).
  - apply (st_calls _ _ _ _ _ _ _ _ B).
  - apply (St_len _ _ _ B).
Qed.

Lemma St_leaf h X Y q b : St' h X (q :: Y) -> get h q = Some b -> leafb b = true -> St' h (q :: X) Y.
Proof.
  intros A G H. destruct b; try discriminate H; (refine (St_publish h X Y q _ _ G _ _ _); [exact A|reflexivity|reflexivity|split; [reflexivity|exact Logic.I]]).
Qed.
Lemma St_array h X Y a l : St' h (flat_map olist l ++ X) (a :: Y) -> get h a = Some (BPtrs l) -> St' h (a :: X) Y.
Proof. intros A G. refine (St_publish h X Y a _ _ G _ _ _); [exact A|reflexivity|reflexivity|split; [reflexivity|exact Logic.I]]. Qed.

Lemma wp_copy_opt h X Y f from (Q : option (option ptr) -> heap -> Prop) : St' h X Y -> pk h f from ->
  (forall b, f b = true -> leafb b = true) ->
  (forall r h', St' h' (olist r ++ X) Y -> pk h' f r -> (forall y, In y Y -> get h' y = get h y) -> kept (Y ++ D0) h h' ->
     calls h <= calls h' -> length (cells h) <= length (cells h') ->
     match from, r with
     | None, None => True
     | Some q, Some q' => length (cells h) <= q' /\ ~ In q' (Y ++ D0) /\ get h' q' = get h q
     | _, _ => False
     end -> Q (Some r) h') ->
  (forall h', St' h' X Y -> cells h' = cells h -> calls h <= calls h' -> oom h h' -> Q None h') ->
  wp (copy_opt from f) Q h.
Proof.
  intros A P L KS KN. destruct from as [q|]; cbn [copy_opt].
  - destruct P as (b & G & F). apply wp_bind, (wp_load q b); [assumption|]. rewrite F. specialize (L b F).
    apply wp_bind. eapply wp_alloc; [exact A| | |].
    + intros _. destruct b; try discriminate L; reflexivity.
    + intros h' q' -> A' G' O' L' C'. apply wp_ret. apply KS.
      * cbn [olist app]. eapply St_leaf; eauto.
      * exists b. auto.
      * intros y Hy. apply O'. intros ->. destruct (St_lt _ _ _ A (length (cells h)) ltac:(apply in_or_app; now left)). lia.
      * apply (kept_fresh _ _ _ (length (cells h))); [apply get_ge; lia|assumption].
      * lia.
      * lia.
      * split; [lia|]. split; [|congruence]. intros H. destruct (St_lt _ _ _ A _ H). lia.
    + intros h' A' C' L' O'. apply wp_ret. apply KN; auto. lia.
  - apply wp_ret, KS; auto using kept_refl; exact Logic.I.
Qed.

(** the calls of [f] that fill an array *)
Lemma wp_fill {T} k arg post (f : T -> M (option ptr)) must a (Sk : stripped k) (B : Prop) (P : heap -> T -> option ptr -> Prop) Y l :
  makes cp k arg post f -> In a Y ->
  (forall h X x rk, St' h X Y -> In x l -> (forall x, x < length (cells h0) -> rk x = rk0 x) -> arg rk h (Y ++ D0) x) ->
  (forall h X x r h', St' h X Y -> St' h' (olist r ++ X) Y -> In x l -> post h x r h' -> P h' x r) ->
  (forall h h' x r, kept (Y ++ D0) h h' -> P h x r -> P h' x r) ->
  (forall h X x h', St' h X Y -> In x l -> post h x None h' -> must = true -> oom h h' \/ B) ->
  forall l1 l2, l = l1 ++ l2 -> forall rs h X (Q : bool -> heap -> Prop), St' h (flat_map olist rs ++ X) Y ->
  length rs = length l1 -> get h a = Some (BPtrs (rs ++ repeat None (length l2))) -> Forall (pk h k) rs -> Forall2 (P h) l1 rs ->
  (must = true -> Forall (fun o => o <> None) rs) ->
  (forall b h' rs', St' h' (flat_map olist rs' ++ X) Y -> length rs' = length l ->
     get h' a = Some (BPtrs rs') -> Forall (pk h' k) rs' ->
     (forall y, In y Y -> y <> a -> get h' y = get h y) -> kept (Y ++ D0) h h' -> calls h <= calls h' ->
     length (cells h) <= length (cells h') ->
     (if b : bool then Forall2 (P h') l rs' /\ (must = true -> Forall (fun o => o <> None) rs') else must = true /\ (oom h0 h' \/ B)) ->
     Q b h') ->
  wp (fill_array f must a (length l1) l2) Q h.
Proof.
  intros F Ha AR PO PK PF. intros l1 l2. revert l1. induction l2 as [|x l2 IH]; intros l1 El rs h X Q A Lr G PKs PPs MM K; cbn [fill_array].
  - apply wp_ret. rewrite app_nil_r in El. subst l1. cbn [repeat length] in G. rewrite app_nil_r in G.
    apply (K true h rs); auto using kept_refl.
  - apply wp_bind. assert (Hx : In x l) by (rewrite El; apply in_or_app; right; now left).
    eapply (wp_call k arg post f h _ Y x); [exact F|exact A| |].
    { intros rk EQ. now apply (AR h (flat_map olist rs ++ X)). }
    intros r h1 A1 P1 PO1 O1 K1 C1 LL1.
    assert (G1 : get h1 a = Some (BPtrs (rs ++ None :: repeat None (length l2)))) by (rewrite O1; assumption).
    apply wp_bind. unfold store_at. apply wp_bind, (wp_load a _ _ _ G1).
    rewrite app_length, <- Lr. cbn [length]. rewrite (proj2 (Nat.ltb_lt _ _)) by lia.
    rewrite firstn_app, Nat.sub_diag, firstn_all, firstn_O, app_nil_r.
    replace (skipn (S (length rs)) (rs ++ None :: repeat None (length l2))) with (repeat (@None ptr) (length l2)).
    2:{ rewrite skipn_app. rewrite skipn_all2 by lia. replace (S (length rs) - length rs) with 1 by lia. reflexivity. }
    eapply wp_write; [exact A1|exact Ha|reflexivity|].
    intros h2 A2 G2 O2 L2 C2.
    assert (K2 : kept (Y ++ D0) h1 h2) by (apply (kept_others _ _ _ a); [apply in_or_app; now left|assumption]).
    assert (NYD : forall q, In q (olist r ++ flat_map olist rs ++ X) -> ~ In q (Y ++ D0)).
    { intros q Hq H. destruct (inv_E _ _ _ _ q (st_inv _ _ _ _ _ _ _ _ A1)) as [_ N]; [apply in_or_app; now left|]. contradiction. }
    assert (P2 : pk h2 k r) by (apply (kept_pk (Y ++ D0) h1); auto; intros q Hq; apply NYD, in_or_app; now left).
    assert (PKs2 : Forall (pk h2 k) rs).
    { rewrite Forall_forall in *. intros o Ho. apply (kept_pk (Y ++ D0) h); auto; [eapply kept_trans; eauto|].
      intros q Hq. apply NYD. rewrite !in_app_iff. right. left. apply in_flat_map. eauto. }
    assert (PPs2 : Forall2 (P h2) l1 rs).
    { eapply Forall2_imp; [|exact PPs]. intros y o. apply PK. eapply kept_trans; eauto. }
    assert (Px : P h2 x r) by (apply (PK h1); [assumption|]; exact (PO h _ x r h1 A A1 Hx PO1)).
    assert (A2' : St' h2 (flat_map olist (rs ++ [r]) ++ X) Y).
    { apply (St_X _ (olist r ++ flat_map olist rs ++ X)); [|assumption]. rewrite flat_map_app. cbn [flat_map]. rewrite app_nil_r.
      perm. }
    assert (GO : forall b : bool, match r, must with None, true => False | _, _ => True end ->
       wp (fill_array f must a (S (length rs)) l2) Q h2).
    { intros _ HR. replace (S (length rs)) with (length (l1 ++ [x])) by (rewrite app_length; cbn; lia).
      apply (IH (l1 ++ [x])) with (rs := rs ++ [r]) (X := X); auto.
      - rewrite <- app_assoc. assumption.
      - rewrite !app_length. cbn. lia.
      - rewrite <- app_assoc. assumption.
      - apply Forall_app. auto.
      - apply Forall2_app; auto.
      - intros HM. apply Forall_app. split; [now apply MM|]. constructor; [|constructor]. intros ->. now rewrite HM in HR.
      - intros b h' rs' A' L' G' F' O' K' C' LL' R'. apply (K b h' rs'); auto; try lia.
        + intros y Hy Ny. rewrite O', O2, O1; auto.
        + eapply kept_trans; [|exact K']. eapply kept_trans; eauto. }
    destruct r as [q|]; [apply (GO true Logic.I)|]. destruct must; [|apply (GO true Logic.I)].
    clear GO. apply wp_ret. apply (K false h2 (rs ++ None :: repeat None (length l2))); auto; try lia.
    + apply (St_X _ (flat_map olist (rs ++ [None]) ++ X)); [|assumption]. rewrite !flat_map_app. cbn [flat_map olist app].
      replace (flat_map olist (repeat None (length l2))) with (@nil ptr); [perm|].
      clear. induction (length l2) as [|n IHn]; [reflexivity|assumption].
    + rewrite El, !app_length. cbn [length]. rewrite repeat_length. lia.
    + apply Forall_app. split; [assumption|]. constructor; [exact Logic.I|]. clear. induction (length l2); constructor; auto. exact Logic.I.
    + intros y Hy Ny. rewrite O2, O1; auto.
    + eapply kept_trans; eauto.
    + split; [reflexivity|]. destruct (PF h _ x h1 A Hx PO1 eq_refl) as [O|O]; [|now right]. left.
      apply (oom_0 h _ _ h2 _ _ A A2). destruct O as (j & Lj & Oj). exists j. split; [lia|assumption].
Qed.
End Make.
