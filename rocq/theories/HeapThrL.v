(** * The steps of HeapThr.v, one after the other, are the functions of Heap.v *)

From Coq Require Import ZArith Bool List Lia Arith.
From Verif Require Import F64 Geo Series Geom MultiIx Heap HeapGeom HeapHist HeapFacts HeapMore HeapFree HeapHistF HeapThr HeapThrF.
Import ListNotations.
Local Open Scope nat_scope.

(** the steps without the test of the static type *)
Definition loose (t : task) : M (list task) :=
  match t with
  | TFree k p =>
      b <- load p ;;
      match head_of b with Some h => ret (if h_noheap h then [] else [TRelease p]) | None => ub end
  | t => do_task t
  end.
Lemma do_loose t h r : do_task t h = Some r -> loose t h = Some r.
Proof.
  destruct t; cbn [loose]; auto. cbn [do_task]. unfold bind, load. destruct (get h p) as [b|]; [|discriminate]. destruct (fits_kind k b); [auto|discriminate].
Qed.

(** a thread alone works off its tasks *)
Inductive runs : list task -> heap -> heap -> Prop :=
  | runs_nil h : runs [] h h
  | runs_cons t ts new h h1 h2 : loose t h = Some (new, h1) -> runs (new ++ ts) h1 h2 -> runs (t :: ts) h h2.
Lemma runs_det l h h1 h2 : runs l h h1 -> runs l h h2 -> h1 = h2.
Proof.
  intros A. revert h2. induction A as [|t ts new h h1 h3 D A IH]; intros h2 B; inversion B; subst; [reflexivity|]. apply IH. congruence.
Qed.
Lemma runs_app l l' h h1 h2 : runs l h h1 -> runs l' h1 h2 -> runs (l ++ l') h h2.
Proof.
  intros A B. induction A as [|t ts new h h1 h3 D A IH]; [exact B|]. cbn [app]. apply (runs_cons t _ new h h1); [assumption|].
  rewrite app_assoc. now apply IH.
Qed.
Lemma runs_one t new h h1 h2 : loose t h = Some (new, h1) -> runs new h1 h2 -> runs [t] h h2.
Proof. intros D A. apply (runs_cons t [] new h h1); [assumption|]. now rewrite app_nil_r. Qed.

Lemma bind_inv {A B} (m : M A) (k : A -> M B) h y h2 : bind m k h = Some (y, h2) -> exists x h1, m h = Some (x, h1) /\ k x h1 = Some (y, h2).
Proof. unfold bind. destruct (m h) as [[x h1]|]; [|discriminate]. eauto. Qed.
Lemma load_inv p h b h1 : load p h = Some (b, h1) -> get h p = Some b /\ h1 = h.
Proof. unfold load. destruct (get h p); [|discriminate]. intros [= -> ->]. auto. Qed.
Ltac stp H := let x := fresh "x" in let h := fresh "h" in let E := fresh "E" in
  apply bind_inv in H; destruct H as (x & h & E & H).
Tactic Notation "ldl" hyp(H) ident(b) ident(G) := let h := fresh "h" in let E := fresh "E" in
  apply bind_inv in H; destruct H as (b & h & E & H); apply load_inv in E; destruct E as [G E]; subst h.

Lemma runs_free q h h' : tg_free q h = Some (tt, h') -> runs [TDrop q] h h'.
Proof. intros E. eapply runs_one; [|apply runs_nil]. cbn [loose do_task]. unfold bind. now rewrite E. Qed.
Lemma runs_drops o h h' : free_opt o h = Some (tt, h') -> runs (drops o) h h'.
Proof. destruct o; cbn [free_opt drops]; [apply runs_free|]. intros [= ->]. constructor. Qed.
Lemma runs_head k p h s h1 : stays p h = Some (s, h1) ->
  if s then runs [TFree k p] h h1 else forall h', runs [TTake p] h1 h' -> runs [TFree k p] h h'.
Proof.
  intros E. unfold stays in E. ldl E b G. destruct (head_of b) as [hd|] eqn:H; [|discriminate].
  assert (F : loose (TFree k p) h = Some (if h_noheap hd then [] else [TRelease p], h)).
  { cbn [loose]. unfold bind, load. now rewrite G, H. }
  destruct (h_noheap hd).
  - inversion E; subst. eapply runs_one; [exact F|]. constructor.
  - unfold bind in E. destruct (rc_release p h) as [[last h2]|] eqn:R; [|discriminate]. inversion E; subst.
    assert (RL : loose (TRelease p) h = Some (if last then [TTake p] else [], h1)) by (cbn [loose do_task]; unfold bind; now rewrite R).
    destruct last; cbn [negb].
    + intros h' A. eapply runs_one; [exact F|]. eapply runs_one; [exact RL|exact A].
    + eapply runs_one; [exact F|]. eapply runs_one; [exact RL|]. constructor.
Qed.
Lemma runs_take p b h h' : get h p = Some b -> match do_task (TTake p) h with Some (ts, h1) => runs ts h1 h' | None => False end -> runs [TTake p] h h'.
Proof. intros G. destruct (do_task (TTake p) h) as [[ts h1]|] eqn:E; [|contradiction]. intros R. eapply runs_one; [exact E|exact R]. Qed.
Ltac take G := eapply runs_take; [exact G|]; cbn [do_task]; unfold bind, load; rewrite G; cbn [ret].

Lemma runs_ring k o h h' : tg_ring_free o h = Some (tt, h') -> runs (HeapThr.frees k o) h h'.
Proof.
  destruct o as [p|]; cbn [tg_ring_free HeapThr.frees]; [|intros [= ->]; constructor]. intros E.
  apply bind_inv in E as (s & h1 & SE & E). pose proof (runs_head k p h s h1 SE) as X.
  destruct s; [inversion E; subst; exact X|]. apply X. ldl E b1 G1. destruct b1; try discriminate E. stp E. destruct x.
  take G1. eapply runs_app; [apply runs_drops; eassumption|]. now apply runs_free.
Qed.
Lemma runs_each (f : option ptr -> M unit) k : (forall o h h', f o h = Some (tt, h') -> runs (HeapThr.frees k o) h h') ->
  forall l h h', free_each f l h = Some (tt, h') -> runs (flat_map (HeapThr.frees k) l) h h'.
Proof.
  intros F l. induction l as [|o l IH]; intros h h' E; cbn [free_each flat_map] in *; [inversion E; constructor|].
  stp E. destruct x. eapply runs_app; [apply F; eassumption|]. now apply IH.
Qed.
(** the loop over an array *)
Lemma runs_arr (f : option ptr -> M unit) k n hs h h' : (forall o h h', f o h = Some (tt, h') -> runs (HeapThr.frees k o) h h') ->
  match hs with
  | None => ret tt
  | Some a => ba <- load a ;; match ba with BPtrs l => if n =? length l then free_each f l ;;; tg_free a else ub | _ => ub end
  end h = Some (tt, h') -> runs (arrs k hs n) h h'.
Proof.
  intros F E. destruct hs as [a|]; cbn [arrs]; [|inversion E; constructor]. ldl E b G. destruct b; try discriminate E.
  destruct (n =? length l) eqn:L; [|discriminate E]. stp E. destruct x.
  eapply runs_one; [cbn [loose do_task]; unfold bind, load; rewrite G, L; reflexivity|]. eapply runs_app; [eapply runs_each; eassumption|]. now apply runs_free.
Qed.
Lemma runs_poly k o h h' : tg_poly_free o h = Some (tt, h') -> runs (HeapThr.frees k o) h h'.
Proof.
  destruct o as [p|]; cbn [tg_poly_free HeapThr.frees]; [|intros [= ->]; constructor]. intros E.
  ldl E b G. destruct b as [hd r ix ys| |hd e n hs| | | | | | | |]; try discriminate E; [exact (runs_ring k (Some p) h h' E)|].
  apply bind_inv in E as (s & h1 & SE & E). pose proof (runs_head k p h s h1 SE) as X.
  destruct s; [inversion E; subst; exact X|]. apply X. ldl E b1 G1. destruct b1 as [| |hd1 e1 n1 hs1| | | | | | | |]; try discriminate E.
  apply bind_inv in E as ([] & h2 & E1 & E). apply bind_inv in E as ([] & h3 & E2 & E).
  take G1. eapply runs_app; [eapply runs_ring; eassumption|]. eapply runs_app; [eapply runs_arr; [exact (runs_ring KRing)|exact E2]|]. now apply runs_free.
Qed.
Lemma runs_point k p h h' : boxed_point_free p h = Some (tt, h') -> (exists hd x, get h p = Some (BPoint hd x)) -> runs [TFree k p] h h'.
Proof.
  intros E (hd & x & G). unfold boxed_point_free in E. apply bind_inv in E as (s & h1 & SE & E). pose proof (runs_head k p h s h1 SE) as X.
  destruct s; [inversion E; subst; exact X|]. apply X.
  assert (G1 : exists hd', get h1 p = Some (BPoint hd' x)).
  { unfold stays in SE. ldl SE b Gb. assert (b = BPoint hd x) by congruence. subst b. cbn [head_of] in SE. destruct (h_noheap hd); [discriminate SE|].
    unfold bind, rc_release, bind in SE. unfold load in SE. rewrite G in SE. cbn [head_of] in SE. unfold store in SE. rewrite G in SE. cbn in SE. inversion SE; subst.
    rewrite (get_upd' _ _ _ _ _ G), Nat.eqb_refl. eauto. }
  destruct G1 as [hd' G1]. take G1. now apply runs_free.
Qed.
Lemma runs_geom n : forall k o h h', geom_free_fuel n o h = Some (tt, h') -> runs (HeapThr.frees k o) h h'.
Proof.
  induction n as [|n IH]; intros k o h h' E; [discriminate|]. cbn [geom_free_fuel] in E. destruct o as [p|]; cbn [HeapThr.frees]; [|inversion E; constructor].
  ldl E b G. destruct b as [hd r ix ys| |hd e m hs| |hd x|hd pl c nc xj| | | | |] eqn:EB; try discriminate E.
  - exact (runs_ring k (Some p) h h' E).
  - exact (runs_poly k (Some p) h h' E).
  - apply runs_point; [exact E|eauto].
  - unfold geom_free in E. apply bind_inv in E as (s & h1 & SE & E). pose proof (runs_head k p h s h1 SE) as X.
    destruct s; [inversion E; subst; exact X|]. apply X. ldl E b1 G1. clear X SE G EB. destruct b1 as [| | | | |hd1 pl1 c1 nc1 xj1| | | | |]; try discriminate E.
    apply bind_inv in E as ([] & h2 & E1 & E). apply bind_inv in E as ([] & h3 & E2 & E). apply bind_inv in E as ([] & h4 & E3 & E).
    take G1. eapply runs_app; [|eapply runs_app; [|eapply runs_app; [apply runs_drops; exact E3|now apply runs_free]]].
    + destruct pl1 as [x1 z1 m1|l1|l1|t1 [m1|]]; try (inversion E1; constructor).
      * now apply runs_ring.
      * now apply runs_poly.
      * ldl E1 bm Gm. destruct bm as [| | | | | |gs nn rr ix ixg| | | |]; try discriminate E1.
        apply bind_inv in E1 as ([] & h5 & E5 & E1). apply bind_inv in E1 as ([] & h6 & E6 & E1). apply bind_inv in E1 as ([] & h7 & E7 & E1).
        eapply runs_one; [cbn [loose do_task]; unfold bind, load; rewrite Gm; reflexivity|].
        eapply runs_app; [eapply runs_arr; [exact (IH KGeom)|exact E5]|]. eapply runs_app; [apply runs_drops; exact E6|].
        eapply runs_app; [apply runs_drops; exact E7|]. now apply runs_free.
    + destruct pl1; try (apply runs_drops; exact E2). inversion E2; constructor.
Qed.
Lemma runs_frees k p h h' : frees_of k (Some p) h = Some (tt, h') -> runs [TFree k p] h h'.
Proof.
  destruct k; cbn [frees_of].
  - exact (runs_ring KRing (Some p) h h').
  - exact (runs_poly KPoly (Some p) h h').
  - unfold tg_geom_free. exact (runs_geom _ KGeom (Some p) h h').
Qed.

(** the schedule of a thread alone *)
Lemma acts_runs n : forall held l h ts h', acts [(held, l)] (repeat (AStep 0) n) h = Some (ts, h') -> tasks ts = [] ->
  ts = [(held, [])] /\ runs l h h'.
Proof.
  induction n as [|n IH]; intros held l h ts h' A T; cbn [repeat acts] in A.
  - inversion A; subst. cbn in T. rewrite app_nil_r in T. subst l. split; [reflexivity|constructor].
  - unfold bind in A. cbn [act nth_error] in A. destruct l as [|t l].
    + cbn [ret] in A. apply (IH held [] h ts h' A T).
    + unfold bind in A. destruct (do_task t h) as [[new h1]|] eqn:D; [|discriminate]. cbn [ret] in A. change (set_nth 0 (held, new ++ l) [(held, t :: l)]) with [(held, new ++ l)] in A.
      destruct (IH held (new ++ l) h1 ts h' A T) as [E R]. split; [assumption|]. apply (runs_cons t l new h h1); [now apply do_loose|assumption].
Qed.
