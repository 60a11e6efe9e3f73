(** * C11, C13, C14, C41: references, clones, copies and failed allocations *)

From Coq Require Import ZArith Bool List Lia Arith.
From Verif Require Import F64 Geo Series Geom MultiIx Heap HeapGeom SpecHeap HeapHist HeapFacts HeapStep HeapFree HeapDen HeapNew HeapMake HeapCopy HeapClone HeapHistF HeapMore SeriesExamples.
Import ListNotations.
Local Open Scope Z_scope.

(** the calls of a history: constructors, clone and free *)
Definition plain (o : op) : bool := match o with OBuild (MCopy _ _) | ONoheap _ => false | _ => true end.
(** every call, but rings only without an index *)
Definition unindexed (o : op) : bool :=
  match o with
  | OBuild (MRing ps closed kind spread) =>
      match series_new ps closed kind spread with
      | Some r => match r_index r, r_ystripes r with None, None => true | _, _ => false end
      | None => true
      end
  | _ => true
  end.
Lemma plain_allowed os : forallb plain os = true -> forallb (allowed false) os = true.
Proof.
  rewrite !forallb_forall. intros H o Ho. specialize (H o Ho). destruct o as [b|i|i]; [|reflexivity|discriminate]. destruct b; try reflexivity. discriminate.
Qed.
Lemma unindexed_allowed os : forallb unindexed os = true -> forallb (allowed true) os = true.
Proof.
  rewrite !forallb_forall. intros H o Ho. specialize (H o Ho). destruct o as [b|i|i]; try reflexivity. destruct b; try reflexivity. exact H.
Qed.

Lemma filter_none {A} (f : A -> bool) l : (forall x, In x l -> f x = false) -> filter f l = [].
Proof. induction l as [|x l IH]; intros H; cbn; [reflexivity|]. rewrite (H x (or_introl eq_refl)). apply IH. intros y Hy. apply H. now right. Qed.
Lemma strip_recount b b' : strip b' = strip b -> b' = recount (refs b') b.
Proof.
  destruct b as [hd| |hd| |hd|hd| | | | |], b' as [hd'| |hd'| |hd'|hd'| | | | |]; cbn; intros H; try discriminate; try (now inversion H);
    destruct hd, hd'; cbn in *; inversion H; subst; reflexivity.
Qed.

(** ** C11 *)

(** After any history of constructors, clone and free, with any allocations
    failing: nothing undefined happened, the blocks that are allocated are those
    that can be reached from the references that are held, the count of each is
    the number of references to it, and nothing is left when none is held. *)
Theorem C11_history : forall f os, forallb plain os = true ->
  exists held h, run [] os (start f) = Some (held, h) /\
    (forall p, get h p <> None <-> reach h (map fst held) p) /\
    (forall p b, get h p = Some b -> refs b = Z.of_nat (nrefs h (map fst held) p) /\ 1 <= refs b) /\
    (held = [] -> forall p, get h p = None).
Proof.
  intros f os AL. apply plain_allowed in AL. pose proof (run_ok false os [] (start f) (Good_start false f) AL) as W. unfold wp in W.
  destruct (run [] os (start f)) as [[held h]|]; [|contradiction]. exists held, h. split; [reflexivity|].
  pose proof (good_inv _ _ _ W) as I. pose proof (good_rank _ _ _ W) as R.
  assert (NN : forall p b, get h p = Some b -> isnh b = false) by (intros p b G; exact (proj1 (inv_ty _ _ _ _ I p b G (@in_nil _ p)) eq_refl)).
  assert (LR : forall p, get h p <> None <-> reach h (map fst held) p).
  { intros p. split.
    - intros G. pose proof (live_reach _ _ _ I R p G) as X. rewrite filter_none in X; [now rewrite app_nil_r in X|].
      intros x _. destruct (get h x) as [b|] eqn:Gx; [now apply (NN x)|reflexivity].
    - apply (reach_live _ _ _ _ I). intros q Hq. apply (inv_E _ _ _ _ q I Hq). }
  split; [exact LR|]. split.
  - intros p b G. destruct (inv_cnt _ _ _ _ I p b G (@in_nil _ p) (NN p b G)) as [C1 C2]. rewrite total_spec in C1. split; [now symmetry|assumption].
  - intros -> p. destruct (get h p) eqn:G; [|reflexivity]. exfalso. assert (X : reach h [] p) by (apply LR; congruence).
    clear -X. induction X as [p []|]; assumption.
Qed.
Print Assumptions C11_history.

(** The same with copies and objects marked as not allocated, which stay: they
    count as held.  Rings have no index, see C41. *)
Theorem C11_history_noheap : forall f os, forallb unindexed os = true ->
  exists held h, run [] os (start f) = Some (held, h) /\
    let roots := map fst held ++ filter (fun p => match get h p with Some b => isnh b | None => false end) (seq 0 (length (cells h))) in
    (forall p, get h p <> None <-> reach h roots p) /\
    (forall p b, get h p = Some b -> isnh b = false -> refs b = Z.of_nat (nrefs h (map fst held) p) /\ 1 <= refs b).
Proof.
  intros f os AL. apply unindexed_allowed in AL. pose proof (run_ok true os [] (start f) (Good_start true f) AL) as W. unfold wp in W.
  destruct (run [] os (start f)) as [[held h]|]; [|contradiction]. exists held, h. split; [reflexivity|].
  pose proof (good_inv _ _ _ W) as I. pose proof (good_rank _ _ _ W) as R. cbv zeta. split.
  - intros p. split; [apply (live_reach _ _ _ I R)|]. apply (reach_live _ _ _ _ I). intros q Hq. apply in_app_or in Hq as [Hq|Hq]; [apply (inv_E _ _ _ _ q I Hq)|].
    apply filter_In in Hq as [_ Hq]. destruct (get h q); [discriminate|discriminate Hq].
  - intros p b G NH. destruct (inv_cnt _ _ _ _ I p b G (@in_nil _ p) NH) as [C1 C2]. rewrite total_spec in C1. split; [now symmetry|assumption].
Qed.
Print Assumptions C11_history_noheap.

(** No call changes an object that stays, apart from its count, and what is
    released is never used again for another object. *)
Theorem C11_contents : forall f os os' held h held' h',
  forallb plain os = true -> forallb plain os' = true ->
  run [] os (start f) = Some (held, h) -> run held os' h = Some (held', h') ->
  forall p,
    (forall b, get h p = Some b -> get h' p = None \/ exists n, get h' p = Some (recount n b)) /\
    ((p < length (cells h))%nat -> get h p = None -> get h' p = None).
Proof.
  intros f os os' held h held' h' P P' E E'. pose proof (run_good false os [] (start f) held h (Good_start false f) (plain_allowed _ P) E) as G.
  assert (Q : forallb quietop os' = true).
  { rewrite forallb_forall in *. intros o Ho. specialize (P' o Ho). now destruct o. }
  pose proof (run_fr false os' held h held' h' G (plain_allowed _ P') Q E') as F. intros p. split.
  - intros b Gb. destruct (fr_live _ _ _ F p b Gb) as [X|(b' & G' & S')]; [now left|]. right. exists (refs b'). rewrite G'. f_equal. now apply strip_recount.
  - apply (fr_dead _ _ _ F).
Qed.
Print Assumptions C11_contents.

(** a square, a polygon with a hole, a collection of both and of itself *)
Definition sq (a : Z) : list pt := [P a a; P (a + 8) a; P (a + 8) (a + 8); P a (a + 8); P a a].
Definition alive (h : heap) : nat := length (filter (fun c => match c with Some _ => true | None => false end) (cells h)).
Definition counts (h : heap) : list Z := map (fun c => match c with Some b => refs b | None => 0 end) (cells h).
Definition nested : list op :=
  [OBuild (MRing (sq 0) true IxNatural 2); OBuild (MRing (sq 2) true IxYstripes 2);
   OBuild (MPoly (RHeld 1) [RHeld 0; RHeld 0] false); OBuild (MColl [RHeld 0; RHeld 1] None);
   OBuild (MColl [RHeld 0; RHeld 0; RHeld 2] None); OBuild (MClone KGeom (RChild (RHeld 0) 1))].
Definition ends (f : nat -> bool) (os : list op) : option (nat * nat * list Z) :=
  match run [] os (start f) with Some (held, h) => Some (length held, alive h, counts h) | None => None end.
Example C11_example :
  forallb plain nested = true /\
  ends (fun _ => true) nested = Some (6%nat, 11%nat, [2; 5; 0; 1; 2; 1; 4; 1; 1; 1; 1; 1]) /\
  (** the two rings and the polygon outlive their handles *)
  ends (fun _ => true) (nested ++ [OFree 5; OFree 4; OFree 3; OFree 2]) = Some (2%nat, 11%nat, [1; 4; 0; 1; 1; 1; 3; 1; 1; 1; 1; 1]) /\
  ends (fun _ => true) (nested ++ [OFree 5; OFree 4; OFree 3; OFree 2; OFree 0]) = Some (1%nat, 11%nat, [1; 4; 0; 1; 1; 1; 2; 1; 1; 1; 1; 1]) /\
  ends (fun _ => true) (nested ++ repeat (OFree 0) 6) = Some (0%nat, 0%nat, repeat 0 12) /\
  ends (fun k => negb (k =? 8)%nat) (nested ++ repeat (OFree 0) 6) = Some (0%nat, 0%nat, repeat 0 11).
Proof. repeat split; vm_compute; reflexivity. Qed.

(** ** C13 and C41 *)

(** what a copy [q] of the object at [p] is: every later call may do what it
    likes with everything that existed before *)
Definition copy_of (k : okind) (held : list handle) (h h' : heap) (p q : ptr) : Prop :=
  forall g, den (get h) g p -> few g = true ->
    den (fresh (length (cells h)) (get h')) g q /\
    forall os held2 h2, forallb unindexed os = true -> forallb quietop os = true ->
      run ((q, k) :: held) os h' = Some (held2, h2) -> In q (map fst held2) -> den (get h2) g q.

Lemma copy_later k held h h' q p : Good true held h -> (exists rk, St true rk h (map fst held) [] h' [q] []) -> pk h' (kof k) (Some q) ->
  (forall g, den (get h) g p -> few g = true -> den (fresh (length (cells h)) (get h')) g q) -> copy_of k held h h' p q.
Proof.
  intros G (rk & A) PK H g Dg Fg. split; [now apply H|]. intros os held2 h2 U Q E Hq. specialize (H g Dg Fg).
  assert (G' : Good true ((q, k) :: held) h').
  { apply (good_after true held ((q, k) :: held) h h' rk [q] G A); [reflexivity|]. intros x kx [X|X]; [inversion X; subst; now right|now left]. }
  apply (den_vle (fresh (length (cells h)) (get h'))); [|exact H].
  apply (fresh_survive true rk h (map fst held) h' q h2 (map fst held2) A); [|apply (good_inv _ _ _ (run_good true os _ h' held2 h2 G' (unindexed_allowed _ U) E))|exact Hq].
  exact (run_fr true os _ h' held2 h2 G' (unindexed_allowed _ U) Q E).
Qed.

(** Copying an object of a history without indexed rings.  Missing: rings with
    an index or y-stripes and multis with 64 or more children ([few]), for
    which it is false. *)
Theorem C41_copy_partial : forall f os held h p k,
  forallb unindexed os = true -> run [] os (start f) = Some (held, h) -> In (p, k) held ->
  exists r h', copies_of k (Some p) h = Some (r, h') /\
    match r with
    | Some q => copy_of k held h h' p q
    | None => restored h h' /\ (failed h h' \/ forall g, den (get h) g p -> whole g = false)
    end.
Proof.
  intros f os held h p k U E Hp. pose proof (run_good true os [] (start f) held h (Good_start true f) (unindexed_allowed _ U) E) as G.
  destruct (good_rank _ _ _ G) as [rk R]. pose proof (copies_ok k rk h (map fst held) [] (Some p) (good_inv _ _ _ G) R (argp_pk _ _ _ _ (good_kind _ _ _ G p k Hp))) as W.
  unfold wp in W. destruct (copies_of k (Some p) h) as [[r h']|]; [|contradiction]. exists r, h'. split; [reflexivity|]. destruct W as (A & PK & C).
  destruct r as [q|]; cbn [copied] in C.
  - destruct C as (p' & Ep & C). inversion Ep; subst p'. apply copy_later; auto. now exists rk.
  - split.
    + apply (restored_of true h (map fst held) [] h'); [apply G|now exists rk|apply A|apply A|]. destruct (st_rank _ _ _ _ _ _ _ _ A) as (r' & R' & _). now exists r'.
    + destruct C as [C|[C|(p' & Ep & C)]]; [now left|discriminate|]. inversion Ep; subst p'. now right.
Qed.
Print Assumptions C41_copy_partial.

(** A copied ring keeps the pointer to the index of the original: after the
    original is freed, even copying the copy reads released memory. *)
Theorem C41_ring_index_refuted : exists os, forallb (fun o => match o with ONoheap _ => false | _ => true end) os = true /\
  run [] os (start (fun _ => true)) = None.
Proof.
  exists [OBuild (MRing (sq 0) true IxNatural 2); OBuild (MCopy KRing (RHeld 0)); OFree 1; OBuild (MCopy KRing (RHeld 0))].
  split; [reflexivity|]. vm_compute. reflexivity.
Qed.
Print Assumptions C41_ring_index_refuted.

(** and a copy of the copy is made with a size that is the distance between two
    blocks, though nothing has been freed *)
Theorem C41_twice_refuted : exists b,
  run [] [OBuild b; OBuild (MCopy KRing (RHeld 0)); OBuild (MCopy KRing (RHeld 1))] (start (fun _ => true)) <> None /\
  run [] [OBuild b; OBuild (MCopy KRing (RHeld 0)); OBuild (MCopy KRing (RHeld 0))] (start (fun _ => true)) = None.
Proof.
  exists (MRing (sq 0) true IxNatural 2). split; [|vm_compute; reflexivity].
  intros E. revert E. vm_compute. discriminate.
Qed.
Print Assumptions C41_twice_refuted.

(** the blocks that the objects in memory refer to without owning them *)
Definition borrowed (b : block) : list ptr :=
  match b with BRing _ _ ix _ => olist ix | BYs _ base => [base] | BIx _ base => [base] | _ => [] end.
Definition dangling (h : heap) : bool :=
  existsb (fun c => match c with
                    | Some b => existsb (fun q => match get h q with None => true | Some _ => false end) (borrowed b)
                    | None => false end) (cells h).
(** after the original is freed the copy refers to released memory: a ring with
    an index, a ring with y-stripes and a multipoint with 64 children *)
Theorem C41_dangling_refuted : forall b, In b
    [MRing (sq 0) true IxNatural 2; MRing (sq 0) true IxYstripes 2; MMPoints (map (fun i => P i i) (zs 0 64)) None] ->
  exists held h, run [] [OBuild b; OBuild (MCopy (kind_of b) (RHeld 0)); OFree 1] (start (fun _ => true)) = Some (held, h) /\
    length held = 1%nat /\ dangling h = true.
Proof.
  intros b Hb.
  assert (X : match run [] [OBuild b; OBuild (MCopy (kind_of b) (RHeld 0)); OFree 1] (start (fun _ => true)) with
    | Some (held, h) => (length held =? 1)%nat && dangling h | None => false end = true).
  { destruct Hb as [<-|[<-|[<-|[]]]]; vm_compute; reflexivity. }
  revert X. generalize (run [] [OBuild b; OBuild (MCopy (kind_of b) (RHeld 0)); OFree 1] (start (fun _ => true))).
  intros [[held h]|]; [|discriminate]. intros X. apply andb_true_iff in X as [X1 X2]. apply Nat.eqb_eq in X1. now exists held, h.
Qed.
Print Assumptions C41_dangling_refuted.

(** An empty line or polygon geometry cannot be copied: NULL although no
    allocation failed.  The same for a collection with such a child. *)
Theorem C41_empty_refuted : forall os, In os
    [[OBuild (MEmpty ELine)]; [OBuild (MEmpty EPoly)]; [OBuild (MEmpty ELine); OBuild (MColl [RHeld 0] None)]] ->
  exists held h h' p, run [] os (start (fun _ => true)) = Some (held, h) /\ nth_error held 0 = Some (p, KGeom) /\
    tg_geom_copy (Some p) h = Some (None, h') /\ ~ failed h h'.
Proof.
  intros os Ho.
  assert (X : match run [] os (start (fun _ => true)) with
    | Some (held, h) => match nth_error held 0 with
        | Some (p, KGeom) => match tg_geom_copy (Some p) h with Some (None, h') => true | _ => false end
        | _ => false end
    | None => false end = true).
  { destruct Ho as [<-|[<-|[<-|[]]]]; vm_compute; reflexivity. }
  assert (O : match run [] os (start (fun _ => true)) with Some (held, h) => forall k, ok h k = true | None => True end).
  { destruct Ho as [<-|[<-|[<-|[]]]]; vm_compute; reflexivity. }
  revert X O. destruct (run [] os (start (fun _ => true))) as [[held h]|]; [|discriminate]. intros X O.
  destruct (nth_error held 0) as [[p k]|] eqn:EN; [|discriminate]. destruct k; try discriminate.
  destruct (tg_geom_copy (Some p) h) as [[[q|] h']|] eqn:EC; try discriminate. exists held, h, h', p. repeat split; auto.
  intros (k & _ & F). rewrite O in F. discriminate.
Qed.
Print Assumptions C41_empty_refuted.

(** cloning an object that is allocated: the same object with one more reference *)
Theorem C13_heap_clone : forall k h p b hd, get h p = Some b -> head_of b = Some hd -> h_noheap hd = false ->
  clones_of k (Some p) h = Some (Some p, upd h p (Some (recount (h_rc hd + 1) b))).
Proof.
  intros k h p b hd G H N. unfold recount. rewrite H.
  destruct k; cbn [clones_of tg_ring_clone tg_poly_clone tg_geom_clone]; unfold bind, load; rewrite G, H, N; unfold rc_retain, bind, load; rewrite G, H;
    unfold store; rewrite G; unfold ret; now rewrite ?N.
Qed.
Print Assumptions C13_heap_clone.

(** cloning one that is not: an independent copy.  Missing: as for C41. *)
Theorem C13_noheap_clone_partial : forall f os held h p k b,
  forallb unindexed os = true -> run [] os (start f) = Some (held, h) -> In (p, k) held ->
  get h p = Some b -> isnh b = true ->
  exists r h', clones_of k (Some p) h = Some (r, h') /\
    match r with
    | Some q => copy_of k held h h' p q
    | None => restored h h' /\ (failed h h' \/ forall g, den (get h) g p -> whole g = false)
    end.
Proof.
  intros f os held h p k b U E Hp G NH. destruct (C41_copy_partial f os held h p k U E Hp) as (r & h' & C & X). exists r, h'. split; [|exact X].
  unfold isnh in NH. destruct (head_of b) as [hd|] eqn:H; [|discriminate].
  destruct k; cbn [clones_of tg_ring_clone tg_poly_clone tg_geom_clone]; unfold bind, load; rewrite G, H, NH; exact C.
Qed.
Print Assumptions C13_noheap_clone_partial.

(** freeing such an object does nothing *)
Theorem C13_noheap_free : forall h p b, get h p = Some b -> isnh b = true ->
  tg_geom_free (Some p) h = Some (tt, h) /\
  (is_ring b = true -> tg_ring_free (Some p) h = Some (tt, h)) /\
  (is_pol b = true -> tg_poly_free (Some p) h = Some (tt, h)).
Proof.
  intros h p b G NH.
  assert (ST : stays p h = Some (true, h)).
  { unfold isnh in NH. destruct (head_of b) as [hd|] eqn:H; [|discriminate]. unfold stays, bind, load. now rewrite G, H, NH. }
  assert (RF : tg_ring_free (Some p) h = Some (tt, h)) by (cbn [tg_ring_free]; unfold bind; now rewrite ST).
  assert (PF : is_pol b = true -> tg_poly_free (Some p) h = Some (tt, h)).
  { intros K. cbn [tg_poly_free]. unfold bind at 1, load. rewrite G. destruct b; try discriminate K; [exact RF|]. unfold bind. now rewrite ST. }
  split; [|auto]. unfold tg_geom_free. cbn [geom_free_fuel]. unfold bind at 1, load. rewrite G.
  destruct b; try discriminate NH.
  - exact RF.
  - now apply PF.
  - unfold boxed_point_free, bind. now rewrite ST.
  - unfold geom_free, bind. now rewrite ST.
Qed.
Print Assumptions C13_noheap_free.

(** the clone of a ring that is not allocated still refers to its index *)
Theorem C13_ring_index_refuted : exists os held h p q h' hd r ys,
  run [] os (start (fun _ => true)) = Some (held, h) /\ nth_error held 1 = Some (p, KRing) /\
  clones_of KRing (Some p) h = Some (Some q, h') /\ q <> p /\ get h' q = Some (BRing hd r (Some p) ys).
Proof.
  exists [OBuild (MRing (sq 0) true IxNatural 2); OBuild (MLineG (RHeld 0)); ONoheap 0].
  assert (X : match run [] [OBuild (MRing (sq 0) true IxNatural 2); OBuild (MLineG (RHeld 0)); ONoheap 0] (start (fun _ => true)) with
    | Some (held, h) => match nth_error held 1 with
        | Some (p, KRing) => match clones_of KRing (Some p) h with
            | Some (Some q, h') => match get h' q with
                | Some (BRing _ _ (Some i) _) => negb (q =? p)%nat && (i =? p)%nat | _ => false end
            | _ => false end
        | _ => false end
    | None => false end = true) by (vm_compute; reflexivity).
  revert X. destruct (run _ _ _) as [[held h]|]; [|discriminate]. destruct (nth_error held 1) as [[p []]|] eqn:EN; try discriminate.
  destruct (clones_of KRing (Some p) h) as [[[q|] h']|] eqn:EC; try discriminate.
  destruct (get h' q) as [b|] eqn:G; [|discriminate]. destruct b as [hd r [i|] ys| | | | | | | | | |]; try discriminate. intros X.
  apply andb_true_iff in X as [X1 X2]. apply Nat.eqb_eq in X2. apply negb_true_iff, Nat.eqb_neq in X1. subst i.
  exists held, h, p, q, h', hd, r, ys. auto.
Qed.
Print Assumptions C13_ring_index_refuted.

(** ** C14 *)

(** the calls that may be made next to a history: either kind of C11 *)
Definition fits (copies : bool) (o : op) : bool := if copies then unindexed o && quietop o else plain o.
Lemma fits_allowed c os : forallb (fits c) os = true -> forallb (allowed c) os = true /\ forallb quietop os = true.
Proof.
  intros H. rewrite !forallb_forall in *. split; intros o Ho; specialize (H o Ho); destruct c; cbn [fits] in H.
  - apply andb_true_iff in H as [H _]. assert (X := unindexed_allowed [o]). cbn in X. rewrite H in X. specialize (X eq_refl). now rewrite andb_true_r in X.
  - assert (X := plain_allowed [o]). cbn in X. rewrite H in X. specialize (X eq_refl). now rewrite andb_true_r in X.
  - now apply andb_true_iff in H.
  - now destruct o.
Qed.

(** When an allocation fails during a call of a constructor, clone or copy the
    answer is NULL, everything allocated by the call is released, and every
    count is what it was.  Missing: the parsers; objects marked as not
    allocated, for which it is false; indexed rings together with copies. *)
Theorem C14_failure_partial : forall c f os held h b r h',
  forallb (fits c) os = true -> fits c (OBuild b) = true ->
  run [] os (start f) = Some (held, h) -> run_build held b h = Some (r, h') ->
  (failed h h' -> r = Some None) /\ (r = Some None -> restored h h').
Proof.
  intros c f os held h b r h' F Fb E EB. destruct (fits_allowed c os F) as [AL Q].
  destruct (fits_allowed c [OBuild b]) as [ALb _]; [cbn; now rewrite Fb|]. cbn [forallb] in ALb. rewrite andb_true_r in ALb. cbn [allowed] in ALb.
  pose proof (run_good c os [] (start f) held h (Good_start c f) AL E) as G. destruct (good_rank _ _ _ G) as [rk R].
  pose proof (build_ok c held h rk G R b ALb) as W. unfold wp in W. rewrite EB in W.
  pose proof (nn_run os [] (start f) held h Q (nn_start f) E) as N. destruct (rep_build held b h r h' N EB) as (_ & _ & _ & RP). split.
  - intros FL. destruct (RP FL) as [->| ->]; [|reflexivity]. cbn in W. subst h'. exfalso. eapply oom_nil, FL.
  - intros ->. cbn [made] in W. destruct W as [A _].
    apply (restored_of c h (map fst held) [] h'); [apply G|now exists rk|apply A|apply A|]. destruct (st_rank _ _ _ _ _ _ _ _ A) as (r' & R' & _). now exists r'.
Qed.
Print Assumptions C14_failure_partial.

(** NULL is the answer for any failing allocation of a constructor, and memory is
    as before the call *)
Definition answer (f : nat -> bool) (os : list op) (b : build) : option (bool * bool * nat * nat) :=
  match run [] os (start f) with
  | Some (held, h) =>
      match run_build held b h with
      | Some (Some r, h') => Some (match r with None => true | Some _ => false end,
                                   existsb (fun k => negb (ok h k)) (seq (calls h) (calls h' - calls h)), alive h, alive h')
      | _ => None
      end
  | None => None
  end.
Example C14_example :
  let os := [OBuild (MRing (sq 0) true IxYstripes 2); OBuild (MPoly (RHeld 0) [RHeld 0] false)] in
  let b := MColl [RHeld 0; RHeld 1; RHeld 0] (Some (true, false, [f_zero; f_zero])) in
  forallb (fits false) os = true /\ fits false (OBuild b) = true /\
  map (fun n => answer (fun k => negb (k =? n)%nat) os b) (seq 5 5) =
    [Some (true, true, 4, 4); Some (true, true, 4, 4); Some (true, true, 4, 4); Some (true, true, 4, 4); Some (false, false, 4, 8)]%nat /\
  answer (fun k => negb (k =? 11)%nat) [OBuild (MMPoints [P 1 2; P 3 4; P 5 6] None)] (MCopy KGeom (RHeld 0)) = Some (true, true, 6, 6)%nat.
Proof. repeat split; vm_compute; reflexivity. Qed.

(** A polygon made from rings that are not allocated: the copies fail, which is
    not noticed, and the answer is a polygon without exterior. *)
Theorem C14_noheap_refuted : exists f os b held h q h' hd n hs,
  run [] os (start f) = Some (held, h) /\ run_build held b h = Some (Some (Some q), h') /\
  failed h h' /\ get h' q = Some (BPoly hd None n hs).
Proof.
  exists (fun k => negb (k =? 2)%nat),
         [OBuild (MRing (sq 0) true IxNone 2); OBuild (MLineG (RHeld 0)); ONoheap 0], (MPoly (RHeld 1) [RHeld 1] false).
  assert (X : match run [] [OBuild (MRing (sq 0) true IxNone 2); OBuild (MLineG (RHeld 0)); ONoheap 0] (start (fun k => negb (k =? 2)%nat)) with
    | Some (held, h) => match run_build held (MPoly (RHeld 1) [RHeld 1] false) h with
        | Some (Some (Some q), h') => (calls h <=? 2)%nat && (2 <? calls h')%nat && negb (ok h 2) &&
              match get h' q with Some (BPoly _ None _ _) => true | _ => false end
        | _ => false end
    | None => false end = true) by (vm_compute; reflexivity).
  revert X. destruct (run _ _ _) as [[held h]|]; [|discriminate]. destruct (run_build _ _ h) as [[[[q|]|] h']|] eqn:EB; try discriminate.
  intros X. apply andb_true_iff in X as [X1 X2]. apply andb_true_iff in X1 as [X1 X3]. apply andb_true_iff in X1 as [X1 X4].
  destruct (get h' q) as [b|] eqn:G; [|discriminate]. destruct b as [| |hd [e|] n hs| | | | | | | |]; try discriminate.
  exists held, h, q, h', hd, n, hs. repeat split; auto. exists 2%nat. apply Nat.leb_le in X1. apply Nat.ltb_lt in X4. apply negb_true_iff in X3. auto.
Qed.
Print Assumptions C14_noheap_refuted.

(** copies of nested objects that meet the conditions of C41 and C13 *)
Definition pts_geom (ps : list pt) : geom :=
  GGMulti MPoints fl0 (Some (map (fun p => Some (GPoint fl0 p)) ps)) [] None.
Example C41_example :
  let os := [OBuild (MMPoints [P 1 2; P 3 4] None)] in
  forallb unindexed os = true /\ few (pts_geom [P 1 2; P 3 4]) = true /\
  exists held h, run [] os (start (fun _ => true)) = Some (held, h) /\
    exists p, nth_error held 0 = Some (p, KGeom) /\ den (get h) (pts_geom [P 1 2; P 3 4]) p /\
      exists q h', tg_geom_copy (Some p) h = Some (Some q, h').
Proof.
  cbv zeta. split; [vm_compute; reflexivity|]. split; [vm_compute; reflexivity|].
  eexists _, _. split; [vm_compute; reflexivity|]. eexists. split; [reflexivity|]. split.
  - do 5 eexists. split; [vm_compute; reflexivity|]. split; [reflexivity|]. split; [split; reflexivity|].
    do 4 eexists. split; [vm_compute; reflexivity|]. split; [vm_compute; reflexivity|]. split; [split; reflexivity|].
    repeat split; eexists; (split; [vm_compute; reflexivity|reflexivity]).
  - eexists _, _. vm_compute. reflexivity.
Qed.
Example C13_example :
  let os := [OBuild (MRing (sq 0) true IxNone 2); OBuild (MPoly (RHeld 0) [RHeld 0] false); OBuild (MPolyG (RHeld 0)); ONoheap 0] in
  forallb unindexed os = true /\
  match run [] os (start (fun _ => true)) with
  | Some ((p, k) :: _, h) =>
      match get h p with Some b => isnh b | None => false end = true /\
      match clones_of k (Some p) h with
      | Some (Some q, h') => (q, alive h, alive h')
      | _ => (O, O, O)
      end = (3, 3, 7)%nat
  | _ => False
  end.
Proof. cbv zeta. split; [vm_compute; reflexivity|]. vm_compute. split; reflexivity. Qed.
