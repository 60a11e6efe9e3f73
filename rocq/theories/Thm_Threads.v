(** * C12: threads that share objects *)

From Coq Require Import ZArith Bool List Lia Arith Permutation.
From Verif Require Import F64 Geo Series Geom MultiIx Heap HeapGeom SpecHeap HeapHist HeapFacts HeapStep HeapFree HeapHistF HeapMore HeapThr HeapThrF HeapThrL SeriesExamples Thm_Heap.
Import ListNotations.
Local Open Scope Z_scope.

(** what all threads hold *)
Definition held_by (ts : list thread) : list ptr := map fst (flat_map fst ts).
(** no thread is in the middle of a call *)
Definition quiet (ts : list thread) : Prop := flat_map snd ts = [].
(** steps inside of calls of free *)
Definition is_step (a : action) : Prop := exists i, a = AStep i.

Lemma steps_held s : forall ts h ts' h', Forall is_step s -> acts ts s h = Some (ts', h') -> map fst ts' = map fst ts.
Proof.
  induction s as [|a s IH]; intros ts h ts' h' F A; cbn [acts] in A; [inversion A; reflexivity|]. inversion F as [|? ? [i Ei] F']; subst. unfold bind in A.
  destruct (act ts (AStep i) h) as [[ts1 h1]|] eqn:E; [|discriminate]. rewrite (IH _ _ _ _ F' A). cbn [act] in E.
  destruct (nth_error ts i) as [[held [|t rest]]|] eqn:N; try (inversion E; reflexivity). unfold bind in E. destruct (do_task t h) as [[new h2]|]; [|discriminate].
  apply Some_inj, pair_equal_spec in E. destruct E as [<- _]. destruct (nth_split_set _ _ _ N) as (l1 & l2 & E1 & E2). rewrite E2, E1, !map_app. reflexivity.
Qed.
Lemma held_of ts ts' : map fst ts' = map fst ts -> held_by ts' = held_by ts.
Proof. intros E. unfold held_by. f_equal. rewrite !flat_map_concat_map, E. reflexivity. Qed.

Lemma start_flat n (held : list handle) : helds ((held, []) :: repeat ([], []) n) = held /\ tasks ((held, []) :: repeat ([], []) n) = [].
Proof.
  unfold helds, tasks. cbn [flat_map fst snd app]. induction n as [|n [IH1 IH2]]; [cbn; now rewrite app_nil_r|]. split; assumption.
Qed.

(** The objects that any history of constructors, clone and free has made are
    shared by any number of threads.  Whatever they do and in whatever order
    their atomic steps happen:
    - nothing undefined happens (in particular nothing is released twice and
      nothing is used after it was released);
    - what a thread can reach is there, with the contents it had;
    - what is gone stays gone;
    - an object that is held has at least as many references as it has holders;
    - the threads can always finish their calls, and when they have, exactly
      what can still be reached is allocated, with the right counts. *)
Theorem C12_threads : forall f os held h n s, forallb plain os = true -> run [] os (start f) = Some (held, h) ->
  exists ts h', acts ((held, []) :: repeat ([], []) n) s h = Some (ts, h') /\
    (forall p, reach h' (held_by ts) p -> exists b, get h' p = Some b /\ 1 <= refs b /\ (count_occ Nat.eq_dec (held_by ts) p <= Z.to_nat (refs b))%nat) /\
    (forall p b, get h p = Some b -> get h' p = None \/ exists n, get h' p = Some (recount n b)) /\
    (forall p, (p < length (cells h))%nat -> get h p = None -> get h' p = None) /\
    (quiet ts ->
       (forall p, get h' p <> None <-> reach h' (held_by ts) p) /\
       (forall p b, get h' p = Some b -> refs b = Z.of_nat (nrefs h' (held_by ts) p))) /\
    exists s' ts' h'', Forall is_step s' /\ acts ts s' h' = Some (ts', h'') /\ quiet ts' /\ held_by ts' = held_by ts /\
      (forall p, get h'' p <> None <-> reach h'' (held_by ts) p).
Proof.
  intros f os held h n s P E. pose proof (run_good false os [] (start f) held h (Good_start false f) (plain_allowed _ P) E) as G.
  destruct (start_flat n held) as [SH ST]. set (ts0 := (held, []) :: repeat ([], []) n) in *.
  assert (F0 : Flat (helds ts0) (tasks ts0) h) by (rewrite SH, ST; now apply Flat_good).
  pose proof (acts_ok s ts0 h F0) as W. unfold wp in W. destruct (acts ts0 s h) as [[ts h']|]; [|contradiction]. destruct W as [F FR].
  exists ts, h'. split; [reflexivity|]. pose proof (fl_inv _ _ _ F) as I.
  assert (NR : forall p, reach h' (held_by ts) p -> get h' p <> None /\ ~ In p (flat_map dead (tasks ts))).
  { intros p R. induction R as [p Hp|p b q R IH Gp Hq].
    - apply (inv_E _ _ _ _ p I). apply in_or_app. now left.
    - destruct IH as [L N]. exact (inv_owned _ _ _ _ _ _ _ I Gp N Hq). }
  assert (QUIET : forall ts h', Flat (helds ts) (tasks ts) h' -> quiet ts ->
       (forall p, get h' p <> None <-> reach h' (held_by ts) p) /\
       (forall p b, get h' p = Some b -> refs b = Z.of_nat (nrefs h' (held_by ts) p))).
  { clear. intros ts h F Q. change (tasks ts = []) in Q. rewrite Q in F. apply good_flat in F.
    pose proof (good_inv _ _ _ F) as I. pose proof (good_rank _ _ _ F) as R. change (map fst (helds ts)) with (held_by ts) in I.
    assert (NN : forall p b, get h p = Some b -> isnh b = false) by (intros p b Gp; exact (proj1 (inv_ty _ _ _ _ I p b Gp (@in_nil _ p)) eq_refl)).
    split.
    - intros p. split.
      + intros Gp. pose proof (live_reach _ _ _ I R p Gp) as X. rewrite filter_none in X; [now rewrite app_nil_r in X|].
        intros x _. destruct (get h x) as [b|] eqn:Gx; [now apply (NN x)|reflexivity].
      + apply (reach_live _ _ _ _ I). intros q Hq. apply (inv_E _ _ _ _ q I Hq).
    - intros p b Gp. destruct (inv_cnt _ _ _ _ I p b Gp (@in_nil _ p) (NN p b Gp)) as [C1 C2]. rewrite total_spec in C1. now symmetry. }
  split; [|split; [|split; [|split]]].
  - intros p R. destruct (NR p R) as [L N]. destruct (get h' p) as [b|] eqn:Gp; [|congruence]. exists b. split; [reflexivity|].
    pose proof (proj1 (inv_ty _ _ _ _ I p b Gp N) eq_refl) as NH.
    destruct (inv_cnt _ _ _ _ I p b Gp N NH) as [C1 C2]. split; [assumption|]. rewrite cnt_app in C1. unfold held_by. fold (helds ts). lia.
  - intros p b Gb. destruct (fr_live _ _ _ FR p b Gb) as [X|(b' & G' & S')]; [now left|]. right. exists (refs b'). rewrite G'. f_equal. now apply strip_recount.
  - apply (fr_dead _ _ _ FR).
  - now apply QUIET.
  - destruct (finish _ ts h' (le_n _) F) as (s' & ts' & h'' & A & Q & ST'). exists s', ts', h''.
    assert (HE : held_by ts' = held_by ts) by (eapply held_of, steps_held; eassumption).
    repeat split; auto.
    + pose proof (acts_ok s' ts h' F) as W. unfold wp in W. rewrite A in W. destruct W as [F' _]. rewrite <- HE. now apply (QUIET ts' h'' F' Q).
    + pose proof (acts_ok s' ts h' F) as W. unfold wp in W. rewrite A in W. destruct W as [F' _]. rewrite <- HE. now apply (QUIET ts' h'' F' Q).
Qed.
Print Assumptions C12_threads.

(** When every reference was given back nothing is left. *)
Theorem C12_all_freed : forall f os held h n s ts h', forallb plain os = true -> run [] os (start f) = Some (held, h) ->
  acts ((held, []) :: repeat ([], []) n) s h = Some (ts, h') -> quiet ts -> held_by ts = [] -> forall p, get h' p = None.
Proof.
  intros f os held h n s ts h' P E A Q HE p. destruct (C12_threads f os held h n s P E) as (ts1 & h1 & A1 & _ & _ & _ & X & _).
  rewrite A in A1. inversion A1; subst ts1 h1. destruct (X Q) as [LR _]. destruct (get h' p) eqn:G; [|reflexivity]. exfalso.
  assert (R : reach h' [] p) by (rewrite <- HE; apply LR; congruence). clear -R. induction R as [p []|]; assumption.
Qed.
Print Assumptions C12_all_freed.

(** The steps of one thread alone are the call of free of Heap.v and HeapGeom.v. *)
Theorem C12_sequential : forall f os held h j x, forallb plain os = true -> run [] os (start f) = Some (held, h) ->
  nth_error held j = Some x ->
  exists m h', free_handle x h = Some (tt, h') /\
    acts [(held, [])] (AFree 0 j :: repeat (AStep 0) m) h = Some ([(drop_nth j held, [])], h').
Proof.
  intros f os held h j [p k] P E N. pose proof (run_good false os [] (start f) held h (Good_start false f) (plain_allowed _ P) E) as G.
  assert (FH : exists h', free_handle (p, k) h = Some (tt, h')).
  { pose proof (step_ok false held h (OFree j) G eq_refl) as W. unfold wp in W. cbn [step] in W. rewrite N in W. unfold bind in W.
    destruct (free_handle (p, k) h) as [[[] h']|]; [eauto|contradiction]. }
  destruct FH as [h' FH]. pose proof (Flat_good _ _ G) as F0.
  assert (F1 : Flat (helds [(held, [])]) (tasks [(held, [])]) h) by (unfold helds, tasks; cbn; now rewrite app_nil_r).
  pose proof (act_ok [(held, [])] (AFree 0 j) h F1) as W. unfold wp in W. cbn [act nth_error] in W. rewrite N in W. cbn [ret] in W. destruct W as [F2 _].
  change (set_nth 0 (drop_nth j held, [TFree k p]) [(held, [])]) with [(drop_nth j held, [TFree k p])] in F2.
  destruct (finish _ _ _ (le_n _) F2) as (s & ts' & h2 & A & Q & ST).
  assert (X : forall s (hl : list handle) l h r, Forall is_step s -> acts [(hl, l)] s h = Some r -> exists m, acts [(hl, l)] (repeat (AStep 0) m) h = Some r).
  { clear. induction s as [|a s IH]; intros hl l h r F A; [exists O; exact A|]. inversion F as [|? ? [i Ei] F']; subst. cbn [acts] in A. unfold bind in A.
    destruct i as [|i].
    - cbn [act nth_error] in A. destruct l as [|t l].
      + cbn [ret] in A. exact (IH _ _ _ _ F' A).
      + unfold bind in A. destruct (do_task t h) as [[new h1]|] eqn:D; [|discriminate]. cbn [ret] in A.
        change (set_nth 0 (hl, new ++ l) [(hl, t :: l)]) with [(hl, new ++ l)] in A. destruct (IH _ _ _ _ F' A) as [m A']. exists (S m).
        cbn [repeat acts]. unfold bind. cbn [act nth_error]. unfold bind. rewrite D. exact A'.
    - cbn [act nth_error] in A. destruct i; cbn [nth_error ret] in A; exact (IH _ _ _ _ F' A). }
  destruct (X _ _ _ _ _ ST A) as [m A']. destruct (acts_runs m _ _ _ _ _ A' Q) as [-> R].
  assert (h2 = h') as ->.
  { apply (runs_det [TFree k p] h); [assumption|]. apply runs_frees. rewrite <- FH. now destruct k. }
  exists m, h'. split; [assumption|]. cbn [acts]. unfold bind. cbn [act nth_error]. rewrite N. exact A'.
Qed.
Print Assumptions C12_sequential.

(** A polygon with a hole in a collection, shared by three threads.  The last two
    references are given back at the same time, step by step in turn. *)
Definition sched : list action :=
  [AClone 0 KGeom (RHeld 0); ASend 0 0 1; AClone 0 KGeom (RChild (RHeld 0) 0); ASend 0 0 2; AFree 1 0; AFree 0 0; AFree 2 0].
Fixpoint rounds (n : nat) : list action := match n with O => [] | S n => AStep 0 :: AStep 2 :: AStep 1 :: rounds n end.
Definition shared : list op :=
  [OBuild (MRing (sq 0) true IxNatural 2); OBuild (MPoly (RHeld 0) [RHeld 0] false); OBuild (MColl [RHeld 0; RHeld 1] None); OFree 1; OFree 1].
Definition thr_end (s : list action) : option (nat * nat * nat * list Z) :=
  match run [] shared (start (fun _ => true)) with
  | Some (held, h) =>
      match acts [(held, []); ([], []); ([], [])] s h with
      | Some (ts, h') => Some (length (held_by ts), length (flat_map snd ts), alive h', counts h')
      | None => None
      end
  | None => None
  end.
Example C12_example :
  thr_end [] = Some (1%nat, 0%nat, 6%nat, [3; 1; 1; 1; 1; 1]) /\
  thr_end (firstn 4 sched) = Some (3%nat, 0%nat, 6%nat, [3; 2; 1; 2; 1; 1]) /\
  thr_end (sched ++ rounds 2) = Some (0%nat, 1%nat, 6%nat, [3; 1; 1; 0; 1; 1]) /\
  thr_end (sched ++ rounds 30) = Some (0%nat, 0%nat, 0%nat, [0; 0; 0; 0; 0; 0]).
Proof. vm_compute. auto. Qed.

(** ** Without atomics *)

(** The claim for the build without atomics: after rc_init and [n] calls of
    rc_retain the count is [n], and rc_release answers whether it was 1. *)
Definition counts_right (base rc : nat) (m : cells_) (n : nat) : Prop :=
  let m' := Nat.iter n (na_retain rc) (na_init rc m) in
  m' rc = Z.of_nat n /\ (1 <= n -> na_release base rc m' = Some (n =? 1))%nat.
(** head.rc is the first member of each object (tg.c:585-591, 616-617), so rc is
    the first cell.  The count is still 0 after rc_retain, and rc_release reads
    the cell before the object. *)
Theorem C12_noatomics_refuted : exists base rc m n,
  rc = base /\ (1 <= n)%nat /\ ~ counts_right base rc m n /\
  na_retain rc (na_init rc m) rc = 0 /\ na_release base rc (na_retain rc (na_init rc m)) = None.
Proof.
  exists 4%nat, 4%nat, (fun _ => 7), 1%nat. split; [reflexivity|]. split; [lia|]. split; [|split; vm_compute; reflexivity].
  unfold counts_right. intros [A _]. revert A. vm_compute. discriminate.
Qed.
Print Assumptions C12_noatomics_refuted.
