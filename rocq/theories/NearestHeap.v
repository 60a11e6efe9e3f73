(** * The priority queue keeps its least element first *)

From Coq Require Import ZArith Bool List Permutation FinFun Lia ZifyBool.
From Verif Require Import F64 F64Order Geo Series Search Nearest.
Import ListNotations.
Local Open Scope nat_scope.

Definition K (e : nqentry) : Z := f_key (nq_dist e).
Definition NN (e : nqentry) : Prop := nn (nq_dist e).
Notation at_ l i := (nth i l nq0).

Lemma upd_at_length {A} (l : list A) : forall i v, length (upd_at l i v) = length l.
Proof. induction l; destruct i; cbn; auto. Qed.
Lemma upd_at_nth {A} (l : list A) d : forall i v k, i < length l ->
  nth k (upd_at l i v) d = if k =? i then v else nth k l d.
Proof.
  induction l as [|a l IH]; intros [|i] v k H; cbn in *; try lia.
  - destruct k; auto.
  - destruct k; auto. cbn. apply IH. lia.
Qed.
Lemma nqswap_length l i j : length (nqswap l i j) = length l.
Proof. unfold nqswap. rewrite !upd_at_length. reflexivity. Qed.
Lemma nqswap_nth l i j k : i < length l -> j < length l ->
  at_ (nqswap l i j) k = if k =? j then at_ l i else if k =? i then at_ l j else at_ l k.
Proof.
  intros. unfold nqswap. rewrite upd_at_nth by (rewrite upd_at_length; auto).
  destruct (k =? j); auto. rewrite upd_at_nth; auto.
Qed.
Lemma nqswap_perm l i j : i < length l -> j < length l -> Permutation l (nqswap l i j).
Proof.
  intros Hi Hj. apply (Permutation_nth l (nqswap l i j) nq0).
  split; [apply nqswap_length|].
  exists (fun k => if k =? j then i else if k =? i then j else k). split; [|split].
  - intros k Hk. cbv beta. destruct (k =? j); auto. destruct (k =? i); auto.
  - intros x y Hx Hy E. cbv beta in E.
    destruct (Nat.eqb_spec x j); destruct (Nat.eqb_spec y j); destruct (Nat.eqb_spec x i); destruct (Nat.eqb_spec y i); lia.
  - intros k Hk. rewrite nqswap_nth by auto. destruct (k =? j); auto. destruct (k =? i); auto.
Qed.

Lemma NN_at l i : Forall NN l -> NN (at_ l i).
Proof.
  intros F. destruct (Nat.lt_ge_cases i (length l)).
  - rewrite Forall_forall in F. apply F. apply nth_In. auto.
  - rewrite nth_overflow by auto. reflexivity.
Qed.
Lemma cmp_gt l i j : Forall NN l -> (0 <? nqcompare l i j)%Z = (K (at_ l j) <? K (at_ l i))%Z.
Proof.
  intros F. unfold nqcompare. pose proof (NN_at l i F) as A. pose proof (NN_at l j F) as B.
  unfold NN in *. rewrite flt_key, fgt_key by auto. unfold K.
  destruct (f_key _ <? f_key _)%Z eqn:E1; destruct (f_key (nq_dist (at_ l j)) <? _)%Z eqn:E2; lia.
Qed.
Lemma cmp_le l i j : Forall NN l -> (nqcompare l i j <=? 0)%Z = (K (at_ l i) <=? K (at_ l j))%Z.
Proof.
  intros F. pose proof (cmp_gt l i j F). lia.
Qed.

Definition par (i : nat) := Nat.div2 (i - 1).
Lemma par_spec i : 0 < i -> (i = 2 * par i + 1 \/ i = 2 * par i + 2) /\ par i < i.
Proof.
  intros. unfold par. pose proof (Nat.div2_odd (i - 1)) as E.
  destruct (Nat.odd (i - 1)); cbn [Nat.b2n] in E; lia.
Qed.
Definition heap (l : list nqentry) : Prop :=
  forall i, 0 < i < length l -> (K (at_ l (par i)) <= K (at_ l i))%Z.

Lemma heap_root l : heap l -> forall i, i < length l -> (K (at_ l 0) <= K (at_ l i))%Z.
Proof.
  intros H. induction i as [i IH] using lt_wf_ind. intros L.
  destruct (Nat.eq_dec i 0) as [->|N]; [lia|].
  destruct (par_spec i ltac:(lia)) as [_ P].
  specialize (IH (par i) P ltac:(lia)). specialize (H i ltac:(lia)). lia.
Qed.

(** ** push *)
Definition up_inv (l : list nqentry) (i : nat) : Prop :=
  (forall k, 0 < k < length l -> k <> i -> (K (at_ l (par k)) <= K (at_ l k))%Z) /\
  (forall k, 0 < k < length l -> 0 < i -> par k = i -> (K (at_ l (par i)) <= K (at_ l k))%Z).

Lemma Forall_perm {A} (P : A -> Prop) l l' : Permutation l l' -> Forall P l -> Forall P l'.
Proof. intros H. rewrite !Forall_forall. intros F x I. apply F. eapply Permutation_in; [symmetry; exact H|exact I]. Qed.

Lemma sift_up_spec fuel : forall l i, Forall NN l -> i < length l -> i <= fuel -> up_inv l i ->
  Permutation l (sift_up fuel l i) /\ heap (sift_up fuel l i).
Proof.
  induction fuel as [|f IH]; intros l i F L LF [U1 U2].
  - cbn. split; auto. intros k Hk. apply U1; lia.
  - cbn [sift_up]. destruct (Nat.eqb_spec i 0) as [->|N].
    + split; auto. intros k Hk. apply U1; lia.
    + fold (par i). rewrite cmp_gt by auto. destruct (par_spec i ltac:(lia)) as [Pe Pl].
      destruct (K (at_ l i) <? K (at_ l (par i)))%Z eqn:E.
      * assert (SP : Permutation l (nqswap l (par i) i)) by (apply nqswap_perm; lia).
        destruct (IH (nqswap l (par i) i) (par i)) as [A B].
        -- eapply Forall_perm; eauto.
        -- rewrite nqswap_length; lia.
        -- lia.
        -- split; rewrite nqswap_length.
           ++ intros k Hk Nk. rewrite !nqswap_nth by lia.
              destruct (par_spec k ltac:(lia)) as [Qe Ql].
              destruct (Nat.eqb_spec (par k) i) as [e|].
              ** rewrite (proj2 (Nat.eqb_neq k i)) by lia. rewrite (proj2 (Nat.eqb_neq k (par i))) by lia.
                 apply U2; lia.
              ** destruct (Nat.eqb_spec k i) as [->|].
                 { rewrite Nat.eqb_refl. lia. }
                 destruct (Nat.eqb_spec (par k) (par i)) as [e|].
                 { rewrite (proj2 (Nat.eqb_neq k (par i))) by lia. specialize (U1 k Hk ltac:(lia)). rewrite e in U1. lia. }
                 rewrite (proj2 (Nat.eqb_neq k (par i))) by lia. apply U1; lia.
           ++ intros k Hk Hp Ek. destruct (par_spec (par i) Hp) as [Pe2 Pl2]. destruct (par_spec k ltac:(lia)) as [Qe Ql].
              rewrite !nqswap_nth by lia.
              rewrite (proj2 (Nat.eqb_neq (par (par i)) i)) by lia.
              rewrite (proj2 (Nat.eqb_neq (par (par i)) (par i))) by lia.
              pose proof (U1 (par i) ltac:(lia) ltac:(lia)) as U.
              destruct (Nat.eqb_spec k i) as [->|]; [lia|].
              rewrite (proj2 (Nat.eqb_neq k (par i))) by lia.
              specialize (U1 k Hk ltac:(lia)). rewrite Ek in U1. lia.
        -- split; auto. eapply perm_trans; eauto.
      * split; auto. intros k Hk. destruct (Nat.eq_dec k i) as [->|]; [lia|]. apply U1; lia.
Qed.

(** ** pop *)
Definition down_inv (l : list nqentry) (i : nat) : Prop :=
  (forall k, 0 < k < length l -> par k <> i -> (K (at_ l (par k)) <= K (at_ l k))%Z) /\
  (forall k, 0 < k < length l -> 0 < i -> par k = i -> (K (at_ l (par i)) <= K (at_ l k))%Z).

Lemma sift_down_spec fuel : forall l i, Forall NN l -> length l <= fuel + i -> down_inv l i ->
  Permutation l (sift_down fuel l i) /\ heap (sift_down fuel l i).
Proof.
  induction fuel as [|f IH]; intros l i F LF [D1 D2].
  - cbn. split; auto. intros k Hk. destruct (par_spec k ltac:(lia)). apply D1; lia.
  - cbn [sift_down]. rewrite !cmp_le by auto.
    set (s1 := if (i * 2 + 1 <? length l) && _ then _ else i).
    set (s := if (i * 2 + 2 <? length l) && _ then _ else s1).
    assert (SM : (s = i \/ (s < length l /\ 0 < s /\ par s = i)) /\ (K (at_ l s) <= K (at_ l i))%Z /\
      forall k, 0 < k < length l -> par k = i -> (K (at_ l s) <= K (at_ l k))%Z).
    { assert (P1 : par (i * 2 + 1) = i) by (destruct (par_spec (i * 2 + 1)); lia).
      assert (P2 : par (i * 2 + 2) = i) by (destruct (par_spec (i * 2 + 2)); lia).
      assert (CH : forall k, 0 < k < length l -> par k = i -> k = i * 2 + 1 \/ k = i * 2 + 2)
        by (intros k Hk Ek; destruct (par_spec k); lia).
      assert (S1 : (s1 = i \/ (s1 = i * 2 + 1 /\ s1 < length l)) /\ (K (at_ l s1) <= K (at_ l i))%Z /\
         (i * 2 + 1 < length l -> (K (at_ l s1) <= K (at_ l (i * 2 + 1)))%Z)).
      { unfold s1. destruct (i * 2 + 1 <? length l) eqn:E1; cbn [andb]; [|lia].
        destruct (_ <=? _)%Z eqn:E2; lia. }
      unfold s. clear s. clearbody s1. destruct (i * 2 + 2 <? length l) eqn:E1; cbn [andb].
      - destruct (_ <=? _)%Z eqn:E2.
        + split; [right; repeat split; auto; lia|]. split; [lia|]. intros k Hk Ek. destruct (CH k Hk Ek) as [->| ->]; lia.
        + split; [destruct S1 as [[?|[E ?]] _]; [left; lia|right; rewrite E in *; repeat split; auto; lia]|]. split; [lia|].
          intros k Hk Ek. destruct (CH k Hk Ek) as [->| ->]; lia.
      - split; [destruct S1 as [[?|[E ?]] _]; [left; lia|right; rewrite E in *; repeat split; auto; lia]|]. split; [lia|].
        intros k Hk Ek. destruct (CH k Hk Ek) as [->| ->]; lia. }
    clearbody s. clear s1. destruct SM as (SC & SI & SK).
    destruct (Nat.eqb_spec s i) as [->|N].
    + split; auto. intros k Hk. destruct (Nat.eq_dec (par k) i) as [e|]; [|apply D1; auto].
      rewrite e. apply SK; auto.
    + destruct SC as [SC|(SL & S0 & SP)]; [lia|]. destruct (par_spec s S0) as [Qe Ql].
      assert (PM : Permutation l (nqswap l s i)) by (apply nqswap_perm; lia).
      destruct (IH (nqswap l s i) s) as [A B].
      * eapply Forall_perm; eauto.
      * rewrite nqswap_length. lia.
      * split; rewrite nqswap_length.
        -- intros k Hk Nk. rewrite !nqswap_nth by lia. destruct (par_spec k ltac:(lia)) as [Re Rl].
           destruct (Nat.eqb_spec (par k) i) as [e|].
           ++ destruct (Nat.eqb_spec k i) as [?|]; [lia|].
              destruct (Nat.eqb_spec k s) as [->|]; [lia|]. apply SK; auto.
           ++ rewrite (proj2 (Nat.eqb_neq (par k) s)) by lia.
              destruct (Nat.eqb_spec k i) as [->|].
              ** (* k = i: its parent is above *) apply D2; [lia|lia|exact SP].
              ** destruct (Nat.eqb_spec k s) as [->|]; [lia|]. apply D1; auto.
        -- intros k Hk _ Ek. rewrite SP. rewrite !nqswap_nth by lia.
           destruct (par_spec k ltac:(lia)) as [Re Rl].
           rewrite Nat.eqb_refl. rewrite (proj2 (Nat.eqb_neq k i)) by lia. rewrite (proj2 (Nat.eqb_neq k s)) by lia.
           specialize (D1 k Hk ltac:(lia)). rewrite Ek in D1. lia.
      * split; auto. eapply perm_trans; eauto.
Qed.

(** ** the queue *)
Record qinv (q : nqueue) : Prop := {
  qi_heap : heap (nq_items q);
  qi_nn : Forall NN (nq_items q);
  qi_cap : (256 <= nq_cap q)%Z;
  qi_len : (Z.of_nat (length (nq_items q)) <= nq_cap q)%Z }.

Lemma qinv_init : qinv nqueue_init.
Proof. split; cbn; auto; try lia. intros i Hi. cbn in Hi. lia. Qed.

Lemma push_items l e : heap l -> Forall NN l -> NN e ->
  Permutation (e :: l) (sift_up (length l) (l ++ [e]) (length l)) /\ heap (sift_up (length l) (l ++ [e]) (length l)).
Proof.
  intros H F N. destruct (sift_up_spec (length l) (l ++ [e]) (length l)) as [A B].
  - apply Forall_app. auto.
  - rewrite app_length. cbn. lia.
  - lia.
  - split; rewrite app_length; cbn.
    + intros k Hk Nk. destruct (par_spec k ltac:(lia)). rewrite !app_nth1 by lia. apply H. lia.
    + intros k Hk H0 Ek. destruct (par_spec k ltac:(lia)). lia.
  - split; auto. eapply perm_trans; [|exact A]. apply Permutation_cons_append.
Qed.

Lemma push_spec alloc q e : qinv q -> NN e -> exists q', nqueue_push alloc q e = Some q' /\ qinv q' /\
  (nq_oom q = true -> nq_oom q' = true) /\
  (nq_oom q' = false -> Permutation (e :: nq_items q) (nq_items q')) /\
  (nq_oom q' = true -> nq_oom q = true \/ exists k, alloc k = false).
Proof.
  intros [H F C L] N. unfold nqueue_push. destruct (nq_oom q) eqn:O.
  { exists q. split; auto. repeat split; auto. congruence. }
  pose proof (push_items _ e H F N) as [P HP].
  assert (G : (nq_cap q < nq_grow (nq_cap q))%Z).
  { unfold nq_grow. destruct (nq_cap q <? 1000)%Z eqn:E; [lia|].
    assert (nq_cap q * 5 = 4 * nq_cap q + nq_cap q)%Z by lia.
    apply Z.lt_le_trans with (nq_cap q + 1)%Z; [lia|]. apply Z.div_le_lower_bound; lia. }
  assert (PL : length (sift_up (length (nq_items q)) (nq_items q ++ [e]) (length (nq_items q))) = S (length (nq_items q))).
  { erewrite (Permutation_length (Permutation_sym P)). reflexivity. }
  assert (QN : Forall NN (sift_up (length (nq_items q)) (nq_items q ++ [e]) (length (nq_items q)))).
  { eapply Forall_perm; [exact P|]. constructor; auto. }
  destruct (Z.of_nat (length (nq_items q)) =? nq_cap q)%Z eqn:E.
  - destruct (alloc (nq_allocs q)) eqn:A.
    + replace (Z.of_nat (length (nq_items q)) <? nq_grow (nq_cap q))%Z with true by lia.
      eexists. split; [reflexivity|]. repeat split; cbn; auto; try lia; congruence.
    + eexists. split; [reflexivity|]. repeat split; cbn; auto; try congruence. eauto.
  - replace (Z.of_nat (length (nq_items q)) <? nq_cap q)%Z with true by lia.
    eexists. split; [reflexivity|]. repeat split; cbn; auto; try lia; congruence.
Qed.

Lemma push_all_spec alloc es : forall q, qinv q -> Forall NN es -> exists q', push_all alloc q es = Some q' /\ qinv q' /\
  (nq_oom q = true -> nq_oom q' = true) /\
  (nq_oom q' = false -> Permutation (es ++ nq_items q) (nq_items q')) /\
  (nq_oom q' = true -> nq_oom q = true \/ exists k, alloc k = false).
Proof.
  induction es as [|e es IH]; intros q Q F.
  - exists q. cbn. repeat split; auto; apply Q.
  - inversion F; subst. cbn [push_all]. destruct (push_spec alloc q e Q H1) as (q1 & E1 & Q1 & M1 & P1 & O1).
    rewrite E1. destruct (IH q1 Q1 H2) as (q2 & E2 & Q2 & M2 & P2 & O2).
    exists q2. split; auto. split; auto. split; [auto|]. split.
    + intros N. specialize (P2 N). assert (nq_oom q1 = false) as N1 by (destruct (nq_oom q1); auto; rewrite M2 in N; auto).
      specialize (P1 N1). eapply perm_trans; [|exact P2]. cbn.
      eapply perm_trans; [apply Permutation_middle|]. apply Permutation_app_head. exact P1.
    + intros N. destruct (O2 N) as [N1|?]; auto.
Qed.

Lemma pop_none q : nqueue_pop q = None -> nq_items q = [] \/ nq_oom q = true.
Proof.
  unfold nqueue_pop. destruct (nq_items q) as [|a t] eqn:E; cbn; auto. destruct (nq_oom q); auto. discriminate.
Qed.

Lemma firstn_last {A} (l : list A) d : l <> [] -> l = firstn (length l - 1) l ++ [nth (length l - 1) l d].
Proof.
  intros N. induction l as [|a l IH]; [congruence|]. destruct l as [|b l]; auto.
  cbn [length] in *. rewrite Nat.sub_succ, Nat.sub_0_r in *.
  cbn [firstn nth app]. f_equal. replace (S (length l) - 1) with (length l) in IH by lia. apply IH. discriminate.
Qed.

Lemma pop_some q e q' : qinv q -> nqueue_pop q = Some (e, q') ->
  nq_oom q = false /\ nq_oom q' = false /\ qinv q' /\ Permutation (nq_items q) (e :: nq_items q') /\
  Forall (fun x => (K e <= K x)%Z) (nq_items q').
Proof.
  intros [H F C L]. unfold nqueue_pop.
  destruct (Nat.eqb_spec (length (nq_items q)) 0) as [|N]; [discriminate|]. cbn [orb].
  destruct (nq_oom q) eqn:O; [discriminate|]. intros E. injection E as <- <-. cbn.
  set (l := nq_items q) in *. set (n := length l - 1).
  assert (SP : Permutation l (nqswap l 0 n)) by (apply nqswap_perm; unfold n; lia).
  assert (LS : nqswap l 0 n = firstn n (nqswap l 0 n) ++ [at_ (nqswap l 0 n) n]).
  { pose proof (firstn_last (nqswap l 0 n) nq0) as X. rewrite nqswap_length in X. fold n in X.
    apply X. intros Z. apply (f_equal (@length _)) in Z. rewrite nqswap_length in Z. cbn in Z. lia. }
  assert (TOP : at_ (nqswap l 0 n) n = at_ l 0).
  { rewrite nqswap_nth by (unfold n; lia). rewrite Nat.eqb_refl. reflexivity. }
  set (t := firstn n (nqswap l 0 n)) in *.
  assert (TL : length t = n) by (unfold t; rewrite firstn_length, nqswap_length; unfold n; lia).
  assert (P1 : Permutation l (at_ (nqswap l 0 n) n :: t)).
  { eapply perm_trans; [exact SP|]. rewrite LS at 1. symmetry. apply Permutation_cons_append. }
  assert (FT : Forall NN t) by (pose proof (Forall_perm _ _ _ P1 F) as X; inversion X; auto).
  assert (TN : forall k, k < n -> at_ t k = if k =? 0 then at_ l n else at_ l k).
  { intros k Hk. assert (X : at_ (nqswap l 0 n) k = at_ t k) by (rewrite LS; rewrite app_nth1 by lia; reflexivity).
    rewrite <- X, nqswap_nth by (unfold n in *; lia). rewrite (proj2 (Nat.eqb_neq k n)) by lia. reflexivity. }
  destruct (sift_down_spec n t 0) as [A B]; auto; [lia| |].
  { split; [|intros; lia]. intros k Hk Nk. destruct (par_spec k ltac:(lia)).
    rewrite !TN by lia. rewrite (proj2 (Nat.eqb_neq k 0)), (proj2 (Nat.eqb_neq (par k) 0)) by lia.
    apply H. unfold n in *; lia. }
  assert (P2 : Permutation l (at_ (nqswap l 0 n) n :: sift_down n t 0)) by (eapply perm_trans; [exact P1|]; auto).
  split; auto. split; auto. split; [|split; [exact P2|]].
  - split; cbn; auto.
    + eapply Forall_perm; eauto.
    + rewrite <- (Permutation_length A), TL. unfold n. lia.
  - rewrite TOP. apply Forall_forall. intros x I.
    assert (IX : In x l) by (eapply Permutation_in; [symmetry; exact P2|right; exact I]).
    destruct (In_nth _ _ nq0 IX) as (k & Hk & <-). apply heap_root; auto.
Qed.
