(** * The index of a multi-geometry is sound *)

From Coq Require Import ZArith Bool List Lia ZifyBool PeanoNat Permutation.
From Verif Require Import F64 Geo Series Search Geom MultiIx F64Order F64Real F64Mono F32 SeriesFacts
  SearchFacts StripeFacts.
Import ListNotations.
Local Open Scope nat_scope.

(** ** the sort *)
Lemma hil_insert_perm x l : Permutation (hil_insert x l) (x :: l).
Proof.
  induction l as [|y l IH]; cbn; auto. destruct (hilsort_lt y x); auto.
  rewrite IH. apply perm_swap.
Qed.
Lemma hil_qsort_perm l : Permutation (hil_qsort l) l.
Proof.
  unfold hil_qsort. induction l as [|x l IH]; cbn; auto. rewrite hil_insert_perm. auto.
Qed.
Fixpoint ascending (l : list Z) : Prop :=
  match l with
  | a :: ((b :: _) as rest) => (a <= b)%Z /\ ascending rest
  | _ => True
  end.
Lemma hil_insert_sorted x l : ascending (map fst l) -> ascending (map fst (hil_insert x l)).
Proof.
  induction l as [|y l IH]; intros H; [cbn; auto|]. cbn [hil_insert]. unfold hilsort_lt.
  destruct (fst y <? fst x)%Z eqn:E.
  - destruct l as [|z l].
    + cbn. lia.
    + specialize (IH (proj2 H)). cbn [hil_insert] in *. unfold hilsort_lt in *.
      destruct (fst z <? fst x)%Z eqn:E2.
      * cbn [map] in *. split; [apply H|exact IH].
      * cbn [map] in *. split; [lia|exact IH].
  - cbn [map]. split; [lia|exact H].
Qed.
Lemma hil_qsort_sorted l : ascending (map fst (hil_qsort l)).
Proof.
  unfold hil_qsort. induction l as [|x l IH]; cbn [fold_right]; [exact I|]. apply hil_insert_sorted; auto.
Qed.

Lemma multi_order_spec rs mr order : multi_order rs mr = Some order ->
  exists hs, map snd hs = order /\ ascending (map fst hs) /\
    Permutation order (seq 0 (length rs)) /\
    forall h i, In (h, i) hs -> tg_point_hilbert (tg_rect_center (nth i rs rect0)) mr = Some h.
Proof.
  unfold multi_order. destruct (opt_all _) as [hs|] eqn:E; [|discriminate]. intros [= <-].
  destruct (opt_all_spec _ _ E) as [L N]. rewrite map_length, seq_length in *.
  exists (hil_qsort hs). split; [reflexivity|]. split; [apply hil_qsort_sorted|].
  assert (S : forall i, i < length rs -> snd (nth i hs (0%Z, 0)) = i /\
    tg_point_hilbert (tg_rect_center (nth i rs rect0)) mr = Some (fst (nth i hs (0%Z, 0)))).
  { intros i Hi. specialize (N i (0%Z, 0) Hi).
    set (F := fun i => match tg_point_hilbert (tg_rect_center (nth i rs rect0)) mr with Some h => Some (h, i) | None => None end) in N.
    rewrite (nth_indep _ None (F 0)) in N by (rewrite map_length, seq_length; auto).
    rewrite map_nth, seq_nth in N by auto. unfold F in N. cbn [Nat.add] in N.
    destruct (tg_point_hilbert _ _) as [h|]; [|discriminate]. injection N as N. rewrite <- N. auto. }
  split.
  - rewrite hil_qsort_perm. replace (seq 0 (length rs)) with (map snd hs); auto.
    apply (nth_ext _ _ 0 0).
    + rewrite map_length, seq_length. auto.
    + rewrite map_length, L. intros i Hi. rewrite seq_nth by auto.
      rewrite (nth_indep _ 0 (snd (0%Z, 0))) by (rewrite map_length, L; auto).
      rewrite map_nth. apply S; auto.
  - intros h i I. apply (Permutation_in _ (hil_qsort_perm hs)) in I.
    destruct (In_nth _ _ (0%Z, 0) I) as (k & Hk & Ek). rewrite L in Hk.
    destruct (S k Hk) as [S1 S2]. rewrite Ek in S1, S2. cbn in S1, S2. subst k. exact S2.
Qed.

(** ** packing *)
Section Pack.
Variables (s : nat) (Hs : 2 <= s).

Record pinv (pre : list ixrect) (st : ixrect * nat * list ixrect) : Prop := {
  pi_j : 1 <= snd (fst st) <= s;
  pi_n : length pre = length (snd st) * s + snd (fst st);
  pi_ok : rect_ok (fst (fst st)) /\ Forall rect_ok (snd st);
  pi_cur : forall i, length (snd st) * s <= i < length pre -> kcov (fst (fst st)) (nth i pre rect0);
  pi_out : forall k i, k < length (snd st) -> k * s <= i < (k + 1) * s ->
    kcov (nth k (rev (snd st)) rect0) (nth i pre rect0)
}.

Lemma pinv_step pre st r : rect_ok r -> pinv pre st -> pinv (pre ++ [r]) (pack_step s st r).
Proof.
  intros Or [J N [O1 O2] C OU]. destruct st as [[cur j] out]. cbn [fst snd] in *.
  unfold pack_step. destruct (j =? s) eqn:E.
  - assert (j = s) by lia. subst j. split; cbn [fst snd length].
    + lia.
    + rewrite app_length. cbn. lia.
    + split; auto.
    + rewrite app_length. cbn [length]. intros i Hi.
      assert (i = length pre) by lia. subst i.
      rewrite app_nth2 by lia. rewrite Nat.sub_diag. apply kcov_refl.
    + intros k i Hk Hi. cbn [rev].
      rewrite (app_nth1 pre) by nia. destruct (Nat.eq_dec k (length out)) as [->|NE].
      * rewrite app_nth2; rewrite rev_length; [|lia]. rewrite Nat.sub_diag. cbn [nth]. apply C. nia.
      * rewrite app_nth1 by (rewrite rev_length; lia). apply OU; lia.
  - split; cbn [fst snd].
    + lia.
    + rewrite app_length. cbn. lia.
    + split; auto. unfold ixrect_expand. auto with fok.
    + rewrite app_length. cbn [length]. intros i Hi.
      destruct (Nat.eq_dec i (length pre)) as [->|NE].
      * rewrite app_nth2 by lia. rewrite Nat.sub_diag. cbn [nth]. apply kcov_expand_r; apply rect_ok_nn; auto.
      * rewrite app_nth1 by lia. eapply kcov_trans; [apply kcov_expand_l; apply rect_ok_nn; auto|].
        apply C. lia.
    + intros k i Hk Hi. rewrite app_nth1 by nia. apply OU; lia.
Qed.
Lemma pinv_fold rest : forall pre st, Forall rect_ok rest -> pinv pre st ->
  pinv (pre ++ rest) (fold_left (pack_step s) rest st).
Proof.
  induction rest as [|r rest IH]; intros pre st F P; cbn [fold_left].
  - rewrite app_nil_r. exact P.
  - inversion F; subst. replace (pre ++ r :: rest) with ((pre ++ [r]) ++ rest) by (rewrite <- app_assoc; reflexivity).
    apply IH; auto. apply pinv_step; auto.
Qed.

Lemma pack_level_spec (l : list ixrect) n : l <> [] -> Forall rect_ok l -> n = (length l + s - 1) / s ->
  length (pack_level s n l) = n /\ Forall rect_ok (pack_level s n l) /\
  forall k i, k < n -> k * s <= i < (k + 1) * s -> i < length l ->
    kcov (nth k (pack_level s n l) rect0) (nth i l rect0).
Proof.
  intros NE F En. destruct l as [|r rest]; [congruence|]. inversion F; subst.
  assert (P0 : pinv [r] (r, 1, [])).
  { split; cbn; try lia; auto. intros i Hi. assert (i = 0) by lia. subst. apply kcov_refl. }
  assert (X : exists cur j out, pinv (r :: rest) (cur, j, out) /\ forall n,
     pack_level s n (r :: rest) = if length out <? n then rev (cur :: out) else rev out).
  { pose proof (pinv_fold rest [r] _ H2 P0) as P. cbn [app] in P. unfold pack_level.
    match type of P with pinv _ ?x => destruct x as [[cur j] out] eqn:EX end.
    exists cur, j, out. split; [exact P|]. intros n0.
    reflexivity. }
  destruct X as (cur & j & out & P & X). rewrite X.
  destruct P as [J N [O1 O2] C OU]. cbn [fst snd] in *.
  assert (K : (length (r :: rest) + s - 1) / s = S (length out)).
  { symmetry. apply (Nat.div_unique _ _ _ (j - 1)); [lia|]. assert (N2 : length (r :: rest) = length out * s + j) by exact N. rewrite N2. rewrite Nat.mul_succ_r, (Nat.mul_comm s). lia. }
  rewrite K. replace (length out <? S (length out)) with true by lia. cbv iota.
  assert (FO : Forall rect_ok (rev (cur :: out))) by (apply Forall_rev; auto).
  split; [rewrite rev_length; reflexivity|]. split; [exact FO|].
  intros k i Hk Hi Hl. cbn [rev]. destruct (Nat.eq_dec k (length out)) as [->|NE'].
  - rewrite app_nth2; rewrite rev_length; [|lia]. rewrite Nat.sub_diag. cbn [nth]. apply C. split; [apply Hi|exact Hl].
  - rewrite app_nth1 by (rewrite rev_length; lia). apply OU; lia.
Qed.

(** ** levels *)
Variables (n : nat) (R : nat -> rect).
Hypothesis Hn : 0 < n.

Definition mlevel (l : nat) (level : list ixrect) : Prop :=
  length level = calc_num_keys s l n /\ Forall rect_ok level /\
  (forall k i, k < length level -> k * s ^ l <= i < (k + 1) * s ^ l -> i < n ->
     kcov (nth k level rect0) (R i)).
Fixpoint mlevels_from (l : nat) (lvls : list (list ixrect)) : Prop :=
  match lvls with
  | nil => True
  | level :: below => mlevel (length below + l) level /\ mlevels_from l below
  end.

Lemma keys_up l : calc_num_keys s (S l) n = (calc_num_keys s l n + s - 1) / s.
Proof.
  assert (E : forall k, k < calc_num_keys s (S l) n <-> k < (calc_num_keys s l n + s - 1) / s).
  { intros k. rewrite num_keys_spec by lia. rewrite ceil_spec by lia. rewrite num_keys_spec by lia.
    cbn [Nat.pow]. rewrite Nat.mul_assoc. reflexivity. }
  destruct (Nat.lt_trichotomy (calc_num_keys s (S l) n) ((calc_num_keys s l n + s - 1) / s)) as [L|[L|L]]; auto;
    apply E in L; lia.
Qed.

Lemma mlevel_up l below : mlevel l below ->
  mlevel (S l) (pack_level s (calc_num_keys s (S l) n) below).
Proof.
  intros (L & F & C).
  assert (NE : below <> []).
  { intros ->. cbn in L. assert (0 < calc_num_keys s l n) by (apply num_keys_spec; lia). lia. }
  destruct (pack_level_spec below (calc_num_keys s (S l) n) NE F) as (L2 & F2 & C2).
  { rewrite keys_up, L. reflexivity. }
  split; [exact L2|]. split; [exact F2|]. rewrite L2. intros k i Hk Hi Hin.
  assert (Hp : s ^ l <> 0) by (apply Nat.pow_nonzero; lia).
  set (c := i / s ^ l).
  pose proof (Nat.div_mod i (s ^ l) Hp) as D. pose proof (Nat.mod_upper_bound i (s ^ l) Hp) as M.
  fold c in D. cbn [Nat.pow] in Hi.
  assert (Hc : k * s <= c < (k + 1) * s).
  { split; [apply Nat.div_le_lower_bound; auto; nia|apply Nat.div_lt_upper_bound; auto; nia]. }
  assert (Hcl : c < length below).
  { rewrite L. apply num_keys_spec; [lia|]. nia. }
  eapply kcov_trans; [apply (C2 k c); auto|]. apply C; auto. nia.
Qed.
Lemma mlevels_snoc l lvls level : mlevels_from (S l) lvls -> mlevel l level -> mlevels_from l (lvls ++ [level]).
Proof.
  induction lvls as [|a lvls IH]; cbn; intros H1 H2; auto.
  destruct H1 as [A B]. split; [|apply IH; auto].
  rewrite app_length. cbn. replace (length lvls + 1 + l) with (length lvls + S l) by lia. exact A.
Qed.
Lemma pack_up_ok k : forall l below, mlevel l below -> mlevels_from l (pack_up s n k l below).
Proof.
  induction k; intros l below H; cbn; auto. apply mlevels_snoc; auto. apply IHk, mlevel_up; auto.
Qed.
End Pack.
Lemma pack_up_length s n k : forall l below, length (pack_up s n k l below) = S k.
Proof. induction k; intros; cbn; auto. rewrite app_length, IHk. cbn. lia. Qed.

(** ** the search *)
Lemma multi_index_search_scan {A} gs order s q (iter : A -> option geom -> nat -> bool * A) :
  2 <= s -> rect_ok q -> (forall i, rect_ok (tg_geom_rect (nth i gs None))) ->
  forall lvls, mlevels_from s (length gs) (fun i => tg_geom_rect (nth (nth i order 0) gs None)) 1 lvls ->
  forall start st,
  multi_index_search gs order s q iter lvls start st =
  loop_while (fun st i => msearch_leaf gs q iter st (nth i order 0))
    (clip (start * s ^ length lvls) (s * s ^ length lvls) (length gs)) st.
Proof.
  intros Hs Oq Osg. induction lvls as [|level below IH]; intros OK start st.
  - cbn. rewrite !Nat.mul_1_r. reflexivity.
  - cbn [multi_index_search]. destruct OK as [(LL & LF & LC) OK]. specialize (IH OK).
    replace (length below + 1) with (length (level :: below)) in * by (cbn; lia).
    set (w := s ^ length (level :: below)) in *.
    assert (Hw : w <> 0) by (apply Nat.pow_nonzero; lia).
    rewrite <- (clip_concat w (length gs) Hw s start).
    change ((length gs + w - 1) / w) with (calc_num_keys s (length (level :: below)) (length gs)).
    rewrite <- LL, <- loop_while_concat. apply loop_while_ext.
    intros st' i Hi. apply in_clip in Hi. unfold ixrect_to_tg_rect.
    destruct (tg_rect_intersects_rect (nth i level rect0) q) eqn:E.
    + rewrite IH. unfold w. cbn [length Nat.pow]. f_equal. f_equal. lia.
    + symmetry. apply loop_while_skip. intros st'' j Hj. apply in_clip in Hj.
      unfold msearch_leaf. set (cr := tg_geom_rect _). destruct (tg_rect_intersects_rect cr q) eqn:E2; auto.
      exfalso. assert (K : kcov (nth i level rect0) cr) by (apply LC; lia).
      assert (OL : rect_ok (nth i level rect0)).
      { rewrite Forall_forall in LF. apply LF, nth_In. lia. }
      apply intersects_rect_iff in E2; [|apply rect_ok_nn; apply Osg|apply rect_ok_nn; auto].
      assert (T : tg_rect_intersects_rect (nth i level rect0) q = true); [|congruence].
      apply intersects_rect_iff; [apply rect_ok_nn; auto|apply rect_ok_nn; auto|].
      eapply kcov_meet; eauto.
Qed.

Lemma map_nth_seq (order : list nat) : map (fun i => nth i order 0) (seq 0 (length order)) = order.
Proof.
  apply (nth_ext _ _ 0 0); rewrite map_length, seq_length; auto.
  intros i Hi. rewrite (nth_indep _ 0 (nth 0 order 0)) by (rewrite map_length, seq_length; auto).
  rewrite (map_nth (fun i => nth i order 0)), seq_nth by auto. reflexivity.
Qed.

Lemma multi_levels_ok rs order : 64 <= length rs -> Permutation order (seq 0 (length rs)) ->
  Forall rect32 rs ->
  mlevels_from multi_spread (length rs) (fun i => nth (nth i order 0) rs rect0) 1
    (ix_levels (multi_levels rs order)) /\
  length (ix_levels (multi_levels rs order)) = calc_num_levels multi_spread (length rs) - 1 /\
  1 <= length (ix_levels (multi_levels rs order)).
Proof.
  intros N P F. unfold multi_levels. cbn [ix_levels].
  assert (Ho : length order = length rs) by (rewrite (Permutation_length P), seq_length; auto).
  assert (S2 : 2 <= multi_spread) by (unfold multi_spread; lia).
  rewrite pack_up_length.
  pose proof (calc_num_levels_ge2 multi_spread (length rs) S2 ltac:(unfold multi_spread; lia)) as G.
  split; [|lia].
  apply pack_up_ok; auto; [lia|].
  assert (RO : forall i, rect32 (nth i rs rect0) \/ nth i rs rect0 = rect0).
  { intros i. destruct (Nat.lt_ge_cases i (length rs)).
    - left. rewrite Forall_forall in F. apply F, nth_In; auto.
    - right. apply nth_overflow; auto. }
  assert (B0 : forall i, i < length rs -> rect32 (nth (nth i order 0) rs rect0)).
  { intros i Hi. rewrite Forall_forall in F. apply F, nth_In.
    assert (I : In (nth i order 0) (seq 0 (length rs))).
    { apply (Permutation_in _ P), nth_In. lia. }
    apply in_seq in I. lia. }
  assert (R32 : forall r, rect32 r -> rect_ok r).
  { intros r [[? ?] [? ?]]. repeat split; apply f32_range_ok; auto. }
  set (lv := map (fun i => tg_rect_to_ixrect (nth i rs rect0)) order).
  assert (Hnth : forall k, k < length rs -> nth k lv rect0 = tg_rect_to_ixrect (nth (nth k order 0) rs rect0)).
  { intros k Hk. unfold lv.
    rewrite (nth_indep _ rect0 (tg_rect_to_ixrect (nth 0 rs rect0))) by (rewrite map_length; lia).
    rewrite (map_nth (fun i => tg_rect_to_ixrect (nth i rs rect0))). reflexivity. }
  apply mlevel_up; auto; [lia|].
  assert (K0 : calc_num_keys multi_spread 0 (length rs) = length rs).
  { unfold calc_num_keys. cbn [Nat.pow]. rewrite Nat.div_1_r. lia. }
  split; [|split].
  - rewrite K0. unfold lv. rewrite map_length. auto.
  - apply Forall_forall. intros x I. destruct (In_nth lv x rect0 I) as (k & Hk & <-).
    unfold lv in Hk. rewrite map_length, Ho in Hk. rewrite Hnth by auto.
    apply ok_to_ixrect. auto.
  - unfold lv at 1. rewrite map_length, Ho. intros k i Hk Hi _. change (multi_spread ^ 0) with 1 in Hi.
    assert (i = k) by lia. subst i. rewrite Hnth by auto. apply ixrect_covers. apply B0; auto.
Qed.

Lemma geom_rect_children gs t f c x : Forall rect_ok (map tg_geom_rect gs) ->
  rect_ok (tg_geom_rect (Some (GGMulti t f (Some gs) c x))) /\
  forall i, i < length gs -> kcov (tg_geom_rect (Some (GGMulti t f (Some gs) c x))) (tg_geom_rect (nth i gs None)).
Proof.
  intros F. unfold tg_geom_rect at 1 2. cbn [rect_of_geom].
  assert (E : map (fun o => match o with Some g => rect_of_geom g | None => rect0 end) gs = map tg_geom_rect gs) by reflexivity.
  rewrite E. destruct gs as [|g gs]; cbn [map].
  - split; [repeat split; reflexivity|]. intros i Hi. cbn in Hi. lia.
  - cbn [map] in F. inversion F; subst.
    destruct (ix_union_fold (map tg_geom_rect gs) (tg_geom_rect g) H1 H2) as (A & B & C).
    change ixrect_expand with tg_rect_expand in *.
    split; [exact A|]. intros i Hi. destruct i as [|i]; cbn [nth]; [exact B|].
    apply C. apply in_map. apply nth_In. cbn in Hi. lia.
Qed.

Theorem geom_search_scan {A} gs t f c x mix q (iter : A -> option geom -> nat -> bool * A) st :
  rect_ok q -> Forall rect_ok (map tg_geom_rect gs) ->
  (mix = None \/ (Forall rect32 (map tg_geom_rect gs) /\ 64 <= length gs /\
     exists order, Permutation order (seq 0 (length gs)) /\
       mix = Some (order, multi_levels (map tg_geom_rect gs) order))) ->
  exists order, Permutation order (seq 0 (length gs)) /\
    (mix = None -> order = seq 0 (length gs)) /\ (forall o ix, mix = Some (o, ix) -> order = o) /\
    tg_geom_search (Some (GGMulti t f (Some gs) c x)) mix q iter st =
    loop_while (fun st i => iter st (nth i gs None) i)
      (filter (fun i => tg_rect_intersects_rect (tg_geom_rect (nth i gs None)) q) order) st.
Proof.
  intros Oq F M.
  assert (Ok : forall i, rect_ok (tg_geom_rect (nth i gs None))).
  { intros i. destruct (Nat.lt_ge_cases i (length gs)).
    - rewrite Forall_forall in F. apply F, in_map, nth_In; auto.
    - rewrite nth_overflow by auto. repeat split; reflexivity. }
  destruct (geom_rect_children gs t f c x F) as [GO GC].
  set (G := Some (GGMulti t f (Some gs) c x)) in *.
  (* leaving out the rectangle test at the top *)
  assert (TOP : forall order (B : bool * A), Permutation order (seq 0 (length gs)) ->
    B = loop_while (msearch_leaf gs q iter) order st ->
    (if negb (tg_rect_intersects_rect (tg_geom_rect G) q) then (true, st) else B) =
    loop_while (fun st i => iter st (nth i gs None) i)
      (filter (fun i => tg_rect_intersects_rect (tg_geom_rect (nth i gs None)) q) order) st).
  { intros order B P EB.
    assert (S : loop_while (msearch_leaf gs q iter) order st = loop_while (fun st i => iter st (nth i gs None) i)
      (filter (fun i => tg_rect_intersects_rect (tg_geom_rect (nth i gs None)) q) order) st).
    { rewrite (loop_while_filter _ (fun i => tg_rect_intersects_rect (tg_geom_rect (nth i gs None)) q)).
      - apply loop_while_ext. intros st' i I. apply filter_In in I. destruct I as [_ I].
        unfold msearch_leaf. rewrite I. reflexivity.
      - intros st' i _ I. unfold msearch_leaf. rewrite I. reflexivity. }
    destruct (tg_rect_intersects_rect (tg_geom_rect G) q) eqn:E; cbn [negb]; [congruence|].
    replace (filter _ order) with (@nil nat); [reflexivity|]. symmetry.
    assert (NI : forall i, In i order -> tg_rect_intersects_rect (tg_geom_rect (nth i gs None)) q = false).
    { intros i I. apply (Permutation_in _ P) in I. apply in_seq in I.
      destruct (tg_rect_intersects_rect (tg_geom_rect (nth i gs None)) q) eqn:E2; auto. exfalso.
      apply intersects_rect_iff in E2; [|apply rect_ok_nn; auto|apply rect_ok_nn; auto].
      assert (T : tg_rect_intersects_rect (tg_geom_rect G) q = true); [|congruence].
      apply intersects_rect_iff; [apply rect_ok_nn; auto|apply rect_ok_nn; auto|].
      apply (kcov_meet _ (tg_geom_rect (nth i gs None))); [apply GC; lia|exact E2]. }
    clear - NI. induction order as [|i l IH]; cbn; auto. rewrite NI by (left; auto). apply IH.
    intros. apply NI. right; auto. }
  destruct M as [->|(F32 & N & order & P & ->)].
  - exists (seq 0 (length gs)). split; auto. split; auto. split; [discriminate|].
    unfold tg_geom_search. cbn [geom_multi G]. apply TOP; auto.
  - exists order. split; auto. split; [discriminate|]. split; [congruence|].
    unfold tg_geom_search. cbn [geom_multi G]. apply TOP; auto.
    assert (Ho : length order = length gs) by (rewrite (Permutation_length P), seq_length; auto).
    destruct (multi_levels_ok (map tg_geom_rect gs) order) as (ML & LEN & L1).
    { rewrite map_length; auto. } { rewrite map_length; auto. } { auto. }
    rewrite map_length in *.
    change (ix_spread (multi_levels (map tg_geom_rect gs) order)) with multi_spread.
    rewrite multi_index_search_scan; auto.
    + set (L := length (ix_levels (multi_levels (map tg_geom_rect gs) order))) in *.
      assert (C : clip (0 * multi_spread ^ L) (multi_spread * multi_spread ^ L) (length gs) = seq 0 (length gs)).
      { destruct (calc_num_levels_spec multi_spread (length gs) ltac:(unfold multi_spread; lia)) as [A1 A2].
        replace (calc_num_levels multi_spread (length gs)) with (S L) in A1 by lia. cbn [Nat.pow] in A1.
        unfold clip. rewrite Nat.mul_0_l, Nat.add_0_l, Nat.sub_0_r. rewrite Nat.min_r by exact A1. reflexivity. }
      rewrite C. rewrite <- Ho.
      transitivity (loop_while (msearch_leaf gs q iter) (map (fun i => nth i order 0) (seq 0 (length order))) st);
        [|now rewrite map_nth_seq].
      clear. generalize (seq 0 (length order)). intros l. revert st.
      induction l as [|i l IH]; intros st; cbn [map loop_while]; auto.
      destruct (msearch_leaf gs q iter st (nth i order 0)) as [[|] st']; auto.
    + unfold multi_spread; lia.
    + assert (E : forall i, nth (nth i order 0) (map tg_geom_rect gs) rect0 = tg_geom_rect (nth (nth i order 0) gs None)).
      { intros i. change rect0 with (tg_geom_rect None). apply map_nth. }
      revert ML. generalize (ix_levels (multi_levels (map tg_geom_rect gs) order)).
      intros lv. induction lv as [|a lv IH]; cbn [mlevels_from]; auto.
      intros [(M1 & M2 & M3) M4]. split; auto. split; auto. split; auto.
      intros k i Hk Hi Hin. rewrite <- E. apply M3; auto.
Qed.

(** the same with the order named *)
Theorem geom_search_order {A} gs t f c x order q (iter : A -> option geom -> nat -> bool * A) st :
  rect_ok q -> Forall rect_ok (map tg_geom_rect gs) -> Forall rect32 (map tg_geom_rect gs) ->
  64 <= length gs -> Permutation order (seq 0 (length gs)) ->
  tg_geom_search (Some (GGMulti t f (Some gs) c x)) (Some (order, multi_levels (map tg_geom_rect gs) order)) q iter st =
  loop_while (fun st i => iter st (nth i gs None) i)
    (filter (fun i => tg_rect_intersects_rect (tg_geom_rect (nth i gs None)) q) order) st.
Proof.
  intros Oq F F32 N P.
  destruct (geom_search_scan gs t f c x (Some (order, multi_levels (map tg_geom_rect gs) order)) q iter st Oq F)
    as (o & _ & _ & O & E).
  - right. split; auto. split; auto. exists order. auto.
  - rewrite (O _ _ eq_refl) in E. exact E.
Qed.
