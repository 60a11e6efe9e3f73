(** * Pair searches report exactly the intersecting pairs *)

From Coq Require Import ZArith Bool List Lia ZifyBool PeanoNat Permutation.
From Verif Require Import F64 Geo Series Search F64Order F64Real F64Mono F32 SeriesFacts SearchFacts RectFacts
  SpecGeo SpecFacts SpecRing RingFacts IndexFacts.
Import ListNotations.

(** ** products of lists *)
Lemma prod_app_l {X Y} (a b : list X) (c : list Y) : list_prod (a ++ b) c = list_prod a c ++ list_prod b c.
Proof. induction a; cbn; auto. rewrite IHa, app_assoc. reflexivity. Qed.
Lemma prod_app_r {X Y} (a : list X) (b c : list Y) :
  Permutation (list_prod a (b ++ c)) (list_prod a b ++ list_prod a c).
Proof.
  induction a as [|x a IH]; cbn; auto. rewrite map_app, <- !app_assoc. apply Permutation_app_head.
  rewrite IH. rewrite !app_assoc. apply Permutation_app_tail. apply Permutation_app_comm.
Qed.
Lemma prod_nil_r {X Y} (a : list X) : list_prod a (@nil Y) = [].
Proof. induction a; cbn; auto. Qed.
Lemma prod_blocks {I J X Y} (f : I -> list X) (g : J -> list Y) (h : I -> J -> list (X * Y)) la lb :
  (forall i j, In i la -> In j lb -> Permutation (h i j) (list_prod (f i) (g j))) ->
  Permutation (concat (map (fun i => concat (map (h i) lb)) la))
              (list_prod (concat (map f la)) (concat (map g lb))).
Proof.
  induction la as [|i la IH]; intros H; cbn [map concat]; auto.
  rewrite prod_app_l. apply Permutation_app; [|apply IH; intros; apply H; auto; right; auto].
  assert (HI : forall j, In j lb -> Permutation (h i j) (list_prod (f i) (g j))) by (intros; apply H; [left|]; auto).
  clear IH H. induction lb as [|j lb IH]; cbn [map concat]; [rewrite prod_nil_r; auto|].
  rewrite prod_app_r. apply Permutation_app; [apply HI; left; auto|apply IH; intros; apply HI; right; auto].
Qed.
Lemma NoDup_prod {X Y} (a : list X) (b : list Y) : NoDup a -> NoDup b -> NoDup (list_prod a b).
Proof.
  intros Na Nb. induction Na as [|x a Hx Na IH]; cbn; [constructor|].
  assert (NM : NoDup (map (pair x) b)).
  { clear - Nb. induction Nb as [|y b Hy Nb IHb]; cbn; constructor; auto.
    intros I. apply in_map_iff in I. destruct I as (z & E & Hz). congruence. }
  assert (G : forall (l1 l2 : list (X * Y)), NoDup l1 -> NoDup l2 -> (forall p, In p l1 -> ~ In p l2) -> NoDup (l1 ++ l2)).
  { clear. induction l1 as [|p l1 IHl]; intros l2 N1 N2 D; cbn; auto.
    inversion N1; subst. constructor.
    - rewrite in_app_iff. intros [I|I]; auto. apply (D p); [left|]; auto.
    - apply IHl; auto. intros q Hq. apply D. right; auto. }
  apply G; auto. intros [u v] I1 I2. apply in_map_iff in I1. destruct I1 as (z & E & Hz).
  injection E as <- <-. apply in_prod_iff in I2. tauto.
Qed.
Lemma loop_while_map' {A B C : Type} (body : A -> C -> bool * A) (f : B -> C) l st :
  loop_while body (map f l) st = loop_while (fun st x => body st (f x)) l st.
Proof. revert st. induction l as [|x l IH]; intros st; cbn; auto. destruct (body st (f x)) as [[|] st']; auto. Qed.

(** ** segments that intersect have boxes that meet *)
Lemma intersects_boxes s t : tg_segment_intersects_segment s t = true ->
  tg_rect_intersects_rect (tg_segment_rect s) (tg_segment_rect t) = true.
Proof.
  unfold tg_segment_intersects_segment. destruct (tg_rect_intersects_rect _ _); cbn [negb]; auto.
Qed.

Section Pairs.
Context (a b : ring).

Definition meets (ij : nat * nat) : bool := tg_segment_intersects_segment (seg_at a (fst ij)) (seg_at b (snd ij)).
Definition report {A} (iter : pair_iter A) (st : A) (ij : nat * nat) : bool * A :=
  iter st (seg_at a (fst ij)) (fst ij) (seg_at b (snd ij)) (snd ij).
Definition pair_body {A} (iter : pair_iter A) (st : A) (ij : nat * nat) : bool * A :=
  if meets ij then report iter st ij else (true, st).

Lemma pair_body_filter {A} (iter : pair_iter A) l st :
  loop_while (pair_body iter) l st = loop_while (report iter) (filter meets l) st.
Proof.
  rewrite (loop_while_filter _ meets).
  - apply loop_while_ext. intros st' ij H. apply filter_In in H. unfold pair_body. destruct H as [_ ->]. reflexivity.
  - intros st' ij _ H. unfold pair_body. rewrite H. reflexivity.
Qed.

Lemma rr_leaves_scan {A} (iter : pair_iter A) ai bi st :
  rr_leaves a b iter ai bi st = loop_while (pair_body iter) (list_prod ai bi) st.
Proof.
  unfold rr_leaves.
  assert (E : list_prod ai bi = concat (map (fun i => map (pair i) bi) ai)).
  { clear. induction ai as [|i ai IH]; cbn; auto. rewrite IH. reflexivity. }
  rewrite E, <- loop_while_concat. apply loop_while_ext. intros st' i _.
  rewrite loop_while_map'. apply loop_while_ext. intros st'' j _. reflexivity.
Qed.

(** the pairs looked at when nothing is pruned *)
Fixpoint en_leaf_a (aidx aspread : nat) (lb : list (list ixrect)) (bidx bspread : nat) : list (nat * nat) :=
  match lb with
  | nil => list_prod (clip aidx aspread (r_nsegs a)) (clip bidx bspread (r_nsegs b))
  | level :: below =>
      concat (map (fun i => concat (map (fun j => en_leaf_a i 1 below (j * bspread) bspread)
        (clip bidx bspread (length level)))) (clip aidx aspread (r_nsegs a)))
  end.
Fixpoint en_leaf_b (la : list (list ixrect)) (aidx aspread bidx bspread : nat) : list (nat * nat) :=
  match la with
  | nil => list_prod (clip aidx aspread (r_nsegs a)) (clip bidx bspread (r_nsegs b))
  | level :: below =>
      concat (map (fun i => concat (map (fun j => en_leaf_b below (i * aspread) aspread j 1)
        (clip bidx bspread (r_nsegs b)))) (clip aidx aspread (length level)))
  end.
Fixpoint en_ix (la : list (list ixrect)) (aidx aspread : nat) (lb : list (list ixrect)) (bidx bspread : nat)
  : list (nat * nat) :=
  match la, lb with
  | nil, _ => en_leaf_a aidx aspread lb bidx bspread
  | _, nil => en_leaf_b la aidx aspread bidx bspread
  | alevel :: abelow, blevel :: bbelow =>
      concat (map (fun i => concat (map (fun j => en_ix abelow (i * aspread) aspread bbelow (j * bspread) bspread)
        (clip bidx bspread (length blevel)))) (clip aidx aspread (length alevel)))
  end.

Fixpoint sizes (s nsegs : nat) (lvls : list (list ixrect)) : Prop :=
  match lvls with
  | nil => True
  | level :: below => length level = calc_num_keys s (length lvls) nsegs /\ sizes s nsegs below
  end.
Lemma levels_sizes segs s nsegs lvls : levels_ok segs s nsegs lvls -> sizes s nsegs lvls.
Proof. induction lvls; cbn; auto. intros [[L _] H]. auto. Qed.

(** the range of segments below entry [i] of the first level *)
Definition span (s : nat) (lvls : list (list ixrect)) (start N : nat) : list nat :=
  clip (start * s ^ length lvls) (s * s ^ length lvls) N.
Lemma span_step s level below start N : s <> 0 -> length level = calc_num_keys s (length (level :: below)) N ->
  concat (map (fun i => span s below (i * s) N) (clip start s (length level))) = span s (level :: below) start N.
Proof.
  intros Hs L. unfold span.
  set (w := s ^ length (level :: below)).
  assert (Hw : w <> 0) by (apply Nat.pow_nonzero; auto).
  rewrite <- (clip_concat w N Hw s start). rewrite L. unfold calc_num_keys. fold w.
  f_equal. apply map_ext. intros i. unfold w. cbn [length Nat.pow]. f_equal. lia.
Qed.
Lemma span_nil s start N : span s [] start N = clip start s N.
Proof. unfold span. cbn. rewrite !Nat.mul_1_r. reflexivity. Qed.
Lemma clip_ones s c N : concat (map (fun i => clip i 1 N) (clip s c N)) = clip s c N.
Proof.
  pose proof (clip_concat 1 N ltac:(lia) c s) as H. rewrite !Nat.mul_1_r in H.
  replace ((N + 1 - 1) / 1) with N in H by (rewrite Nat.div_1_r; lia).
  rewrite <- H at 2. f_equal. apply map_ext. intros i. rewrite Nat.mul_1_r. reflexivity.
Qed.

Lemma en_leaf_a_perm s : s <> 0 -> forall lb, sizes s (r_nsegs b) lb -> forall aidx aspread bidx,
  Permutation (en_leaf_a aidx aspread lb bidx s)
              (list_prod (clip aidx aspread (r_nsegs a)) (span s lb bidx (r_nsegs b))).
Proof.
  intros Hs. induction lb as [|level below IH]; intros SZ aidx aspread bidx; cbn [en_leaf_a].
  - rewrite span_nil. reflexivity.
  - destruct SZ as [L SZ]. rewrite <- span_step by auto.
    etransitivity; [apply (prod_blocks (fun i => clip i 1 (r_nsegs a)) (fun j => span s below (j * s) (r_nsegs b)))|].
    + intros i j Hi Hj. apply IH. exact SZ.
    + rewrite clip_ones. reflexivity.
Qed.
Lemma en_leaf_b_perm s : s <> 0 -> forall la, sizes s (r_nsegs a) la -> forall aidx bidx bspread,
  Permutation (en_leaf_b la aidx s bidx bspread)
              (list_prod (span s la aidx (r_nsegs a)) (clip bidx bspread (r_nsegs b))).
Proof.
  intros Hs. induction la as [|level below IH]; intros SZ aidx bidx bspread; cbn [en_leaf_b].
  - rewrite span_nil. reflexivity.
  - destruct SZ as [L SZ]. rewrite <- span_step by auto.
    etransitivity; [apply (prod_blocks (fun i => span s below (i * s) (r_nsegs a)) (fun j => clip j 1 (r_nsegs b)))|].
    + intros i j Hi Hj. apply IH. exact SZ.
    + rewrite clip_ones. reflexivity.
Qed.
Lemma en_ix_perm s t : s <> 0 -> t <> 0 -> forall la lb, sizes s (r_nsegs a) la -> sizes t (r_nsegs b) lb ->
  forall aidx bidx,
  Permutation (en_ix la aidx s lb bidx t)
              (list_prod (span s la aidx (r_nsegs a)) (span t lb bidx (r_nsegs b))).
Proof.
  intros Hs Ht. induction la as [|alevel abelow IH]; intros lb SA SB aidx bidx.
  - cbn [en_ix]. rewrite span_nil. now apply en_leaf_a_perm.
  - destruct lb as [|blevel bbelow].
    + cbn [en_ix]. rewrite span_nil. now apply en_leaf_b_perm.
    + cbn [en_ix]. destruct SA as [LA SA], SB as [LB SB]. rewrite <- !span_step by auto.
      apply prod_blocks. intros i j Hi Hj. apply IH; auto.
Qed.

(** ** what is pruned cannot intersect *)
Context (Oa : forall i, seg_ok (seg_at a i)) (Ob : forall j, seg_ok (seg_at b j)).

Lemma meets_kmeet i j : meets (i, j) = true -> kmeet (tg_segment_rect (seg_at a i)) (tg_segment_rect (seg_at b j)).
Proof.
  unfold meets. cbn [fst snd]. intros H. apply intersects_boxes in H.
  apply intersects_rect_iff in H; auto; apply rect_ok_nn; auto with fok.
Qed.

Definition box32 (s : seg) : Prop := rect32 (tg_segment_rect s).
Lemma ixcov_cov R s : seg_ok s -> box32 s -> ixcov R s -> kcov R (tg_segment_rect s).
Proof.
  intros Os B32 [OR (B & OB & C1 & C2)].
  eapply kcov_trans; [exact C2|]. eapply kcov_trans; [|apply ixrect_covers; exact B32].
  apply ixrect_mono; auto with fok.
Qed.

Lemma pruned_branches R S i j : ixcov R (seg_at a i) -> ixcov S (seg_at b j) ->
  ixrect_intersects_ixrect R S = false -> meets (i, j) = false.
Proof.
  intros [OR (B & OB & C1 & C2)] [OS (D & OD & D1 & D2)] E.
  destruct (meets (i, j)) eqn:M; auto. exfalso. apply meets_kmeet in M.
  assert (ixrect_intersects_ixrect R S = true); [|congruence].
  apply ix_intersects_iff; [apply rect_ok_nn; auto|apply rect_ok_nn; auto|].
  eapply kcov_meet; [exact C2|]. apply kmeet_sym. eapply kcov_meet; [exact D2|]. apply kmeet_sym.
  apply ix_meet; auto. eapply kcov_meet; [exact C1|]. apply kmeet_sym. eapply kcov_meet; [exact D1|].
  apply kmeet_sym. exact M.
Qed.
Lemma pruned_leaf_a S i j : box32 (seg_at b j) -> ixcov S (seg_at b j) ->
  tg_rect_intersects_rect (tg_segment_rect (seg_at a i)) (ixrect_to_tg_rect S) = false -> meets (i, j) = false.
Proof.
  intros B32 C E. destruct (meets (i, j)) eqn:M; auto. exfalso. apply meets_kmeet in M.
  assert (tg_rect_intersects_rect (tg_segment_rect (seg_at a i)) S = true); [|unfold ixrect_to_tg_rect in E; congruence].
  apply intersects_rect_iff; [apply rect_ok_nn; auto with fok|apply rect_ok_nn; apply C|].
  apply kmeet_sym. exact (kcov_meet _ _ _ (ixcov_cov _ _ (Ob j) B32 C) (kmeet_sym _ _ M)).
Qed.
Lemma pruned_leaf_b R i j : box32 (seg_at a i) -> ixcov R (seg_at a i) ->
  tg_rect_intersects_rect (ixrect_to_tg_rect R) (tg_segment_rect (seg_at b j)) = false -> meets (i, j) = false.
Proof.
  intros B32 C E. destruct (meets (i, j)) eqn:M; auto. exfalso. apply meets_kmeet in M.
  assert (tg_rect_intersects_rect R (tg_segment_rect (seg_at b j)) = true); [|unfold ixrect_to_tg_rect in E; congruence].
  apply intersects_rect_iff; [apply rect_ok_nn; apply C|apply rect_ok_nn; auto with fok|].
  exact (kcov_meet _ _ _ (ixcov_cov _ _ (Oa i) B32 C) M).
Qed.

(** segments in the span below entry [k] are covered by it *)
Lemma span_covered segs s N level below k i : level_ok segs s (length (level :: below)) N level ->
  k < length level -> In i (span s below (k * s) N) -> ixcov (nth k level rect0) (segs i).
Proof.
  intros [L C] K I. unfold span in I. apply in_clip in I. apply C; auto; [|lia].
  cbn [length Nat.pow]. lia.
Qed.

Lemma rr_leaf_a_scan {A} (iter : pair_iter A) s : s <> 0 -> forall lb,
  levels_ok (seg_at b) s (r_nsegs b) lb -> (lb <> [] -> forall j, j < r_nsegs b -> box32 (seg_at b j)) ->
  forall aidx aspread bidx st,
  rr_leaf_a a b iter aidx aspread lb bidx s st = loop_while (pair_body iter) (en_leaf_a aidx aspread lb bidx s) st.
Proof.
  intros Hs. induction lb as [|level below IH]; intros OK B32 aidx aspread bidx st; cbn [rr_leaf_a en_leaf_a].
  - apply rr_leaves_scan.
  - pose proof (levels_sizes _ _ _ _ OK) as [_ SZ]. destruct OK as [LO OK].
    specialize (B32 ltac:(discriminate)).
    rewrite <- loop_while_concat. apply loop_while_ext. intros st1 i Hi.
    rewrite <- loop_while_concat. apply loop_while_ext. intros st2 j Hj.
    apply in_clip in Hj.
    destruct (tg_rect_intersects_rect _ _) eqn:E; [apply IH; auto|].
    symmetry. apply loop_while_skip. intros st3 [i' j'] H.
    apply (Permutation_in _ (en_leaf_a_perm s Hs below SZ i 1 (j * s))) in H.
    apply in_prod_iff in H. destruct H as [H1 H2]. apply in_clip in H1. assert (i' = i) by lia. subst i'.
    unfold pair_body. rewrite (pruned_leaf_a (nth j level rect0) i j'); auto.
    + apply B32. unfold span in H2. apply in_clip in H2. lia.
    + eapply span_covered; eauto. lia.
Qed.
Lemma rr_leaf_b_scan {A} (iter : pair_iter A) s : s <> 0 -> forall la,
  levels_ok (seg_at a) s (r_nsegs a) la -> (la <> [] -> forall i, i < r_nsegs a -> box32 (seg_at a i)) ->
  forall aidx bidx bspread st,
  rr_leaf_b a b iter la aidx s bidx bspread st = loop_while (pair_body iter) (en_leaf_b la aidx s bidx bspread) st.
Proof.
  intros Hs. induction la as [|level below IH]; intros OK B32 aidx bidx bspread st; cbn [rr_leaf_b en_leaf_b].
  - apply rr_leaves_scan.
  - pose proof (levels_sizes _ _ _ _ OK) as [_ SZ]. destruct OK as [LO OK].
    specialize (B32 ltac:(discriminate)).
    rewrite <- loop_while_concat. apply loop_while_ext. intros st1 i Hi.
    rewrite <- loop_while_concat. apply loop_while_ext. intros st2 j Hj.
    apply in_clip in Hi.
    destruct (tg_rect_intersects_rect _ _) eqn:E; [apply IH; auto|].
    symmetry. apply loop_while_skip. intros st3 [i' j'] H.
    apply (Permutation_in _ (en_leaf_b_perm s Hs below SZ (i * s) j 1)) in H.
    apply in_prod_iff in H. destruct H as [H1 H2]. apply in_clip in H2. assert (j' = j) by lia. subst j'.
    unfold pair_body. rewrite (pruned_leaf_b (nth i level rect0) i' j); auto.
    + apply B32. unfold span in H1. apply in_clip in H1. lia.
    + eapply span_covered; eauto. lia.
Qed.
Lemma ring_ring_ix_scan {A} (iter : pair_iter A) s t : s <> 0 -> t <> 0 -> forall la lb,
  levels_ok (seg_at a) s (r_nsegs a) la -> levels_ok (seg_at b) t (r_nsegs b) lb ->
  (length la = length lb \/
   ((forall i, i < r_nsegs a -> box32 (seg_at a i)) /\ (forall j, j < r_nsegs b -> box32 (seg_at b j)))) ->
  forall aidx bidx st,
  ring_ring_ix a b iter la aidx s lb bidx t st = loop_while (pair_body iter) (en_ix la aidx s lb bidx t) st.
Proof.
  intros Hs Ht. induction la as [|alevel abelow IH]; intros lb OA OB B32 aidx bidx st.
  - cbn [ring_ring_ix en_ix]. apply rr_leaf_a_scan; auto.
    destruct B32 as [B32|[_ B32]]; auto. destruct lb; cbn in B32; [congruence|discriminate].
  - destruct lb as [|blevel bbelow].
    + cbn [ring_ring_ix en_ix]. apply rr_leaf_b_scan; auto.
      destruct B32 as [B32|[B32 _]]; auto. cbn in B32; discriminate.
    + cbn [ring_ring_ix en_ix].
      pose proof (levels_sizes _ _ _ _ OA) as [_ SA]. pose proof (levels_sizes _ _ _ _ OB) as [_ SB].
      destruct OA as [LA OA], OB as [LB OB].
      rewrite <- loop_while_concat. apply loop_while_ext. intros st1 i Hi.
      rewrite <- loop_while_concat. apply loop_while_ext. intros st2 j Hj.
      apply in_clip in Hi. apply in_clip in Hj.
      destruct (ixrect_intersects_ixrect _ _) eqn:E.
      * apply IH; auto. destruct B32 as [B32|B32]; auto.
      * symmetry. apply loop_while_skip. intros st3 [i' j'] H.
        apply (Permutation_in _ (en_ix_perm s t Hs Ht abelow bbelow SA SB (i * s) (j * t))) in H.
        apply in_prod_iff in H. destruct H as [H1 H2].
        unfold pair_body. rewrite (pruned_branches (nth i alevel rect0) (nth j blevel rect0) i' j'); auto.
        -- eapply span_covered; eauto. lia.
        -- eapply span_covered; eauto. lia.
Qed.
End Pairs.

(** ** the whole search *)

(** the order of the arguments depends on which ring has an index *)
Definition pair_test (a b : ring) (ij : nat * nat) : bool :=
  match r_index a, r_index b with
  | None, Some _ => tg_segment_intersects_segment (seg_at b (snd ij)) (seg_at a (fst ij))
  | _, _ => tg_segment_intersects_segment (seg_at a (fst ij)) (seg_at b (snd ij))
  end.
Definition same_depth (a b : ring) : Prop :=
  match r_index a, r_index b with
  | Some x, Some y => length (ix_levels x) = length (ix_levels y)
  | _, _ => True
  end.
Definition ring32 (a : ring) : Prop := forall i, i < r_nsegs a -> box32 (seg_at a i).
Definition ring_bounds (a : ring) : Prop :=
  (tg_ring_empty a = true -> r_nsegs a = 0) /\
  (tg_ring_empty a = false -> rect_ok (r_rect a) /\
     forall i, i < r_nsegs a -> kcov (r_rect a) (tg_segment_rect (seg_at a i))).

Lemma NoDup_filter' {X} (f : X -> bool) l : NoDup l -> NoDup (filter f l).
Proof.
  induction 1 as [|x l Hx N IH]; cbn; [constructor|]. destruct (f x); auto. constructor; auto.
  rewrite filter_In. tauto.
Qed.
Lemma intersects_kmeet s t : seg_ok s -> seg_ok t -> tg_segment_intersects_segment s t = true ->
  kmeet (tg_segment_rect s) (tg_segment_rect t).
Proof.
  intros Os Ot H. apply intersects_boxes in H.
  apply intersects_rect_iff in H; auto; apply rect_ok_nn; auto with fok.
Qed.
Lemma pair_test_kmeet a b i j : seg_ok (seg_at a i) -> seg_ok (seg_at b j) -> pair_test a b (i, j) = true ->
  kmeet (tg_segment_rect (seg_at a i)) (tg_segment_rect (seg_at b j)).
Proof.
  intros Oa Ob. unfold pair_test. cbn [fst snd].
  destruct (r_index a), (r_index b); intros H; try (apply intersects_kmeet; assumption).
  apply kmeet_sym. apply intersects_kmeet; assumption.
Qed.

Lemma search_pairs_loop (a b : ring) : ring_ix_ok a -> ring_ix_ok b ->
  (same_depth a b \/ (ring32 a /\ ring32 b)) ->
  tg_ring_empty a || tg_ring_empty b || negb (tg_rect_intersects_rect (r_rect a) (r_rect b)) = false ->
  exists L, Permutation L (list_prod (seq 0 (r_nsegs a)) (seq 0 (r_nsegs b))) /\
    forall A (iter : pair_iter A) st, tg_ring_ring_search a b iter st =
      loop_while (fun st ij => if pair_test a b ij then report a b iter st ij else (true, st)) L st.
Proof.
  intros RA RB R32 E. unfold tg_ring_ring_search. rewrite E. clear E. unfold pair_test, same_depth in *.
  assert (RA' := RA). assert (RB' := RB). destruct RA' as [Oa Ia], RB' as [Ob Ib].
  destruct (r_index a) as [ia|] eqn:EA; destruct (r_index b) as [ib|] eqn:EB.
  - destruct Ia as (Sa & La & Na), Ib as (Sb & Lb & Nb).
    exists (en_ix a b (ix_levels ia) 0 (ix_spread ia) (ix_levels ib) 0 (ix_spread ib)). split.
    + rewrite en_ix_perm; [|lia|lia|eapply levels_sizes; eauto|eapply levels_sizes; eauto].
      unfold span. rewrite !Nat.mul_0_l, !full_clip by lia. reflexivity.
    + intros A iter st. rewrite ring_ring_ix_scan; auto; try lia.
  - exists (map (fun ji => (snd ji, fst ji)) (list_prod (seq 0 (r_nsegs b)) (seq 0 (r_nsegs a)))). split.
    + apply NoDup_Permutation.
      * apply FinFun.Injective_map_NoDup; [intros [? ?] [? ?] X; cbn in X; congruence|].
        apply NoDup_prod; apply seq_NoDup.
      * apply NoDup_prod; apply seq_NoDup.
      * intros [i j]. rewrite in_prod_iff, in_map_iff. split.
        -- intros ([u v] & X & I). cbn in X. injection X as <- <-. apply in_prod_iff in I. tauto.
        -- intros [I J]. exists (j, i). split; auto. apply in_prod_iff. tauto.
    + intros A iter st. rewrite loop_while_map'.
      assert (E : forall (la lb : list nat), list_prod la lb = concat (map (fun i => map (pair i) lb) la)).
      { clear. induction la as [|i ai IH]; intros; cbn; auto. rewrite IH. reflexivity. }
      rewrite E, <- loop_while_concat. apply loop_while_ext. intros st' j _. cbv zeta.
      rewrite ring_search_scan; auto; [|apply ok_segment_rect; auto].
      rewrite loop_while_map'. apply loop_while_ext. intros st'' i _. cbn [fst snd].
      unfold search_leaf, ring_ring_iter, report. cbn [fst snd].
      destruct (tg_segment_intersects_segment (seg_at a i) (seg_at b j)) eqn:M.
      * apply intersects_kmeet in M; auto.
        replace (segment_rect_intersects_rect (seg_at a i) (tg_segment_rect (seg_at b j))) with true; [reflexivity|].
        symmetry. unfold segment_rect_intersects_rect.
        apply intersects_rect_iff; [apply rect_ok_nn, ok_segment_rect; auto..|]. apply kmeet_sym; auto.
      * destruct (segment_rect_intersects_rect _ _); auto.
  - exists (list_prod (seq 0 (r_nsegs a)) (seq 0 (r_nsegs b))). split; auto.
    intros A iter st.
    assert (E : forall (la lb : list nat), list_prod la lb = concat (map (fun i => map (pair i) lb) la)).
    { clear. induction la as [|i ai IH]; intros; cbn; auto. rewrite IH. reflexivity. }
    rewrite E, <- loop_while_concat. apply loop_while_ext. intros st' i _. cbv zeta.
    rewrite ring_search_scan; auto; [|apply ok_segment_rect; auto].
    rewrite loop_while_map'. apply loop_while_ext. intros st'' j _. cbn [fst snd].
    unfold search_leaf, ring_ring_iter, report. cbn [fst snd].
    destruct (tg_segment_intersects_segment (seg_at b j) (seg_at a i)) eqn:M.
    * apply intersects_kmeet in M; auto.
      replace (segment_rect_intersects_rect (seg_at b j) (tg_segment_rect (seg_at a i))) with true; [reflexivity|].
      symmetry. unfold segment_rect_intersects_rect.
      apply intersects_rect_iff; [apply rect_ok_nn, ok_segment_rect; auto..|]. apply kmeet_sym; auto.
    * destruct (segment_rect_intersects_rect _ _); auto.
  - exists (list_prod (seq 0 (r_nsegs a)) (seq 0 (r_nsegs b))). split; auto.
    intros A iter st. rewrite rr_leaves_scan. apply loop_while_ext. intros st' ij _. reflexivity.
Qed.

Theorem search_pairs (a b : ring) : ring_ix_ok a -> ring_ix_ok b -> ring_bounds a -> ring_bounds b ->
  (same_depth a b \/ (ring32 a /\ ring32 b)) ->
  exists L, NoDup L /\
    (forall i j, In (i, j) L <-> i < r_nsegs a /\ j < r_nsegs b /\ pair_test a b (i, j) = true) /\
    forall A (iter : pair_iter A) st, tg_ring_ring_search a b iter st = loop_while (report a b iter) L st.
Proof.
  intros RA RB [BA1 BA2] [BB1 BB2] R32.
  destruct (tg_ring_empty a || tg_ring_empty b || negb (tg_rect_intersects_rect (r_rect a) (r_rect b))) eqn:E.
  - exists []. split; [constructor|]. split.
    + intros i j. split; [intros []|]. intros (I & J & T).
      apply pair_test_kmeet in T; [|apply RA|apply RB].
      destruct (tg_ring_empty a); [rewrite BA1 in I by reflexivity; lia|].
      destruct (tg_ring_empty b); [rewrite BB1 in J by reflexivity; lia|].
      destruct (BA2 eq_refl) as [OA CA]. destruct (BB2 eq_refl) as [OB CB].
      cbn [orb] in E. apply negb_true_iff in E.
      assert (X : tg_rect_intersects_rect (r_rect a) (r_rect b) = true); [|congruence].
      apply intersects_rect_iff; [apply rect_ok_nn; auto..|].
      apply (kcov_meet _ _ _ (CA i I)). apply kmeet_sym. apply (kcov_meet _ _ _ (CB j J)). apply kmeet_sym. exact T.
    + intros A iter st. unfold tg_ring_ring_search. rewrite E. reflexivity.
  - destruct (search_pairs_loop a b RA RB R32 E) as (L & P & S).
    exists (filter (pair_test a b) L). split; [|split].
    + apply NoDup_filter'. eapply Permutation_NoDup; [symmetry; exact P|]. apply NoDup_prod; apply seq_NoDup.
    + intros i j. rewrite filter_In.
      assert (X : In (i, j) L <-> In (i, j) (list_prod (seq 0 (r_nsegs a)) (seq 0 (r_nsegs b)))).
      { split; apply Permutation_in; [|symmetry]; exact P. }
      rewrite X, in_prod_iff, !in_seq.
      split; [intros [[I J] T]|intros (I & J & T)]; repeat split; try assumption; lia.
    + intros A iter st. rewrite S.
      rewrite (loop_while_filter _ (pair_test a b)).
      * apply loop_while_ext. intros st' ij H. apply filter_In in H. destruct H as [_ ->]. reflexivity.
      * intros st' ij _ H. rewrite H. reflexivity.
Qed.

(** ** series built by the constructor *)
Definition has_index (ps : list pt) (kind : ixkind) (spread : nat) : bool :=
  (2 * spread <=? length ps) && match kind with IxNone => false | _ => true end.

Lemma series_index ps closed kind spread r : series_new ps closed kind spread = Some r ->
  has_index ps kind spread = match r_index r with Some _ => true | None => false end.
Proof.
  intros E. apply series_new_fields in E. cbv zeta in E. destruct E as (_ & _ & _ & _ & _ & _ & _ & _ & ->).
  unfold has_index. destruct ((2 * spread <=? length ps) && _); reflexivity.
Qed.

Lemma num_segments_le ps closed : num_segments ps (length ps) closed <= length ps.
Proof.
  unfold num_segments. destruct closed.
  - destruct (length ps <? 3); [lia|]. destruct (pteq _ _); lia.
  - destruct (length ps <? 2); lia.
Qed.

Lemma series_bounds ps closed kind spread r : pts_ok ps -> 2 <= spread ->
  series_new ps closed kind spread = Some r -> ring_bounds r.
Proof.
  intros Hok S2 E. pose proof (series_new_fields _ _ _ _ _ E) as F. cbv zeta in F.
  destruct F as (EC & NP & NS & PT & _). unfold ring_bounds, tg_ring_empty. rewrite EC, NP, NS. split.
  - intros H. unfold num_segments. destruct closed; cbn [andb] in H.
    + replace (length ps <? 3) with true by lia. reflexivity.
    + replace (length ps <? 2) with true by lia. reflexivity.
  - intros H. assert (N2 : 2 <= length ps) by lia.
    destruct (series_rect ps closed kind spread r E Hok S2 N2) as (RO & _ & K). split; auto.
    intros i Hi. rewrite (seg_at_pseg ps) by auto.
    pose proof (num_segments_le ps closed).
    assert (KP : forall t, t <= length ps -> kin (r_rect r) (pt_at (ringpts ps) t)).
    { intros t Ht. destruct (Nat.eq_dec t (length ps)) as [->|N].
      - rewrite ringpts_last. apply K. lia.
      - rewrite ringpts_lt by lia. apply K. lia. }
    apply kcov_segment_rect; [apply seg_ok_nn, pseg_ok; auto|apply KP; lia|apply KP; lia].
Qed.

Lemma series_32 ps closed kind spread r : (forall p, In p ps -> pt32 p) ->
  series_new ps closed kind spread = Some r -> ring32 r.
Proof.
  intros R32 E i Hi. pose proof (series_new_fields _ _ _ _ _ E) as F. cbv zeta in F.
  destruct F as (_ & NP & NS & PT & _). rewrite (seg_at_pseg ps) by auto. rewrite NS in Hi.
  pose proof (num_segments_le ps closed).
  assert (P32 : forall t, t <= length ps -> pt32 (pt_at (ringpts ps) t)).
  { intros t Ht. destruct (Nat.eq_dec t (length ps)) as [->|N].
    - rewrite ringpts_last. apply R32. apply nth_In. lia.
    - rewrite ringpts_lt by lia. apply R32. apply nth_In. lia. }
  destruct (P32 i ltac:(lia)), (P32 (i + 1) ltac:(lia)).
  split; split; cbn; auto using f32_fmin0, f32_fmax0.
Qed.

Lemma series_nth ps closed kind spread r i s : pts_ok ps -> series_new ps closed kind spread = Some r ->
  (nth_error (series_segments closed ps) i = Some s <-> i < r_nsegs r /\ s = seg_at r i).
Proof.
  intros Hok E. pose proof (series_new_fields _ _ _ _ _ E) as F. cbv zeta in F.
  destruct F as (_ & NP & NS & PT & _). rewrite (seg_at_pseg ps) by auto. rewrite NS.
  rewrite series_segments_spec by auto. set (n := num_segments ps (length ps) closed).
  destruct (le_lt_dec n i) as [G|G].
  - split; [|lia]. intros H. assert (X : nth_error (map (pseg ps) (seq 0 n)) i = None).
    { apply nth_error_None. rewrite map_length, seq_length. lia. } congruence.
  - assert (X : nth_error (map (pseg ps) (seq 0 n)) i = Some (pseg ps i)).
    { rewrite nth_error_map. rewrite (nth_error_nth' (seq 0 n) 0) by (rewrite seq_length; lia).
      rewrite seq_nth by lia. reflexivity. }
    rewrite X. split; [intros H; split; congruence|intros [_ ->]; reflexivity].
Qed.

Theorem series_pairs pa ca ka na a pb cb kb nb b :
  points_ok pa -> points_ok pb -> 2 <= na -> 2 <= nb ->
  series_new pa ca ka na = Some a -> series_new pb cb kb nb = Some b ->
  search_safe pa ca ka na -> search_safe pb cb kb nb ->
  (has_index pa ka na && has_index pb kb nb = true -> (forall p, In p pa \/ In p pb -> pt32 p)) ->
  exists L, NoDup L /\
    (forall i j, In (i, j) L <-> exists s t,
       nth_error (series_segments ca pa) i = Some s /\ nth_error (series_segments cb pb) j = Some t /\
       (if negb (has_index pa ka na) && has_index pb kb nb
        then tg_segment_intersects_segment t s else tg_segment_intersects_segment s t) = true) /\
    forall A (iter : pair_iter A) st, tg_ring_ring_search a b iter st =
      run_callback (fun st ij => iter st (nth (fst ij) (series_segments ca pa) seg0) (fst ij)
                                         (nth (snd ij) (series_segments cb pb) seg0) (snd ij)) L st.
Proof.
  intros Oa Ob Sa Sb Ea Eb Fa Fb R32.
  pose proof (search_safe_ok _ _ _ _ _ Oa Sa Ea Fa) as IA. pose proof (search_safe_ok _ _ _ _ _ Ob Sb Eb Fb) as IB.
  apply points_ok_iff in Oa, Ob.
  pose proof (series_bounds _ _ _ _ _ Oa Sa Ea) as BA. pose proof (series_bounds _ _ _ _ _ Ob Sb Eb) as BB.
  assert (D : same_depth a b \/ (ring32 a /\ ring32 b)).
  { rewrite (series_index _ _ _ _ _ Ea), (series_index _ _ _ _ _ Eb) in R32. unfold same_depth.
    destruct (r_index a); auto. destruct (r_index b); auto. right. specialize (R32 eq_refl).
    split; [eapply series_32; [|exact Ea]|eapply series_32; [|exact Eb]]; intros; apply R32; auto. }
  destruct (search_pairs a b IA IB BA BB D) as (L & N & I & S).
  assert (NA := fun i s => series_nth pa ca ka na a i s Oa Ea). assert (NB := fun i s => series_nth pb cb kb nb b i s Ob Eb).
  exists L. split; auto. split.
  - intros i j. rewrite I. rewrite (series_index _ _ _ _ _ Ea), (series_index _ _ _ _ _ Eb).
    unfold pair_test. cbn [fst snd]. split.
    + intros (Hi & Hj & T). exists (seg_at a i), (seg_at b j).
      split; [apply NA; auto|]. split; [apply NB; auto|].
      destruct (r_index a), (r_index b); exact T.
    + intros (s & t & Hs & Ht & T). apply NA in Hs. apply NB in Ht. destruct Hs as [Hi ->], Ht as [Hj ->].
      split; auto. split; auto. destruct (r_index a), (r_index b); exact T.
  - intros A iter st. rewrite S. etransitivity; [|symmetry; apply run_callback_loop].
    apply loop_while_ext. intros st' [i j] H. unfold report. cbn [fst snd].
    apply I in H. destruct H as (Hi & Hj & _).
    rewrite (nth_error_nth _ _ seg0 (proj2 (NA i _) (conj Hi eq_refl))).
    rewrite (nth_error_nth _ _ seg0 (proj2 (NB j _) (conj Hj eq_refl))). reflexivity.
Qed.
