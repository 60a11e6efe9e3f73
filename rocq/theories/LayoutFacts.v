(** * Places of the parts of an allocation: lemmas *)

From Coq Require Import ZArith Bool List Lia ZifyBool PeanoNat.
From Verif Require Import F64 Geo Series SeriesFacts SearchFacts IndexFacts Geom MultiIx MultiFacts Layout.
Import ListNotations.
Local Open Scope Z_scope.

(** ** sizes *)
Lemma aligned_bounds s : 0 <= s -> s <= aligned_size s < s + 8 /\ aligned_size s mod 8 = 0.
Proof.
  intros H. unfold aligned_size. change 7 with (Z.ones 3). rewrite Z.land_ones by lia.
  change (2 ^ 3) with 8. destruct (s mod 8 =? 0) eqn:E.
  - split; lia.
  - Z.to_euclidean_division_equations; lia.
Qed.

Lemma fill_levels_fst a keys : forall np, map fst (fill_levels a np keys) = keys.
Proof. induction keys; intros; cbn; auto. now rewrite IHkeys. Qed.

Lemma fill_levels_in a keys : 0 <= sz_ixrect a -> forall np k o,
  In (k, o) (fill_levels a np keys) ->
  np <= o /\ o + Z.of_nat k * sz_ixrect a <=
    fold_left (fun size k => size + Z.of_nat k * sz_ixrect a) keys np.
Proof.
  intros Hz. induction keys as [|h t IH]; intros np k o; cbn [fill_levels fold_left In]; [tauto|].
  assert (M : forall l x, x <= fold_left (fun size k => size + Z.of_nat k * sz_ixrect a) l x).
  { induction l; intros; cbn [fold_left]; [lia|]. eapply Z.le_trans; [|apply IHl]. nia. }
  intros [E|H].
  - injection E as -> ->. split; [lia|]. apply M.
  - apply IH in H. split; [nia|apply H].
Qed.

Lemma fill_levels_apart a keys (f : nat * Z -> Z * Z) at_ : 0 <= sz_ixrect a ->
  (forall l, f l = (at_ + snd l, Z.of_nat (fst l) * sz_ixrect a)) -> forall np,
  ForallOrdPairs (fun x y => fst x + snd x <= fst y) (map f (fill_levels a np keys)).
Proof.
  intros Hz Hf. induction keys as [|h t IH]; intros np; cbn [fill_levels map]; [constructor|].
  constructor; auto. apply Forall_forall. intros x Hx. apply in_map_iff in Hx.
  destruct Hx as ((k & o) & <- & Hi). rewrite !Hf. cbn [fst snd].
  apply fill_levels_in in Hi; auto. lia.
Qed.

Lemma index_size_raw a s n : calc_index_size a s n =
  let m := (calc_num_levels s n - 1)%nat in
  aligned_size (fold_left (fun size k => size + Z.of_nat k * sz_ixrect a)
     (map (level_keys s n m) (seq 0 m)) (sz_index a + Z.of_nat m * sz_level a)).
Proof.
  unfold calc_index_size. cbv zeta. f_equal.
  generalize (sz_index a + Z.of_nat (calc_num_levels s n - 1) * sz_level a).
  generalize (seq 0 (calc_num_levels s n - 1)). induction l; intros; cbn [fold_left map]; auto.
Qed.

(** ** the number of leaf rectangles, whatever the points *)
Lemma step_count s ps n st i :
  pp_out (pp_step (Some s) ps n st i) =
    (if (S (pp_j st) =? s)%nat
     then tg_rect_to_ixrect (tg_rect_expand_point (tg_rect_expand_point (pp_spread st) (pt_at ps i)) (gather_b ps n i)) :: pp_out st
     else pp_out st) /\
  pp_j (pp_step (Some s) ps n st i) = (if (S (pp_j st) =? s)%nat then 0%nat else S (pp_j st)).
Proof. unfold pp_step, pp_inflate. destruct (S (pp_j st) =? s)%nat; cbn; auto. Qed.

Lemma out_count s ps n m : (2 <= s)%nat -> forall i st k,
  (pp_j st < s)%nat -> (k = s * length (pp_out st) + pp_j st)%nat ->
  let st' := fold_left (pp_step (Some s) ps n) (seq i m) st in
  (pp_j st' < s)%nat /\ (k + m = s * length (pp_out st') + pp_j st')%nat.
Proof.
  intros Hs. induction m; intros i st k Hj Hk; cbn [seq fold_left]; cbv zeta; [split; lia|].
  destruct (step_count s ps n st i) as [A B].
  assert (Q : (pp_j (pp_step (Some s) ps n st i) < s)%nat /\
     (S k = s * length (pp_out (pp_step (Some s) ps n st i)) + pp_j (pp_step (Some s) ps n st i))%nat).
  { rewrite A, B. destruct (S (pp_j st) =? s)%nat eqn:E; cbn [length]; split; nia. }
  destruct Q as [Q1 Q2].
  specialize (IHm (S i) _ (S k) Q1 Q2). cbv zeta in IHm. destruct IHm as [C D]. split; auto. lia.
Qed.

Lemma leaves_count ps s nsegs : (2 <= s)%nat -> (2 <= length ps)%nat ->
  (nsegs = length ps \/ nsegs = length ps - 1)%nat ->
  length (ppr_leaves (process_points (Some (s, calc_num_keys s 1 nsegs)) ps (length ps))) = calc_num_keys s 1 nsegs.
Proof.
  intros Hs Hn Hns. rewrite keys1.
  assert (L : length (pp_out (pp_loop (Some s) ps (length ps))) = (length ps / s)%nat).
  { unfold pp_loop. destruct (out_count s ps (length ps) (length ps) Hs 0%nat (pp_init ps) 0%nat) as [A B].
    - cbn. lia.
    - cbn. lia.
    - cbv zeta in *. apply Nat.div_unique with (r := pp_j (fold_left (pp_step (Some s) ps (length ps)) (seq 0 (length ps)) (pp_init ps))); lia. }
  unfold process_points. replace (length ps <? 2)%nat with false by lia.
  cbn [option_map fst]. set (st := pp_loop (Some s) ps (length ps)) in *.
  destruct (ceil_full s (length ps) nsegs Hs Hn Hns) as [C1 C2].
  rewrite L. destruct (length ps / s =? (nsegs + s - 1) / s)%nat eqn:E; cbn [ppr_leaves pp_out].
  - apply Nat.eqb_eq in E. rewrite rev_length, L. auto.
  - apply Nat.eqb_neq in E. cbn [rev]. rewrite app_length, rev_length, L. cbn [length]. lia.
Qed.

Lemma levels_lengths ps closed kind s r ix : series_new ps closed kind s = Some r ->
  (2 <= s)%nat -> r_index r = Some ix ->
  map (@length _) (ix_levels ix) = map fst (fill_index_struct lp64 (ix_spread ix) (r_nsegs r)).
Proof.
  intros E S2 IX. pose proof (series_new_fields _ _ _ _ _ E) as F. cbv zeta in F.
  destruct F as (_ & _ & NS & _ & _ & _ & _ & _ & EI). rewrite EI in IX.
  destruct ((2 * s <=? length ps)%nat && _) eqn:IND; [|discriminate].
  apply andb_true_iff in IND. destruct IND as [L K]. injection IX as <-. cbn [ix_spread ix_levels].
  assert (N : (num_segments ps (length ps) closed = length ps \/ num_segments ps (length ps) closed = length ps - 1)%nat).
  { unfold num_segments. destruct closed.
    - replace (length ps <? 3)%nat with false by lia. destruct (pteq _ _); lia.
    - replace (length ps <? 2)%nat with false by lia. lia. }
  rewrite <- NS in *.
  pose proof (calc_num_levels_ge2 s (r_nsegs r) S2 ltac:(lia)) as G.
  unfold fill_index_struct. cbv zeta. rewrite fill_levels_fst.
  set (m := (calc_num_levels s (r_nsegs r) - 1)%nat) in *.
  pose proof (leaves_count ps s (r_nsegs r) S2 ltac:(lia) N) as LL.
  set (lv := ppr_leaves _) in *. clearbody lv.
  pose proof (build_up_sizes s (r_nsegs r) (m - 1) 1 lv LL) as SZ.
  pose proof (build_up_length s (r_nsegs r) (m - 1) 1 lv) as BL.
  set (lvls := ix_build_up _ _ _ _ _) in *. clearbody lvls.
  assert (M : length lvls = m) by lia. clear - SZ M. rewrite <- M.
  assert (GEN : forall lvls p, sizes_ok_from s (r_nsegs r) (S p) lvls ->
     map (@length _) lvls = map (fun i => calc_num_keys s (length lvls - i + p) (r_nsegs r)) (seq 0 (length lvls))).
  { clear. induction lvls as [|h t IH]; intros p; cbn [sizes_ok_from length seq map]; auto.
    intros [A B]. f_equal.
    - rewrite A. f_equal. lia.
    - rewrite (IH p B). rewrite <- seq_shift, map_map. apply map_ext. intros i. f_equal. }
  rewrite (GEN lvls 0%nat SZ). apply map_ext. intros i. unfold level_keys. f_equal. lia.
Qed.

(** ** the two passes of process_ystripes *)
Lemma upd_some {A} (l : list A) k f x : nth_error l k = Some x ->
  exists l', upd l (Z.of_nat k) f = Some l' /\ length l' = length l /\
    nth_error l' k = Some (f x) /\ forall m, m <> k -> nth_error l' m = nth_error l m.
Proof.
  intros H. assert (L : (k < length l)%nat) by (apply nth_error_Some; congruence).
  exists (firstn k l ++ f x :: skipn (S k) l). unfold upd. rewrite Nat2Z.id, H.
  replace ((0 <=? Z.of_nat k) && (Z.of_nat k <? Z.of_nat (length l))) with true by lia.
  assert (F : length (firstn k l) = k) by (rewrite firstn_length; lia).
  repeat split.
  - rewrite app_length, F. cbn [length]. rewrite skipn_length. lia.
  - rewrite nth_error_app2 by lia. rewrite F, Nat.sub_diag. reflexivity.
  - intros m Hm. destruct (Nat.lt_ge_cases m k) as [C|C].
    + rewrite nth_error_app1 by lia. rewrite <- (firstn_skipn k l) at 2. rewrite nth_error_app1 by lia. reflexivity.
    + rewrite nth_error_app2 by lia. rewrite F. destruct (m - k)%nat as [|d] eqn:D; [lia|]. cbn [nth_error].
      rewrite <- (firstn_skipn (S k) l) at 2. rewrite nth_error_app2 by (rewrite firstn_length; lia).
      rewrite firstn_length. f_equal. lia.
Qed.

Lemma each_app {A B} (f : B -> A -> option B) l1 l2 : forall b,
  each f (l1 ++ l2) b = match each f l1 b with Some b' => each f l2 b' | None => None end.
Proof. induction l1; intros; cbn; auto. destruct (f b a); auto. Qed.

Lemma each_nested {A B C} (g : B -> C -> option B) (h : A -> list C) l : forall b,
  each (fun st x => each g (h x) st) l b = each g (flat_map h l) b.
Proof. induction l; intros; cbn; auto. rewrite each_app. destruct (each g (h a) b); auto. Qed.

Lemma each_map {A B C} (g : B -> C -> option B) (h : A -> C) l : forall b,
  each g (map h l) b = each (fun st x => g st (h x)) l b.
Proof. induction l; intros; cbn; auto. destruct (g b (h a)); auto. Qed.

Lemma each_ext {A B} (f g : B -> A -> option B) : (forall b a, f b a = g b a) -> forall l b, each f l b = each g l b.
Proof. intros H. induction l; intros; cbn; auto. rewrite H. destruct (g b a); auto. Qed.

(** the pushes: stripe and segment, in the order of the loops *)
Definition pushes (ranges : list (Z * Z)) : list (Z * nat) :=
  flat_map (fun ir => map (fun j => (j, fst ir)) (stripes_of (snd ir))) (combine (seq 0 (length ranges)) ranges).
Definition cnt (T : list (Z * nat)) (k : nat) : nat := length (filter (fun p => fst p =? Z.of_nat k) T).
Definition below (T : list (Z * nat)) (k : nat) : nat := length (filter (fun p => fst p <? Z.of_nat k) T).
Definition items (T : list (Z * nat)) (k : nat) : list nat := map snd (filter (fun p => fst p =? Z.of_nat k) T).

Lemma items_length T k : length (items T k) = cnt T k.
Proof. apply map_length. Qed.
Lemma cnt_app T U k : cnt (T ++ U) k = (cnt T k + cnt U k)%nat.
Proof. unfold cnt. rewrite filter_app, app_length. reflexivity. Qed.
Lemma items_app T U k : items (T ++ U) k = items T k ++ items U k.
Proof. unfold items. rewrite filter_app, map_app. reflexivity. Qed.
Lemma below_S T k : below T (S k) = (below T k + cnt T k)%nat.
Proof.
  unfold below, cnt. induction T as [|p T IH]; cbn [filter length]; auto.
  destruct (fst p <? Z.of_nat (S k)) eqn:A, (fst p <? Z.of_nat k) eqn:B, (fst p =? Z.of_nat k) eqn:C;
    cbn [length]; lia.
Qed.
Lemma below_mono T k m : (k <= m)%nat -> (below T k <= below T m)%nat.
Proof. induction 1; [lia|]. rewrite below_S. lia. Qed.
Lemma below_all T n : Forall (fun p => 0 <= fst p < Z.of_nat n) T -> below T n = length T.
Proof.
  unfold below. induction 1 as [|p T H _ IH]; cbn [filter length]; auto.
  replace (fst p <? Z.of_nat n) with true by lia. cbn [length]. lia.
Qed.
Lemma below_0 T n : Forall (fun p => 0 <= fst p < Z.of_nat n) T -> below T 0 = 0%nat.
Proof.
  unfold below. induction 1 as [|p T H _ IH]; cbn [filter length]; auto.
  replace (fst p <? Z.of_nat 0) with false by lia. auto.
Qed.

Lemma nth_error_ext {A} (l1 l2 : list A) : length l1 = length l2 ->
  (forall k, (k < length l1)%nat -> nth_error l1 k = nth_error l2 k) -> l1 = l2.
Proof.
  revert l2. induction l1 as [|x l1 IH]; destruct l2 as [|y l2]; cbn [length]; intros L H; try lia; auto.
  pose proof (H 0%nat ltac:(lia)) as H0. cbn in H0. injection H0 as ->. f_equal.
  apply IH; [lia|]. intros k Hk. apply (H (S k)). lia.
Qed.

(** the first pass *)
Lemma count_pass n (U : list (Z * nat)) : forall D cs m,
  Forall (fun p => 0 <= fst p < Z.of_nat n) U ->
  length cs = n -> (forall k, (k < n)%nat -> nth_error cs k = Some (Z.of_nat (cnt D k))) -> m = Z.of_nat (length D) ->
  exists cs', each (fun st (p : Z * nat) => match upd (fst st) (fst p) (fun c => c + 1) with
                               | Some cs => Some (cs, snd st + 1) | None => None end) U (cs, m)
    = Some (cs', Z.of_nat (length (D ++ U))) /\ length cs' = n /\
    (forall k, (k < n)%nat -> nth_error cs' k = Some (Z.of_nat (cnt (D ++ U) k))).
Proof.
  induction U as [|p U IH]; intros D cs m F L H M; cbn [each].
  - exists cs. rewrite app_nil_r, M. auto.
  - inversion F as [|? ? F1 F2]. subst m x l. rewrite <- L in *.
    assert (J : (Z.to_nat (fst p) < length cs)%nat) by lia.
    destruct (upd_some cs (Z.to_nat (fst p)) (fun c => c + 1) _ (H _ J)) as (cs' & E & L' & E1 & E2).
    rewrite Z2Nat.id in E by lia. cbn [fst snd]. rewrite E.
    destruct (IH (D ++ [p]) cs' (Z.of_nat (length D) + 1) F2 ltac:(lia)) as (c2 & A & B & C).
    + intros k Hk. rewrite cnt_app. unfold cnt at 2. cbn [filter].
      destruct (Nat.eq_dec k (Z.to_nat (fst p))) as [->|Q].
      * rewrite E1. replace (fst p =? Z.of_nat (Z.to_nat (fst p))) with true by lia. cbn [length]. f_equal. lia.
      * replace (fst p =? Z.of_nat k) with false by lia. cbn [length]. rewrite E2 by auto. rewrite H by auto. f_equal. lia.
    + rewrite app_length. cbn [length]. lia.
    + exists c2. rewrite <- app_assoc in A, C. cbn [app] in A, C. auto.
Qed.

Lemma place_spec T : forall m s pos, pos = Z.of_nat (below T s) ->
  place_stripes pos (map (fun k => Z.of_nat (cnt T k)) (seq s m)) = map (fun k => (0, Z.of_nat (below T k))) (seq s m).
Proof.
  induction m; intros s pos ->; cbn [seq map place_stripes]; auto. f_equal.
  apply IHm. rewrite below_S. lia.
Qed.

(** the second pass; T are all the pushes, D the ones done *)
Lemma fill_pass n T (U : list (Z * nat)) : forall D stripes mem, T = D ++ U ->
  Forall (fun p => 0 <= fst p < Z.of_nat n) T ->
  length stripes = n -> length mem = length T ->
  (forall k, (k < n)%nat -> nth_error stripes k = Some (Z.of_nat (cnt D k), Z.of_nat (below T k))) ->
  (forall k t, (k < n)%nat -> (t < cnt D k)%nat -> nth_error mem (below T k + t) = nth_error (items D k) t) ->
  exists stripes' mem', each (fun st p => push_stripe (snd p) st (fst p)) U (stripes, mem) = Some (stripes', mem') /\
    length stripes' = n /\ length mem' = length T /\
    (forall k, (k < n)%nat -> nth_error stripes' k = Some (Z.of_nat (cnt T k), Z.of_nat (below T k))) /\
    (forall k t, (k < n)%nat -> (t < cnt T k)%nat -> nth_error mem' (below T k + t) = nth_error (items T k) t).
Proof.
  induction U as [|p U IH]; intros D stripes mem HT F LS LM HS HM; cbn [each].
  - rewrite app_nil_r in HT. subst D. exists stripes, mem. auto.
  - assert (FP : 0 <= fst p < Z.of_nat n).
    { rewrite Forall_forall in F. apply F. rewrite HT. apply in_app_iff. right. now left. }
    set (j := Z.to_nat (fst p)). assert (JE : fst p = Z.of_nat j) by (unfold j; lia).
    assert (JN : (j < n)%nat) by lia.
    unfold push_stripe at 1. cbn [fst snd]. rewrite JE.
    destruct (upd_some stripes j (fun s => (fst s + 1, snd s)) _ (HS j JN)) as (st' & E & L' & E1 & E2).
    rewrite E, Nat2Z.id, (HS j JN). cbn [fst snd].
    assert (CT : (cnt D j + 1 <= cnt T j)%nat).
    { rewrite HT, cnt_app. unfold cnt at 3. cbn [filter]. replace (fst p =? Z.of_nat j) with true by lia. cbn [length]. lia. }
    assert (BT : (below T j + cnt D j < length mem)%nat).
    { rewrite LM. pose proof (below_S T j). pose proof (below_mono T (S j) n ltac:(lia)). rewrite (below_all T n F) in H0. lia. }
    destruct (nth_error mem (below T j + cnt D j)) as [old|] eqn:OLD; [|apply nth_error_None in OLD; lia].
    destruct (upd_some mem (below T j + cnt D j) (fun _ => snd p) _ OLD) as (mem' & M0 & ML & M1 & M2).
    replace (Z.of_nat (below T j) + Z.of_nat (cnt D j)) with (Z.of_nat (below T j + cnt D j)) by lia.
    rewrite M0.
    assert (CD : forall k, cnt (D ++ [p]) k = if (k =? j)%nat then S (cnt D k) else cnt D k).
    { intros k. rewrite cnt_app. unfold cnt at 2. cbn [filter].
      destruct (k =? j)%nat eqn:Q.
      - replace (fst p =? Z.of_nat k) with true by lia. cbn [length]. lia.
      - replace (fst p =? Z.of_nat k) with false by lia. cbn [length]. lia. }
    apply (IH (D ++ [p])); auto; try lia.
    + rewrite <- app_assoc. exact HT.
    + intros k Hk. rewrite CD. destruct (k =? j)%nat eqn:Q.
      * apply Nat.eqb_eq in Q. subst k. rewrite E1. cbn [fst snd]. do 2 f_equal. lia.
      * apply Nat.eqb_neq in Q. rewrite E2 by auto. apply HS; auto.
    + intros k t Hk Ht. rewrite CD in Ht. rewrite items_app.
      destruct (Nat.eq_dec k j) as [->|Q].
      * rewrite Nat.eqb_refl in Ht. destruct (Nat.eq_dec t (cnt D j)) as [->|Q2].
        { rewrite M1. rewrite nth_error_app2 by (rewrite items_length; lia). rewrite items_length, Nat.sub_diag.
          unfold items. cbn [filter]. replace (fst p =? Z.of_nat j) with true by lia. reflexivity. }
        rewrite M2 by lia. rewrite nth_error_app1 by (rewrite items_length; lia). apply HM; auto. lia.
      * replace (k =? j)%nat with false in Ht by lia.
        rewrite nth_error_app1 by (rewrite items_length; lia).
        assert (CK : (cnt D k <= cnt T k)%nat) by (rewrite HT, cnt_app; lia).
        rewrite M2; [apply HM; auto|].
        pose proof (below_S T j). pose proof (below_S T k).
        destruct (Nat.lt_ge_cases k j) as [C|C].
        { pose proof (below_mono T (S k) j ltac:(lia)). lia. }
        { pose proof (below_mono T (S j) k ltac:(lia)). lia. }
Qed.

Lemma firstn_skipn_nth {A} (l m : list A) o : (o + length m <= length l)%nat ->
  (forall t, (t < length m)%nat -> nth_error l (o + t) = nth_error m t) ->
  firstn (length m) (skipn o l) = m.
Proof.
  intros L H. assert (N : forall t, nth_error (skipn o l) t = nth_error l (o + t)%nat).
  { clear. revert l. induction o; intros [|x l] t; cbn; auto. destruct t; reflexivity. }
  apply nth_error_ext.
  - rewrite firstn_length, skipn_length. lia.
  - rewrite firstn_length, skipn_length. intros k Hk.
    rewrite <- H by lia. rewrite <- N. rewrite <- (firstn_skipn (length m) (skipn o l)) at 2.
    rewrite nth_error_app1; auto. rewrite firstn_length, skipn_length. lia.
Qed.

(** one list of pushes gives the stripes of the list model *)
Lemma filter_stripes_of lo hi (i : nat) j : 
  filter (fun p => fst p =? j) (map (fun j => (j, i)) (stripes_of (lo, hi))) =
  if (lo <=? j) && (j <=? hi) then [(j, i)] else [].
Proof.
  unfold stripes_of. cbn [fst snd]. rewrite map_map.
  assert (G : forall m s, filter (fun p => fst p =? j) (map (fun x => (lo + Z.of_nat x, i)) (seq s m)) =
     if (lo + Z.of_nat s <=? j) && (j <? lo + Z.of_nat (s + m)) then [(j, i)] else []).
  { induction m; intros s; cbn [seq map filter].
    - replace ((_ <=? j) && _) with false by lia. reflexivity.
    - cbn [fst]. rewrite IHm. destruct (lo + Z.of_nat s =? j) eqn:E.
      + replace (lo + Z.of_nat (S s) <=? j) with false by lia. cbn [andb].
        replace ((lo + Z.of_nat s <=? j) && _) with true by lia. do 2 f_equal. lia.
      + replace (S s + m)%nat with (s + S m)%nat by lia.
        replace (lo + Z.of_nat (S s) <=? j) with (lo + Z.of_nat s <=? j) by lia. reflexivity. }
  rewrite G. replace (lo + Z.of_nat 0 <=? j) with (lo <=? j) by lia.
  destruct (lo <=? j) eqn:E; cbn [andb]; auto.
  replace (j <? lo + Z.of_nat (0 + Z.to_nat (hi - lo + 1))) with (j <=? hi) by lia. reflexivity.
Qed.

Lemma items_fill ranges j : items (pushes ranges) j = ystripe_fill ranges (Z.of_nat j).
Proof.
  unfold items, pushes, ystripe_fill. generalize (combine (seq 0 (length ranges)) ranges) as l.
  induction l as [|(i & lo & hi) l IH]; cbn [flat_map filter map]; auto.
  rewrite filter_app, map_app, IH. cbn [fst snd]. rewrite filter_stripes_of.
  destruct ((lo <=? Z.of_nat j) && (Z.of_nat j <=? hi)); reflexivity.
Qed.

Lemma pushes_range n ranges : Forall (fun r => 0 <= fst r /\ snd r < n) ranges ->
  Forall (fun p => 0 <= fst p < Z.of_nat (Z.to_nat n)) (pushes ranges).
Proof.
  intros F. apply Forall_forall. intros p Hp. unfold pushes in Hp. apply in_flat_map in Hp.
  destruct Hp as ((i & r) & Hi & Hp). apply in_combine_r in Hi. rewrite Forall_forall in F.
  specialize (F _ Hi). apply in_map_iff in Hp. destruct Hp as (j & <- & Hj).
  unfold stripes_of in Hj. apply in_map_iff in Hj. destruct Hj as (k & <- & Hk). apply in_seq in Hk.
  cbn [fst snd] in *. lia.
Qed.

Lemma flat_ystripes_eq n ranges fresh : flat_ystripes n ranges fresh =
  match each (fun st (p : Z * nat) => match upd (fst st) (fst p) (fun c => c + 1) with
                               | Some cs => Some (cs, snd st + 1) | None => None end)
             (pushes ranges) (repeat 0 (Z.to_nat n), 0) with
  | None => None
  | Some (ycounts, nmap) =>
      each (fun st p => push_stripe (snd p) st (fst p)) (pushes ranges) (place_stripes 0 ycounts, fresh (Z.to_nat nmap))
  end.
Proof.
  unfold flat_ystripes, count_stripes.
  assert (E1 : flat_map stripes_of ranges = map fst (pushes ranges)).
  { unfold pushes. rewrite flat_map_concat_map, flat_map_concat_map. rewrite concat_map, map_map. f_equal.
    generalize 0%nat. induction ranges as [|r ranges IH]; intros s; cbn [map length seq combine]; auto.
    f_equal; auto. cbn [fst snd]. rewrite map_map. cbn [fst]. rewrite map_id. reflexivity. }
  rewrite each_nested, E1, each_map.
  destruct (each _ (pushes ranges) _) as [[cs m]|]; auto.
  unfold pushes. rewrite <- each_nested. apply each_ext. intros b a. rewrite each_map. reflexivity.
Qed.

Lemma flat_ystripes_spec n ranges fresh : 0 <= n ->
  Forall (fun r => 0 <= fst r /\ snd r < n) ranges ->
  (forall k, length (fresh k) = k) ->
  let want := map (fun j => ystripe_fill ranges (Z.of_nat j)) (seq 0 (Z.to_nat n)) in
  exists stripes mem, flat_ystripes n ranges fresh = Some (stripes, mem) /\
    map (stripe_ints mem) stripes = want /\ length mem = length (concat want) /\
    Forall (fun s => 0 <= fst s /\ 0 <= snd s /\ snd s + fst s <= Z.of_nat (length mem)) stripes.
Proof.
  intros Hn F FR want. set (T := pushes ranges). pose proof (pushes_range n ranges F) as FT. fold T in FT.
  set (N := Z.to_nat n) in *. rewrite flat_ystripes_eq. fold T N.
  destruct (count_pass N T [] (repeat 0 N) 0 FT) as (cs & E & LC & HC).
  - apply repeat_length.
  - intros k Hk. cbn. rewrite nth_error_repeat by auto. reflexivity.
  - reflexivity.
  - rewrite E. cbn [app] in *. rewrite Nat2Z.id.
    assert (CS : cs = map (fun k => Z.of_nat (cnt T k)) (seq 0 N)).
    { apply nth_error_ext; [now rewrite map_length, seq_length|]. intros k Hk. rewrite HC by lia.
      rewrite nth_error_map, (nth_error_nth' _ 0%nat) by (rewrite seq_length; lia). rewrite seq_nth by lia. reflexivity. }
    rewrite CS, (place_spec T N 0 0) by (rewrite (below_0 T N FT); reflexivity).
    destruct (fill_pass N T T [] (map (fun k => (0, Z.of_nat (below T k))) (seq 0 N)) (fresh (length T)) eq_refl FT)
      as (st & mem & E2 & L1 & L2 & HS & HM).
    + now rewrite map_length, seq_length.
    + apply FR.
    + intros k Hk. rewrite nth_error_map, (nth_error_nth' _ 0%nat) by (rewrite seq_length; lia). rewrite seq_nth by lia. reflexivity.
    + intros k t _ Ht. cbn in Ht. lia.
    + exists st, mem. rewrite E2.
      assert (BND : forall k, (k < N)%nat -> (below T k + cnt T k <= length T)%nat).
      { intros k Hk. rewrite <- below_S. rewrite <- (below_all T N FT). apply below_mono. lia. }
      split; [reflexivity|]. split; [|split].
      * unfold want. apply nth_error_ext; [now rewrite !map_length, seq_length|]. rewrite map_length. intros k Hk.
        rewrite !nth_error_map, HS by lia. rewrite (nth_error_nth' _ 0%nat) by (rewrite seq_length; lia).
        rewrite seq_nth by lia. cbn [option_map plus]. f_equal. unfold stripe_ints. cbn [fst snd]. rewrite !Nat2Z.id.
        rewrite <- items_length, <- items_fill. fold T. apply firstn_skipn_nth.
        { rewrite items_length, L2. apply BND. lia. }
        { intros t Ht. rewrite items_length in Ht. apply HM; lia. }
      * rewrite L2. unfold want.
        assert (G : forall m s, length (concat (map (fun j => ystripe_fill ranges (Z.of_nat j)) (seq s m))) = (below T (s + m) - below T s)%nat).
        { induction m; intros s; cbn [seq map concat].
          - rewrite Nat.add_0_r, Nat.sub_diag. reflexivity.
          - rewrite app_length, IHm. rewrite <- items_fill. fold T. rewrite items_length.
            replace (s + S m)%nat with (S s + m)%nat by lia.
            pose proof (below_S T s). pose proof (below_mono T (S s) (S s + m) ltac:(lia)). lia. }
        rewrite G. rewrite (below_0 T N FT). cbn [plus]. rewrite (below_all T N FT). lia.
      * apply Forall_forall. intros s Hs. apply In_nth_error in Hs. destruct Hs as [k Hk].
        assert (KN : (k < N)%nat) by (rewrite <- L1; apply nth_error_Some; congruence).
        rewrite HS in Hk by auto. injection Hk as <-. cbn [fst snd]. rewrite L2. specialize (BND k KN). lia.
Qed.

(** ** the index of a multi: how many rectangles are written, whatever they are *)
Lemma pack_count s rest : (2 <= s)%nat -> forall cur j out k,
  (1 <= j <= s)%nat -> (k = s * length out + j)%nat ->
  let st := fold_left (pack_step s) rest (cur, j, out) in
  (1 <= snd (fst st) <= s)%nat /\ (k + length rest = s * length (snd st) + snd (fst st))%nat.
Proof.
  intros Hs. induction rest as [|x rest IH]; intros cur j out k Hj Hk; cbn [fold_left length]; cbv zeta.
  - cbn [fst snd]. lia.
  - unfold pack_step at 2 4 6 8. destruct (j =? s)%nat eqn:E.
    + destruct (IH x 1%nat (cur :: out) (S k)) as [A B]; [lia|cbn [length]; nia|]. cbv zeta in *. split; auto. lia.
    + destruct (IH (ixrect_expand cur x) (S j) out (S k)) as [A B]; [lia|nia|]. cbv zeta in *. split; auto. lia.
Qed.

Lemma pack_length s n l : (2 <= s)%nat -> l <> [] -> (n = (length l + s - 1) / s)%nat ->
  length (pack_level s n l) = n.
Proof.
  intros Hs Hl ->. destruct l as [|x rest]; [easy|]. unfold pack_level.
  destruct (pack_count s rest Hs x 1%nat [] 1%nat ltac:(lia) ltac:(cbn; lia)) as [A B]. cbv zeta in *.
  destruct (fold_left _ rest _) as [[cur j] out]. cbn [fst snd length] in *.
  assert (Q : ((S (length rest) + s - 1) / s = S (length out))%nat).
  { symmetry. apply Nat.div_unique with (r := (j - 1)%nat); lia. }
  rewrite Q. replace (length out <? S (length out))%nat with true by lia.
  rewrite rev_length. reflexivity.
Qed.

Lemma pack_up_lengths s n : (2 <= s)%nat -> (1 <= n)%nat -> forall k l below,
  length below = calc_num_keys s l n ->
  sizes_ok_from s n l (pack_up s n k l below).
Proof.
  intros Hs Hn. induction k; intros l below L; cbn [pack_up].
  - cbn. auto.
  - apply sizes_ok_snoc; [|auto]. apply IHk. apply pack_length; auto.
    + intros ->. cbn in L. symmetry in L. unfold calc_num_keys in L.
      assert (P : (s ^ l <> 0)%nat) by (apply Nat.pow_nonzero; lia).
      apply Nat.div_small_iff in L; lia.
    + rewrite L. apply keys_up; first [exact Hs | exact (fun _ => rect0) | lia].
Qed.
