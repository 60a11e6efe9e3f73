(** * Facts about series construction: rectangles and index coverage *)

From Coq Require Import ZArith Bool List Lia ZifyBool PeanoNat.
From Verif Require Import F64 Geo Series F64Order F64Real F64Mono.
Import ListNotations.

Definition pts_ok (ps : list pt) : Prop := Forall pt_ok ps.

Lemma pt0_ok : pt_ok pt0. Proof. repeat split; reflexivity. Qed.
Lemma pt_at_ok ps i : pts_ok ps -> pt_ok (pt_at ps i).
Proof.
  intros H. unfold pt_at. destruct (nth_in_or_default i ps pt0) as [I|E].
  - unfold pts_ok in H. rewrite Forall_forall in H. auto.
  - rewrite E. apply pt0_ok.
Qed.
Global Hint Resolve pt_at_ok : fok.

(** points of the finished ring: the closing point is appended *)
Definition ringpts (ps : list pt) : list pt := ps ++ [pt_at ps 0].
Lemma ringpts_ok ps : pts_ok ps -> pts_ok (ringpts ps).
Proof.
  intros H. apply Forall_app. split; auto. constructor; auto. apply pt_at_ok; auto.
Qed.
Lemma ringpts_lt ps i : i < length ps -> pt_at (ringpts ps) i = pt_at ps i.
Proof. intros. unfold ringpts, pt_at. apply app_nth1; auto. Qed.
Lemma ringpts_last ps : pt_at (ringpts ps) (length ps) = pt_at ps 0.
Proof. unfold ringpts, pt_at. rewrite app_nth2 by lia. rewrite Nat.sub_diag. reflexivity. Qed.
Lemma gather_b_ringpts ps i : i < length ps -> gather_b ps (length ps) i = pt_at (ringpts ps) (i + 1).
Proof.
  intros. unfold gather_b. destruct (i =? length ps - 1)%nat eqn:E.
  - replace (i + 1) with (length ps) by lia. now rewrite ringpts_last.
  - rewrite ringpts_lt by lia. reflexivity.
Qed.

(** ** the loop without index *)
Lemma pp_step_rect_none ps n st i :
  pp_rect (pp_step None ps n st i) = tg_rect_expand_point (pp_rect st) (pt_at ps i).
Proof. unfold pp_step, pp_inflate. destruct (calc_concave _ _ _ _ _). reflexivity. Qed.

Lemma kin_expand_point_keep r p q : rect_nn r -> pt_nn p -> kin r q -> kin (tg_rect_expand_point r p) q.
Proof. intros. eapply kin_cov; [apply kcov_expand_point; auto|auto]. Qed.

Lemma kin_self p : kin (Rect p p) p. Proof. unfold kin; cbn; lia. Qed.

(** invariant of the loop with an index of the given spread, after i steps *)
Record pp_inv (s : nat) (ps : list pt) (i : nat) (st : pps) : Prop := {
  pi_len : length (pp_out st) = i / s;
  pi_j : pp_j st = i mod s;
  pi_rect_ok : rect_ok (pp_rect st);
  pi_spread_ok : rect_ok (pp_spread st);
  pi_out : forall k, k < i / s -> exists B, rect_ok B /\
      nth k (rev (pp_out st)) rect0 = tg_rect_to_ixrect B /\
      (forall t, k * s <= t <= (k + 1) * s -> kin B (pt_at (ringpts ps) t));
  pi_spread : forall t, (t = (i / s) * s \/ (i / s) * s <= t < i) -> kin (pp_spread st) (pt_at (ringpts ps) t);
  pi_rect : forall t, (t = 0 \/ t < i / s * s \/ (t = i / s * s /\ i <> 0)) -> kin (pp_rect st) (pt_at (ringpts ps) t)
}.

Lemma pp_inv_init s ps : s <> 0 -> ps <> [] -> pts_ok ps -> pp_inv s ps 0 (pp_init ps).
Proof.
  intros Hs Hps H. assert (0 < length ps) by (destruct ps; cbn; [congruence|lia]).
  assert (Hd : 0 / s = 0) by (apply Nat.div_0_l; auto).
  constructor; cbn.
  - auto.
  - rewrite Nat.mod_0_l; auto.
  - auto with fok.
  - auto with fok.
  - rewrite Hd. lia.
  - rewrite Hd. intros t [->|Ht]; [|lia]. cbn. rewrite ringpts_lt by auto. apply kin_self.
  - rewrite Hd. intros t Ht. assert (t = 0) by lia. subst. rewrite ringpts_lt by auto. apply kin_self.
Qed.

Lemma div_S_full i s : s <> 0 -> S (i mod s) = s -> S i / s = S (i / s) /\ S i mod s = 0 /\ S i = S (i / s) * s.
Proof.
  intros Hs E. assert (Hi : S i = S (i / s) * s).
  { pose proof (Nat.div_mod i s Hs). nia. }
  rewrite Hi at 1 2. rewrite Nat.div_mul, Nat.mod_mul by auto. auto.
Qed.
Lemma div_S_part i s : s <> 0 -> S (i mod s) <> s -> S i / s = i / s /\ S i mod s = S (i mod s).
Proof.
  intros Hs E. pose proof (Nat.div_mod i s Hs). pose proof (Nat.mod_upper_bound i s Hs).
  assert (S i = s * (i / s) + S (i mod s)) by lia.
  split.
  - symmetry. apply (Nat.div_unique (S i) s (i / s) (S (i mod s))); lia.
  - symmetry. apply (Nat.mod_unique (S i) s (i / s) (S (i mod s))); lia.
Qed.

Lemma pp_inv_step s ps i st : s <> 0 -> pts_ok ps -> i < length ps ->
  pp_inv s ps i st -> pp_inv s ps (S i) (pp_step (Some s) ps (length ps) st i).
Proof.
  intros Hs Hok Hi [L J RO SO OUT SP RE].
  unfold pp_step. rewrite gather_b_ringpts by auto.
  pose proof (pt_at_ok ps i Hok) as Oa.
  pose proof (pt_at_ok (ringpts ps) (i + 1) (ringpts_ok ps Hok)) as Ob.
  unfold pp_inflate. rewrite J.
  pose proof (Nat.div_mod i s Hs) as DM. pose proof (Nat.mod_upper_bound i s Hs) as MB.
  set (sr := tg_rect_expand_point (pp_spread st) (pt_at ps i)).
  assert (Osr : rect_ok sr) by (unfold sr; auto with fok).
  assert (SPi : forall t, (t = (i / s) * s \/ (i / s) * s <= t < S i) -> kin sr (pt_at (ringpts ps) t)).
  { intros t Ht. destruct (Nat.eq_dec t i) as [->|N].
    - rewrite ringpts_lt by auto. apply kin_expand_point; [apply rect_ok_nn|apply pt_ok_nn]; auto.
    - apply kin_expand_point_keep; [apply rect_ok_nn; auto|apply pt_ok_nn; auto|].
      apply SP. lia. }
  destruct (S (i mod s) =? s)%nat eqn:E.
  - apply Nat.eqb_eq in E. destruct (div_S_full i s Hs E) as (D1 & D2 & D3).
    set (sr2 := tg_rect_expand_point sr (pt_at (ringpts ps) (i + 1))).
    assert (Osr2 : rect_ok sr2) by (unfold sr2; auto with fok).
    assert (SP2 : forall t, (i / s) * s <= t <= S (i / s) * s -> kin sr2 (pt_at (ringpts ps) t)).
    { intros t Ht. destruct (Nat.eq_dec t (i + 1)) as [->|N].
      - apply kin_expand_point; [apply rect_ok_nn|apply pt_ok_nn]; auto.
      - apply kin_expand_point_keep; [apply rect_ok_nn; auto|apply pt_ok_nn; auto|].
        apply SPi. lia. }
    constructor; cbn [pp_out pp_j pp_rect pp_spread pp_dir pp_concave pp_cwc].
    + cbn. rewrite L, D1. reflexivity.
    + auto.
    + auto with fok.
    + auto with fok.
    + intros k Hk. rewrite D1 in Hk. cbn [rev].
      destruct (Nat.eq_dec k (i / s)) as [->|N].
      * exists sr2. split; auto. split.
        -- rewrite app_nth2; rewrite rev_length, L; [|lia]. rewrite Nat.sub_diag. reflexivity.
        -- intros t Ht. apply SP2. lia.
      * destruct (OUT k ltac:(lia)) as (B & OB & EB & CB).
        exists B. split; auto. split; auto.
        rewrite app_nth1; auto. rewrite rev_length, L. lia.
    + intros t Ht. rewrite D1 in Ht. assert (t = i + 1) by lia. subst t. apply kin_self.
    + intros t Ht. rewrite D1 in Ht.
      destruct (le_lt_dec ((i / s) * s) t) as [G|G].
      * eapply kin_cov; [apply kcov_expand_r; apply rect_ok_nn; auto|]. apply SP2. lia.
      * eapply kin_cov; [apply kcov_expand_l; apply rect_ok_nn; auto|]. apply RE. lia.
  - apply Nat.eqb_neq in E. destruct (div_S_part i s Hs E) as (D1 & D2).
    constructor; cbn [pp_out pp_j pp_rect pp_spread pp_dir pp_concave pp_cwc]; try rewrite D1; auto.
    intros t Ht. destruct (Nat.eq_dec i 0) as [->|N].
    + rewrite Nat.div_0_l in Ht by auto. apply RE. left. lia.
    + apply RE. lia.
Qed.

Lemma pp_inv_loop s ps : s <> 0 -> ps <> [] -> pts_ok ps ->
  pp_inv s ps (length ps) (pp_loop (Some s) ps (length ps)).
Proof.
  intros Hs Hps Hok. unfold pp_loop.
  assert (G : forall n, n <= length ps -> pp_inv s ps n (fold_left (pp_step (Some s) ps (length ps)) (seq 0 n) (pp_init ps))).
  { induction n; intros Hn.
    - apply pp_inv_init; auto.
    - rewrite seq_S, fold_left_app. cbn. apply pp_inv_step; auto. apply IHn. lia. }
  apply G. lia.
Qed.

(** ** leaf rectangles *)
(** the ring segment i over a point list *)
Definition pseg (ps : list pt) (i : nat) : seg :=
  Seg (pt_at (ringpts ps) i) (pt_at (ringpts ps) (i + 1)).

(** [R] is an index rectangle that safely bounds segment [s] *)
Definition ixcov (R : ixrect) (s : seg) : Prop :=
  rect_ok R /\ exists B, rect_ok B /\ kcov B (tg_segment_rect s) /\ kcov R (tg_rect_to_ixrect B).

Lemma pseg_ok ps i : pts_ok ps -> seg_ok (pseg ps i).
Proof. intros H. split; cbn; apply pt_at_ok, ringpts_ok; auto. Qed.

(** The index is built over the first nsegs segments.  [idx_sound] is the
    condition under which the leaf boxes bound every segment: either the last
    segment is not the implicit closing one, or the points fill whole leaves. *)
Definition idx_sound (s n nsegs : nat) : Prop := nsegs < n \/ n mod s = 0.

Lemma keys1 s nsegs : calc_num_keys s 1 nsegs = (nsegs + s - 1) / s.
Proof. unfold calc_num_keys. rewrite Nat.pow_1_r. reflexivity. Qed.

Lemma ceil_full s n nsegs : 2 <= s -> 2 <= n -> (nsegs = n \/ nsegs = n - 1) ->
  let r := n / s in
  (r = (nsegs + s - 1) / s \/ (S r = (nsegs + s - 1) / s)) /\
  (r = (nsegs + s - 1) / s -> nsegs <= r * s).
Proof.
  intros Hs Hn Hn' r. pose proof (Nat.div_mod n s ltac:(lia)) as D.
  pose proof (Nat.mod_upper_bound n s ltac:(lia)) as M. fold r in D.
  set (m := n mod s) in *.
  destruct Hn' as [->| ->].
  - destruct (Nat.eq_dec m 0) as [E|E].
    + assert (r = (n + s - 1) / s) as Q by (apply (Nat.div_unique _ _ _ (s - 1)); nia).
      split; [auto|]. nia.
    + assert (S r = (n + s - 1) / s) as Q by (apply (Nat.div_unique _ _ _ (m - 1)); nia).
      split; [auto|]. lia.
  - destruct (Nat.eq_dec m 0) as [E|E]; [|destruct (Nat.eq_dec m 1) as [E1|E1]].
    + assert (r = (n - 1 + s - 1) / s) as Q by (apply (Nat.div_unique _ _ _ (s - 2)); nia).
      split; [auto|]. nia.
    + assert (r = (n - 1 + s - 1) / s) as Q by (apply (Nat.div_unique _ _ _ (s - 1)); nia).
      split; [auto|]. nia.
    + assert (S r = (n - 1 + s - 1) / s) as Q by (apply (Nat.div_unique _ _ _ (m - 2)); nia).
      split; [auto|]. lia.
Qed.

Lemma leaves_ok ps s nsegs : 2 <= s -> 2 <= length ps -> pts_ok ps ->
  (nsegs = length ps \/ nsegs = length ps - 1) ->
  idx_sound s (length ps) nsegs ->
  let pr := process_points (Some (s, calc_num_keys s 1 nsegs)) ps (length ps) in
  length (ppr_leaves pr) = calc_num_keys s 1 nsegs /\
  (forall k i, k < calc_num_keys s 1 nsegs -> k * s <= i < (k + 1) * s -> i < nsegs ->
     ixcov (nth k (ppr_leaves pr) rect0) (pseg ps i)).
Proof.
  intros Hs Hn Hok Hns Snd. cbv zeta. rewrite keys1.
  assert (Hps : ps <> []) by (intros ->; cbn in Hn; lia).
  pose proof (pp_inv_loop s ps ltac:(lia) Hps Hok) as [L J RO SO OUT SP RE].
  unfold process_points. replace (length ps <? 2)%nat with false by lia.
  cbn [option_map fst]. set (st := pp_loop (Some s) ps (length ps)) in *.
  destruct (ceil_full s (length ps) nsegs Hs Hn Hns) as [C1 C2].
  pose proof (Nat.div_mod (length ps) s ltac:(lia)) as D.
  pose proof (Nat.mod_upper_bound (length ps) s ltac:(lia)) as M.
  assert (FULL : forall k i, k < length ps / s -> k * s <= i < (k + 1) * s ->
     ixcov (nth k (rev (pp_out st)) rect0) (pseg ps i)).
  { intros k i Hk Hi. destruct (OUT k Hk) as (B & OB & EB & CB). rewrite EB.
    split; [auto with fok|]. exists B. split; auto. split; [|apply kcov_refl].
    apply kcov_segment_rect; [apply seg_ok_nn, pseg_ok; auto| |]; apply CB; lia. }
  rewrite L. destruct (length ps / s =? (nsegs + s - 1) / s)%nat eqn:E; cbn [ppr_leaves pp_out].
  - apply Nat.eqb_eq in E. rewrite rev_length, L. split; auto.
    intros k i Hk Hi Hin. apply FULL; lia.
  - apply Nat.eqb_neq in E. assert (C : S (length ps / s) = (nsegs + s - 1) / s) by lia.
    cbn [rev]. rewrite app_length, rev_length, L. cbn [length]. split; [lia|].
    intros k i Hk Hi Hin. destruct (Nat.eq_dec k (length ps / s)) as [->|N].
    + rewrite app_nth2; rewrite rev_length, L; [|lia]. rewrite Nat.sub_diag. cbn [nth].
      split; [auto with fok|]. exists (pp_spread st). split; auto. split; [|apply kcov_refl].
      assert (nsegs < length ps).
      { destruct Snd as [S1|S1]; auto. exfalso.
        assert (length ps = length ps / s * s) by lia.
        assert (nsegs <= length ps) by lia. lia. }
      apply kcov_segment_rect; [apply seg_ok_nn, pseg_ok; auto| |]; apply SP; cbn; lia.
    + rewrite app_nth1 by (rewrite rev_length, L; lia). apply FULL; lia.
Qed.

(** ** upper levels *)
Definition level_ok (segs : nat -> seg) (s l nsegs : nat) (level : list ixrect) : Prop :=
  length level = calc_num_keys s l nsegs /\
  (forall k i, k < length level -> k * s ^ l <= i < (k + 1) * s ^ l -> i < nsegs ->
     ixcov (nth k level rect0) (segs i)).

(** levels from the root down; [length lvls] is the power of the first one *)
Fixpoint levels_ok (segs : nat -> seg) (s nsegs : nat) (lvls : list (list ixrect)) : Prop :=
  match lvls with
  | nil => True
  | level :: below => level_ok segs s (length lvls) nsegs level /\ levels_ok segs s nsegs below
  end.

Lemma ixcov_widen R R' s : rect_ok R' -> kcov R' R -> ixcov R s -> ixcov R' s.
Proof.
  intros O K [OR (B & OB & C1 & C2)]. split; auto. exists B. split; auto. split; auto.
  eapply kcov_trans; eauto.
Qed.

Lemma ix_union_fold l : forall r0, rect_ok r0 -> Forall rect_ok l ->
  rect_ok (fold_left ixrect_expand l r0) /\ kcov (fold_left ixrect_expand l r0) r0 /\
  forall x, In x l -> kcov (fold_left ixrect_expand l r0) x.
Proof.
  induction l as [|y l IH]; intros r0 O F; cbn.
  - split; auto. split; [apply kcov_refl|]. intros x [].
  - inversion F; subst. unfold ixrect_expand at 2 4 6.
    destruct (IH (tg_rect_expand r0 y) ltac:(auto with fok) H2) as (A & B & C).
    split; auto. split.
    + eapply kcov_trans; [exact B|]. apply kcov_expand_l; apply rect_ok_nn; auto.
    + intros x [->|I]; auto. eapply kcov_trans; [exact B|]. apply kcov_expand_r; apply rect_ok_nn; auto.
Qed.
Lemma ix_union_ok l : Forall rect_ok l -> rect_ok (ix_union l) /\ forall x, In x l -> kcov (ix_union l) x.
Proof.
  destruct l as [|r l]; cbn; intros F.
  - split; [|intros x []]. repeat split; reflexivity.
  - inversion F; subst. destruct (ix_union_fold l r H1 H2) as (A & B & C).
    split; auto. intros x [->|I]; auto.
Qed.

Lemma ceil_spec d n k : d <> 0 -> (k < (n + d - 1) / d <-> k * d < n).
Proof.
  intros Hd. pose proof (Nat.div_mod (n + d - 1) d Hd) as D.
  pose proof (Nat.mod_upper_bound (n + d - 1) d Hd) as M.
  set (q := (n + d - 1) / d) in *. set (r := (n + d - 1) mod d) in *. nia.
Qed.
Lemma num_keys_spec s l n k : s <> 0 -> (k < calc_num_keys s l n <-> k * s ^ l < n).
Proof. intros Hs. apply ceil_spec. apply Nat.pow_nonzero; auto. Qed.

Lemma level_all_ok segs s l nsegs level : s <> 0 -> level_ok segs s l nsegs level -> Forall rect_ok level.
Proof.
  intros Hs [L C]. apply Forall_forall. intros x I.
  destruct (In_nth level x rect0 I) as (k & Hk & <-).
  assert (k * s ^ l < nsegs) by (apply num_keys_spec; auto; lia).
  assert (s ^ l <> 0) by (apply Nat.pow_nonzero; auto).
  apply (C k (k * s ^ l)); auto. nia.
Qed.

Lemma In_firstn_skipn {A} (l : list A) a n x : In x (firstn n (skipn a l)) -> In x l.
Proof.
  intros I. rewrite <- (firstn_skipn a l). apply in_or_app. right.
  rewrite <- (firstn_skipn n (skipn a l)). apply in_or_app. left. exact I.
Qed.
Lemma nth_In_firstn_skipn {A} (l : list A) d a n k : a <= k < a + n -> k < length l ->
  In (nth k l d) (firstn n (skipn a l)).
Proof.
  intros H1 H2. replace (nth k l d) with (nth (k - a) (firstn n (skipn a l)) d).
  - apply nth_In. rewrite firstn_length, skipn_length. lia.
  - assert (E : nth (k - a) (firstn n (skipn a l)) d = nth (k - a) (skipn a l) d).
    { rewrite <- (firstn_skipn n (skipn a l)) at 2. rewrite app_nth1; auto.
      rewrite firstn_length, skipn_length. lia. }
    rewrite E.
    rewrite <- (firstn_skipn a l) at 2. rewrite app_nth2; rewrite firstn_length; [|lia].
    f_equal. lia.
Qed.

Lemma level_up_ok segs s l nsegs below : 2 <= s -> level_ok segs s l nsegs below ->
  level_ok segs s (S l) nsegs (ix_level_up s (calc_num_keys s (S l) nsegs) below).
Proof.
  intros Hs H. pose proof (level_all_ok segs s l nsegs below ltac:(lia) H) as AO.
  destruct H as [L C]. split.
  - unfold ix_level_up. rewrite map_length, seq_length. reflexivity.
  - unfold ix_level_up. rewrite map_length, seq_length. intros k i Hk Hi Hin.
    set (f := fun i : nat => ix_union (firstn s (skipn (i * s) below))).
    assert (Hnth : nth k (map f (seq 0 (calc_num_keys s (S l) nsegs))) rect0 = f k).
    { rewrite (nth_indep _ rect0 (f 0)) by (rewrite map_length, seq_length; auto).
      rewrite map_nth, seq_nth by auto. reflexivity. }
    rewrite Hnth. unfold f.
    assert (FO : Forall rect_ok (firstn s (skipn (k * s) below))).
    { apply Forall_forall. intros x I. rewrite Forall_forall in AO. apply AO.
      eapply In_firstn_skipn; exact I. }
    destruct (ix_union_ok _ FO) as [UO UC].
    (* which child *)
    assert (Hp : s ^ l <> 0) by (apply Nat.pow_nonzero; lia).
    set (c := i / s ^ l).
    pose proof (Nat.div_mod i (s ^ l) Hp) as D. pose proof (Nat.mod_upper_bound i (s ^ l) Hp) as M.
    fold c in D. cbn [Nat.pow] in Hi.
    assert (Hc : k * s <= c < k * s + s).
    { split.
      - apply Nat.div_le_lower_bound; auto. nia.
      - apply Nat.div_lt_upper_bound; auto. nia. }
    assert (Hcl : c < length below).
    { rewrite L. apply num_keys_spec; [lia|]. nia. }
    apply (ixcov_widen (nth c below rect0)); auto.
    + apply UC. apply nth_In_firstn_skipn; auto.
    + apply C; auto. nia.
Qed.

Lemma build_up_length s nsegs k : forall l below, length (ix_build_up s nsegs k l below) = S k.
Proof.
  induction k; intros; cbn; auto. rewrite app_length, IHk. cbn. lia.
Qed.

(** levels given with explicit power of the last one *)
Fixpoint levels_ok_from (segs : nat -> seg) (s nsegs l : nat) (lvls : list (list ixrect)) : Prop :=
  match lvls with
  | nil => True
  | level :: below => level_ok segs s (length below + l) nsegs level /\ levels_ok_from segs s nsegs l below
  end.
Lemma levels_ok_from_1 segs s nsegs lvls : levels_ok_from segs s nsegs 1 lvls -> levels_ok segs s nsegs lvls.
Proof.
  induction lvls; cbn; auto. intros [A B]. split; auto.
  replace (length lvls + 1) with (S (length lvls)) in A by lia. exact A.
Qed.
Lemma levels_ok_from_snoc segs s nsegs l lvls level :
  levels_ok_from segs s nsegs (S l) lvls -> level_ok segs s l nsegs level ->
  levels_ok_from segs s nsegs l (lvls ++ [level]).
Proof.
  induction lvls as [|a lvls IH]; cbn; intros H1 H2.
  - split; auto.
  - destruct H1 as [A B]. split; [|apply IH; auto].
    rewrite app_length. cbn. replace (length lvls + 1 + l) with (length lvls + S l) by lia. exact A.
Qed.
Lemma build_up_ok segs s nsegs k : 2 <= s -> forall l below, level_ok segs s l nsegs below ->
  levels_ok_from segs s nsegs l (ix_build_up s nsegs k l below).
Proof.
  intros Hs. induction k; intros l below H; cbn.
  - split; auto.
  - apply levels_ok_from_snoc; auto. apply IHk. apply level_up_ok; auto.
Qed.

(** ** number of levels *)
Lemma calc_num_levels_loop_spec s n : 2 <= s -> forall fuel l,
  1 <= l -> n <= s ^ (l + fuel) ->
  let L := calc_num_levels_loop fuel s l n in n <= s ^ L /\ l <= L.
Proof.
  intros Hs. induction fuel; intros l Hl Hf; cbn [calc_num_levels_loop]; cbv zeta.
  - rewrite Nat.add_0_r in Hf. auto.
  - destruct (1 <? calc_num_keys s l n)%nat eqn:E.
    + specialize (IHfuel (S l) ltac:(lia)). replace (S l + fuel) with (l + S fuel) in IHfuel by lia.
      specialize (IHfuel Hf). cbv zeta in IHfuel. destruct IHfuel. split; auto. lia.
    + apply Nat.ltb_ge in E. split; auto.
      destruct (le_lt_dec n (s ^ l)); auto. exfalso.
      assert (1 < calc_num_keys s l n) by (apply num_keys_spec; lia). lia.
Qed.
Lemma pow_ge n s : 2 <= s -> n <= s ^ n.
Proof. intros. pose proof (Nat.pow_gt_lin_r s n ltac:(lia)). lia. Qed.
Lemma calc_num_levels_spec s n : 2 <= s -> n <= s ^ calc_num_levels s n /\ 1 <= calc_num_levels s n.
Proof.
  intros Hs. unfold calc_num_levels. apply calc_num_levels_loop_spec; auto.
  eapply Nat.le_trans; [apply (pow_ge n s Hs)|]. apply Nat.pow_le_mono_r; lia.
Qed.
Lemma calc_num_levels_ge2 s n : 2 <= s -> s < n -> 2 <= calc_num_levels s n.
Proof.
  intros Hs Hn. destruct (calc_num_levels_spec s n Hs) as [A B].
  destruct (Nat.eq_dec (calc_num_levels s n) 1) as [E|E]; [|lia].
  rewrite E, Nat.pow_1_r in A. lia.
Qed.
