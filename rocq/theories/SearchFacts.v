(** * Index searches visit exactly what a plain scan visits *)

From Coq Require Import ZArith Bool List Lia ZifyBool PeanoNat.
From Verif Require Import F64 Geo Series Search F64Order F64Real F64Mono SeriesFacts.
Import ListNotations.

(** ** loops *)
Section Loops.
Context {A B : Type}.
Implicit Types (body : A -> B -> bool * A).

Lemma loop_while_app body l1 l2 st :
  loop_while body (l1 ++ l2) st =
  let (ok, st') := loop_while body l1 st in
  if ok then loop_while body l2 st' else (false, st').
Proof.
  revert st. induction l1 as [|x l1 IH]; intros st; cbn; auto.
  destruct (body st x) as [[|] st']; auto.
Qed.
Lemma loop_while_ext body body' l st :
  (forall st x, In x l -> body st x = body' st x) -> loop_while body l st = loop_while body' l st.
Proof.
  revert st. induction l as [|x l IH]; intros st H; cbn; auto.
  rewrite H by (left; auto). destruct (body' st x) as [[|] st']; auto.
  apply IH. intros. apply H. right; auto.
Qed.
Lemma loop_while_skip body l st : (forall st x, In x l -> body st x = (true, st)) ->
  loop_while body l st = (true, st).
Proof.
  revert st. induction l as [|x l IH]; intros st H; cbn; auto.
  rewrite H by (left; auto). apply IH. intros. apply H. right; auto.
Qed.
Lemma loop_while_filter body (f : B -> bool) l st :
  (forall st x, In x l -> f x = false -> body st x = (true, st)) ->
  loop_while body l st = loop_while body (filter f l) st.
Proof.
  revert st. induction l as [|x l IH]; intros st H; cbn; auto.
  destruct (f x) eqn:E; cbn.
  - destruct (body st x) as [[|] st']; auto. apply IH. intros. apply H; auto. right; auto.
  - rewrite H; [|left; auto|auto]. apply IH. intros. apply H; auto. right; auto.
Qed.
End Loops.

Lemma loop_while_concat {A B C : Type} (body : A -> C -> bool * A) (f : B -> list C) l st :
  loop_while (fun st x => loop_while body (f x) st) l st =
  loop_while body (concat (map f l)) st.
Proof.
  revert st. induction l as [|x l IH]; intros st; cbn; auto.
  rewrite loop_while_app. destruct (loop_while body (f x) st) as [[|] st']; auto.
Qed.
Lemma fold_left_concat {A B C : Type} (body : A -> C -> A) (f : B -> list C) l st :
  fold_left (fun st x => fold_left body (f x) st) l st =
  fold_left body (concat (map f l)) st.
Proof.
  revert st. induction l as [|x l IH]; intros st; cbn; auto.
  rewrite fold_left_app. auto.
Qed.
Lemma fold_left_ext {A B : Type} (body body' : A -> B -> A) l st :
  (forall st x, In x l -> body st x = body' st x) -> fold_left body l st = fold_left body' l st.
Proof.
  revert st. induction l as [|x l IH]; intros st H; cbn; auto.
  rewrite H by (left; auto). apply IH. intros. apply H. right; auto.
Qed.
Lemma fold_left_skip {A B : Type} (body : A -> B -> A) l st : (forall st x, In x l -> body st x = st) ->
  fold_left body l st = st.
Proof.
  revert st. induction l as [|x l IH]; intros st H; cbn; auto.
  rewrite H by (left; auto). apply IH. intros. apply H. right; auto.
Qed.

(** ** ranges *)
Lemma in_clip i s c n : In i (clip s c n) <-> s <= i < s + c /\ i < n.
Proof. unfold clip. rewrite in_seq. lia. Qed.

(** the children ranges of one node's children, put together *)
Lemma clip_concat w N : w <> 0 -> forall c s,
  concat (map (fun i => clip (i * w) w N) (clip s c ((N + w - 1) / w))) = clip (s * w) (c * w) N.
Proof.
  intros Hw. assert (C := fun k => ceil_spec w N k Hw). set (L := (N + w - 1) / w) in *.
  induction c; intros s.
  - unfold clip. replace (Nat.min (s + 0) L - s) with 0 by lia.
    replace (Nat.min (s * w + 0 * w) N - s * w) with 0 by lia. reflexivity.
  - destruct (le_lt_dec L s) as [G|G].
    + assert (~ s * w < N) by (rewrite <- C; lia).
      unfold clip. replace (Nat.min (s + S c) L - s) with 0 by lia.
      replace (Nat.min (s * w + S c * w) N - s * w) with 0 by lia. reflexivity.
    + assert (s * w < N) by (apply C; lia).
      assert (E : clip s (S c) L = s :: clip (S s) c L).
      { unfold clip. replace (Nat.min (s + S c) L - s) with (S (Nat.min (S s + c) L - S s)) by lia.
        reflexivity. }
      rewrite E. cbn [map concat]. rewrite IHc. unfold clip.
      replace (Nat.min (s * w + S c * w) N - s * w) with
        ((Nat.min (s * w + w) N - s * w) + (Nat.min (S s * w + c * w) N - S s * w)) by nia.
      rewrite seq_app. f_equal.
      destruct (le_lt_dec N (S s * w)) as [G2|G2].
      * replace (Nat.min (S s * w + c * w) N - S s * w) with 0 by lia. reflexivity.
      * f_equal. nia.
Qed.

(** ** rectangle search *)
Lemma ixcov_meet R s q : seg_ok s -> rect_ok q -> ixcov R s ->
  segment_rect_intersects_rect s q = true -> ixrect_intersects_ixrect R (tg_rect_to_ixrect q) = true.
Proof.
  intros Os Oq [OR (B & OB & C1 & C2)] H. unfold segment_rect_intersects_rect in H.
  apply intersects_rect_iff in H; [|apply rect_ok_nn; auto with fok|apply rect_ok_nn; auto with fok].
  apply ix_intersects_iff; [apply rect_ok_nn; auto with fok|apply rect_ok_nn; auto with fok|].
  eapply kcov_meet; [exact C2|]. apply ix_meet; auto.
  eapply kcov_meet; [exact C1|]. apply kmeet_sym. exact H.
Qed.

Lemma index_search_scan {A} (r : ring) s q (iter : A -> seg -> nat -> bool * A) :
  s <> 0 -> rect_ok q -> (forall i, seg_ok (seg_at r i)) ->
  forall lvls, levels_ok (seg_at r) s (r_nsegs r) lvls -> forall start st,
  index_search r s q iter lvls start st =
  loop_while (search_leaf r q iter) (clip (start * s ^ length lvls) (s * s ^ length lvls) (r_nsegs r)) st.
Proof.
  intros Hs Oq Osg. induction lvls as [|level below IH]; intros OK start st.
  - cbn. rewrite !Nat.mul_1_r. reflexivity.
  - cbn [index_search]. destruct OK as [[LL LC] OK]. specialize (IH OK). cbv zeta.
    set (w := s ^ length (level :: below)) in *.
    assert (Hw : w <> 0) by (apply Nat.pow_nonzero; auto).
    rewrite <- (clip_concat w (r_nsegs r) Hw s start).
    fold (calc_num_keys s (length (level :: below)) (r_nsegs r)).
    change ((r_nsegs r + w - 1) / w) with (calc_num_keys s (length (level :: below)) (r_nsegs r)).
    rewrite <- LL, <- loop_while_concat. apply loop_while_ext.
    intros st' i Hi. apply in_clip in Hi.
    destruct (ixrect_intersects_ixrect (nth i level rect0) (tg_rect_to_ixrect q)) eqn:E.
    + rewrite IH. unfold w. cbn [length Nat.pow]. f_equal. f_equal. lia.
    + symmetry. apply loop_while_skip. intros st'' j Hj. apply in_clip in Hj.
      unfold search_leaf. destruct (segment_rect_intersects_rect (seg_at r j) q) eqn:E2; auto.
      exfalso. assert (ixcov (nth i level rect0) (seg_at r j)).
      { apply LC; [lia| |lia]. fold w. lia. }
      rewrite (ixcov_meet _ _ _ (Osg j) Oq H E2) in E. discriminate.
Qed.

(** ** point in ring: pruned branches do not matter *)
Lemma raycast_right s p : seg_nn s -> pt_nn p ->
  (f_key (px (rmax (tg_segment_rect s))) < f_key (px p))%Z -> raycast s p = ROut.
Proof.
  intros Hs Hp. destruct s as [[ax ay] [bx by_]], p as [qx qy]. unnn. cbn in *.
  keys. intros HH. rewrite Z.max_lub_lt_iff in HH. destruct HH as [HH1 HH2].
  unfold raycast. cbn [px py sa sb tg_segment_rect rmin rmax].
  destruct (flt qy _ || _) eqn:E1; auto.
  assert (E2 : flt qx (fmin0 ax bx) = false) by (keys; lia). rewrite E2.
  assert (E3 : fgt qx (fmax0 ax bx) = true) by (keys; lia). rewrite E3.
  set (mid := raycast_mid _ _ _ _).
  destruct (_ && _) eqn:E4; auto.
  keys_in E1. 
  (* either horizontal or vertical *)
  assert (M : forall a b, (a = Pt ax ay /\ b = Pt bx by_) \/ (a = Pt bx by_ /\ b = Pt ax ay) ->
    raycast_mid (Rect (Pt (fmin0 ax bx) (fmin0 ay by_)) (Pt (fmax0 ax bx) (fmax0 ay by_))) a b (Pt qx qy) = ROut).
  { intros a b Hab. unfold raycast_mid.
    assert (P : pteq (Pt qx qy) a || pteq (Pt qx qy) b = false).
    { unfold pteq. destruct Hab as [[-> ->]|[-> ->]]; cbn; keys; lia. }
    rewrite P.
    destruct (feqb (py a) (py b) && feqb (px a) (px b)) eqn:D; auto.
    cbn [px py rmin rmax]. rewrite E2, E3. cbn [orb negb]. rewrite andb_false_r.
    assert (V : feqb (px a) (px b) && feqb qx (px b) = false).
    { destruct Hab as [[-> ->]|[-> ->]]; cbn; keys; lia. }
    rewrite V. cbn [andb].
    assert (CL : (f_key ay = f_key by_ \/ f_key ax = f_key bx)%Z).
    { revert E4. keys. lia. }
    destruct (collinear _ _ _ _ _ _) eqn:C; auto.
    unfold raycast_tail. cbn [px py].
    set (p' := if feqb qy (py a) || feqb qy (py b) then Pt qx (f_nextup qy) else Pt qx qy).
    assert (Hx : px p' = qx) by (unfold p'; destruct (feqb qy (py a) || feqb qy (py b)); reflexivity).
    destruct (flt (py p') (py a) || fgt (py p') (py b)); auto. rewrite Hx.
    destruct Hab as [[-> ->]|[-> ->]]; cbn [px py].
    - assert (F1 : fge qx ax = true) by (keys; lia). assert (F2 : fge qx bx = true) by (keys; lia).
      rewrite F1, F2. destruct (fgt ax bx); auto.
    - assert (F1 : fge qx ax = true) by (keys; lia). assert (F2 : fge qx bx = true) by (keys; lia).
      rewrite F1, F2. destruct (fgt bx ax); auto. }
  subst mid. destruct (flt by_ ay); cbn [fst snd]; apply M; auto.
Qed.

(** the pruned-segment step of the fast point-in-ring loop equals the slow one *)
Lemma pip_eval_seg_slow_eq r p edge st i : seg_nn (seg_at r i) -> pt_nn p ->
  pip_eval_seg r p edge st i =
  (if negb (flt (py p) (fmin0 (py (sa (seg_at r i))) (py (sb (seg_at r i)))) ||
            fgt (py p) (fmax0 (py (sa (seg_at r i))) (py (sb (seg_at r i)))))
   then pip_eval_seg_slow r p edge st i else st).
Proof.
  intros Hs Hp. unfold pip_eval_seg. set (a := sa (seg_at r i)). set (b := sb (seg_at r i)).
  destruct (flt (py p) _ || _) eqn:E1; cbn [negb]; auto.
  destruct (flt (px p) (fmin0 (px a) (px b))) eqn:E2; cbn [andb negb].
  - destruct (fneb (py p) (fmin0 (py a) (py b)) && fneb (py p) (fmax0 (py a) (py b))) eqn:E3; auto.
    unfold pip_eval_seg_slow, raycast. cbn [tg_segment_rect rmin rmax px py].
    fold a b. rewrite E1, E2, E3. destruct (snd st); destruct st; reflexivity.
  - destruct (fgt (px p) (fmax0 (px a) (px b))) eqn:E3; cbn [andb]; auto.
    destruct (_ && _) eqn:E4; auto.
    unfold pip_eval_seg_slow. rewrite raycast_right; auto.
    cbn [tg_segment_rect rmin rmax px py]. unfold a, b in *.
    destruct Hs as [[? ?] [? ?]], Hp as [? ?].
    keys_in E3. keys. lia.
Qed.

(** a segment whose box does not reach the ray of p leaves the state alone *)
Lemma pip_eval_seg_out r p edge st i : seg_nn (seg_at r i) -> pt_nn p ->
  (let b := tg_segment_rect (seg_at r i) in
   f_key (py p) < f_key (py (rmin b)) \/ f_key (py (rmax b)) < f_key (py p) \/
   f_key (px (rmax b)) < f_key (px p))%Z ->
  pip_eval_seg r p edge st i = st.
Proof.
  intros Hs Hp H. cbv zeta in H. rewrite pip_eval_seg_slow_eq by auto.
  destruct (negb _) eqn:E; auto. unfold pip_eval_seg_slow. rewrite raycast_right; auto.
  destruct H as [H|[H|H]]; auto; exfalso; revert E H; cbn [tg_segment_rect rmin rmax px py];
  destruct Hs as [[? ?] [? ?]], Hp as [? ?]; keys; lia.
Qed.

Lemma branch_out R s p : seg_ok s -> pt_ok p -> ixcov R s ->
  branch_maybe_in (tg_point_to_ixpoint p) R = false ->
  (let b := tg_segment_rect s in
   f_key (py p) < f_key (py (rmin b)) \/ f_key (py (rmax b)) < f_key (py p) \/
   f_key (px (rmax b)) < f_key (px p))%Z.
Proof.
  intros Os Op [OR (B & OB & C1 & C2)] H. cbv zeta.
  assert (C1' := C1). unfold kcov in C1', C2.
  cbn [tg_rect_to_ixrect rmin rmax px py] in C2.
  pose proof (rect_ok_nn _ OR) as NR. pose proof (pt_ok_nn _ (ok_to_ixpoint p Op)) as Np.
  unfold branch_maybe_in in H. cbn [tg_point_to_ixpoint px py] in *.
  destruct OB as [[Bx0 By0] [Bx1 By1]]. destruct Op as [Opx Opy].
  destruct NR as [[? ?] [? ?]]. destruct Np as [? ?]. cbn [px py] in *.
  destruct (flt (f_to_f32 (py p)) (py (rmin R)) || fgt (f_to_f32 (py p)) (py (rmax R))) eqn:E1.
  - keys_in E1. apply orb_true_iff in E1. destruct E1 as [E1|E1].
    + left. destruct (Z.lt_ge_cases (f_key (py p)) (f_key (py (rmin B)))); [lia|].
      pose proof (ix_le_point_down (py (rmin B)) (py p) By0 Opy ltac:(lia)). lia.
    + right; left. destruct (Z.lt_ge_cases (f_key (py (rmax B))) (f_key (py p))); [lia|].
      pose proof (ix_le_point_up (py p) (py (rmax B)) Opy By1 ltac:(lia)). lia.
  - destruct (fgt (f_to_f32 (px p)) (px (rmax R))) eqn:E2; cbn [andb] in H.
    2: discriminate. keys_in E2.
    right; right. destruct (Z.lt_ge_cases (f_key (px (rmax B))) (f_key (px p))); [lia|].
    pose proof (ix_le_point_up (px p) (px (rmax B)) Opx Bx1 ltac:(lia)). lia.
Qed.

Lemma index_pip_scan (r : ring) s p edge :
  s <> 0 -> pt_ok p -> (forall i, seg_ok (seg_at r i)) ->
  forall lvls, levels_ok (seg_at r) s (r_nsegs r) lvls -> forall start st,
  index_pip_counter r s p edge lvls start st =
  fold_left (pip_eval_seg r p edge) (clip (start * s ^ length lvls) (s * s ^ length lvls) (r_nsegs r)) st.
Proof.
  intros Hs Oq Osg. induction lvls as [|level below IH]; intros OK start st.
  - cbn. rewrite !Nat.mul_1_r. reflexivity.
  - cbn [index_pip_counter]. destruct OK as [[LL LC] OK]. specialize (IH OK). cbv zeta.
    set (w := s ^ length (level :: below)) in *.
    assert (Hw : w <> 0) by (apply Nat.pow_nonzero; auto).
    rewrite <- (clip_concat w (r_nsegs r) Hw s start).
    change ((r_nsegs r + w - 1) / w) with (calc_num_keys s (length (level :: below)) (r_nsegs r)).
    rewrite <- LL, <- fold_left_concat. apply fold_left_ext.
    intros st' i Hi. apply in_clip in Hi.
    destruct (branch_maybe_in (tg_point_to_ixpoint p) (nth i level rect0)) eqn:E.
    + rewrite IH. unfold w. cbn [length Nat.pow]. f_equal. f_equal. lia.
    + symmetry. apply fold_left_skip. intros st'' j Hj. apply in_clip in Hj.
      assert (ixcov (nth i level rect0) (seg_at r j)).
      { apply LC; [lia| |lia]. fold w. lia. }
      apply pip_eval_seg_out; [apply seg_ok_nn; auto|apply pt_ok_nn; auto|].
      eapply branch_out; eauto.
Qed.

(** the unindexed loop *)
Lemma standard_pip_scan r p edge : (forall i, seg_nn (seg_at r i)) -> pt_nn p ->
  standard_pip r p edge = fold_left (pip_eval_seg r p edge) (seq 0 (r_nsegs r)) (false, None).
Proof.
  intros Hs Hp. unfold standard_pip. apply fold_left_ext. intros st i _.
  rewrite pip_eval_seg_slow_eq by auto. reflexivity.
Qed.

(** ** rings built by series_new *)
Definition ring_ix_ok (r : ring) : Prop :=
  (forall i, seg_ok (seg_at r i)) /\
  match r_index r with
  | None => True
  | Some ix => 2 <= ix_spread ix /\ levels_ok (seg_at r) (ix_spread ix) (r_nsegs r) (ix_levels ix) /\
               r_nsegs r <= ix_spread ix * ix_spread ix ^ length (ix_levels ix)
  end.

Lemma full_clip n m : n <= m -> clip 0 m n = seq 0 n.
Proof. intros. unfold clip. f_equal. lia. Qed.

Theorem ring_search_scan {A} r q (iter : A -> seg -> nat -> bool * A) st :
  ring_ix_ok r -> rect_ok q ->
  tg_ring_search r q iter st = loop_while (search_leaf r q iter) (seq 0 (r_nsegs r)) st.
Proof.
  intros [Os I] Oq. unfold tg_ring_search. destruct (r_index r) as [ix|]; auto.
  destruct I as (S2 & L & N). rewrite index_search_scan by (auto; lia).
  rewrite Nat.mul_0_l, full_clip by lia. reflexivity.
Qed.

(** the scan in terms of a filter *)
Lemma scan_filter {A} r q (iter : A -> seg -> nat -> bool * A) l st :
  loop_while (search_leaf r q iter) l st =
  loop_while (fun st i => iter st (seg_at r i) i)
    (filter (fun i => segment_rect_intersects_rect (seg_at r i) q) l) st.
Proof.
  rewrite (loop_while_filter _ (fun i => segment_rect_intersects_rect (seg_at r i) q)).
  - apply loop_while_ext. intros st' i Hi. apply filter_In in Hi. unfold search_leaf.
    destruct Hi as [_ ->]. reflexivity.
  - intros st' i _ H. unfold search_leaf. rewrite H. reflexivity.
Qed.

Lemma num_segments_cases ps closed : 2 <= length ps -> num_segments ps (length ps) closed <> 0 ->
  num_segments ps (length ps) closed = length ps \/ num_segments ps (length ps) closed = length ps - 1.
Proof.
  intros H N. unfold num_segments in *. destruct closed.
  - destruct (length ps <? 3)%nat; [congruence|]. destruct (pteq _ _); auto.
  - destruct (length ps <? 2)%nat; [congruence|]. auto.
Qed.

(** what the constructor returns, besides y-stripes *)
Lemma series_new_fields ps closed kind spread r : series_new ps closed kind spread = Some r ->
  let nsegs := num_segments ps (length ps) closed in
  let indexed := (2 * spread <=? length ps) && match kind with IxNone => false | _ => true end in
  let pr := process_points (if indexed then Some (spread, calc_num_keys spread 1 nsegs) else None) ps (length ps) in
  r_closed r = closed /\ r_npoints r = length ps /\ r_nsegs r = nsegs /\
  r_points r = ringpts ps /\ r_rect r = ppr_rect pr /\ r_convex r = ppr_convex pr /\
  r_clockwise r = ppr_clockwise pr /\ r_area r = ppr_area pr /\
  r_index r = (if indexed then
    Some (Index spread (ix_build_up spread nsegs (calc_num_levels spread nsegs - 1 - 1) 1 (ppr_leaves pr)))
    else None).
Proof.
  unfold series_new. cbv zeta. set (ind := (2 * spread <=? length ps) && _).
  set (nsegs := num_segments ps (length ps) closed).
  set (pr := process_points _ ps (length ps)).
  destruct (ind && closed && _).
  - destruct (process_ystripes _) as [ys|]; [|discriminate].
    intros E. injection E as <-. cbn. repeat split; auto.
  - intros E. injection E as <-. cbn. repeat split; auto.
Qed.

Lemma seg_at_pseg ps r i : r_points r = ringpts ps -> seg_at r i = pseg ps i.
Proof. intros E. unfold seg_at, pseg. rewrite E. reflexivity. Qed.

Theorem series_new_ix_ok ps closed kind spread r : series_new ps closed kind spread = Some r ->
  pts_ok ps -> 2 <= spread -> idx_sound spread (length ps) (num_segments ps (length ps) closed) ->
  ring_ix_ok r.
Proof.
  intros E Hok Hs Snd. apply series_new_fields in E. cbv zeta in E.
  destruct E as (_ & _ & EN & EP & _ & _ & _ & _ & EI).
  split. { intros i. rewrite (seg_at_pseg ps) by auto. apply pseg_ok; auto. }
  rewrite EI. destruct ((2 * spread <=? length ps) && _) eqn:IND; auto.
  apply andb_true_iff in IND. destruct IND as [IND _].
  cbn [ix_spread ix_levels]. split; auto.
  set (nsegs := num_segments ps (length ps) closed) in *.
  rewrite EN. split.
  - apply levels_ok_from_1. apply build_up_ok; auto.
    destruct (leaves_ok ps spread nsegs Hs ltac:(lia) Hok) as [L C]; auto.
    { apply num_segments_cases; [lia|].
      unfold nsegs, num_segments. destruct closed.
      - replace (length ps <? 3) with false by lia. destruct (pteq _ _); lia.
      - replace (length ps <? 2) with false by lia. lia. }
    split; auto. intros k i Hk Hi Hin. rewrite Nat.pow_1_r in Hi.
    rewrite (seg_at_pseg ps) by auto. apply C; auto. lia.
  - rewrite build_up_length. destruct (calc_num_levels_spec spread nsegs Hs) as [A B].
    eapply Nat.le_trans; [exact A|].
    rewrite <- Nat.pow_succ_r'. apply Nat.pow_le_mono_r; lia.
Qed.

(** an explicitly closed ring, or a line, never has an implicit closing segment *)
Lemma idx_sound_closed ps spread : 1 <= length ps ->
  pteq (pt_at ps (length ps - 1)) (pt_at ps 0) = true ->
  idx_sound spread (length ps) (num_segments ps (length ps) true).
Proof. intros L E. left. unfold num_segments. rewrite E. destruct (length ps <? 3)%nat eqn:?; lia. Qed.
Lemma idx_sound_line ps spread : 1 <= length ps ->
  idx_sound spread (length ps) (num_segments ps (length ps) false).
Proof. intros L. left. unfold num_segments. destruct (length ps <? 2)%nat eqn:?; lia. Qed.

(** point-in-ring without y-stripes *)
Theorem ring_contains_point_scan r p edge : ring_ix_ok r -> pt_ok p -> r_ystripes r = None ->
  tg_ring_contains_point r p edge =
  if tg_rect_covers_point (r_rect r) p
  then Some (fold_left (pip_eval_seg r p edge) (seq 0 (r_nsegs r)) (false, None))
  else Some (false, None).
Proof.
  intros [Os I] Op Y. unfold tg_ring_contains_point. rewrite Y.
  destruct (tg_rect_covers_point (r_rect r) p); cbn [negb]; auto.
  destruct (r_index r) as [ix|].
  - destruct I as (S2 & L & N). rewrite index_pip_scan by (auto; lia).
    rewrite Nat.mul_0_l, full_clip by lia. reflexivity.
  - rewrite standard_pip_scan; auto. intros i. apply seg_ok_nn; auto. apply pt_ok_nn; auto.
Qed.
