(** * The iteration over nearest segments is sorted and complete *)

From Coq Require Import ZArith Bool List Permutation Sorted Lia ZifyBool.
From Verif Require Import F64 F64Order F64Real F64Mono F32 Geo Series SeriesFacts Search SearchFacts
  RectFacts SpecGeo SpecFacts SpecRing RingFacts RingApi IndexFacts Nearest SpecNearest NearestHeap.
Import ListNotations.
Local Open Scope nat_scope.

Lemma settles_impl f (lo lo' fin fin' : f64 -> Prop) m : (forall d, lo d -> lo' d) -> (forall d, fin d -> fin' d) ->
  settles f lo fin m -> settles f lo' fin' m.
Proof.
  intros H1 H2. induction 1.
  - eapply settles_done; eauto.
  - eapply settles_more; eauto.
Qed.

Section Loop.
Variables (r : ring) (rdo : option rect_fn) (sd : seg_fn) (iter : iter_fn) (alloc : nat -> bool).
Variable Dd : nat -> f64.

Definition again_seg (e : nqentry) : nqentry :=
  let dm := sd (seg_at r (nq_ix e)) (nq_more e) in
  NqEntry (fst dm) false (nq_level e) (snd dm) (nq_ix e).
Definition again_rect (rd : rect_fn) (ix : index) (e : nqentry) : nqentry :=
  let dm := rd (ixrect_to_tg_rect (nth (nq_ix e) (nth (nq_level e) (ix_levels ix) []) rect0)) (nq_more e) in
  NqEntry (fst dm) true (nq_level e) (snd dm) (nq_ix e).
Definition children (rd : rect_fn) (ix : index) (e : nqentry) : list nqentry :=
  let lvl := S (nq_level e) in
  let start := (nq_ix e * ix_spread ix)%nat in
  if (lvl =? length (ix_levels ix))%nat
  then map (seg_entry r sd) (clip start (ix_spread ix) (r_nsegs r))
  else let below := nth lvl (ix_levels ix) [] in
       map (rect_entry rd lvl below) (clip start (ix_spread ix) (length below)).

Definition low (e : nqentry) (js : list nat) : Prop :=
  NN e /\ forall j, In j js -> nn (Dd j) /\ (K e <= f_key (Dd j))%Z.

(** [good e js n]: the entry stands for the segments js and takes n rounds *)
Inductive good : nqentry -> list nat -> nat -> Prop :=
| good_seg e : nq_rect e = false -> nq_more e = 0%Z -> nq_dist e = Dd (nq_ix e) ->
    low e [nq_ix e] -> good e [nq_ix e] 1
| good_seg_more e n : nq_rect e = false -> nq_more e <> 0%Z -> low e [nq_ix e] ->
    good (again_seg e) [nq_ix e] n -> good e [nq_ix e] (S n)
| good_rect_more e rd ix js n : nq_rect e = true -> rdo = Some rd -> r_index r = Some ix ->
    nq_more e <> 0%Z -> low e js -> good (again_rect rd ix e) js n -> good e js (S n)
| good_rect e rd ix js n : nq_rect e = true -> rdo = Some rd -> r_index r = Some ix ->
    nq_more e = 0%Z -> low e js -> goods (children rd ix e) js n -> good e js (S n)
with goods : list nqentry -> list nat -> nat -> Prop :=
| goods_nil : goods [] [] 0
| goods_cons e l js ks n m : good e js n -> goods l ks m -> goods (e :: l) (js ++ ks) (n + m).

Lemma good_low e js n : good e js n -> low e js.
Proof. intros H. inversion H; subst; auto. Qed.
Lemma good_pos e js n : good e js n -> 1 <= n.
Proof. intros H. inversion H; lia. Qed.
Lemma goods_nn l js n : goods l js n -> Forall NN l.
Proof.
  revert js n. induction l; intros js n H; inversion H; subst; constructor.
  - eapply good_low; eauto.
  - eapply IHl; eauto.
Qed.
Lemma goods_app l l' : forall js n ks m, goods l js n -> goods l' ks m -> goods (l ++ l') (js ++ ks) (n + m).
Proof.
  induction l as [|e l IH]; intros js n ks m H H'; inversion H; subst; cbn; auto.
  rewrite <- app_assoc, <- Nat.add_assoc. constructor; auto.
Qed.
Lemma goods_perm l l' : Permutation l l' -> forall js n, goods l js n ->
  exists js', Permutation js js' /\ goods l' js' n.
Proof.
  induction 1; intros js n G.
  - inversion G; subst. exists []. split; auto.
  - inversion G as [|e0 l0 j1 k1 n1 m1 G1 G2]; subst. destruct (IHPermutation _ _ G2) as (ks' & P & G').
    exists (j1 ++ ks'). split; [apply Permutation_app_head; auto|]. constructor; auto.
  - inversion G as [|e0 l0 j1 k1 n1 m1 G1 G2]; subst. inversion G2 as [|e1 l1 j2 k2 n2 m2 G3 G4]; subst.
    exists (j2 ++ j1 ++ k2). split.
    + rewrite !app_assoc. apply Permutation_app_tail, Permutation_app_comm.
    + replace (n1 + (n2 + m2)) with (n2 + (n1 + m2)) by lia. repeat constructor; auto.
  - destruct (IHPermutation1 _ _ G) as (js1 & P1 & G1). destruct (IHPermutation2 _ _ G1) as (js2 & P2 & G2).
    exists js2. split; auto. eapply perm_trans; eauto.
Qed.
Lemma goods_low l : forall js n, goods l js n -> forall j, In j js -> exists e, In e l /\ nn (Dd j) /\ (K e <= f_key (Dd j))%Z.
Proof.
  induction l as [|e l IH]; intros js n G j I; inversion G; subst; [destruct I|].
  apply in_app_or in I. destruct I as [I|I].
  - exists e. split; [left; auto|]. apply good_low in H1. apply H1; auto.
  - destruct (IH _ _ H4 j I) as (e' & I' & X). exists e'. split; auto. right; auto.
Qed.

Definition dkey (x : delivery) : Z := f_key (snd (fst x)).
Definition dle (a b : delivery) : Prop := (dkey a <= dkey b)%Z.
Definition mk (i : nat) : delivery := (seg_at r i, Dd i, i).

(** the loop, from any state *)
Record loop_inv (q : nqueue) (js : list nat) (out : list delivery) : Prop := {
  li_perm : Permutation (map snd out ++ js) (seq 0 (r_nsegs r));
  li_vals : Forall (fun x => x = mk (snd x) /\ nn (Dd (snd x))) out;
  li_sorted : StronglySorted dle out;
  li_le : forall x j, In x out -> In j js -> (dkey x <= f_key (Dd j))%Z;
  li_iter : forall p t, out = p ++ t -> p <> [] -> iter p = true }.

Record loop_post (ok : bool) (out rest : list delivery) : Prop := {
  lp_perm : Permutation (map snd (out ++ rest)) (seq 0 (r_nsegs r));
  lp_vals : Forall (fun x => x = mk (snd x) /\ nn (Dd (snd x))) (out ++ rest);
  lp_sorted : StronglySorted dle (out ++ rest);
  lp_iter : forall p t, out = p ++ t -> p <> [] -> t <> [] -> iter p = true;
  lp_done : ok = true -> rest = [] \/ (out <> [] /\ iter out = false);
  lp_oom : ok = false -> (exists k, alloc k = false) /\ (out = [] \/ iter out = true) }.

(** any list can be put in order of distance *)
Lemma insert_sorted (x : delivery) l : StronglySorted dle l ->
  exists l', Permutation (x :: l) l' /\ StronglySorted dle l'.
Proof.
  induction 1 as [|a l S IH F].
  - exists [x]. split; auto. repeat constructor.
  - destruct (Z.le_ge_cases (dkey x) (dkey a)) as [L|L].
    + exists (x :: a :: l). split; auto. constructor.
      * constructor; auto.
      * constructor; auto. eapply Forall_impl; [|exact F]. unfold dle. intros; lia.
    + destruct IH as (l' & P & S'). exists (a :: l'). split.
      * eapply perm_trans; [apply perm_swap|]. auto.
      * constructor; auto. eapply Forall_perm; [exact P|]. constructor; auto.
Qed.
Lemma sort_exists (l : list delivery) : exists l', Permutation l l' /\ StronglySorted dle l'.
Proof.
  induction l as [|x l (l' & P & S)].
  - exists []. split; constructor.
  - destruct (insert_sorted x l' S) as (m & P' & S'). exists m. split; auto.
    eapply perm_trans; [|exact P']. auto.
Qed.

Lemma sorted_app (a b : list delivery) : StronglySorted dle a -> StronglySorted dle b ->
  (forall x y, In x a -> In y b -> dle x y) -> StronglySorted dle (a ++ b).
Proof.
  induction 1 as [|x a S IH F]; intros Sb H; cbn; auto. constructor.
  - apply IH; auto. intros; apply H; cbn; auto.
  - apply Forall_app. split; auto. apply Forall_forall. intros y I. apply H; cbn; auto.
Qed.

(** whatever is left can be ordered after what has been delivered *)
Lemma stop_here js out : Permutation (map snd out ++ js) (seq 0 (r_nsegs r)) ->
  Forall (fun x => x = mk (snd x) /\ nn (Dd (snd x))) out -> StronglySorted dle out ->
  (forall x j, In x out -> In j js -> (dkey x <= f_key (Dd j))%Z) ->
  (forall j, In j js -> nn (Dd j)) ->
  exists rest, Permutation (map snd (out ++ rest)) (seq 0 (r_nsegs r)) /\
    Forall (fun x => x = mk (snd x) /\ nn (Dd (snd x))) (out ++ rest) /\ StronglySorted dle (out ++ rest) /\
    (js = [] -> rest = []).
Proof.
  intros P V S L N. destruct (sort_exists (map mk js)) as (rest & PR & SR). exists rest.
  assert (I : forall x, In x rest -> exists j, In j js /\ x = mk j).
  { intros x I. apply (Permutation_in _ (Permutation_sym PR)) in I. apply in_map_iff in I.
    destruct I as (j & <- & I). eauto. }
  split; [|split; [|split]].
  - rewrite map_app. eapply perm_trans; [|exact P]. apply Permutation_app_head.
    eapply perm_trans; [apply Permutation_map, Permutation_sym; exact PR|].
    rewrite map_map. cbn. rewrite map_id. apply Permutation_refl.
  - apply Forall_app. split; auto. apply Forall_forall. intros x Ix. destruct (I x Ix) as (j & Ij & ->). cbn. auto.
  - apply sorted_app; auto. intros x y Ix Iy. destruct (I y Iy) as (j & Ij & ->). unfold dle. cbn. apply L; auto.
  - intros ->. apply Permutation_nil in PR. auto.
Qed.

Lemma loop_ok fuel : forall q js n out, qinv q -> (nq_oom q = true -> exists k, alloc k = false) ->
  (nq_oom q = false -> exists js', Permutation js js' /\ goods (nq_items q) js' n) ->
  (forall j, In j js -> nn (Dd j)) ->
  loop_inv q js out -> n < fuel ->
  exists ok out' rest, nearest_loop fuel r rdo sd iter alloc q out = NDone ok out' /\ loop_post ok out' rest.
Proof.
  induction fuel as [|f IH]; intros q js n out Q O G NJ [P V S L IT] LT; [lia|].
  cbn [nearest_loop]. destruct (nqueue_pop q) as [[e q1]|] eqn:PO.
  2:{ destruct (stop_here js out P V S L NJ) as (rest & P' & V' & S' & E').
      exists (negb (nq_oom q)), out, rest. split; auto. split; auto.
      - intros p t H N _. eapply IT; eauto.
      - destruct (nq_oom q) eqn:OO; [discriminate|]. intros _.
        apply pop_none in PO. destruct PO as [PO|PO]; [|congruence].
        destruct (G eq_refl) as (js' & PJ & GJ). rewrite PO in GJ. inversion GJ; subst.
        apply Permutation_sym, Permutation_nil in PJ. left; auto.
      - destruct (nq_oom q) eqn:OO; [|discriminate]. intros _. split; auto.
        destruct out as [|x out]; auto. right. eapply (IT _ []); [symmetry; apply app_nil_r|discriminate]. }
  destruct (pop_some q e q1 Q PO) as (OF & OF1 & Q1 & PI & LE).
  destruct (G OF) as (js' & PJ & GJ). destruct (goods_perm _ _ PI _ _ GJ) as (js2 & PJ2 & GJ2).
  clear G GJ. inversion GJ2 as [|e' l' je ke ne me GE GL]; subst. clear GJ2.
  assert (PJ3 : Permutation js (je ++ ke)) by (eapply perm_trans; eauto).
  assert (PUSH : forall es n', goods es je n' -> n' + me < f ->
    exists ok out' rest, match push_all alloc q1 es with
      | Some q' => nearest_loop f r rdo sd iter alloc q' out | None => NBad end = NDone ok out' /\ loop_post ok out' rest).
  { intros es n' GS LF. destruct (push_all_spec alloc es q1 Q1 (goods_nn _ _ _ GS)) as (q2 & E2 & Q2 & _ & P2 & O2).
    rewrite E2. apply (IH q2 js (n' + me)); auto.
    - intros H. destruct (O2 H); auto; congruence.
    - intros H. specialize (P2 H). destruct (goods_perm _ _ P2 _ _ (goods_app _ _ _ _ _ _ GS GL)) as (j3 & P3 & G3).
      exists j3. split; auto. eapply perm_trans; eauto.
    - split; auto. }
  cbv zeta. pose proof (good_pos _ _ _ GE) as NE. inversion GE; subst.
  - (* a segment is delivered *)
    rewrite H, H0. cbn [Z.eqb negb]. rewrite H1.
    change (seg_at r (nq_ix e), Dd (nq_ix e), nq_ix e) with (mk (nq_ix e)).
    set (out' := out ++ [mk (nq_ix e)]).
    change (exists ok out'0 rest, (if iter out' then nearest_loop f r rdo sd iter alloc q1 out'
      else NDone (negb (nq_oom q1)) out') = NDone ok out'0 /\ loop_post ok out'0 rest).
    destruct H2 as [NNe Le]. destruct (Le (nq_ix e) (or_introl eq_refl)) as [ND _].
    assert (KE : K e = f_key (Dd (nq_ix e))) by (unfold K; rewrite H1; auto).
    assert (P' : Permutation (map snd out' ++ ke) (seq 0 (r_nsegs r))).
    { eapply perm_trans; [|exact P]. unfold out'. rewrite map_app, <- app_assoc. apply Permutation_app_head.
      symmetry. exact PJ3. }
    assert (V' : Forall (fun x => x = mk (snd x) /\ nn (Dd (snd x))) out').
    { apply Forall_app. split; [exact V|]. repeat constructor; exact ND. }
    assert (IJ : In (nq_ix e) js) by (eapply Permutation_in; [symmetry; exact PJ3|cbn; auto]).
    assert (S' : StronglySorted dle out').
    { apply sorted_app; auto; [repeat constructor|]. intros x y Ix [<-|[]]. apply (L x (nq_ix e)); auto. }
    assert (L' : forall x j, In x out' -> In j ke -> (dkey x <= f_key (Dd j))%Z).
    { intros x j Ix Ij. apply in_app_or in Ix. destruct Ix as [Ix|[<-|[]]].
      - apply L; auto. eapply Permutation_in; [symmetry; exact PJ3|right; auto].
      - change (dkey (mk (nq_ix e))) with (f_key (Dd (nq_ix e))). rewrite <- KE.
        destruct (goods_low _ _ _ GL j Ij) as (e2 & I2 & _ & X).
        rewrite Forall_forall in LE. specialize (LE e2 I2). lia. }
    assert (NK : forall j, In j ke -> nn (Dd j)).
    { intros j Ij. apply NJ. eapply Permutation_in; [symmetry; exact PJ3|right; auto]. }
    destruct (iter out') eqn:IE.
    + apply (IH q1 ke me); auto; try lia.
      * intros; congruence.
      * intros _. exists ke. auto.
      * split; auto. intros p t E NP. destruct t as [|y t] using rev_ind.
        -- rewrite app_nil_r in E. subst p. exact IE.
        -- unfold out' in E. rewrite app_assoc in E. apply app_inj_tail in E. destruct E as [E _].
           eapply IT; eauto.
    + destruct (stop_here ke out' P' V' S' L' NK) as (rest & P2 & V2 & S2 & _).
      exists true, out', rest. rewrite OF1. split; auto. split; auto.
      * intros p t E NP NT. destruct t as [|y t] using rev_ind; [congruence|].
        unfold out' in E. rewrite app_assoc in E. apply app_inj_tail in E. destruct E as [E _].
        eapply IT; eauto.
      * intros _. right. split; auto. unfold out'. destruct out; discriminate.
      * discriminate.
  - (* its distance is refined *)
    rewrite H. replace (nq_more e =? 0)%Z with false by lia. cbn [negb].
    apply (PUSH [again_seg e] n); [|lia].
    replace n with (n + 0) by lia. rewrite <- (app_nil_r [nq_ix e]). constructor; [auto|constructor].
  - rewrite H0 in PUSH. rewrite H, H0, H1. replace (nq_more e =? 0)%Z with false by lia. cbn [negb].
    apply (PUSH [again_rect rd ix e] n); [|lia].
    replace n with (n + 0) by lia. rewrite <- (app_nil_r je). constructor; [auto|constructor].
  - rewrite H0 in PUSH. rewrite H, H0, H1. rewrite H2. cbn [Z.eqb negb].
    assert (CE := PUSH (children rd ix e) n H4 ltac:(lia)).
    unfold children in CE. cbv zeta in CE. destruct (Datatypes.S (nq_level e) =? length (ix_levels ix)); exact CE.
Qed.

Lemma loop_more fuel : forall q out k, nearest_loop fuel r rdo sd iter alloc q out <> NFuel ->
  nearest_loop (fuel + k) r rdo sd iter alloc q out = nearest_loop fuel r rdo sd iter alloc q out.
Proof.
  induction fuel as [|f IH]; intros q out k N; [cbn in N; congruence|].
  cbn [nearest_loop Nat.add] in *. destruct (nqueue_pop q) as [[e q1]|]; auto. cbv zeta in *.
  assert (PU : forall es, match push_all alloc q1 es with
      | Some q' => nearest_loop f r rdo sd iter alloc q' out | None => NBad end <> NFuel ->
    match push_all alloc q1 es with
      | Some q' => nearest_loop (f + k) r rdo sd iter alloc q' out | None => NBad end =
    match push_all alloc q1 es with
      | Some q' => nearest_loop f r rdo sd iter alloc q' out | None => NBad end).
  { intros es. destruct (push_all alloc q1 es); auto. }
  destruct (nq_rect e).
  - destruct rdo; auto. destruct (r_index r); auto. destruct (negb _); auto. destruct (_ =? _); auto.
  - destruct (negb _); auto. destruct (iter _); auto.
Qed.

(** ** the entries put into the queue are good *)
Variable D : seg -> f64.
Hypothesis HD : forall i, Dd i = D (seg_at r i).

Definition ent_seg (lvl i : nat) (m : Z) : nqentry :=
  NqEntry (fst (sd (seg_at r i) m)) false lvl (snd (sd (seg_at r i) m)) i.

Lemma fle_nn x y : fle x y = true -> nn x /\ nn y.
Proof.
  unfold fle, nn. destruct (f_isnan x), (f_isnan y); cbn; auto; discriminate.
Qed.
Lemma fle_K x y : fle x y = true -> (f_key x <= f_key y)%Z.
Proof. intros H. destruct (fle_nn _ _ H). rewrite fle_key in H by auto. lia. Qed.
Lemma roi_nn x : real_or_inf x -> nn x.
Proof. intros [_ H]. unfold nn. unfold feqb in H. destruct (f_isnan x); auto. Qed.

Lemma ent_seg_good i m : nn (Dd i) ->
  settles (sd (seg_at r i)) (fun d => fle d (D (seg_at r i)) = true) (fun d => d = D (seg_at r i)) m ->
  forall lvl, exists n, good (ent_seg lvl i m) [i] n.
Proof.
  intros N. induction 1 as [m d E F|m d m' E N' F S IH]; intros lvl.
  - exists 1. change [i] with [nq_ix (ent_seg lvl i m)]. unfold ent_seg. rewrite E. cbn [fst snd].
    assert (d = Dd i) as -> by (rewrite HD; auto).
    apply good_seg; cbn; auto. split; cbn; auto. intros j [<-|[]]. split; auto. unfold K. cbn. lia.
  - destruct (IH lvl) as (n & G). exists (Datatypes.S n). unfold ent_seg. rewrite E. cbn [fst snd].
    destruct (fle_nn _ _ F).
    apply (good_seg_more (NqEntry d false lvl m' i)); cbn; auto.
    split; cbn; auto. intros j [<-|[]]. split; auto. unfold K. cbn. rewrite HD. apply fle_K. auto.
Qed.
Lemma seg_entry_good i : measures sd D (seg_at r i) -> exists n, good (seg_entry r sd i) [i] n.
Proof.
  intros [R S]. apply (ent_seg_good i 0%Z); auto. rewrite HD. apply roi_nn; auto.
Qed.

Definition ent_rect (rd : rect_fn) (R : rect) (lvl i : nat) (m : Z) : nqentry :=
  NqEntry (fst (rd R m)) true lvl (snd (rd R m)) i.

Lemma ent_rect_good rd ix R lvl i m js n : rdo = Some rd -> r_index r = Some ix ->
  R = ixrect_to_tg_rect (nth i (nth lvl (ix_levels ix) []) rect0) ->
  (forall j, In j js -> nn (Dd j)) ->
  (forall d m', goods (children rd ix (NqEntry d true lvl m' i)) js n) ->
  let low d := real_or_inf d /\ forall j, In j js -> fle d (D (seg_at r j)) = true in
  settles (rd R) low low m -> exists n', good (ent_rect rd R lvl i m) js n'.
Proof.
  intros E1 E2 ER NJ CH low'.
  assert (LO : forall d m, low' d -> low (NqEntry d true lvl m i) js).
  { intros d m' [A B]. split; [apply roi_nn; auto|]. intros j Ij. split; auto. unfold K. cbn. rewrite HD. apply fle_K. auto. }
  induction 1 as [m d E F|m d m' E N' F S IH].
  - exists (Datatypes.S n). unfold ent_rect. rewrite E. cbn [fst snd]. eapply good_rect; eauto.
  - destruct IH as (n' & G). exists (Datatypes.S n'). unfold ent_rect. rewrite E. cbn [fst snd].
    eapply good_rect_more; eauto. unfold again_rect. cbn [nq_ix nq_level nq_more]. rewrite <- ER. exact G.
Qed.

Lemma goods_map (F : nat -> nqentry) (G : nat -> list nat) l :
  (forall i, In i l -> exists n, good (F i) (G i) n) -> exists n, goods (map F l) (concat (map G l)) n.
Proof.
  induction l as [|a l IH]; intros H.
  - exists 0. constructor.
  - destruct (H a (or_introl eq_refl)) as (n & A). destruct IH as (m & B).
    { intros i I. apply H. right; auto. }
    exists (n + m). cbn. constructor; auto.
Qed.
Lemma concat_single (l : list nat) : concat (map (fun i => [i]) l) = l.
Proof. induction l; cbn; congruence. Qed.

Variables (ix : index) (rd : rect_fn).
Hypothesis Hrd : rdo = Some rd.
Hypothesis Hix : r_index r = Some ix.
Let s := ix_spread ix.
Let L := length (ix_levels ix).
Hypothesis Hs : 2 <= s.
Hypothesis Hsz : sizes_ok_from s (r_nsegs r) 1 (ix_levels ix).
Hypothesis HL : 1 <= L.
Hypothesis Hseg : forall i, i < r_nsegs r -> measures sd D (seg_at r i).
Hypothesis Hrect : forall k i, k < L -> i < length (nth k (ix_levels ix) []) ->
  bounds rd D (ixrect_to_tg_rect (nth i (nth k (ix_levels ix) []) rect0))
    (fun sg => exists j, i * s ^ (L - k) <= j < (i + 1) * s ^ (L - k) /\ j < r_nsegs r /\ sg = seg_at r j).

Lemma rect_entries_good k : k < L -> forall i, i < length (nth k (ix_levels ix) []) ->
  exists n, good (rect_entry rd k (nth k (ix_levels ix) []) i) (clip (i * s ^ (L - k)) (s ^ (L - k)) (r_nsegs r)) n.
Proof.
  intros Hk. remember (L - k) as h eqn:Eh. revert k Hk Eh. induction h as [|h IH]; intros k Hk Eh i Hi; [lia|].
  set (w := s ^ h) in *.
  assert (CH : exists n, forall d m', goods (children rd ix (NqEntry d true k m' i)) (clip (i * s ^ Datatypes.S h) (s ^ Datatypes.S h) (r_nsegs r)) n).
  { unfold children. cbn [nq_level nq_ix]. fold L. fold s.
    destruct (Nat.eqb_spec (Datatypes.S k) L) as [e|ne].
    - assert (h = 0) by lia. subst h. rewrite Nat.pow_1_r.
      destruct (goods_map (seg_entry r sd) (fun i => [i]) (clip (i * s) s (r_nsegs r))) as (n & G).
      { intros j Ij. apply in_clip in Ij. apply seg_entry_good. apply Hseg. lia. }
      rewrite concat_single in G. exists n. auto.
    - set (below := nth (Datatypes.S k) (ix_levels ix) []).
      destruct (goods_map (rect_entry rd (Datatypes.S k) below) (fun j => clip (j * w) w (r_nsegs r))
         (clip (i * s) s (length below))) as (n & G).
      { intros j Ij. apply in_clip in Ij. apply IH; try lia. fold below. lia. }
      exists n. intros d m'. assert (LB : length below = (r_nsegs r + w - 1) / w).
      { unfold below. rewrite (sizes_nth s (r_nsegs r) 1) by (auto; fold L; lia). fold L.
        replace (L - Datatypes.S k + 1 - 1) with h by lia. reflexivity. }
      rewrite LB in G at 2. rewrite clip_concat in G by (unfold w; apply Nat.pow_nonzero; lia).
      cbn [Nat.pow]. fold w. rewrite Nat.mul_assoc. exact G. }
  destruct CH as (n & CH). unfold rect_entry. cbv zeta.
  apply (ent_rect_good rd ix (ixrect_to_tg_rect (nth i (nth k (ix_levels ix) []) rect0)) k i 0%Z _ n); auto.
  - intros j Ij. apply in_clip in Ij. rewrite HD. apply roi_nn. apply Hseg. lia.
  - cbv zeta. pose proof (Hrect k i Hk Hi) as B. unfold bounds in B. cbv zeta in B.
    eapply settles_impl; [| |exact B]; intros d [R F]; (split; auto; intros j Ij; apply in_clip in Ij; apply F;
      exists j; rewrite <- Eh; split; [lia|split; [lia|auto]]).
Qed.

Lemma roots_good : exists n, goods (map (rect_entry rd 0 (nth 0 (ix_levels ix) [])) (seq 0 (length (nth 0 (ix_levels ix) []))))
  (seq 0 (r_nsegs r)) n.
Proof.
  set (root := nth 0 (ix_levels ix) []). set (w := s ^ L).
  destruct (goods_map (rect_entry rd 0 root) (fun j => clip (j * w) w (r_nsegs r)) (seq 0 (length root))) as (n & G).
  { intros j Ij. apply in_seq in Ij. unfold w. pose proof (rect_entries_good 0 ltac:(lia) j) as X.
    rewrite Nat.sub_0_r in X. apply X. fold root. lia. }
  exists n. assert (LB : length root = (r_nsegs r + w - 1) / w).
  { unfold root. rewrite (sizes_nth s (r_nsegs r) 1) by (auto; fold L; lia). fold L.
    replace (L - 0 + 1 - 1) with L by lia. reflexivity. }
  assert (Hw : w <> 0) by (apply Nat.pow_nonzero; lia).
  assert (E : seq 0 (length root) = clip 0 (length root) ((r_nsegs r + w - 1) / w)).
  { rewrite <- LB. unfold clip. f_equal. lia. }
  rewrite E in G at 2. rewrite clip_concat in G by auto. cbn [Nat.mul] in G.
  rewrite full_clip in G; auto.
  assert (~ length root < (r_nsegs r + w - 1) / w) by lia. rewrite (ceil_spec w (r_nsegs r)) in H by auto. lia.
Qed.
End Loop.

(** ** from any series *)
Theorem nearest_series ps closed kind spread r rdo sd D iter alloc :
  points_ok ps -> 2 <= spread -> series_new ps closed kind spread = Some r ->
  let segs := series_segments closed ps in
  (forall s, In s segs -> measures sd D s) ->
  (forall rd, rdo = Some rd -> forall k i,
     (0 <= k < tg_ring_index_num_levels (Some r))%Z ->
     (0 <= i < tg_ring_index_level_num_rects (Some r) k)%Z ->
     let w := spread ^ Z.to_nat (tg_ring_index_num_levels (Some r) - k) in
     bounds rd D (tg_ring_index_level_rect (Some r) k i)
       (fun s => exists j, Z.to_nat i * w <= j < (Z.to_nat i + 1) * w /\ nth_error segs j = Some s)) ->
  exists fuel0 ok out rest,
    (forall fuel, fuel0 <= fuel -> tg_ring_nearest_segment fuel r rdo sd iter alloc = NDone ok out) /\
    nearest_spec segs D iter alloc ok out rest.
Proof.
  intros Hok S2 E segs HM HR. apply points_ok_iff in Hok.
  pose proof (series_new_fields _ _ _ _ _ E) as F. cbv zeta in F. destruct F as (_ & _ & NS & PT & _).
  assert (SG : segs = map (seg_at r) (seq 0 (r_nsegs r))).
  { unfold segs. rewrite series_segments_spec by auto. rewrite <- NS. apply map_ext. intros i.
    symmetry. apply seg_at_pseg; auto. }
  assert (NT : forall j, j < r_nsegs r -> nth_error segs j = Some (seg_at r j)).
  { intros j Hj. rewrite SG. rewrite (map_nth_error (seg_at r) j (seq 0 (r_nsegs r)) (d := j)); auto.
    rewrite (nth_error_nth' _ 0) by (rewrite seq_length; auto). rewrite seq_nth; auto. }
  assert (LS : length segs = r_nsegs r) by (rewrite SG, map_length, seq_length; auto).
  set (Dd := fun i => D (seg_at r i)).
  assert (HM' : forall i, i < r_nsegs r -> measures sd D (seg_at r i)).
  { intros i Hi. apply HM. eapply nth_error_In. apply NT; auto. }
  assert (HN : forall j, In j (seq 0 (r_nsegs r)) -> nn (Dd j)).
  { intros j Ij. apply in_seq in Ij. apply roi_nn. apply HM'. lia. }
  set (es := match rdo, r_index r with
    | Some rd, Some ix => map (rect_entry rd 0 (nth 0 (ix_levels ix) [])) (seq 0 (length (nth 0 (ix_levels ix) [])))
    | _, _ => map (seg_entry r sd) (seq 0 (r_nsegs r)) end).
  assert (G : exists n, goods r rdo sd Dd es (seq 0 (r_nsegs r)) n).
  { assert (A : exists n, goods r rdo sd Dd (map (seg_entry r sd) (seq 0 (r_nsegs r))) (seq 0 (r_nsegs r)) n).
    { destruct (goods_map r rdo sd Dd (seg_entry r sd) (fun i => [i]) (seq 0 (r_nsegs r))) as (n & G).
      - intros i Ii. apply in_seq in Ii. apply (seg_entry_good r rdo sd alloc Dd D (fun _ => eq_refl)). apply HM'. lia.
      - rewrite concat_single in G. eauto. }
    unfold es. destruct rdo as [rd|]; auto. destruct (r_index r) as [ix|] eqn:IX; auto.
    destruct (index_fields _ _ _ _ _ _ E Hok S2 IX) as (L2 & KN & SP & LL & L1 & SZ).
    apply (roots_good r (Some rd) sd alloc Dd D); rewrite ?SP; auto.
    intros k i Hk Hi. pose proof (HR rd eq_refl (Z.of_nat k) (Z.of_nat i)) as B.
    unfold tg_ring_index_num_levels, tg_ring_index_level_num_rects, tg_ring_index_level_rect in B.
    rewrite IX in B. cbv zeta in B.
    replace ((Z.of_nat k <? 0)%Z || (Z.of_nat (length (ix_levels ix)) <=? Z.of_nat k)%Z) with false in B by lia.
    rewrite !Nat2Z.id in B.
    replace ((Z.of_nat i <? 0)%Z || (Z.of_nat (length (nth k (ix_levels ix) [])) <=? Z.of_nat i)%Z) with false in B by lia.
    specialize (B ltac:(lia) ltac:(lia)).
    replace (Z.to_nat (Z.of_nat (length (ix_levels ix)) - Z.of_nat k)) with (length (ix_levels ix) - k) in B by lia.
    unfold bounds in *. eapply settles_impl; [| |exact B]; intros d [R F]; (split; auto; intros sg (j & J1 & J2 & ->);
      apply F; exists j; auto). }
  destruct G as (n & G).
  destruct (push_all_spec alloc es nqueue_init qinv_init (goods_nn _ _ _ _ _ _ _ G)) as (q & EQ & Q & _ & PQ & OQ).
  cbn [nq_oom nqueue_init nq_items] in PQ, OQ. rewrite app_nil_r in PQ.
  destruct (loop_ok r rdo sd iter alloc Dd (Datatypes.S n) q (seq 0 (r_nsegs r)) n [] Q) as (ok & out & rest & RUN & [P V S I DN OM]).
  - intros H. destruct (OQ H); auto. discriminate.
  - intros H. pose proof (PQ H) as PH. eapply (goods_perm r rdo sd alloc Dd) in PH; [|exact G]. exact PH.
  - exact HN.
  - split; cbn; auto; try constructor; try tauto. intros p t X N. destruct p; [congruence|discriminate].
  - lia.
  - exists (Datatypes.S n), ok, out, rest. split.
    + intros fuel Hf. change (match push_all alloc nqueue_init es with
        | Some q => nearest_loop fuel r rdo sd iter alloc q [] | None => NBad end = NDone ok out).
      rewrite EQ. replace fuel with (Datatypes.S n + (fuel - Datatypes.S n)) by lia.
      rewrite loop_more; rewrite RUN; congruence.
    + split; rewrite ?LS; auto.
      * intros s d i Hin. rewrite Forall_forall in V. destruct (V _ Hin) as [X _]. cbn in X. injection X as -> ->.
        split; auto. apply NT. assert (II : In i (map snd (out ++ rest))) by (apply in_map_iff; eexists; split; [|exact Hin]; auto).
        apply (Permutation_in _ P) in II. apply in_seq in II. lia.
      * assert (AD : forall x, In x (out ++ rest) -> nn (snd (fst x))).
        { intros x Ix. rewrite Forall_forall in V. destruct (V x Ix) as [X Y]. rewrite X. exact Y. }
        clear -S AD. change (StronglySorted (fun a b : delivery => fle (snd (fst a)) (snd (fst b)) = true) (out ++ rest)).
        revert S AD. generalize (out ++ rest). clear. intros l0 S AD.
        induction S as [|a l S' IH F]; constructor.
        -- apply IH. intros; apply AD; right; auto.
        -- apply Forall_forall. intros y Iy. rewrite Forall_forall in F. specialize (F y Iy). unfold dle, dkey in F.
           rewrite fle_key; [apply Z.leb_le; exact F| |]; apply AD; cbn; auto.
Qed.

Lemma box_end_a s : segment_ok s -> in_box s (sa s).
Proof.
  intros [[A1 A2] [B1 B2]]. apply in_box_kin.
  - split; split; apply roi_nn; auto.
  - split; apply roi_nn; auto.
  - apply kin_segment_rect_a. split; split; apply roi_nn; auto.
Qed.
Lemma box_end_b s : segment_ok s -> in_box s (sb s).
Proof.
  intros [[A1 A2] [B1 B2]]. apply in_box_kin.
  - split; split; apply roi_nn; auto.
  - split; apply roi_nn; auto.
  - apply kin_segment_rect_b. split; split; apply roi_nn; auto.
Qed.
Lemma segs_ok closed ps s : points_ok ps -> In s (series_segments closed ps) -> segment_ok s.
Proof.
  intros H I. apply points_ok_iff in H. rewrite series_segments_spec in I by auto.
  apply in_map_iff in I. destruct I as (i & <- & _). destruct (pseg_ok ps i H) as [A B].
  split; apply point_ok_iff; auto.
Qed.

(** rectangles of the index are rectangles *)
Lemma index_rect_ok ps closed kind spread r k i : points_ok ps -> 2 <= spread ->
  series_new ps closed kind spread = Some r -> search_safe ps closed kind spread ->
  (0 <= k < tg_ring_index_num_levels (Some r))%Z ->
  (0 <= i < tg_ring_index_level_num_rects (Some r) k)%Z ->
  rectangle_ok (tg_ring_index_level_rect (Some r) k i).
Proof.
  intros Hok S2 E Safe Hk Hi. pose proof (search_safe_ok _ _ _ _ _ Hok S2 E Safe) as [SO RI].
  unfold tg_ring_index_num_levels, tg_ring_index_level_num_rects, tg_ring_index_level_rect in *.
  destruct (r_index r) as [ix|] eqn:IX; [|lia]. destruct RI as (S2' & LV & _).
  replace ((k <? 0)%Z || _) with false in * by lia.
  replace ((i <? 0)%Z || _) with false by lia.
  pose proof (levels_ok_nth _ _ _ _ (Z.to_nat k) LV ltac:(lia)) as LN.
  apply level_all_ok in LN; [|lia]. rewrite Forall_forall in LN.
  apply rectangle_ok_iff. apply LN. apply nth_In. lia.
Qed.

(** when the coordinates are floats the rectangles bound the segments below them *)
Theorem nearest_series_inside ps closed kind spread r rdo sd D iter alloc :
  points_ok ps -> 2 <= spread -> series_new ps closed kind spread = Some r ->
  search_safe ps closed kind spread -> (forall a, In a ps -> pt32 a) ->
  let segs := series_segments closed ps in
  (forall s, In s segs -> measures sd D s) ->
  (forall rd R s, rdo = Some rd -> rectangle_ok R -> In s segs -> inside R s ->
     bounds rd D R (fun s => In s segs /\ inside R s)) ->
  exists fuel0 ok out rest,
    (forall fuel, fuel0 <= fuel -> tg_ring_nearest_segment fuel r rdo sd iter alloc = NDone ok out) /\
    nearest_spec segs D iter alloc ok out rest.
Proof.
  intros Hok S2 E Safe P32 segs HM HR. eapply nearest_series; eauto.
  intros rd Erd k i Hk Hi w.
  assert (IN : forall j s, Z.to_nat i * w <= j < (Z.to_nat i + 1) * w -> nth_error segs j = Some s ->
    In s segs /\ inside (tg_ring_index_level_rect (Some r) k i) s).
  { intros j s Hj Es. split; [eapply nth_error_In; eauto|].
    assert (Hjn : j < length segs) by (apply nth_error_Some; unfold segs; unfold segs in Es; rewrite Es; discriminate).
    assert (Es' : nth j segs seg0 = s) by (apply nth_error_nth; auto).
    assert (SO : segment_ok s) by (eapply segs_ok; [exact Hok|eapply nth_error_In; exact Es]).
    split; (eapply (index_cover ps closed kind spread r k i j); eauto; [apply SO|]; fold segs; rewrite Es';
      first [apply box_end_a; exact SO | apply box_end_b; exact SO]). }
  destruct (index_shape _ _ _ _ _ Hok S2 E) as (_ & _ & _ & SH). destruct (SH k Hk) as (c & EC & C1 & CB & _).
  fold segs in CB. fold w in CB.
  assert (J0 : Z.to_nat i * w < length segs).
  { assert (Z.to_nat i <= c - 1) by lia. nia. }
  destruct (nth_error segs (Z.to_nat i * w)) as [s0|] eqn:E0; [|apply nth_error_None in E0; lia].
  assert (w <> 0) by (apply Nat.pow_nonzero; lia).
  destruct (IN (Z.to_nat i * w) s0 ltac:(lia) E0) as [I1 I2].
  pose proof (HR rd _ s0 Erd (index_rect_ok _ _ _ _ _ _ _ Hok S2 E Safe Hk Hi) I1 I2) as B.
  unfold bounds in *. eapply settles_impl; [| |exact B];
    (intros d [R F]; split; auto; intros s (j & Hj & Es); apply F; eapply IN; eauto).
Qed.
