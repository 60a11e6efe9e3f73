(** * Threads keep the invariant *)

From Coq Require Import ZArith Bool List Lia Arith Permutation.
From Verif Require Import F64 Geo Series Geom MultiIx Heap HeapGeom SpecHeap HeapHist HeapFacts HeapStep HeapFree HeapDen HeapNew HeapMake HeapCopy HeapClone HeapBuild HeapHistF HeapMore HeapThr.
Import ListNotations.
Local Open Scope nat_scope.

(** ** What a task holds *)

(** the references that a task will give back *)
Definition pend (h : heap) (t : task) : list ptr :=
  match t with
  | TFree _ p | TRelease p | TMulti p | TArr _ p _ => [p]
  | TTake p => match get h p with Some b => owned b | None => [] end
  | TDrop _ => []
  end.
(** the block it is taking apart *)
Definition dead (t : task) : list ptr := match t with TTake p | TDrop p => [p] | _ => [] end.
Definition tok (h : heap) (t : task) : Prop :=
  match t with
  | TFree k p => pk h (kof k) (Some p)
  | TRelease p => pk h is_obj (Some p)
  | TTake p => exists b, get h p = Some b /\ is_obj b = true /\ typed false h b
  | TArr k a n => parr h (kof k) n (Some a)
  | TMulti m => pk h is_multi (Some m)
  | TDrop q => pk h (fun b => negb (isnh b)) (Some q)
  end.

Lemma fits_kof k b : fits_kind k b = kof k b.
Proof. destruct k, b; reflexivity. Qed.

Lemma pends_frees h k l : flat_map (pend h) (flat_map (HeapThr.frees k) l) = flat_map olist l.
Proof. induction l as [|[p|] l IH]; cbn; [reflexivity| |]; congruence. Qed.
Lemma deads_frees k l : flat_map dead (flat_map (HeapThr.frees k) l) = [].
Proof. induction l as [|[p|] l IH]; cbn; auto. Qed.
Lemma pend_frees h k o : flat_map (pend h) (HeapThr.frees k o) = olist o.
Proof. now destruct o. Qed.
Lemma pend_arrs h k o n : flat_map (pend h) (arrs k o n) = olist o.
Proof. now destruct o. Qed.
Lemma pend_drops h o : flat_map (pend h) (drops o) = [].
Proof. now destruct o. Qed.
Lemma dead_frees k o : flat_map dead (HeapThr.frees k o) = [].
Proof. now destruct o. Qed.
Lemma dead_arrs k o n : flat_map dead (arrs k o n) = [].
Proof. now destruct o. Qed.
Lemma dead_drops o : flat_map dead (drops o) = olist o.
Proof. now destruct o. Qed.
Lemma tok_frees h k o : pk h (kof k) o -> Forall (tok h) (HeapThr.frees k o).
Proof. destruct o; cbn; auto. Qed.
Lemma tok_arrs h k o n : parr h (kof k) n o -> Forall (tok h) (arrs k o n).
Proof. destruct o; cbn; auto. Qed.
Lemma tok_drops h f o : (forall b, f b = true -> head_of b = None /\ owned b = []) -> pk h f o -> Forall (tok h) (drops o).
Proof.
  intros L P. destruct o as [q|]; cbn; [|constructor]. constructor; [|constructor]. destruct P as (b & G & K). exists b. split; [assumption|].
  unfold isnh. now rewrite (proj1 (L b K)).
Qed.
Lemma tok_drop h q b : get h q = Some b -> isnh b = false -> Forall (tok h) [TDrop q].
Proof. intros G N. constructor; [|constructor]. exists b. now rewrite N. Qed.

(** a block without pointers that is referred to once is taken apart *)
Lemma enter_leaf h f o E D : (forall b, f b = true -> head_of b = None /\ owned b = []) ->
  Inv false h (olist o ++ E) D -> pk h f o -> Inv false h E (olist o ++ D).
Proof.
  intros LF I P. destruct o as [q|]; [|exact I]. destruct P as (b & G & Fb). destruct (LF b Fb) as [H O].
  cbn [olist app] in *. pose proof (Inv_enter false h q b E D I G) as X. rewrite O in X. cbn [app] in X. apply X.
  - unfold isnh. now rewrite H.
  - unfold refs. now rewrite H.
Qed.

Definition after (t : task) (E D : list ptr) (h : heap) (ts : list task) (h' : heap) : Prop :=
  Inv false h' (flat_map (pend h') ts ++ E) (flat_map dead ts ++ D) /\ Forall (tok h') ts /\ Fr D h h' /\
  length (cells h') = length (cells h) /\
  (forall p, In p (dead t) -> In p (flat_map dead ts) \/ get h' p = None).

Lemma perm_D h E D D' : Permutation D D' -> Inv false h E D -> Inv false h E D'.
Proof.
  intros P I. apply (Inv_D false h E D D'); [|eapply Permutation_NoDup; [exact P|apply I]|assumption].
  intros p. split; apply Permutation_in; [assumption|now apply Permutation_sym].
Qed.
Lemma perm_E h E E' D : Permutation E E' -> Inv false h E D -> Inv false h E' D.
Proof. intros P. apply Inv_E. intros p. now apply Permutation_count_occ. Qed.

Lemma obj_nn h E D p b : Inv false h E D -> get h p = Some b -> ~ In p D -> isnh b = false.
Proof. intros I G N. exact (proj1 (inv_ty _ _ _ _ I p b G N) eq_refl). Qed.

Ltac flat := rewrite ?flat_map_app, ?pend_frees, ?pend_arrs, ?pend_drops, ?dead_frees, ?dead_arrs, ?dead_drops, ?pends_frees, ?deads_frees; cbn [flat_map pend dead app]; rewrite ?app_nil_r; cbn [app].

Lemma do_task_ok t h E D rk : Inv false h (pend h t ++ E) (dead t ++ D) -> Rank rk h (dead t ++ D) -> tok h t ->
  wp (do_task t) (fun ts h' => after t E D h ts h') h.
Proof.
  intros I R T. destruct t as [k p|p|p|k a n|m|q]; cbn [do_task pend dead app] in *.
  - destruct T as (b & G & K). destruct (inv_E _ _ _ _ p I (or_introl eq_refl)) as [_ N].
    apply wp_bind, (wp_load p b _ _ G). rewrite fits_kof, K.
    pose proof (obj_nn _ _ _ _ _ I G N) as NN. unfold isnh in NN. pose proof (kof_obj _ _ K) as O. unfold is_obj in O.
    destruct (head_of b) as [hd|] eqn:H; [|discriminate]. rewrite NN. apply wp_ret. split; [exact I|]. split; [|split; [apply Fr_refl|split; [reflexivity|intros ? []]]].
    constructor; [|constructor]. exists b. split; [assumption|]. unfold is_obj. now rewrite H.
  - destruct T as (b & G & K). destruct (inv_E _ _ _ _ p I (or_introl eq_refl)) as [_ N]. unfold is_obj in K.
    destruct (head_of b) as [hd|] eqn:H; [|discriminate]. pose proof (obj_nn _ _ _ _ _ I G N) as NN. unfold isnh in NN. rewrite H in NN.
    pose proof (wp_stays false rk h D h p b hd E D (fun s h' => after (TRelease p) E D h (if negb s then [TTake p] else []) h')) as W.
    specialize (W ltac:(now apply FSt_start) G H).
    assert (X : wp (stays p) (fun s h' => after (TRelease p) E D h (if negb s then [TTake p] else []) h') h).
    { apply W; clear W.
      - intros h' A. cbn [negb]. split; [exact (fs_inv _ _ _ _ _ _ _ A)|]. split; [constructor|]. split; [apply A|]. split; [apply A|]. intros ? [].
      - intros h' b' A N' _ NB G' TY _. cbn [negb]. split; [|split; [|split; [apply A|split; [apply A|intros ? []]]]].
        + cbn [flat_map pend dead]. rewrite G'. unfold b'. rewrite owned_set, app_nil_r. exact (fs_inv _ _ _ _ _ _ _ A).
        + constructor; [|constructor]. exists b'. split; [assumption|]. split; [unfold is_obj, b'; now rewrite (head_set _ hd)|].
          apply (typed_strip false h' b); [unfold b'; now apply strip_set|assumption]. }
    unfold wp, bind, stays in *. unfold load in X. unfold bind in X. rewrite G, H, NN in X.
    destruct (rc_release p h) as [[last h']|]; [|exact X]. cbn [ret] in *. destruct last; exact X.
  - destruct T as (b & G & K & TY). rewrite G in I. apply wp_bind, (wp_load p b _ _ G).
    assert (DONE : forall ts, Inv false h (flat_map (pend h) ts ++ E) (flat_map dead ts ++ D) -> Forall (tok h) ts -> In p (flat_map dead ts) ->
              wp (ret ts) (fun ts h' => after (TTake p) E D h ts h') h).
    { intros ts I1 T1 P1. apply wp_ret. split; [assumption|]. split; [assumption|]. split; [apply Fr_refl|]. split; [reflexivity|].
      intros x [<-|[]]. now left. }
    destruct TY as [NT TY]. specialize (NT eq_refl). pose proof (tok_drop h p b G NT) as TD. destruct b as [hd r ix ys| |hd e n hs| |hd x|hd pl c nc xj| | | | |]; try discriminate K; apply DONE; cbn [owned] in I.
    + flat. rewrite <- app_assoc. cbn [app]. apply (enter_leaf h is_ys ys E (p :: D) leaf_ys I). apply TY.
    + apply Forall_app. split; [apply (tok_drops h is_ys); [exact leaf_ys|apply TY]|exact TD].
    + flat. apply in_or_app. right. now left.
    + flat. exact I.
    + destruct TY as [T1 T2]. repeat (apply Forall_app; split); [now apply (tok_frees h KRing)|now apply (tok_arrs h KRing)|exact TD].
    + flat. now left.
    + exact I.
    + exact TD.
    + now left.
    + destruct TY as [T1 T2].
      assert (X : forall pp (TS : list task), flat_map (pend h) TS = pp -> flat_map dead TS = [] -> forall f, (forall b, f b = true -> head_of b = None /\ owned b = []) -> pk h f c ->
                Inv false h ((pp ++ olist c ++ olist xj) ++ E) (p :: D) ->
                Inv false h (flat_map (pend h) (TS ++ drops c ++ drops xj ++ [TDrop p]) ++ E) (flat_map dead (TS ++ drops c ++ drops xj ++ [TDrop p]) ++ D)).
      { intros pp TS EP ED f LF PC I1. flat. rewrite EP, ED. cbn [app]. rewrite <- !app_assoc. cbn [app].
        apply (enter_leaf h f c); [exact LF| |assumption]. apply (enter_leaf h is_str xj); [exact leaf_str| |assumption].
        apply (perm_E h ((pp ++ olist c ++ olist xj) ++ E)); [|exact I1]. rewrite !app_assoc. apply Permutation_app_tail.
        rewrite <- app_assoc. etransitivity; [apply Permutation_app_comm|]. etransitivity; [apply Permutation_app_tail, Permutation_app_comm|]. reflexivity. }
      destruct pl as [x z m|l|l|t m].
      * subst c. flat. rewrite <- app_assoc. cbn [app]. apply (enter_leaf h is_str xj E (p :: D) leaf_str); [exact I|assumption].
      * destruct T2. apply (X (olist l) (HeapThr.frees KRing l) (pend_frees _ _ _) (dead_frees _ _) (is_dbls nc) (leaf_dbls nc)); [assumption|exact I].
      * destruct T2. apply (X (olist l) (HeapThr.frees KPoly l) (pend_frees _ _ _) (dead_frees _ _) (is_dbls nc) (leaf_dbls nc)); [assumption|exact I].
      * destruct T2. apply (X (olist m) (match m with Some m => [TMulti m] | None => [] end) ltac:(now destruct m) ltac:(now destruct m) (is_dbls nc) (leaf_dbls nc)); [assumption|exact I].
    + destruct TY as [T1 T2]. repeat (apply Forall_app; split); try exact TD; try (apply (tok_drops h is_str); [exact leaf_str|assumption]).
      * destruct pl as [x z m|l|l|t m]; [constructor| | |].
        -- destruct T2. now apply (tok_frees h KRing).
        -- destruct T2. now apply (tok_frees h KPoly).
        -- destruct T2. destruct m; repeat constructor; assumption.
      * destruct pl; [constructor| | |]; (apply (tok_drops h (is_dbls nc)); [exact (leaf_dbls nc)|apply T2]).
    + rewrite !flat_map_app. rewrite !in_app_iff. cbn. tauto.
  - destruct T as (l & G & L & F). apply wp_bind, (wp_load a _ _ _ G). rewrite <- L, Nat.eqb_refl. apply wp_ret.
    pose proof (Inv_enter false h a _ E D I G eq_refl eq_refl) as I1. cbn [owned] in I1.
    split; [flat; exact I1|]. split; [|split; [apply Fr_refl|split; [reflexivity|intros ? []]]].
    apply Forall_app. split; [|now apply (tok_drop h a _ G)]. clear -F. induction F as [|o l P F IH]; cbn [flat_map]; [constructor|].
    apply Forall_app. split; [now apply tok_frees|assumption].
  - destruct T as (b & G & K). destruct (inv_E _ _ _ _ m I (or_introl eq_refl)) as [_ N].
    apply wp_bind, (wp_load m _ _ _ G). destruct b as [| | | | | |gs n r ix ixg| | | |]; try discriminate K. apply wp_ret.
    pose proof (Inv_enter false h m _ E D I G eq_refl eq_refl) as I1. cbn [owned] in I1. pose proof (inv_ty _ _ _ _ I m _ G N) as [_ (T1 & T2 & T3)].
    split; [|split; [|split; [apply Fr_refl|split; [reflexivity|intros ? []]]]].
    + flat. rewrite <- !app_assoc. cbn [app]. apply (enter_leaf h is_ix ix); [exact leaf_ix| |assumption].
      apply (enter_leaf h (is_ints n) ixg); [exact (leaf_ints n)| |assumption].
      apply (perm_E h ((olist gs ++ olist ix ++ olist ixg) ++ E)); [|exact I1]. rewrite !app_assoc. apply Permutation_app_tail.
      rewrite <- app_assoc. etransitivity; [apply Permutation_app_comm|]. etransitivity; [apply Permutation_app_tail, Permutation_app_comm|]. reflexivity.
    + repeat (apply Forall_app; split); [now apply (tok_arrs h KGeom)|apply (tok_drops h is_ix); [exact leaf_ix|assumption]|apply (tok_drops h (is_ints n)); [exact (leaf_ints n)|assumption]|now apply (tok_drop h m _ G)].
  - pose proof (inv_dl _ _ _ _ I q (or_introl eq_refl)) as L. pose proof (inv_nd _ _ _ _ I) as ND. inversion ND as [|? ? Nq ND']; subst.
    destruct (get h q) as [b|] eqn:G; [|congruence]. apply get_lt in G as Hq.
    apply wp_bind, wp_free; [congruence|]. apply wp_ret. split; [|split; [constructor|split; [|split; [now apply len_upd|]]]].
    + cbn [flat_map app]. now apply Inv_free.
    + constructor.
      * rewrite len_upd by assumption. lia.
      * intros p L' Gp. rewrite get_upd by assumption. destruct (p =? q); [reflexivity|assumption].
      * intros p c Gp. rewrite get_upd by assumption. destruct (p =? q); [now left|]. right. now exists c.
      * intros p c Gp Hp. rewrite get_upd by assumption. destruct (Nat.eqb_spec p q) as [e|]; [|assumption]. exfalso. subst p.
        destruct Hp as [Hp|Hp]; [|contradiction]. destruct T as (b' & Gb & Nb). assert (c = b') by congruence. subst c. rewrite Hp in Nb. discriminate.
      * intros p c L' Gp. rewrite get_upd in Gp by assumption. destruct (p =? q); [discriminate|]. apply get_lt in Gp. lia.
    + intros x [<-|[]]. right. rewrite get_upd by assumption. now rewrite Nat.eqb_refl.
Qed.

(** ** All threads together *)

Record Flat (H : list handle) (T : list task) (h : heap) : Prop := {
  fl_inv : Inv false h (map fst H ++ flat_map (pend h) T) (flat_map dead T);
  fl_rank : exists rk, Rank rk h (flat_map dead T);
  fl_kind : Forall (fun x => pk h (kof (snd x)) (Some (fst x))) H;
  fl_tok : Forall (tok h) T
}.

Lemma perm_flat_map {A B} (f : A -> list B) l l' : Permutation l l' -> Permutation (flat_map f l) (flat_map f l').
Proof. intros P. now apply Permutation_flat_map. Qed.
Lemma Flat_perm H H' T T' h : Permutation H H' -> Permutation T T' -> Flat H T h -> Flat H' T' h.
Proof.
  intros PH PT F. constructor.
  - apply (perm_D h _ (flat_map dead T)); [now apply perm_flat_map|].
    apply (perm_E h (map fst H ++ flat_map (pend h) T)); [|apply F]. apply Permutation_app; [now apply Permutation_map|now apply perm_flat_map].
  - destruct (fl_rank _ _ _ F) as [rk R]. exists rk. apply (Rank_D rk h (flat_map dead T)); [assumption|].
    intros p. apply Permutation_in. now apply perm_flat_map.
  - eapply Permutation_Forall; [exact PH|apply F].
  - eapply Permutation_Forall; [exact PT|apply F].
Qed.

(** whoever is referred to after a step is as it was *)
Lemma Fr_keep D h h' E' D' p : Fr D h h' -> Inv false h' E' D' -> get h' p <> None -> keep h h' p.
Proof. intros F I L b G. destruct (fr_live _ _ _ F p b G) as [X|X]; [congruence|exact X]. Qed.
Lemma pend_frame D h h' T : Fr D h h' -> incl (flat_map dead T) D -> Forall (tok h) T -> flat_map (pend h') T = flat_map (pend h) T.
Proof.
  intros F. induction T as [|t T IH]; intros IN TK; [reflexivity|]. inversion TK as [|? ? TK1 TK2]; subst. cbn [flat_map] in *.
  rewrite IH; [|intros x Hx; apply IN, in_or_app; now right|assumption]. f_equal. destruct t as [k p|p|p|k a n|m|q]; try reflexivity. cbn [pend].
  destruct TK1 as (b & G & _). rewrite G, (fr_nh _ _ _ F p b G); [reflexivity|]. right. apply IN. now left.
Qed.
Lemma tok_frame D h h' E' D' T : Fr D h h' -> incl (flat_map dead T) D -> Forall (tok h) T -> Inv false h' E' D' ->
  incl (flat_map (pend h) T) E' -> incl (flat_map dead T) D' -> Forall (tok h') T.
Proof.
  intros F IN TK I IE ID. rewrite Forall_forall in *. intros t Ht. specialize (TK t Ht).
  assert (ALIVE : forall p, In p (pend h t) -> get h' p <> None /\ ~ In p D') by (intros p Hp; apply (inv_E _ _ _ _ p I), IE, in_flat_map; eauto).
  assert (DEAD : forall p, In p (dead t) -> In p D) by (intros p Hp; apply IN, in_flat_map; eauto).
  assert (OWN : forall q, In q (pend h t) -> keep h h' q /\ forall b, get h q = Some b -> forall r, In r (owned b) -> keep h h' r).
  { intros q Hq. destruct (ALIVE q Hq) as [A1 A2]. pose proof (Fr_keep _ _ _ _ _ _ F I A1) as K. split; [exact K|].
    intros b Gb r Hr. destruct (K b Gb) as (b' & G' & S'). rewrite <- (strip_owned _ _ S') in Hr.
    apply (Fr_keep _ _ _ _ _ _ F I). now apply (inv_owned _ _ _ _ _ _ _ I G' A2 Hr). }
  destruct t as [k p|p|p|k a n|m|q]; cbn [tok pend dead] in *.
  - apply (pk_keep h); [apply st_kof| |assumption]. intros q Hq. now apply OWN.
  - apply (pk_keep h); [apply st_obj| |assumption]. intros q Hq. now apply OWN.
  - destruct TK as (b & G & K & TY). exists b. split; [apply (fr_nh _ _ _ F p b G); right; apply DEAD; now left|]. split; [assumption|].
    apply (typed_keep false h); [|assumption]. intros q Hq. apply OWN. now rewrite G.
  - apply (parr_keep h); [apply st_kof| |assumption]. exact OWN.
  - apply (pk_keep h); [apply st_multi| |assumption]. intros q Hq. now apply OWN.
  - destruct TK as (b & G & K). exists b. split; [|assumption]. apply (fr_nh _ _ _ F q b G). right. apply DEAD. now left.
Qed.

Lemma Flat_step H t T h : Flat H (t :: T) h -> wp (do_task t) (fun ts h' => Flat H (ts ++ T) h' /\ Fr [] h h' /\ length (cells h') = length (cells h)) h.
Proof.
  intros F. pose proof (fl_tok _ _ _ F) as TK. inversion TK as [|? ? TK1 TK2]; subst. destruct (fl_rank _ _ _ F) as [rk R].
  pose proof (fl_inv _ _ _ F) as I. cbn [flat_map] in *.
  set (E := map fst H ++ flat_map (pend h) T) in *. set (D := flat_map dead T) in *.
  assert (I1 : Inv false h (pend h t ++ E) (dead t ++ D)).
  { apply (perm_E h (map fst H ++ pend h t ++ flat_map (pend h) T)); [|exact I]. unfold E. rewrite !app_assoc. apply Permutation_app_tail, Permutation_app_comm. }
  eapply wp_conseq; [exact (do_task_ok t h E D rk I1 R TK1)|]. intros ts h' (I' & T' & FR & L & DD).
  assert (I2 : Inv false h' (map fst H ++ flat_map (pend h') (ts ++ T)) (flat_map dead (ts ++ T))).
  { rewrite !flat_map_app. rewrite (pend_frame D h h' T FR (incl_refl _) TK2).
    apply (perm_E h' (flat_map (pend h') ts ++ E)); [|exact I']. unfold E. rewrite !app_assoc. apply Permutation_app_tail, Permutation_app_comm. }
  split; [|split; [apply (Fr_D _ D); [assumption|now intros x []]|assumption]].
  constructor.
  - exact I2.
  - exists rk. apply (Rank_sub rk h _ (dead t ++ D)); [assumption|]. intros p c Gp Np. rewrite flat_map_app, in_app_iff in Np.
    destruct (get h p) as [b|] eqn:Gb.
    + destruct (fr_live _ _ _ FR p b Gb) as [G'|(b' & G' & S')]; [congruence|]. exists b. split; [reflexivity|]. split.
      * rewrite in_app_iff. intros [Hd|Hd]; [|tauto]. destruct (DD p Hd); [tauto|congruence].
      * assert (b' = c) by congruence. subst. now apply strip_owned.
    + rewrite (fr_dead _ _ _ FR p) in Gp; [discriminate| |assumption]. rewrite <- L. eapply get_lt, Gp.
  - pose proof (fl_kind _ _ _ F) as FK. rewrite Forall_forall in *. intros [p k] Hp. cbn [fst snd].
    apply (Fr_pk D h h' (kof k) p FR (st_kof k)); [exact (FK (p, k) Hp)|]. apply (inv_E _ _ _ _ p I2). apply in_or_app. left. apply in_map_iff. now exists (p, k).
  - apply Forall_app. split; [assumption|]. apply (tok_frame D h h' (flat_map (pend h') ts ++ E) (flat_map dead ts ++ D) T FR); [apply incl_refl|assumption|assumption| |].
    + intros x Hx. rewrite in_app_iff. right. unfold E. apply in_or_app. now right.
    + intros x Hx. apply in_or_app. now right.
Qed.

(** *** What a thread can reach is not being taken apart *)
Section EvalD.
Context (h : heap) (E D : list ptr) (I : Inv false h E D).
Definition okp (k : block -> bool) (o : option ptr) : Prop := forall p, o = Some p -> pk h k (Some p) /\ ~ In p D.
Lemma okp_none k : okp k None.
Proof. intros p [=]. Qed.
Lemma okp_some k p b : get h p = Some b -> k b = true -> ~ In p D -> okp k (Some p).
Proof. intros G K N q [= <-]. split; [now exists b|assumption]. Qed.
Lemma okp_own k p b o : get h p = Some b -> ~ In p D -> (forall q, o = Some q -> In q (owned b)) -> pk h k o -> okp k o.
Proof. intros G N HO P q ->. split; [assumption|]. apply (inv_owned _ _ _ _ _ _ _ I G N). now apply HO. Qed.
Lemma tyD p b : get h p = Some b -> ~ In p D -> typed false h b.
Proof. apply (inv_ty _ _ _ _ I). Qed.
Lemma array_at_okD k n a j pa ba : get h pa = Some ba -> ~ In pa D -> (forall q, a = Some q -> In q (owned ba)) -> parr h k n a -> j < n -> reads (array_at a j) h (okp k).
Proof.
  intros Gp Np HO. destruct a as [a|]; [|intros -> L; lia]. intros (l & G & L & F) Lj. cbn [array_at].
  destruct (inv_owned _ _ _ _ _ _ _ I Gp Np (HO a eq_refl)) as [_ Na].
  eapply reads_bind; [apply (reads_load a _ _ (fun b => b = BPtrs l) G eq_refl)|].
  intros ? ->. destruct (nth_error l j) as [o|] eqn:N; [|apply nth_error_None in N; lia].
  apply reads_ret. rewrite Forall_forall in F. apply nth_error_In in N. apply (okp_own k a _ o G Na); [|now apply F].
  intros q ->. cbn [owned]. apply in_flat_map. exists (Some q). split; [assumption|now left].
Qed.
Ltac ldD b := eapply reads_bind; [match goal with G : get h _ = Some b |- _ => apply (reads_load _ _ _ (fun x => x = b) G eq_refl) end|]; intros ? ->.
Ltac none := apply reads_ret, okp_none.
Ltac own := let q := fresh in intros q ->; cbn [owned olist]; rewrite ?in_app_iff; cbn [In]; tauto.
Lemma exterior_okD o : okp is_pol o -> reads (poly_exterior_mem o) h (okp is_ring).
Proof.
  destruct o as [p|]; [|intros _; none]. intros O. destruct (O p eq_refl) as [(b & G & K) N]. cbn [poly_exterior_mem]. ldD b. pose proof (tyD p b G N) as [_ T].
  destruct b; try discriminate K; apply reads_ret.
  - eapply okp_some; [exact G|reflexivity|assumption].
  - eapply okp_own; [exact G|assumption| |apply T]. own.
Qed.
Lemma hole_okD o j : okp is_pol o -> reads (poly_hole_mem o j) h (okp is_ring).
Proof.
  destruct o as [p|]; [|intros _; none]. intros O. destruct (O p eq_refl) as [(b & G & K) N]. cbn [poly_hole_mem]. ldD b. pose proof (tyD p b G N) as [_ T].
  destruct b as [| |hd e n hs| | | | | | | |]; try discriminate K; [none|]. destruct (Nat.ltb_spec j n) as [L|]; [|none].
  eapply (array_at_okD _ n); [exact G|assumption| |apply T|assumption]. own.
Qed.
Lemma line_okD o : okp is_obj o -> reads (geom_line_mem o) h (okp is_ring).
Proof.
  destruct o as [p|]; [|intros _; none]. intros O. destruct (O p eq_refl) as [(b & G & K) N]. cbn [geom_line_mem]. ldD b. pose proof (tyD p b G N) as [_ T].
  destruct b as [hd r ix ys| |hd e n hs| |hd x|hd pl c nc xj| | | | |]; try discriminate K; try none.
  - destruct (r_closed r); [none|]. apply reads_ret. eapply okp_some; [exact G|reflexivity|assumption].
  - destruct pl; try none. apply reads_ret. eapply okp_own; [exact G|assumption| |apply T]. own.
Qed.
Lemma poly_okD o : okp is_obj o -> reads (geom_poly_mem o) h (okp is_pol).
Proof.
  destruct o as [p|]; [|intros _; none]. intros O. destruct (O p eq_refl) as [(b & G & K) N]. cbn [geom_poly_mem]. ldD b. pose proof (tyD p b G N) as [_ T].
  destruct b as [hd r ix ys| |hd e n hs| |hd x|hd pl c nc xj| | | | |]; try discriminate K; try none.
  - destruct (r_closed r); [|none]. apply reads_ret. eapply okp_some; [exact G|reflexivity|assumption].
  - apply reads_ret. eapply okp_some; [exact G|reflexivity|assumption].
  - destruct pl; try none. apply reads_ret. eapply okp_own; [exact G|assumption| |apply T]. own.
Qed.
Lemma child_okD o j : okp is_obj o -> reads (geometry_at_mem o j) h (okp is_obj).
Proof.
  destruct o as [p|]; [|intros _; none]. intros O. destruct (O p eq_refl) as [(b & G & K) N]. cbn [geometry_at_mem]. ldD b. pose proof (tyD p b G N) as [_ T].
  destruct b as [hd r ix ys| |hd e n hs| |hd x|hd pl c nc xj| | | | |]; try discriminate K; try none.
  destruct pl as [| | |t m]; try none. destruct t, m as [m|]; try none.
  destruct T as [_ [_ (bm & Gm & Km)]]. destruct bm as [| | | | | |gs n r ix ixg| | | |]; try discriminate Km.
  assert (Nm : ~ In m D) by (apply (inv_owned _ _ _ _ _ _ _ I G N); cbn [owned olist]; rewrite !in_app_iff; cbn; tauto).
  eapply reads_bind; [apply (reads_load m _ _ (fun x => x = BMulti gs n r ix ixg) Gm eq_refl)|]. intros ? ->.
  destruct (Nat.ltb_spec j n) as [L|]; [|none]. eapply (array_at_okD _ n); [exact Gm|assumption| |apply (tyD m _ Gm Nm)|assumption]. own.
Qed.
Definition okresD (k : okind) (o : option (option ptr)) : Prop := match o with Some o => okp (kof k) o | None => True end.
Lemma eval_okD (held : list handle) (HK : forall p k, In (p, k) held -> pk h (kof k) (Some p) /\ ~ In p D) r : forall k, reads (eval held r k) h (okresD k).
Proof.
  assert (BAD : forall k, reads (ret None) h (okresD k)) by (intros k; exact (reads_ret None h (okresD k) Logic.I)).
  induction r as [|i|r IH|r IH j|r IH|r IH|r IH j]; intros k; cbn [eval].
  - apply reads_ret. exact (okp_none _).
  - destruct (nth_error held i) as [[p k']|] eqn:N; [|apply BAD]. apply reads_ret. destruct (casts k' k) eqn:C; [|exact Logic.I].
    cbn [okresD]. intros q [= <-]. destruct (HK p k' ltac:(eapply nth_error_In, N)). split; [|assumption]. apply (pk_imp h (kof k')); [intros b; now apply kof_casts|assumption].
  - destruct (okind_eqb KRing k) eqn:C; [|apply BAD]. destruct k; try discriminate C.
    eapply reads_bind; [apply (IH KPoly)|]. intros [o|] Ho; [|apply BAD]. eapply reads_bind; [apply exterior_okD, Ho|]. intros x Hx. now apply reads_ret.
  - destruct (okind_eqb KRing k) eqn:C; [|apply BAD]. destruct k; try discriminate C.
    eapply reads_bind; [apply (IH KPoly)|]. intros [o|] Ho; [|apply BAD]. eapply reads_bind; [apply hole_okD, Ho|]. intros x Hx. now apply reads_ret.
  - destruct (okind_eqb KRing k) eqn:C; [|apply BAD]. destruct k; try discriminate C.
    eapply reads_bind; [apply (IH KGeom)|]. intros [o|] Ho; [|apply BAD]. eapply reads_bind; [apply line_okD, Ho|]. intros x Hx. now apply reads_ret.
  - destruct (okind_eqb KPoly k) eqn:C; [|apply BAD]. destruct k; try discriminate C.
    eapply reads_bind; [apply (IH KGeom)|]. intros [o|] Ho; [|apply BAD]. eapply reads_bind; [apply poly_okD, Ho|]. intros x Hx. now apply reads_ret.
  - destruct (okind_eqb KGeom k) eqn:C; [|apply BAD]. destruct k; try discriminate C.
    eapply reads_bind; [apply (IH KGeom)|]. intros [o|] Ho; [|apply BAD]. eapply reads_bind; [apply child_okD, Ho|]. intros x Hx. now apply reads_ret.
Qed.
End EvalD.

(** *** Clone *)
Lemma clones_ok k : makes false (kof k) (argp (kof k) nobound) (fun _ _ _ _ => True) (clones_of k).
Proof.
  destruct k; cbn [clones_of kof]; intros rk h E D x I R A.
  - eapply wp_conseq; [exact (ring_clone_ok false rk h E D x I R A)|]. intros r h' (X & Y & _). auto.
  - eapply wp_conseq; [exact (poly_clone_ok false rk h E D x I R A)|]. intros r h' (X & Y & _). auto.
  - eapply wp_conseq; [exact (geom_clone_ok false rk h E D x I R A)|]. intros r h' (X & Y & _). auto.
Qed.

Lemma Flat_clone H T h (held : list handle) r k : Flat H T h -> incl held H ->
  wp (call1 held r k (clones_of k))
     (fun o h' => Flat (match o with Some (Some p) => (p, k) :: H | _ => H end) T h' /\ Fr [] h h') h.
Proof.
  intros F IN. pose proof (fl_inv _ _ _ F) as I. destruct (fl_rank _ _ _ F) as [rk R].
  set (E := map fst H ++ flat_map (pend h) T) in *. set (D := flat_map dead T) in *.
  assert (HK : forall p k, In (p, k) held -> pk h (kof k) (Some p) /\ ~ In p D).
  { intros p k' Hp. apply IN in Hp. split.
    - pose proof (fl_kind _ _ _ F) as FK. rewrite Forall_forall in FK. exact (FK (p, k') Hp).
    - apply (inv_E _ _ _ _ p I). apply in_or_app. left. apply in_map_iff. now exists (p, k'). }
  unfold call1. eapply wp_reads; [apply (eval_okD h E D I held HK)|]. intros [o|] Ho; [|apply wp_ret; split; [exact F|apply Fr_refl]].
  apply wp_bind. eapply wp_conseq; [apply (clones_ok k rk h E D o I R)|].
  { intros q ->. destruct (Ho q eq_refl) as [X Y]. repeat split; assumption. }
  intros x h' (A & P & _). apply wp_ret. pose proof (st_inv _ _ _ _ _ _ _ _ A) as I'. cbn [app] in I'. pose proof (st_fr _ _ _ _ _ _ _ _ A) as FR.
  split; [|apply (Fr_D _ D); [assumption|now intros y []]].
  assert (EQ : map fst (match x with Some p => (p, k) :: H | None => H end) = olist x ++ map fst H) by (now destruct x).
  assert (KP : Forall (fun y => pk h' (kof (snd y)) (Some (fst y))) H).
  { pose proof (fl_kind _ _ _ F) as FK. rewrite Forall_forall in *. intros [p kp] Hp. cbn [fst snd].
    apply (Fr_pk D h h' (kof kp) p FR (st_kof kp)); [exact (FK (p, kp) Hp)|]. apply (inv_E _ _ _ _ p I').
    apply in_or_app. right. apply in_or_app. left. apply in_map_iff. now exists (p, kp). }
  pose proof (fl_tok _ _ _ F) as TK.
  cut (Flat (match x with Some p => (p, k) :: H | None => H end) T h'); [now destruct x|].
  constructor.
  - unfold handle in *. rewrite EQ, (pend_frame D h h' T FR (incl_refl _) TK), <- app_assoc. exact I'.
  - destruct (st_rank _ _ _ _ _ _ _ _ A) as (rk' & R' & _). now exists rk'.
  - destruct x; [|exact KP]. constructor; [exact P|exact KP].
  - apply (tok_frame D h h' (olist x ++ E) D T FR); [apply incl_refl|assumption|assumption| |apply incl_refl].
    intros y Hy. apply in_or_app. right. apply in_or_app. now right.
Qed.

(** *** One action *)
Definition helds (ts : list thread) : list handle := flat_map fst ts.
Definition tasks (ts : list thread) : list task := flat_map snd ts.

Lemma nth_split_set {A} (l : list A) i x : nth_error l i = Some x ->
  exists l1 l2, l = l1 ++ x :: l2 /\ forall y, set_nth i y l = l1 ++ y :: l2.
Proof.
  revert i. induction l as [|a l IH]; intros [|i] N; try discriminate N.
  - inversion N; subst. exists [], l. split; [reflexivity|]. intros y. reflexivity.
  - destruct (IH i N) as (l1 & l2 & E1 & E2). exists (a :: l1), l2. split; [cbn; congruence|]. intros y. specialize (E2 y).
    unfold set_nth in *. change (firstn (S i) (a :: l)) with (a :: firstn i l). change (skipn (S (S i)) (a :: l)) with (skipn (S i) l).
    cbn [app]. congruence.
Qed.
Lemma helds_mid l1 (x : thread) l2 : Permutation (helds (l1 ++ x :: l2)) (fst x ++ helds (l1 ++ l2)).
Proof.
  unfold helds. rewrite !flat_map_app. cbn [flat_map]. rewrite !app_assoc. apply Permutation_app_tail, Permutation_app_comm.
Qed.
Lemma tasks_mid l1 (x : thread) l2 : Permutation (tasks (l1 ++ x :: l2)) (snd x ++ tasks (l1 ++ l2)).
Proof.
  unfold tasks. rewrite !flat_map_app. cbn [flat_map]. rewrite !app_assoc. apply Permutation_app_tail, Permutation_app_comm.
Qed.
Lemma perm_drop (held : list handle) j x : nth_error held j = Some x -> Permutation held (x :: drop_nth j held).
Proof.
  intros N. rewrite <- (firstn_skipn j held) at 1. unfold drop_nth.
  assert (E : skipn j held = x :: skipn (S j) held).
  { revert j N. induction held as [|a l IH]; intros [|j] N; try discriminate N; [cbn in *; congruence|]. exact (IH j N). }
  rewrite E. symmetry. apply Permutation_middle.
Qed.

Lemma act_ok ts a h : Flat (helds ts) (tasks ts) h ->
  wp (act ts a) (fun ts' h' => Flat (helds ts') (tasks ts') h' /\ Fr [] h h') h.
Proof.
  intros F. assert (SAME : wp (ret ts) (fun ts' h' => Flat (helds ts') (tasks ts') h' /\ Fr [] h h') h) by (apply wp_ret; split; [exact F|apply Fr_refl]).
  destruct a as [i|i j|i k r|i j d]; cbn [act]; destruct (nth_error ts i) as [[held tk]|] eqn:N; try exact SAME;
    destruct (nth_split_set _ _ _ N) as (l1 & l2 & E1 & E2).
  - destruct tk as [|t rest]; [exact SAME|].
    assert (F1 : Flat (helds ts) (t :: rest ++ tasks (l1 ++ l2)) h).
    { apply (Flat_perm (helds ts) _ (tasks ts)); [reflexivity| |exact F]. rewrite E1. exact (tasks_mid l1 (held, t :: rest) l2). }
    apply wp_bind. eapply wp_conseq; [exact (Flat_step _ _ _ _ F1)|]. intros new h' (F2 & FR & _). apply wp_ret. split; [|exact FR].
    rewrite E2. apply (Flat_perm (helds ts) _ (new ++ rest ++ tasks (l1 ++ l2))); [| |exact F2].
    + rewrite E1. etransitivity; [apply helds_mid|]. symmetry. apply (helds_mid l1 (held, new ++ rest) l2).
    + symmetry. etransitivity; [apply tasks_mid|]. cbn [snd]. now rewrite <- app_assoc.
  - destruct tk; [|exact SAME]. destruct (nth_error held j) as [[p k]|] eqn:Nj; [|exact SAME].
    apply wp_ret. split; [|apply Fr_refl]. rewrite E2. pose proof (perm_drop _ _ _ Nj) as PD.
    assert (F1 : Flat ((p, k) :: drop_nth j held ++ helds (l1 ++ l2)) (tasks (l1 ++ l2)) h).
    { apply (Flat_perm (helds ts) _ (tasks ts)); [| |exact F]; rewrite E1.
      - etransitivity; [apply helds_mid|]. cbn [fst]. change ((p, k) :: drop_nth j held ++ helds (l1 ++ l2)) with (((p, k) :: drop_nth j held) ++ helds (l1 ++ l2)). now apply Permutation_app_tail.
      - exact (tasks_mid l1 (held, []) l2). }
    apply (Flat_perm (drop_nth j held ++ helds (l1 ++ l2)) _ (TFree k p :: tasks (l1 ++ l2))).
    + symmetry. exact (helds_mid l1 (drop_nth j held, [TFree k p]) l2).
    + symmetry. exact (tasks_mid l1 (drop_nth j held, [TFree k p]) l2).
    + pose proof (fl_kind _ _ _ F1) as FK. inversion FK as [|? ? K1 K2]; subst. constructor; cbn [flat_map pend dead app].
      * apply (perm_E h (map fst ((p, k) :: drop_nth j held ++ helds (l1 ++ l2)) ++ flat_map (pend h) (tasks (l1 ++ l2)))); [|apply F1].
        cbn [map fst app]. apply Permutation_middle.
      * apply F1.
      * exact K2.
      * constructor; [exact K1|apply F1].
  - destruct tk; [|exact SAME]. apply wp_bind. eapply wp_conseq; [apply (Flat_clone (helds ts) (tasks ts) h held r k F)|].
    { intros x Hx. rewrite E1. eapply Permutation_in; [symmetry; apply helds_mid|]. apply in_or_app. now left. }
    intros o h' [F' FR]. destruct o as [[p|]|]; apply wp_ret; (split; [|exact FR]); try exact F'.
    rewrite E2. apply (Flat_perm ((p, k) :: helds ts) _ (tasks ts)); [| |exact F']; rewrite E1.
    + symmetry. etransitivity; [apply helds_mid|]. cbn [fst app]. constructor. symmetry. apply helds_mid.
    + etransitivity; [apply tasks_mid|]. symmetry. apply (tasks_mid l1 ((p, k) :: held, []) l2).
  - destruct tk; [|exact SAME]. destruct (nth_error held j) as [x|] eqn:Nj; [|exact SAME]. cbv zeta. rewrite E2.
    match goal with |- context [match ?e with Some _ => _ | None => ret ts end] => destruct e as [[hd td]|] eqn:Nd end; [|exact SAME].
    destruct (nth_split_set _ _ _ Nd) as (m1 & m2 & G1 & G2). apply wp_ret. split; [|apply Fr_refl]. rewrite G2.
    pose proof (perm_drop _ _ _ Nj) as PD.
    assert (HM : Permutation (helds (m1 ++ (hd, td) :: m2)) (drop_nth j held ++ helds (l1 ++ l2))).
    { etransitivity; [|exact (helds_mid l1 (drop_nth j held, []) l2)]. apply Permutation_refl'. f_equal. now symmetry. }
    assert (TM : Permutation (tasks (m1 ++ (hd, td) :: m2)) (tasks (l1 ++ l2))).
    { etransitivity; [|exact (tasks_mid l1 (drop_nth j held, []) l2)]. apply Permutation_refl'. f_equal. now symmetry. }
    apply (Flat_perm (helds ts) _ (tasks ts)); [| |exact F]; rewrite E1.
    + symmetry. etransitivity; [apply helds_mid|]. cbn [fst app]. etransitivity; [constructor; symmetry; exact (helds_mid m1 (hd, td) m2)|].
      etransitivity; [constructor; exact HM|]. symmetry. etransitivity; [apply helds_mid|]. cbn [fst].
      change (x :: drop_nth j held ++ helds (l1 ++ l2)) with ((x :: drop_nth j held) ++ helds (l1 ++ l2)). now apply Permutation_app_tail.
    + etransitivity; [exact (tasks_mid l1 (held, []) l2)|]. cbn [snd app]. symmetry. etransitivity; [apply tasks_mid|]. cbn [snd].
      etransitivity; [symmetry; exact (tasks_mid m1 (hd, td) m2)|]. exact TM.
Qed.
Lemma acts_ok s : forall ts h, Flat (helds ts) (tasks ts) h ->
  wp (acts ts s) (fun ts' h' => Flat (helds ts') (tasks ts') h' /\ Fr [] h h') h.
Proof.
  induction s as [|a s IH]; intros ts h F; cbn [acts]; [apply wp_ret; split; [exact F|apply Fr_refl]|].
  apply wp_bind. eapply wp_conseq; [apply (act_ok ts a h F)|]. intros ts1 h1 [F1 FR1].
  eapply wp_conseq; [apply (IH ts1 h1 F1)|]. intros ts2 h2 [F2 FR2]. split; [exact F2|]. apply (Fr_trans [] [] h h1 h2); auto using incl_refl.
Qed.
Lemma Flat_good held h : Good false held h -> Flat held [] h.
Proof.
  intros G. constructor.
  - cbn. rewrite app_nil_r. apply G.
  - apply G.
  - rewrite Forall_forall. intros [p k] Hp. now apply (good_kind _ _ _ G).
  - constructor.
Qed.
Lemma good_flat held h : Flat held [] h -> Good false held h.
Proof.
  intros F. constructor.
  - pose proof (fl_inv _ _ _ F) as I. cbn in I. now rewrite app_nil_r in I.
  - apply F.
  - intros p k Hp. pose proof (fl_kind _ _ _ F) as FK. rewrite Forall_forall in FK. exact (FK (p, k) Hp).
Qed.

(** ** Every call of free ends *)

Definition kw (b : block) : nat := 3 * length (owned b) + 3.
Definition kcon (h : heap) (D : list ptr) (i : ptr) : nat :=
  if in_dec Nat.eq_dec i D then 0 else match get h i with Some b => kw b | None => 0 end.
Definition ksum (h : heap) (D : list ptr) : nat := sumn (length (cells h)) (kcon h D).
Definition tw (h : heap) (t : task) : nat :=
  match t with
  | TFree _ _ | TArr _ _ _ | TMulti _ => 3
  | TRelease _ => 2
  | TTake p => 3 * length (pend h t) + 2
  | TDrop _ => 1
  end.
Definition mu (h : heap) (T : list task) : nat := ksum h (flat_map dead T) + list_sum (map (tw h) T).
Lemma ksum_mono h D D' : incl D D' -> ksum h D' <= ksum h D.
Proof.
  intros IN. apply sumn_le. intros i _. unfold kcon. destruct (in_dec Nat.eq_dec i D') as [|n]; [lia|].
  destruct (in_dec Nat.eq_dec i D) as [y|]; [exfalso; apply n, IN, y|]. lia.
Qed.
Lemma ksum_enter h q b D D' : get h q = Some b -> ~ In q D -> In q D' -> incl D D' -> ksum h D' + kw b <= ksum h D.
Proof.
  intros G N Q IN. assert (M : ksum h D' <= ksum h (q :: D)) by (apply ksum_mono; intros x [<-|Hx]; auto).
  pose proof (sumn_change (length (cells h)) (kcon h D) (kcon h (q :: D)) q (get_lt _ _ _ G)) as C.
  assert (E1 : kcon h (q :: D) q = 0) by (unfold kcon; destruct (in_dec _ _ _) as [|n]; [reflexivity|exfalso; apply n; now left]).
  assert (E2 : kcon h D q = kw b) by (unfold kcon; destruct (in_dec _ _ _) as [|n]; [contradiction|now rewrite G]).
  rewrite E1, E2 in C. unfold ksum in *. rewrite Nat.add_0_r in C. rewrite C; [lia|].
  intros i _ ne. unfold kcon. destruct (in_dec Nat.eq_dec i D) as [a|a], (in_dec Nat.eq_dec i (q :: D)) as [c|c]; try reflexivity.
  - exfalso. apply c. now right.
  - exfalso. destruct c as [c|c]; congruence.
Qed.
Lemma ksum_head h p b b' D : get h p = Some b -> owned b' = owned b -> ksum (upd h p (Some b')) D = ksum h D.
Proof.
  intros G O. apply get_lt in G as Hp. unfold ksum. rewrite len_upd by assumption. apply sumn_ext. intros i _. unfold kcon.
  destruct (in_dec _ _ _); [reflexivity|]. rewrite get_upd by assumption. destruct (Nat.eqb_spec i p) as [->|]; [|reflexivity].
  rewrite G. unfold kw. now rewrite O.
Qed.
Lemma ksum_free h q D : q < length (cells h) -> ksum (upd h q None) D <= ksum h (q :: D).
Proof.
  intros Hq. unfold ksum. rewrite len_upd by assumption. apply sumn_le. intros i _. unfold kcon. rewrite get_upd by assumption.
  destruct (in_dec Nat.eq_dec i D) as [a|a], (in_dec Nat.eq_dec i (q :: D)) as [c|c]; try lia; destruct (Nat.eqb_spec i q) as [e|ne]; try lia.
  exfalso. destruct c as [c|c]; congruence.
Qed.
Lemma tws_app h l l' : list_sum (map (tw h) (l ++ l')) = list_sum (map (tw h) l) + list_sum (map (tw h) l').
Proof. now rewrite map_app, list_sum_app. Qed.
Lemma tws_frees h k o : list_sum (map (tw h) (HeapThr.frees k o)) = 3 * length (olist o).
Proof. now destruct o. Qed.
Lemma tws_arrs h k o n : list_sum (map (tw h) (arrs k o n)) = 3 * length (olist o).
Proof. now destruct o. Qed.
Lemma tws_drops h o : list_sum (map (tw h) (drops o)) = length (olist o).
Proof. now destruct o. Qed.
Lemma tws_each h k l : list_sum (map (tw h) (flat_map (HeapThr.frees k) l)) = 3 * length (flat_map olist l).
Proof. induction l as [|[p|] l IH]; cbn [flat_map]; [reflexivity| |]; rewrite ?tws_app, ?app_length, ?tws_frees, ?IH; cbn [olist length]; lia. Qed.
Lemma tws_multi h m : list_sum (map (tw h) (match m with Some m => [TMulti m] | None => [] end)) = 3 * length (olist m).
Proof. now destruct m. Qed.
Lemma tws_frame D h h' T : Fr D h h' -> incl (flat_map dead T) D -> Forall (tok h) T -> list_sum (map (tw h') T) = list_sum (map (tw h) T).
Proof.
  intros F. induction T as [|t T IH]; intros IN TK; [reflexivity|]. inversion TK as [|? ? TK1 TK2]; subst. cbn [map list_sum fold_right flat_map] in *.
  assert (E : list_sum (map (tw h') T) = list_sum (map (tw h) T)) by (apply IH; [intros x Hx; apply IN, in_or_app; now right|assumption]).
  unfold list_sum in E. rewrite E. f_equal. destruct t as [k p|p|p|k a n|m|q]; try reflexivity. cbn [tw].
  f_equal. f_equal. f_equal. pose proof (pend_frame D h h' [TTake p] F) as X. cbn [flat_map] in X. rewrite !app_nil_r in X. apply X; [|now constructor].
  cbn. intros x [<-|[]]. apply IN. now left.
Qed.
Lemma Some_inj {A} (x y : A) : Some x = Some y -> x = y.
Proof. congruence. Qed.
Ltac tws := rewrite ?tws_app, ?tws_frees, ?tws_arrs, ?tws_drops, ?tws_each, ?tws_multi; cbn [map list_sum fold_right tw pend].

Lemma mu_dec H t T h ts h' : Flat H (t :: T) h -> do_task t h = Some (ts, h') -> mu h' (ts ++ T) < mu h (t :: T).
Proof.
  intros F EQ. pose proof (fl_tok _ _ _ F) as TK. inversion TK as [|? ? TK1 TK2]; subst. destruct (fl_rank _ _ _ F) as [rk R].
  pose proof (fl_inv _ _ _ F) as I. cbn [flat_map] in *.
  set (E := map fst H ++ flat_map (pend h) T) in *. set (D := flat_map dead T) in *.
  assert (I1 : Inv false h (pend h t ++ E) (dead t ++ D)).
  { apply (perm_E h (map fst H ++ pend h t ++ flat_map (pend h) T)); [|exact I]. unfold E. rewrite !app_assoc. apply Permutation_app_tail, Permutation_app_comm. }
  pose proof (do_task_ok t h E D rk I1 R TK1) as W. unfold wp in W. rewrite EQ in W. destruct W as (_ & _ & FR & _).
  unfold mu. rewrite tws_app, (tws_frame D h h' T FR (incl_refl _) TK2), flat_map_app. cbn [map list_sum fold_right flat_map]. fold D.
  change (fold_right Nat.add 0 (map (tw h) T)) with (list_sum (map (tw h) T)).
  assert (NI : forall q, In q (pend h t) -> ~ In q (dead t ++ D)) by (intros q Hq; apply (inv_E _ _ _ _ q I1); apply in_or_app; now left).
  assert (SUB : forall X, incl D (X ++ D)) by (intros X x Hx; apply in_or_app; now right).
  clear FR R I I1 TK F. revert EQ. destruct t as [k p|p|p|k a n|m|q]; cbn [do_task]; intros EQ.
  - unfold bind, load in EQ. destruct (get h p) as [b|]; [|discriminate]. destruct (fits_kind k b); [|discriminate].
    destruct (head_of b) as [hd|]; [|discriminate]. inversion EQ; subst. destruct (h_noheap hd); cbn; lia.
  - unfold bind, rc_release, bind, load, store in EQ. destruct (get h p) as [b|] eqn:G; [|discriminate]. destruct (head_of b) as [hd|] eqn:Hd; [|discriminate].
    rewrite G in EQ. unfold ret in EQ. apply Some_inj, pair_equal_spec in EQ. destruct EQ as [<- <-]. cbn [pend dead app] in *. specialize (NI p (or_introl eq_refl)).
    set (b' := set_head _ b) in *. assert (OB : owned b' = owned b) by (apply owned_set). rewrite (ksum_head h p b b' _ G OB).
    destruct (h_rc hd =? 1)%Z; cbn [flat_map dead app map list_sum fold_right tw pend].
    + rewrite get_upd by (eapply get_lt, G). rewrite Nat.eqb_refl, OB.
      pose proof (ksum_enter h p b D (p :: D) G NI (or_introl eq_refl) (incl_tl _ (incl_refl _))) as X. unfold kw in X. lia.
    + lia.
  - unfold bind, load in EQ. cbn [tw pend dead app] in *. destruct (get h p) as [b|] eqn:G; [|discriminate].
    assert (GO : ts = ts -> forall X, In p X -> incl (p :: D) (X ++ D)) by (intros _ X HX x [<-|Hx]; apply in_or_app; auto).
    destruct b as [hd r ix ys| |hd e n hs| |hd x|hd pl c nc xj| | | | |]; try discriminate EQ; apply Some_inj in EQ; apply pair_equal_spec in EQ; destruct EQ as [<- <-].
    all: specialize (GO eq_refl).
    + pose proof (ksum_mono h _ _ (GO (flat_map dead (drops ys ++ [TDrop p])) ltac:(rewrite flat_map_app, in_app_iff; cbn; tauto))). tws. cbn [owned]. lia.
    + pose proof (ksum_mono h _ _ (GO (flat_map dead (HeapThr.frees KRing e ++ arrs KRing hs n ++ [TDrop p])) ltac:(rewrite !flat_map_app, !in_app_iff; cbn; tauto))). tws. cbn [owned]. rewrite app_length. lia.
    + pose proof (ksum_mono h _ _ (GO (flat_map dead ([TDrop p])) ltac:(cbn; tauto))). tws. cbn [owned length]. lia.
    + match goal with |- context [flat_map dead ?l ++ D] => pose proof (ksum_mono h _ _ (GO (flat_map dead l) ltac:(rewrite !flat_map_app, !in_app_iff; cbn; tauto))) end.
      destruct pl as [x z m|l|l|t m]; tws; cbn [owned]; rewrite !app_length; cbn [length map list_sum fold_right]; lia.
  - unfold bind, load in EQ. cbn [tw pend dead app] in *. destruct (get h a) as [b|] eqn:G; [|discriminate]. destruct b; try discriminate EQ.
    destruct (n =? length l); [|discriminate]. inversion EQ; subst. specialize (NI a (or_introl eq_refl)).
    match goal with |- context [flat_map dead ?l ++ D] => pose proof (ksum_enter h' a _ D (flat_map dead l ++ D) G NI ltac:(rewrite !flat_map_app, !in_app_iff; cbn; tauto) (SUB _)) as X end.
    tws. unfold kw in X. cbn [owned] in X. lia.
  - unfold bind, load in EQ. cbn [tw pend dead app] in *. destruct (get h m) as [b|] eqn:G; [|discriminate]. destruct b; try discriminate EQ.
    inversion EQ; subst. specialize (NI m (or_introl eq_refl)).
    match goal with |- context [flat_map dead ?l ++ D] => pose proof (ksum_enter h' m _ D (flat_map dead l ++ D) G NI ltac:(rewrite !flat_map_app, !in_app_iff; cbn; tauto) (SUB _)) as X end.
    tws. unfold kw in X. cbn [owned] in X. rewrite !app_length in X. lia.
  - unfold bind, tg_free in EQ. destruct (get h q) as [b|] eqn:G; [|discriminate]. inversion EQ; subst. cbn [flat_map dead app tw].
    pose proof (ksum_free h q D (get_lt _ _ _ G)). cbn [map]. change (list_sum []) with 0. eapply Nat.le_lt_trans; [apply Nat.add_le_mono_r; eassumption|]. apply Nat.add_lt_mono_l. lia.
Qed.

(** the threads can always finish their calls *)
Lemma finish : forall n ts h, mu h (tasks ts) <= n -> Flat (helds ts) (tasks ts) h ->
  exists s ts' h', acts ts s h = Some (ts', h') /\ tasks ts' = [] /\ Forall (fun a => exists i, a = AStep i) s.
Proof.
  induction n as [n IH] using lt_wf_ind. intros ts h M F.
  assert (D : tasks ts = [] \/ exists i held t rest, nth_error ts i = Some (held, t :: rest)).
  { clear. induction ts as [|[held [|t rest]] ts [IH|(i & a & b & c & IH)]].
    - now left.
    - left. exact IH.
    - right. now exists (S i), a, b, c.
    - right. now exists 0, held, t, rest.
    - right. now exists 0, held, t, rest. }
  destruct D as [D|(i & held & t & rest & N)]; [exists [], ts, h; repeat split; auto|].
  destruct (nth_split_set _ _ _ N) as (l1 & l2 & E1 & E2).
  pose proof (act_ok ts (AStep i) h F) as W. cbn [act] in W. rewrite N in W. unfold wp, bind in W.
  assert (PT : Permutation (tasks ts) (t :: rest ++ tasks (l1 ++ l2))) by (rewrite E1; exact (tasks_mid l1 (held, t :: rest) l2)).
  assert (F1 : Flat (helds ts) (t :: rest ++ tasks (l1 ++ l2)) h) by (apply (Flat_perm (helds ts) _ (tasks ts)); [reflexivity|exact PT|exact F]).
  destruct (do_task t h) as [[new h1]|] eqn:DT; [|contradiction]. cbn [ret] in W. destruct W as [F2 _].
  pose proof (mu_dec _ _ _ _ _ _ F1 DT) as MD.
  assert (MP : forall h T T', Permutation T T' -> mu h T = mu h T').
  { intros h0 T T' P. unfold mu. f_equal.
    - apply Nat.le_antisymm; apply ksum_mono; intros x; apply Permutation_in; [symmetry|]; now apply perm_flat_map.
    - pose proof (Permutation_map (tw h0) P) as P'. revert P'. generalize (map (tw h0) T) (map (tw h0) T'). clear.
      intros l l' P. unfold list_sum. induction P; cbn [fold_right]; lia. }
  set (ts1 := set_nth i (held, new ++ rest) ts) in *.
  assert (PT1 : Permutation (tasks ts1) (new ++ rest ++ tasks (l1 ++ l2))).
  { unfold ts1. rewrite E2. etransitivity; [apply tasks_mid|]. cbn [snd]. now rewrite <- app_assoc. }
  rewrite (MP h _ _ PT) in M. rewrite <- (MP h1 _ _ PT1) in MD.
  destruct (IH (mu h1 (tasks ts1)) ltac:(lia) ts1 h1 (le_n _) F2) as (s & ts' & h' & A & B & C).
  exists (AStep i :: s), ts', h'. split; [|split; [assumption|constructor; [now exists i|assumption]]].
  cbn [acts]. unfold bind at 1. cbn [act]. rewrite N. unfold bind. rewrite DT. cbn [ret]. exact A.
Qed.
