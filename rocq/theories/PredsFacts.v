(** * Facts about the spatial predicates *)

From Coq Require Import ZArith Bool List Lia ZifyBool PeanoNat Permutation Reals Lra.
From Verif Require Import F64 Geo Series Search RingApi Geom MultiIx Preds PredsGeom GeomFacts
  F64Order F64Real F64Mono F32 SeriesFacts SearchFacts StripeFacts MultiFacts SpecGeo SpecFacts SpecPlane SpecPreds.
Import ListNotations.
Local Open Scope nat_scope.

(** ** The walk of tg_line_covers_line *)

Section Walk.
  Variables a b : ring.
  Let na := r_nsegs a.
  Let nb := r_nsegs b.

  Definition live (i j : nat) : bool := (i <? nb) && (j <? na).
  Lemma walk_dead f i j : live i j = false -> walk f a b i j = Some true.
  Proof. intros H. destruct f; cbn [walk]; unfold live, na, nb in H; rewrite H; reflexivity. Qed.
  Lemma walk_live f i j : live i j = true ->
    walk (S f) a b i j = match walk_step a b i j with
                         | None => Some false
                         | Some (i', j') => walk f a b i' j'
                         end.
  Proof. intros H. cbn [walk]. unfold live, na, nb in H. rewrite H. reflexivity. Qed.
  Lemma walk_live0 i j : live i j = true -> walk 0 a b i j = None.
  Proof. intros H. cbn [walk]. unfold live, na, nb in H. rewrite H. reflexivity. Qed.

  Lemma walk_more f : forall i j v, walk f a b i j = Some v -> forall n, f <= n -> walk n a b i j = Some v.
  Proof.
    induction f as [|f IH]; intros i j v H n L; destruct (live i j) eqn:E;
      try (rewrite walk_dead in * by exact E; exact H).
    - rewrite walk_live0 in H by exact E. discriminate.
    - destruct n as [|n]; [lia|]. rewrite walk_live in * by exact E.
      destruct (walk_step a b i j) as [[i' j']|]; [|exact H]. apply IH with (n := n) in H; auto. lia.
  Qed.

  (** exactly [n] turns are needed *)
  Definition need (n : nat) (s : nat * nat) : Prop :=
    walk n a b (fst s) (snd s) <> None /\ forall m, m < n -> walk m a b (fst s) (snd s) = None.
  Lemma need_unique n m s : need n s -> need m s -> n = m.
  Proof.
    intros [A B] [C D]. destruct (Nat.lt_trichotomy n m) as [L|[E|L]]; [|exact E|].
    - rewrite (D n L) in A. congruence.
    - rewrite (B m L) in C. congruence.
  Qed.
  Lemma need_trace n : forall s, need n s -> exists tr : list (nat * nat), length tr = n /\ NoDup tr /\
    (forall x, In x tr -> live (fst x) (snd x) = true /\ exists m, 0 < m <= n /\ need m x).
  Proof.
    induction n as [|n IH]; intros [i j] H.
    - exists []. split; [reflexivity|]. split; [constructor|]. intros x [].
    - destruct (live i j) eqn:E.
      2:{ destruct H as [_ H]. specialize (H 0 ltac:(lia)). cbn [fst snd] in H. rewrite walk_dead in H by exact E. discriminate. }
      destruct (walk_step a b i j) as [[i' j']|] eqn:W.
      + assert (N : need n (i', j')).
        { destruct H as [A B]. split.
          - cbn [fst snd] in *. rewrite walk_live, W in A by exact E. exact A.
          - intros m L. specialize (B (S m) ltac:(lia)). cbn [fst snd] in *. rewrite walk_live, W in B by exact E. exact B. }
        destruct (IH _ N) as (tr & L & ND & T). exists ((i, j) :: tr). split; [cbn; lia|]. split.
        * constructor; auto. intros I. destruct (T _ I) as [_ (m & M & NM)].
          pose proof (need_unique _ _ _ H NM). lia.
        * intros x [<-|I].
          -- split; [exact E|]. exists (S n). split; [lia|exact H].
          -- destruct (T x I) as [A (m & M & NM)]. split; [exact A|]. exists m. split; [lia|exact NM].
      + (* the answer false at once *)
        assert (n = 0).
        { destruct n as [|n]; [reflexivity|]. destruct H as [_ B]. specialize (B 1 ltac:(lia)).
          cbn [fst snd] in B. rewrite walk_live, W in B by exact E. discriminate. }
        subst n. exists [(i, j)]. split; [reflexivity|]. split.
        * constructor; [intros []|constructor].
        * intros x [<-|[]]. split; [exact E|]. exists 1. split; [lia|exact H].
  Qed.

  Lemma walk_needs f i j v : walk f a b i j = Some v -> exists n, n <= f /\ need n (i, j).
  Proof.
    intros H. induction f as [|f IH].
    - exists 0. split; [lia|]. split; [cbn [fst snd]; congruence|]. intros; lia.
    - destruct (walk f a b i j) as [w|] eqn:E.
      + destruct IH as (n & L & N); [rewrite (walk_more _ _ _ _ E (S f)) in H by lia; congruence|].
        exists n. split; [lia|exact N].
      + exists (S f). split; [lia|]. split; [cbn [fst snd]; congruence|]. intros m M. cbn [fst snd].
        destruct (walk m a b i j) as [w|] eqn:E2; [|reflexivity].
        rewrite (walk_more _ _ _ _ E2 f) in E by lia. discriminate.
  Qed.

  (** a walk that has not ended after nsegs(a) * nsegs(b) turns never ends *)
  Theorem walk_bound i j : walk (na * nb) a b i j = None -> forall f, walk f a b i j = None.
  Proof.
    intros H f. destruct (walk f a b i j) as [v|] eqn:E; [|reflexivity]. exfalso.
    destruct (walk_needs _ _ _ _ E) as (n & _ & N).
    assert (L : n <= na * nb).
    { destruct (need_trace _ _ N) as (tr & LT & ND & T). rewrite <- LT.
      assert (I : incl tr (list_prod (seq 0 nb) (seq 0 na))).
      { intros [p q] I. destruct (T _ I) as [V _]. unfold live in V. cbn [fst snd] in V.
        apply in_prod_iff. rewrite !in_seq. lia. }
      pose proof (NoDup_incl_length ND I) as K. rewrite prod_length, !seq_length in K. lia. }
    destruct N as [A _]. cbn [fst snd] in A.
    destruct (walk n a b i j) as [w|] eqn:E2; [|congruence].
    rewrite (walk_more _ _ _ _ E2 _ L) in H. discriminate.
  Qed.

  (** no vertex of [b] after its first segment starts a segment of [a]: no way back *)
  Lemma walk_forward f : forall i j,
    (forall k m, i <= k < nb -> m < na -> pteq (sa (seg_at b k)) (sa (seg_at a m)) = false) ->
    (nb - i) + (na - j) <= f -> walk f a b i j <> None.
  Proof.
    induction f as [|f IH]; intros i j H L; destruct (live i j) eqn:E;
      try (rewrite walk_dead by exact E; discriminate).
    - unfold live in E. lia.
    - rewrite walk_live by exact E. unfold live in E. unfold walk_step.
      destruct (tg_segment_covers_segment _ _).
      { apply IH; [|lia]. intros k m K M. apply H; auto. lia. }
      rewrite H by lia. destruct (pteq _ _).
      { apply IH; [|lia]. intros k m K M. apply H; auto. }
      apply IH; [|lia]. intros k m K M. apply H; auto. lia.
  Qed.
End Walk.

Lemma first_covering_spec segs s : forall k j, first_covering segs s k = Some j ->
  exists x, nth_error segs (j - k) = Some x /\ k <= j /\ tg_segment_covers_segment x s = true.
Proof.
  induction segs as [|x segs IH]; intros k j H; cbn [first_covering] in H; [discriminate|].
  destruct (tg_segment_covers_segment x s) eqn:E.
  - injection H as <-. exists x. rewrite Nat.sub_diag. auto.
  - apply IH in H. destruct H as (y & N & L & C). exists y. split; [|split; [lia|exact C]].
    replace (j - k) with (S (j - S k)) by lia. exact N.
Qed.
Lemma first_covering_none segs s : forall k, first_covering segs s k = None ->
  forall x, In x segs -> tg_segment_covers_segment x s = false.
Proof.
  induction segs as [|x segs IH]; intros k H y I; [destruct I|].
  destruct I as [<-|I]; cbn [first_covering] in H.
  - destruct (tg_segment_covers_segment x s); [discriminate|reflexivity].
  - destruct (tg_segment_covers_segment x s); [discriminate|]. eapply IH; eauto.
Qed.

(** ** NULL arguments *)

Lemma any_false l : (forall x, In x l -> x = Ret false) -> any_of l = Ret false.
Proof.
  induction l as [|x l IH]; intros H; cbn [any_of]; [reflexivity|].
  rewrite (H x) by (left; auto). cbn [bind_out]. apply IH. intros y I. apply H. right; auto.
Qed.

Lemma msearch_false gs q answers st i : (forall k, nth k answers (Ret false) = Ret false) ->
  msearch_leaf gs q (multiiter answers) st i = (true, st).
Proof. intros H. unfold msearch_leaf, multiiter. rewrite H. destruct (tg_rect_intersects_rect _ _); reflexivity. Qed.
Lemma mindex_false gs order s q answers : (forall k, nth k answers (Ret false) = Ret false) ->
  forall lvls start st, multi_index_search gs order s q (multiiter answers) lvls start st = (true, st).
Proof.
  intros H. induction lvls as [|lv lvls IH]; intros start st; cbn [multi_index_search].
  - apply loop_while_skip. intros st' i _. apply msearch_false, H.
  - apply loop_while_skip. intros st' i _. destruct (tg_rect_intersects_rect _ _); auto.
Qed.
Lemma search_false g gs answers : (forall k, nth k answers (Ret false) = Ret false) ->
  multi_inflate (map tg_geom_rect gs) <> None -> search_answers g gs answers = Ret false.
Proof.
  intros H D. unfold search_answers. destruct (multi_inflate _) as [mix|]; [|congruence].
  unfold tg_geom_search. destruct (geom_multi (Some g)) as [gs'|]; [|reflexivity].
  destruct (negb _); [reflexivity|]. destruct mix as [[order ix]|].
  - rewrite mindex_false by exact H. reflexivity.
  - rewrite loop_while_skip; [reflexivity|]. intros st i _. apply msearch_false, H.
Qed.

Lemma defined_children gs : (fix all (l : list (option geom)) : Prop :=
         match l with
         | [] => True
         | Some c :: rest => index_defined c /\ all rest
         | None :: rest => all rest
         end) gs <-> forall c, In (Some c) gs -> index_defined c.
Proof.
  induction gs as [|[c|] gs IH].
  - split; [intros _ c []|intros _; exact I].
  - rewrite IH. split.
    + intros [A B] d [E|I]; [injection E as <-; exact A|auto].
    + intros H. split; [apply H; left; auto|]. intros d I. apply H. right; auto.
  - rewrite IH. split.
    + intros A d [E|I]; [discriminate|auto].
    + intros H d I. apply H. right; auto.
Qed.
Lemma index_defined_multi t f gs c x : index_defined (GGMulti t f (Some gs) c x) <->
  multi_inflate (map tg_geom_rect gs) <> None /\ forall d, In (Some d) gs -> index_defined d.
Proof. cbn [index_defined]. rewrite defined_children. reflexivity. Qed.

Lemma intersects_null g : index_defined g -> geom_intersects g None = Ret false.
Proof.
  induction g using geom_ind_deep; intros D; cbn [geom_intersects]; try reflexivity;
    destruct (is_empty f); try reflexivity.
  apply index_defined_multi in D. destruct D as [D1 D2].
  apply search_false; [|exact D1].
  intros k. set (fn := fun c0 : option geom => match c0 with Some c1 => geom_intersects c1 None | None => Ret false end).
  change (Ret false) with (fn None) at 1. rewrite map_nth. unfold fn.
  destruct (nth k gs None) as [c1|] eqn:E; [|reflexivity].
  destruct (Nat.lt_ge_cases k (length gs)) as [L|L]; [|rewrite nth_overflow in E by exact L; discriminate].
  assert (I : In (Some c1) gs) by (rewrite <- E; apply nth_In; exact L).
  rewrite Forall_forall in H. apply (H _ I). apply D2, I.
Qed.
Lemma covers_null g : geom_covers g None = Ret false.
Proof.
  destruct g as [f p|f l|f p|f p z m x|f l c x|f p c x|t f [gs|] c x]; cbn [geom_covers]; try reflexivity;
    destruct (is_empty f); reflexivity.
Qed.
Lemma contains_null g : geom_contains g None = Ret false.
Proof.
  destruct g as [f p|f l|f p|f p z m x|f l c x|f p c x|t f [gs|] c x]; cbn [geom_contains]; try reflexivity;
    destruct (is_empty f); reflexivity.
Qed.
Lemma touches_null g : index_defined g -> geom_touches g None = Ret false.
Proof.
  induction g using geom_ind_deep; intros D; cbn [geom_touches]; try reflexivity;
    destruct (is_empty f); try reflexivity.
  apply index_defined_multi in D. destruct D as [D1 D2].
  assert (T : forall l, (forall x, In x l -> x = (Ret false, Ret false)) -> touch_all l false = Ret false).
  { induction l as [|y l IH]; intros HX; cbn [touch_all]; [reflexivity|].
    rewrite (HX y) by (left; auto). cbn [bind_out]. apply IH. intros z I. apply HX. right; auto. }
  apply T. intros y I. apply in_map_iff in I. destruct I as ([d|] & <- & I); [|reflexivity].
  rewrite Forall_forall in H. f_equal.
  - apply (H _ I), D2, I.
  - cbn [tg_geom_intersects on_geom]. apply intersects_null, D2, I.
Qed.

(** ** Collections *)

Definition answer (o : option geom) (c : option geom) : out bool :=
  match c with None => Ret false | Some c => geom_intersects c o end.

Lemma multi_loop gs o : forall order st,
  (forall i, exists v, answer o (nth i gs None) = Ret v) ->
  loop_while (fun st i => multiiter (map (answer o) gs) st (nth i gs None) i) order st =
  if existsb (fun i => match answer o (nth i gs None) with Ret true => true | _ => false end) order
  then (false, Ret true) else (true, st).
Proof.
  induction order as [|i order IH]; intros st H; cbn [loop_while existsb]; [reflexivity|].
  unfold multiiter at 1. change (Ret false) with (answer o None) at 1. rewrite map_nth.
  destruct (H i) as [v ->]. destruct v; cbn [orb]; [reflexivity|]. apply IH, H.
Qed.
