(** * Ranks, frames and program steps over the invariant *)

From Coq Require Import ZArith Bool List Lia Arith.
From Verif Require Import F64 Geo Series Geom Heap HeapGeom SpecHeap HeapFacts.
Import ListNotations.
Local Open Scope nat_scope.

(** ** Ranks: no object contains itself *)

Definition Rank (rk : ptr -> nat) (h : heap) (D : list ptr) : Prop :=
  forall p b q, get h p = Some b -> ~ In p D -> In q (owned b) -> rk q < rk p.

Lemma Rank_sub rk h h' D D' : Rank rk h D ->
  (forall p b', get h' p = Some b' -> ~ In p D' -> exists b, get h p = Some b /\ ~ In p D /\ owned b' = owned b) ->
  Rank rk h' D'.
Proof.
  intros R S p b' q G N Hq. destruct (S p b' G N) as (b & G0 & N0 & O). rewrite O in Hq. now apply (R p b q).
Qed.
Lemma Rank_D rk h D D' : Rank rk h D -> incl D D' -> Rank rk h D'.
Proof. intros R S p b q G N Hq. apply (R p b q G); [|assumption]. intros H. apply N, S, H. Qed.

Lemma list_max_in l x : In x l -> x <= list_max l.
Proof. intros H. pose proof (proj1 (list_max_le l (list_max l)) (le_n _)) as F. rewrite Forall_forall in F. auto. Qed.

Lemma Rank_publish cp rk h q b E D : Rank rk h (q :: D) -> Inv cp h (owned b ++ E) (q :: D) -> get h q = Some b ->
  Rank (fun x => if x =? q then S (list_max (map rk (owned b))) else rk x) h D.
Proof.
  intros R I G p c r Gp N Hr.
  assert (Hrq : r <> q).
  { intros ->. assert (Zq := inv_zero _ _ _ _ I q (or_introl (or_introl eq_refl))). rewrite cnt_app in Zq.
    destruct (Nat.eq_dec p q) as [->|ne].
    - assert (c = b) by congruence. subst c. apply cnt_in in Hr. lia.
    - assert (Np : ~ In p (q :: D)) by (intros [H|H]; congruence).
      apply cnt_in in Hr. pose proof (total_ge h (q :: D) p c q Gp Np). lia. }
  cbv beta. destruct (Nat.eqb_spec r q); [contradiction|].
  destruct (Nat.eqb_spec p q) as [->|ne].
  - assert (c = b) by congruence. subst c. apply Nat.lt_succ_r, list_max_in, in_map, Hr.
  - apply (R p c r Gp); [|assumption]. intros [H|H]; congruence.
Qed.

Lemma sumn_le n f g : (forall i, i < n -> f i <= g i) -> sumn n f <= sumn n g.
Proof.
  induction n as [|n IH]; intros H; [cbn; lia|]. cbn [sumn].
  assert (sumn n f <= sumn n g) by (apply IH; intros; apply H; lia). specialize (H n ltac:(lia)). lia.
Qed.
Lemma sumn_lt n f g q : q < n -> f q < g q -> (forall i, i < n -> f i <= g i) -> sumn n f < sumn n g.
Proof.
  induction n as [|n IH]; intros Hq L H; [lia|]. cbn [sumn].
  destruct (Nat.eq_dec q n) as [->|ne].
  - assert (sumn n f <= sumn n g) by (apply sumn_le; intros; apply H; lia). lia.
  - assert (sumn n f < sumn n g) by (apply IH; [lia|assumption|]; intros; apply H; lia). specialize (H n ltac:(lia)). lia.
Qed.
Lemma sumn_one n : sumn n (fun _ => 1) = n.
Proof. induction n as [|n IH]; [reflexivity|]. cbn [sumn]. lia. Qed.

Definition rnorm (rk : ptr -> nat) (h : heap) (p : ptr) : nat :=
  sumn (length (cells h))
    (fun i => match get h i with Some _ => if rk i <? rk p then 1 else 0 | None => 0 end).
Lemma rnorm_lt rk h p b : get h p = Some b -> rnorm rk h p < length (cells h).
Proof.
  intros G. unfold rnorm. rewrite <- (sumn_one (length (cells h))) at 2.
  apply (sumn_lt _ _ _ p (get_lt _ _ _ G)).
  - rewrite G, Nat.ltb_irrefl. lia.
  - intros i _. destruct (get h i); [|lia]. destruct (_ <? _); lia.
Qed.
Lemma Rank_norm cp rk h E D : Inv cp h E D -> Rank rk h D -> Rank (rnorm rk h) h D.
Proof.
  intros I R p b q G N Hq. pose proof (R p b q G N Hq) as L.
  destruct (inv_owned _ _ _ _ _ _ _ I G N Hq) as [Lq _]. destruct (get h q) as [bq|] eqn:Gq; [|congruence].
  unfold rnorm. apply (sumn_lt _ _ _ q (get_lt _ _ _ Gq)).
  - rewrite Gq, Nat.ltb_irrefl. apply Nat.ltb_lt in L. rewrite L. lia.
  - intros i _. destruct (get h i); [|lia].
    destruct (Nat.ltb_spec (rk i) (rk q)), (Nat.ltb_spec (rk i) (rk p)); lia.
Qed.

(** ** Frames *)

Record Fr (D : list ptr) (h h' : heap) : Prop := {
  fr_len : length (cells h) <= length (cells h');
  fr_dead : forall p, p < length (cells h) -> get h p = None -> get h' p = None;
  fr_live : forall p b, get h p = Some b -> get h' p = None \/ exists b', get h' p = Some b' /\ strip b' = strip b;
  fr_nh : forall p b, get h p = Some b -> isnh b = true \/ In p D -> get h' p = Some b;
  fr_fresh : forall p b, length (cells h) <= p -> get h' p = Some b -> isnh b = false
}.

Lemma Fr_refl D h : Fr D h h.
Proof.
  constructor; intros; auto.
  - right. eauto.
  - apply get_lt in H0. lia.
Qed.
Lemma Fr_cells D h h1 h2 : cells h1 = cells h2 -> Fr D h h1 -> Fr D h h2.
Proof.
  intros C F. assert (GG : forall p, get h2 p = get h1 p) by (intros; unfold get; now rewrite C).
  constructor; intros *; rewrite ?GG, <- ?C; apply F.
Qed.
Lemma Fr_trans D D' h h1 h2 : Fr D h h1 -> Fr D' h1 h2 -> incl D D' -> Fr D h h2.
Proof.
  intros A B S. constructor.
  - pose proof (fr_len _ _ _ A). pose proof (fr_len _ _ _ B). lia.
  - intros p L G. apply (fr_dead _ _ _ B); [pose proof (fr_len _ _ _ A); lia|]. now apply (fr_dead _ _ _ A).
  - intros p b G. destruct (fr_live _ _ _ A p b G) as [G1|(b1 & G1 & S1)].
    + left. apply (fr_dead _ _ _ B); [|assumption]. apply get_lt in G. pose proof (fr_len _ _ _ A). lia.
    + destruct (fr_live _ _ _ B p b1 G1) as [G2|(b2 & G2 & S2)]; [now left|].
      right. exists b2. split; [assumption|congruence].
  - intros p b G H. assert (get h1 p = Some b) by (apply (fr_nh _ _ _ A); assumption).
    apply (fr_nh _ _ _ B); [assumption|]. destruct H; [now left|right; now apply S].
  - intros p b L G. destruct (le_lt_dec (length (cells h1)) p) as [L1|L1]; [now apply (fr_fresh _ _ _ B p)|].
    destruct (get h1 p) as [b1|] eqn:G1.
    + destruct (fr_live _ _ _ B p b1 G1) as [G2|(b2 & G2 & S2)]; [congruence|].
      assert (b2 = b) by congruence. subst b2. rewrite (strip_nh _ _ S2). now apply (fr_fresh _ _ _ A p).
    + rewrite (fr_dead _ _ _ B p L1 G1) in G. discriminate.
Qed.
Lemma Fr_D D D' h h' : Fr D' h h' -> incl D D' -> Fr D h h'.
Proof. intros A S. apply (Fr_trans D D' h h h'); [apply Fr_refl|assumption|assumption]. Qed.
Lemma Fr_upd D h0 h q b o : Fr D h0 h -> get h q = Some b -> isnh b = false -> ~ In q D ->
  (o = None \/ exists b', o = Some b' /\ strip b' = strip b) -> Fr D h0 (upd h q o).
Proof.
  intros F G NH ND HO. apply get_lt in G as Hq. constructor.
  - rewrite len_upd by assumption. apply F.
  - intros p L Gp. rewrite get_upd by assumption. pose proof (fr_dead _ _ _ F p L Gp) as G1.
    destruct (Nat.eqb_spec p q) as [e|]; [congruence|assumption].
  - intros p c Gp. rewrite get_upd by assumption. destruct (Nat.eqb_spec p q) as [e|]; [|now apply F].
    subst p. destruct HO as [->|(b' & -> & S')]; [now left|]. right. exists b'. split; [reflexivity|].
    destruct (fr_live _ _ _ F q c Gp) as [G1|(b1 & G1 & S1)]; congruence.
  - intros p c Gp H. pose proof (fr_nh _ _ _ F p c Gp H) as G1. rewrite get_upd by assumption.
    destruct (Nat.eqb_spec p q) as [e|]; [|assumption]. subst p. exfalso.
    assert (c = b) by congruence. subst c. destruct H; congruence.
  - intros p c L Gp. rewrite get_upd in Gp by assumption. destruct (Nat.eqb_spec p q) as [e|]; [|now apply (fr_fresh _ _ _ F p)].
    subst p. destruct HO as [->|(b' & -> & S')]; [discriminate|]. inversion Gp; subst c. now rewrite (strip_nh _ _ S').
Qed.
Lemma Fr_new D h0 h q o : Fr D h0 h -> length (cells h0) <= q -> q < length (cells h) ->
  (forall b, o = Some b -> isnh b = false) -> Fr D h0 (upd h q o).
Proof.
  intros F L Hq NH. constructor.
  - rewrite len_upd by assumption. apply F.
  - intros p Lp Gp. rewrite get_upd by assumption. destruct (Nat.eqb_spec p q) as [e|]; [lia|]. now apply F.
  - intros p c Gp. rewrite get_upd by assumption. apply get_lt in Gp as Lp.
    destruct (Nat.eqb_spec p q) as [e|]; [lia|]. now apply F.
  - intros p c Gp H. rewrite get_upd by assumption. apply get_lt in Gp as Lp.
    destruct (Nat.eqb_spec p q) as [e|]; [lia|]. now apply (fr_nh _ _ _ F).
  - intros p c Lp Gp. rewrite get_upd in Gp by assumption. destruct (Nat.eqb_spec p q) as [e|]; [now apply NH|now apply (fr_fresh _ _ _ F p)].
Qed.
Lemma Fr_alloc D h0 h b : Fr D h0 h -> isnh b = false -> Fr D h0 (alloc h b).
Proof.
  intros F NH. pose proof (fr_len _ _ _ F). constructor.
  - rewrite len_alloc. lia.
  - intros p Lp Gp. rewrite get_alloc. destruct (Nat.eqb_spec p (length (cells h))) as [e|]; [lia|]. now apply F.
  - intros p c Gp. rewrite get_alloc. apply get_lt in Gp as Lp.
    destruct (Nat.eqb_spec p (length (cells h))) as [e|]; [lia|]. now apply F.
  - intros p c Gp Hp. rewrite get_alloc. apply get_lt in Gp as Lp.
    destruct (Nat.eqb_spec p (length (cells h))) as [e|]; [lia|]. now apply (fr_nh _ _ _ F).
  - intros p c Lp Gp. rewrite get_alloc in Gp. destruct (Nat.eqb_spec p (length (cells h))) as [e|]; [congruence|now apply (fr_fresh _ _ _ F p)].
Qed.
Lemma Fr_pk D h h' f q : Fr D h h' -> stripped f -> pk h f (Some q) -> get h' q <> None -> pk h' f (Some q).
Proof.
  intros F Sf (b & G & Fb) L. destruct (fr_live _ _ _ F q b G) as [G'|(b' & G' & S')]; [congruence|].
  exists b'. split; [assumption|]. now rewrite (Sf b b' S').
Qed.

(** ** Whoever is still referred to survives *)

Lemma survive cp h E D h' E' D' : Inv cp h E D -> (exists rk, Rank rk h D) -> Fr D h h' -> Inv cp h' E' D' ->
  (forall p, cnt E p <= cnt E' p) -> (forall p, In p D' -> p < length (cells h) -> In p D) ->
  forall p, ~ In p D -> keep h h' p.
Proof.
  intros I [rk R] F I' HE HD.
  assert (R' := Rank_norm _ _ _ _ _ I R).
  assert (B := rnorm_lt rk h). set (r := rnorm rk h) in *. clearbody r. clear R rk.
  assert (X : forall n p b, n + r p >= length (cells h) -> get h p = Some b -> ~ In p D -> keep h h' p).
  { induction n as [|n IH]; intros p b Hn Gp ND; [specialize (B p b Gp); lia|].
    assert (L' : get h' p <> None -> keep h h' p).
    { intros L c Gc. destruct (fr_live _ _ _ F p c Gc) as [G'|]; [congruence|assumption]. }
    destruct (isnh b) eqn:NH.
    - apply L'. rewrite (fr_nh _ _ _ F p b Gp); [discriminate|now left].
    - destruct (inv_cnt _ _ _ _ I p b Gp ND NH) as [C1 C2].
      apply L'. intros G'. pose proof (inv_zero _ _ _ _ I' p (or_intror G')) as Z'. specialize (HE p).
      assert (total h D p <> 0) as T by lia. apply total_pos in T. destruct T as (i & bi & Gi & Ni & Hi).
      pose proof (R' i bi p Gi Ni Hi) as Lr.
      destruct (IH i bi ltac:(lia) Gi Ni bi Gi) as (bi' & Gi' & Si).
      assert (Ni' : ~ In i D') by (intros H; apply Ni, HD; [assumption|eapply get_lt, Gi]).
      pose proof (total_ge h' D' i bi' p Gi' Ni') as T. rewrite (strip_owned _ _ Si) in T. apply cnt_in in Hi. lia. }
  intros p ND b Gb. apply (X (length (cells h)) p b) in Gb as K; [apply K, Gb|lia|assumption].
Qed.

(** nothing is held that was not held before: everything new is gone and
    everything old is as it was *)
Lemma restored_of cp h E D h' : Inv cp h E D -> (exists rk, Rank rk h D) -> Fr D h h' -> Inv cp h' E D ->
  (exists rk, Rank rk h' D) -> restored h h'.
Proof.
  intros I A F I' [rk' R'].
  assert (K := survive cp h E D h' E D I A F I' (fun _ => le_n _) (fun p H _ => H)).
  assert (R2 := Rank_norm _ _ _ _ _ I' R').
  assert (B := rnorm_lt rk' h'). set (r := rnorm rk' h') in *. clearbody r.
  assert (OWN : forall i bi x, get h' i = Some bi -> i < length (cells h) -> ~ In i D -> In x (owned bi) -> get h x <> None).
  { intros i bi x Gi Li Ni Hx. destruct (get h i) as [bo|] eqn:Go.
    - destruct (K i Ni bo Go) as (b' & G' & S'). assert (b' = bi) by congruence. subst b'.
      rewrite (strip_owned _ _ S') in Hx. now apply (inv_owned _ _ _ _ _ _ _ I Go Ni Hx).
    - rewrite (fr_dead _ _ _ F i Li Go) in Gi. discriminate. }
  assert (NW : forall n p b, n + r p >= length (cells h') -> length (cells h) <= p -> get h' p = Some b -> False).
  { induction n as [|n IH]; intros p b Hn Lp Gp; [specialize (B p b Gp); lia|].
    assert (ND : ~ In p D). { intros H. apply (inv_dl _ _ _ _ I p H), get_ge, Lp. }
    assert (NH : isnh b = false) by (eapply fr_fresh; eauto).
    destruct (inv_cnt _ _ _ _ I' p b Gp ND NH) as [C1 C2].
    destruct (Nat.eq_dec (cnt E p) 0) as [e|ne].
    - assert (total h' D p <> 0) as T by lia. apply total_pos in T. destruct T as (i & bi & Gi & Ni & Hi).
      pose proof (R2 i bi p Gi Ni Hi) as Lr.
      destruct (le_lt_dec (length (cells h)) i) as [Li|Li].
      + apply (IH i bi); [lia|assumption|assumption].
      + apply (OWN i bi p Gi Li Ni Hi), get_ge, Lp.
    - apply (proj1 (inv_E _ _ _ _ p I (proj2 (cnt_in E p) ltac:(lia)))), get_ge, Lp. }
  assert (NEW : forall p, length (cells h) <= p -> get h' p = None).
  { intros p Lp. destruct (get h' p) as [b|] eqn:Gp; [|reflexivity].
    exfalso. apply (NW (length (cells h')) p b); [lia|assumption|assumption]. }
  assert (TT : forall x, total h' D x = total h D x).
  { intros x. unfold total. pose proof (fr_len _ _ _ F) as LL.
    assert (EQ : forall i, contrib h' D x i = contrib h D x i).
    { intros i. unfold contrib. destruct (in_dec _ _ _) as [|ni]; [reflexivity|].
      destruct (le_lt_dec (length (cells h)) i) as [Li|Li].
      - rewrite (NEW i Li), (get_ge h i Li). reflexivity.
      - destruct (get h i) as [bi|] eqn:Gi.
        + destruct (K i ni bi Gi) as (b' & G' & S'). rewrite G', (strip_owned _ _ S'). reflexivity.
        + now rewrite (fr_dead _ _ _ F i Li Gi). }
    rewrite (sumn_ext _ _ (contrib h D x)) by (intros; apply EQ).
    revert LL. generalize (length (cells h')). intros n LL. induction LL as [|n LL IH]; [reflexivity|].
    cbn [sumn]. rewrite IH.
    assert (contrib h D x n = 0) as ->; [|lia].
    unfold contrib. destruct (in_dec _ _ _); [reflexivity|]. now rewrite (get_ge h n LL). }
  intros p. destruct (le_lt_dec (length (cells h)) p) as [Lp|Lp]; [now rewrite (NEW p Lp), (get_ge h p Lp)|].
  destruct (get h p) as [b|] eqn:Gp; [|now apply (fr_dead _ _ _ F)].
  destruct (in_dec Nat.eq_dec p D) as [iD|nD]; [apply (fr_nh _ _ _ F p b Gp); now right|].
  destruct (isnh b) eqn:NH; [apply (fr_nh _ _ _ F p b Gp); now left|].
  destruct (K p nD b Gp) as (b' & G' & S'). rewrite G'. f_equal. apply strip_eq; [assumption|].
  destruct (inv_cnt _ _ _ _ I p b Gp nD NH) as [C1 _].
  destruct (inv_cnt _ _ _ _ I' p b' G' nD) as [C2 _]; [now rewrite (strip_nh _ _ S')|].
  rewrite TT in C2. congruence.
Qed.

(** what is alive can be reached, unless it hangs on a noheap object *)
Lemma live_reach cp h E : Inv cp h E [] -> (exists rk, Rank rk h []) ->
  forall p, get h p <> None ->
    reach h (E ++ filter (fun i => match get h i with Some b => isnh b | None => false end) (seq 0 (length (cells h)))) p.
Proof.
  intros I [rk R] p Gp. assert (R2 := Rank_norm _ _ _ _ _ I R).
  assert (B := rnorm_lt rk h). set (r := rnorm rk h) in *. clearbody r.
  set (N := filter _ _).
  assert (X : forall n p b, n + r p >= length (cells h) -> get h p = Some b -> reach h (E ++ N) p).
  { clear p Gp. induction n as [|n IH]; intros p b Hn Gp; [specialize (B p b Gp); lia|].
    destruct (isnh b) eqn:NH.
    - apply reach_held, in_or_app. right. unfold N. apply filter_In. split; [|now rewrite Gp].
      apply in_seq. apply get_lt in Gp. lia.
    - destruct (inv_cnt _ _ _ _ I p b Gp (@in_nil _ p) NH) as [C1 C2].
      destruct (Nat.eq_dec (cnt E p) 0) as [e|ne].
      + assert (total h [] p <> 0) as T by lia. apply total_pos in T. destruct T as (i & bi & Gi & Ni & Hi).
        pose proof (R2 i bi p Gi Ni Hi) as Lr.
        apply (reach_owned h _ i bi p); [|assumption|assumption]. apply (IH i bi); [lia|assumption].
      + apply reach_held, in_or_app. left. apply cnt_in. lia. }
  destruct (get h p) as [b|] eqn:G; [|congruence]. apply (X (length (cells h)) p b); [lia|assumption].
Qed.
Lemma reach_live cp h E p : Inv cp h E [] -> forall held, (forall q, In q held -> get h q <> None) ->
  reach h held p -> get h p <> None.
Proof.
  intros I held HH R. induction R as [p Hp|p b q R IH G Hq].
  - now apply HH.
  - now apply (inv_owned _ _ _ _ _ _ _ I G (@in_nil _ p) Hq).
Qed.
