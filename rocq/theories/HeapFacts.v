(** * The invariant of reference counting *)

From Coq Require Import ZArith Bool List Lia Arith Permutation.
From Verif Require Import F64 Geo Series Geom Heap HeapGeom SpecHeap.
Import ListNotations.
Local Open Scope nat_scope.

(** ** Cells *)

Lemma nth_replace {A} (l : list A) p x q d :
  p < length l -> nth q (firstn p l ++ x :: skipn (S p) l) d = if q =? p then x else nth q l d.
Proof.
  revert p q; induction l as [|a l IH]; intros p q Hp; [cbn in Hp; lia|].
  destruct p as [|p].
  - cbn. destruct q; reflexivity.
  - cbn [firstn skipn app length nth] in *. destruct q as [|q]; [reflexivity|]. cbn [nth Nat.eqb].
    apply IH. lia.
Qed.
Lemma length_replace {A} (l : list A) p x : p < length l -> length (firstn p l ++ x :: skipn (S p) l) = length l.
Proof. intros H. rewrite app_length. cbn [length]. rewrite firstn_length, skipn_length. lia. Qed.

Lemma get_lt h p b : get h p = Some b -> p < length (cells h).
Proof.
  unfold get. intros H. destruct (lt_dec p (length (cells h))) as [|n]; [assumption|].
  rewrite nth_overflow in H by lia. discriminate.
Qed.
Lemma get_ge h p : length (cells h) <= p -> get h p = None.
Proof. intros H. unfold get. apply nth_overflow, H. Qed.
Lemma get_upd h p b q : p < length (cells h) -> get (upd h p b) q = if q =? p then b else get h q.
Proof. intros H. unfold get, upd. cbn [cells]. apply nth_replace, H. Qed.
Lemma len_upd h p b : p < length (cells h) -> length (cells (upd h p b)) = length (cells h).
Proof. intros H. unfold upd. cbn [cells]. apply length_replace, H. Qed.

Definition alloc (h : heap) (b : block) : heap := Heap (cells h ++ [Some b]) (ok h) (S (calls h)).
Definition bump (h : heap) : heap := Heap (cells h) (ok h) (S (calls h)).
Lemma get_alloc h b q : get (alloc h b) q = if q =? length (cells h) then Some b else get h q.
Proof.
  unfold get, alloc. cbn [cells]. destruct (Nat.eqb_spec q (length (cells h))) as [->|n].
  - rewrite app_nth2 by lia. now rewrite Nat.sub_diag.
  - destruct (lt_dec q (length (cells h))).
    + now rewrite app_nth1 by lia.
    + rewrite !nth_overflow; [reflexivity| |rewrite app_length; cbn]; lia.
Qed.
Lemma len_alloc h b : length (cells (alloc h b)) = S (length (cells h)).
Proof. unfold alloc. cbn [cells]. rewrite app_length. cbn. lia. Qed.

(** ** Heads *)

Definition strip (b : block) : block :=
  match head_of b with Some h => set_head (Head 0 (h_noheap h) (h_flags h)) b | None => b end.

Lemma strip_owned b b' : strip b' = strip b -> owned b' = owned b.
Proof. destruct b, b'; cbn; intros H; try discriminate; now inversion H. Qed.
Lemma strip_nh b b' : strip b' = strip b -> isnh b' = isnh b.
Proof. destruct b, b'; cbn; intros H; try discriminate; now inversion H. Qed.
Lemma strip_set b h n : head_of b = Some h -> strip (set_head (Head n (h_noheap h) (h_flags h)) b) = strip b.
Proof. destruct b; cbn; intros H; inversion H; subst; reflexivity. Qed.
Lemma strip_eq b b' : strip b' = strip b -> refs b' = refs b -> b' = b.
Proof.
  destruct b as [hd| | | |hd|hd| | | | |], b' as [hd'| | | |hd'|hd'| | | | |]; cbn; intros H R; try discriminate;
    try (inversion H; reflexivity);
    try (destruct hd, hd'; cbn in *; inversion H; subst; reflexivity).
  destruct h, h0; cbn in *; inversion H; subst; reflexivity.
Qed.
Lemma owned_set b h : owned (set_head h b) = owned b.
Proof. now destruct b. Qed.
Lemma head_set b h0 h : head_of b = Some h0 -> head_of (set_head h b) = Some h.
Proof. destruct b; cbn; congruence. Qed.
Lemma refs_set b h0 h : head_of b = Some h0 -> refs (set_head h b) = h_rc h.
Proof. intros H. unfold refs. now rewrite (head_set b h0 h H). Qed.
Lemma nh_set b h0 h : head_of b = Some h0 -> isnh (set_head h b) = h_noheap h.
Proof. intros H. unfold isnh. now rewrite (head_set b h0 h H). Qed.

(** ** Counting *)

Notation cnt := (count_occ Nat.eq_dec).

Fixpoint sumn (n : nat) (f : nat -> nat) : nat :=
  match n with O => 0 | S n => sumn n f + f n end.
Lemma sumn_ext n f g : (forall i, i < n -> f i = g i) -> sumn n f = sumn n g.
Proof.
  induction n as [|n IH]; intros H; [reflexivity|]. cbn [sumn]. rewrite IH, H by (intros; try apply H; lia). reflexivity.
Qed.
Lemma sumn_change n f g q : q < n -> (forall i, i < n -> i <> q -> f i = g i) -> sumn n f + g q = sumn n g + f q.
Proof.
  induction n as [|n IH]; intros Hq H; [lia|]. cbn [sumn].
  destruct (Nat.eq_dec q n) as [->|ne].
  - rewrite (sumn_ext n f g) by (intros; apply H; lia). lia.
  - rewrite (H n) by lia. assert (sumn n f + g q = sumn n g + f q) by (apply IH; [lia|]; intros; apply H; lia). lia.
Qed.
Lemma sumn_ge n f q : q < n -> f q <= sumn n f.
Proof.
  induction n as [|n IH]; intros Hq; [lia|]. cbn [sumn].
  destruct (Nat.eq_dec q n) as [->|ne]; [lia|]. specialize (IH ltac:(lia)). lia.
Qed.
Lemma sumn_pos n f : sumn n f <> 0 -> exists i, i < n /\ f i <> 0.
Proof.
  induction n as [|n IH]; intros H; [cbn in H; lia|]. cbn [sumn] in H.
  destruct (Nat.eq_dec (f n) 0) as [e|ne].
  - destruct IH as (i & Hi & Hf); [lia|]. exists i. split; [lia|assumption].
  - exists n. split; [lia|assumption].
Qed.

Definition contrib (h : heap) (D : list ptr) (q i : ptr) : nat :=
  if in_dec Nat.eq_dec i D then 0
  else match get h i with Some b => cnt (owned b) q | None => 0 end.
Definition total (h : heap) (D : list ptr) (q : ptr) : nat :=
  sumn (length (cells h)) (contrib h D q).

Lemma total_ge h D p b q : get h p = Some b -> ~ In p D -> cnt (owned b) q <= total h D q.
Proof.
  intros G ND. unfold total. etransitivity; [|apply (sumn_ge _ _ p (get_lt _ _ _ G))].
  unfold contrib. destruct (in_dec _ _ _); [contradiction|]. rewrite G. reflexivity.
Qed.
Lemma total_pos h D q : total h D q <> 0 ->
  exists p b, get h p = Some b /\ ~ In p D /\ In q (owned b).
Proof.
  intros H. apply sumn_pos in H. destruct H as (i & Hi & Hc). unfold contrib in Hc.
  destruct (in_dec _ _ _) as [|ni]; [lia|]. destruct (get h i) as [b|] eqn:G; [|lia].
  exists i, b. repeat split; try assumption. apply (count_occ_In Nat.eq_dec). lia.
Qed.
Lemma cnt_in (l : list ptr) p : In p l <-> 1 <= cnt l p.
Proof. rewrite (count_occ_In Nat.eq_dec). lia. Qed.
Lemma cnt_app (l l' : list ptr) p : cnt (l ++ l') p = cnt l p + cnt l' p.
Proof. apply count_occ_app. Qed.

(** ** Kinds *)

Definition is_ring (b : block) : bool := match b with BRing _ _ _ _ => true | _ => false end.
Definition is_ys (b : block) : bool := match b with BYs _ _ => true | _ => false end.
Definition is_pol (b : block) : bool := match b with BRing _ _ _ _ | BPoly _ _ _ _ => true | _ => false end.
Definition is_multi (b : block) : bool := match b with BMulti _ _ _ _ _ => true | _ => false end.
Definition is_obj (b : block) : bool := match head_of b with Some _ => true | None => false end.

Definition pk (h : heap) (f : block -> bool) (o : option ptr) : Prop :=
  match o with None => True | Some q => exists b, get h q = Some b /\ f b = true end.
Definition parr (h : heap) (f : block -> bool) (n : nat) (o : option ptr) : Prop :=
  match o with
  | None => n = 0
  | Some a => exists l, get h a = Some (BPtrs l) /\ length l = n /\ Forall (pk h f) l
  end.
Definition typed (cp : bool) (h : heap) (b : block) : Prop :=
  (cp = false -> isnh b = false) /\
  match b with
  | BRing _ _ ix ys => (cp = true -> ix = None /\ ys = None) /\ pk h is_ys ys
  | BPoly _ e n hs => pk h is_ring e /\ parr h is_ring n hs
  | BGeom _ pl c nc xj =>
      pk h is_str xj /\
      match pl with
      | PlPoint _ _ _ => c = None
      | PlLine l => pk h (is_dbls nc) c /\ pk h is_ring l
      | PlPoly q => pk h (is_dbls nc) c /\ pk h is_pol q
      | PlMulti _ m => pk h (is_dbls nc) c /\ pk h is_multi m
      end
  | BMulti gs n _ ix ixg => parr h is_obj n gs /\ pk h is_ix ix /\ pk h (is_ints n) ixg
  | _ => True
  end.

(** a question that does not look at the head *)
Definition stripped (f : block -> bool) : Prop := forall b b', strip b' = strip b -> f b' = f b.
Ltac stripped := intros b b' H; destruct b, b'; cbn in H; try discriminate; try reflexivity; inversion H; reflexivity.
Lemma st_ring : stripped is_ring. Proof. stripped. Qed.
Lemma st_ys : stripped is_ys. Proof. stripped. Qed.
Lemma st_pol : stripped is_pol. Proof. stripped. Qed.
Lemma st_multi : stripped is_multi. Proof. stripped. Qed.
Lemma st_obj : stripped is_obj. Proof. stripped. Qed.
Lemma st_str : stripped is_str. Proof. stripped. Qed.
Lemma st_ix : stripped is_ix. Proof. stripped. Qed.
Lemma st_ints n : stripped (is_ints n). Proof. stripped. Qed.
Lemma st_dbls n : stripped (is_dbls n). Proof. stripped. Qed.

Definition keep (h h' : heap) (q : ptr) : Prop :=
  forall b, get h q = Some b -> exists b', get h' q = Some b' /\ strip b' = strip b.
Lemma keep_refl h q : keep h h q.
Proof. intros b G. now exists b. Qed.
Lemma keep_trans h1 h2 h3 q : keep h1 h2 q -> keep h2 h3 q -> keep h1 h3 q.
Proof.
  intros A B b G. destruct (A b G) as (b1 & G1 & S1). destruct (B b1 G1) as (b2 & G2 & S2).
  exists b2. split; [assumption|congruence].
Qed.

Lemma pk_keep h h' f o : stripped f -> (forall q, In q (olist o) -> keep h h' q) -> pk h f o -> pk h' f o.
Proof.
  intros Sf K P. destruct o as [q|]; [|exact I]. destruct P as (b & G & F).
  destruct (K q (or_introl eq_refl) b G) as (b' & G' & S'). exists b'. split; [assumption|]. now rewrite (Sf b b' S').
Qed.
Lemma parr_keep h h' f n o : stripped f ->
  (forall q, In q (olist o) -> keep h h' q /\ forall b, get h q = Some b -> forall r, In r (owned b) -> keep h h' r) ->
  parr h f n o -> parr h' f n o.
Proof.
  intros Sf K P. destruct o as [q|]; [|exact P]. destruct P as (l & G & L & F).
  destruct (K q (or_introl eq_refl)) as [K1 K2]. destruct (K1 _ G) as (b' & G' & S').
  assert (b' = BPtrs l) as -> by (destruct b'; cbn in S'; try discriminate; congruence).
  exists l. split; [assumption|]. split; [assumption|].
  rewrite Forall_forall in *. intros x Hx. apply (pk_keep h); [assumption| |apply F, Hx].
  intros r Hr. apply (K2 _ G). cbn [owned]. apply in_flat_map. now exists x.
Qed.
Lemma typed_keep cp h h' b :
  (forall q, In q (owned b) -> keep h h' q /\ forall bq, get h q = Some bq -> forall r, In r (owned bq) -> keep h h' r) ->
  typed cp h b -> typed cp h' b.
Proof.
  intros K [N T]. split; [exact N|].
  destruct b as [hd r ix ys|y base|hd e n hs|l|hd p|hd pl c nc xj|gs n r ix ixg|i base|l|l|s]; try exact T.
  - destruct T as [T1 T2]. split; [exact T1|]. eapply pk_keep; eauto using st_ys. intros q Hq. apply K. exact Hq.
  - destruct T as [T1 T2]. cbn [owned] in K. split.
    + eapply pk_keep; eauto using st_ring. intros q Hq. apply K, in_or_app. now left.
    + eapply parr_keep; eauto using st_ring. intros q Hq. apply K, in_or_app. now right.
  - cbn [owned] in K. destruct T as [T1 T2]. split.
    + eapply pk_keep; eauto using st_str. intros q Hq. apply K. rewrite !in_app_iff. tauto.
    + destruct pl; [exact T2| | |]; destruct T2 as [T2 T3];
        (split; [eapply pk_keep; eauto using st_dbls; intros q' Hq; apply K; rewrite !in_app_iff; tauto|
                 eapply pk_keep; eauto using st_ring, st_pol, st_multi; intros q' Hq; apply K; rewrite !in_app_iff; tauto]).
  - cbn [owned] in K. destruct T as (T1 & T2 & T3). split; [|split].
    + eapply parr_keep; eauto using st_obj. intros q Hq. apply K. rewrite !in_app_iff. tauto.
    + eapply pk_keep; eauto using st_ix. intros q Hq. apply K. rewrite !in_app_iff. tauto.
    + eapply pk_keep; eauto using st_ints. intros q Hq. apply K. rewrite !in_app_iff. tauto.
Qed.
Lemma typed_strip cp h b b' : strip b' = strip b -> typed cp h b -> typed cp h b'.
Proof.
  intros S' T. destruct b, b'; cbn in S'; try discriminate; try (inversion S'; subst; exact T);
  inversion S'; subst; destruct T as [T0 T]; (split; [intros Hc; specialize (T0 Hc); unfold isnh in *; cbn [head_of] in *; congruence|exact T]).
Qed.

(** ** The invariant *)

(** [E]: the references held outside of the objects; [D]: blocks under
    construction or being taken apart, whose references do not count;
    [cp]: objects may be copied, then there are no indexed rings. *)
Record Inv (cp : bool) (h : heap) (E D : list ptr) : Prop := {
  inv_nd : NoDup D;
  inv_dl : forall p, In p D -> get h p <> None;
  inv_zero : forall p, In p D \/ get h p = None -> cnt E p + total h D p = 0;
  inv_cnt : forall p b, get h p = Some b -> ~ In p D -> isnh b = false ->
      Z.of_nat (cnt E p + total h D p) = refs b /\ (1 <= refs b)%Z;
  inv_ty : forall p b, get h p = Some b -> ~ In p D -> typed cp h b
}.

Lemma inv_E cp h E D p : Inv cp h E D -> In p E -> get h p <> None /\ ~ In p D.
Proof.
  intros I Hp. apply cnt_in in Hp. split.
  - intros G. pose proof (inv_zero _ _ _ _ I p (or_intror G)). lia.
  - intros Hd. pose proof (inv_zero _ _ _ _ I p (or_introl Hd)). lia.
Qed.
Lemma inv_owned cp h E D p b q : Inv cp h E D -> get h p = Some b -> ~ In p D -> In q (owned b) ->
  get h q <> None /\ ~ In q D.
Proof.
  intros I G ND Hq. apply cnt_in in Hq. pose proof (total_ge h D p b q G ND). split.
  - intros G'. pose proof (inv_zero _ _ _ _ I q (or_intror G')). lia.
  - intros Hd. pose proof (inv_zero _ _ _ _ I q (or_introl Hd)). lia.
Qed.

(** the types of the counted blocks only depend on the counted blocks *)
Lemma inv_ty_keep cp h h' E D : Inv cp h E D ->
  (forall q, get h q <> None -> ~ In q D -> keep h h' q) ->
  forall p b, get h p = Some b -> ~ In p D -> typed cp h' b.
Proof.
  intros I K p b G ND. apply (typed_keep cp h); [|apply (inv_ty _ _ _ _ I p b G ND)].
  intros q Hq. destruct (inv_owned _ _ _ _ _ _ _ I G ND Hq) as [Lq NDq]. split; [now apply K|].
  intros bq Gq r Hr. destruct (inv_owned _ _ _ _ _ _ _ I Gq NDq Hr). now apply K.
Qed.

Lemma total_cells h h' D q : cells h = cells h' -> total h D q = total h' D q.
Proof. intros C. unfold total, contrib, get. now rewrite C. Qed.
Lemma typed_cells cp h h' b : cells h = cells h' -> typed cp h b -> typed cp h' b.
Proof. intros C. unfold typed, pk, parr, pk, get. now rewrite C. Qed.
Lemma Inv_cells cp h h' E D : cells h = cells h' -> Inv cp h E D -> Inv cp h' E D.
Proof.
  intros C I. assert (GG : forall p, get h' p = get h p) by (intros; unfold get; now rewrite C).
  constructor.
  - apply (inv_nd _ _ _ _ I).
  - intros p Hp. rewrite GG. apply (inv_dl _ _ _ _ I p Hp).
  - intros p Hp. rewrite GG in Hp. rewrite <- (total_cells h h' D p C). apply (inv_zero _ _ _ _ I p Hp).
  - intros p b G. rewrite GG in G. rewrite <- (total_cells h h' D p C). now apply (inv_cnt _ _ _ _ I p b).
  - intros p b G ND. rewrite GG in G. apply (typed_cells cp h h' b C). now apply (inv_ty _ _ _ _ I p b).
Qed.
Lemma Inv_E cp h E E' D : (forall p, cnt E p = cnt E' p) -> Inv cp h E D -> Inv cp h E' D.
Proof.
  intros C I. constructor.
  - apply (inv_nd _ _ _ _ I).
  - apply (inv_dl _ _ _ _ I).
  - intros p Hp. rewrite <- C. now apply (inv_zero _ _ _ _ I p).
  - intros p b G. rewrite <- C. now apply (inv_cnt _ _ _ _ I p b).
  - apply (inv_ty _ _ _ _ I).
Qed.
Lemma total_D h D D' q : (forall p, In p D <-> In p D') -> total h D q = total h D' q.
Proof.
  intros C. unfold total. apply sumn_ext. intros i _. unfold contrib.
  destruct (in_dec Nat.eq_dec i D) as [a|a], (in_dec Nat.eq_dec i D') as [b|b]; try reflexivity;
    exfalso; rewrite C in a; tauto.
Qed.
Lemma Inv_D cp h E D D' : (forall p, In p D <-> In p D') -> NoDup D' -> Inv cp h E D -> Inv cp h E D'.
Proof.
  intros C N I. constructor.
  - exact N.
  - intros p Hp. apply (inv_dl _ _ _ _ I). now apply C.
  - intros p Hp. rewrite <- (total_D h D D' p C). rewrite <- C in Hp. now apply (inv_zero _ _ _ _ I p).
  - intros p b G. rewrite <- (total_D h D D' p C), <- C. now apply (inv_cnt _ _ _ _ I p b).
  - intros p b G. rewrite <- C. now apply (inv_ty _ _ _ _ I p b).
Qed.

(** *** The steps *)

Lemma total_alloc h b D q : total (alloc h b) (length (cells h) :: D) q = total h D q.
Proof.
  unfold total. rewrite len_alloc. cbn [sumn].
  replace (contrib (alloc h b) (length (cells h) :: D) q (length (cells h))) with 0.
  2:{ unfold contrib. destruct (in_dec _ _ _) as [|n]; [reflexivity|]. exfalso. apply n. now left. }
  rewrite Nat.add_0_r. apply sumn_ext. intros i Hi. unfold contrib. rewrite get_alloc.
  destruct (Nat.eqb_spec i (length (cells h))); [lia|].
  destruct (in_dec Nat.eq_dec i (length (cells h) :: D)) as [a|a], (in_dec Nat.eq_dec i D) as [c|c]; try reflexivity.
  - cbn in a. exfalso. destruct a; [lia|contradiction].
  - exfalso. apply a. now right.
Qed.
Lemma Inv_alloc cp h b E D : Inv cp h E D -> Inv cp (alloc h b) E (length (cells h) :: D).
Proof.
  intros I. assert (NL : ~ In (length (cells h)) D).
  { intros H. apply (inv_dl _ _ _ _ I) in H. apply H, get_ge. lia. }
  constructor.
  - constructor; [assumption|apply (inv_nd _ _ _ _ I)].
  - intros p [<-|Hp]; rewrite get_alloc.
    + now rewrite Nat.eqb_refl.
    + destruct (p =? _); [discriminate|]. now apply (inv_dl _ _ _ _ I).
  - intros p Hp. rewrite total_alloc. apply (inv_zero _ _ _ _ I).
    rewrite get_alloc in Hp. destruct (Nat.eqb_spec p (length (cells h))) as [e|n].
    + right. apply get_ge. lia.
    + destruct Hp as [[Hp|Hp]|Hp]; [congruence|now left|now right].
  - intros p c G ND. rewrite total_alloc. rewrite get_alloc in G.
    destruct (Nat.eqb_spec p (length (cells h))) as [->|n]; [exfalso; apply ND; now left|].
    apply (inv_cnt _ _ _ _ I); [assumption|]. intros H. apply ND. now right.
  - intros p c G ND. rewrite get_alloc in G.
    destruct (Nat.eqb_spec p (length (cells h))) as [->|n]; [exfalso; apply ND; now left|].
    apply (inv_ty_keep cp h (alloc h b) E D I) with p; [|assumption|intros H; apply ND; now right].
    intros q Lq NDq x Gx. exists x. split; [|reflexivity]. rewrite get_alloc.
    apply get_lt in Gx as Hq. destruct (Nat.eqb_spec q (length (cells h))); [lia|assumption].
Qed.

Lemma total_upd h q b D r : q < length (cells h) -> In q D -> total (upd h q b) D r = total h D r.
Proof.
  intros Hq Hd. unfold total. rewrite len_upd by assumption. apply sumn_ext. intros i Hi. unfold contrib.
  destruct (in_dec _ _ _) as [|n]; [reflexivity|]. rewrite get_upd by assumption.
  destruct (Nat.eqb_spec i q) as [->|]; [contradiction|reflexivity].
Qed.
(** a block in [D] is written *)
Lemma Inv_write cp h q b E D : In q D -> Inv cp h E D -> Inv cp (upd h q (Some b)) E D.
Proof.
  intros Hd I. assert (Hq : q < length (cells h)).
  { destruct (get h q) eqn:G; [eapply get_lt, G|]. exfalso. now apply (inv_dl _ _ _ _ I q Hd). }
  constructor.
  - apply (inv_nd _ _ _ _ I).
  - intros p Hp. rewrite get_upd by assumption. destruct (p =? q); [discriminate|]. now apply (inv_dl _ _ _ _ I).
  - intros p Hp. rewrite total_upd by assumption. rewrite get_upd in Hp by assumption.
    apply (inv_zero _ _ _ _ I). destruct (Nat.eqb_spec p q) as [e|]; [left; now rewrite e|]. assumption.
  - intros p c G ND. rewrite total_upd by assumption. rewrite get_upd in G by assumption.
    destruct (Nat.eqb_spec p q) as [->|]; [contradiction|]. now apply (inv_cnt _ _ _ _ I).
  - intros p c G ND. rewrite get_upd in G by assumption.
    destruct (Nat.eqb_spec p q) as [->|]; [contradiction|].
    apply (inv_ty_keep cp h _ E D I) with p; try assumption.
    intros r Lr NDr x Gx. exists x. split; [|reflexivity]. rewrite get_upd by assumption.
    destruct (Nat.eqb_spec r q) as [->|]; [contradiction|assumption].
Qed.
(** a block in [D] is freed *)
Lemma Inv_free cp h q E D : Inv cp h E (q :: D) -> Inv cp (upd h q None) E D.
Proof.
  intros I. pose proof (inv_nd _ _ _ _ I) as N. inversion N as [|? ? Nq ND']; subst.
  assert (Hq : q < length (cells h)).
  { destruct (get h q) eqn:G; [eapply get_lt, G|]. exfalso. apply (inv_dl _ _ _ _ I q (or_introl eq_refl)), G. }
  assert (T : forall r, total (upd h q None) D r = total h (q :: D) r).
  { intros r. unfold total. rewrite len_upd by assumption. apply sumn_ext. intros i Hi. unfold contrib.
    rewrite get_upd by assumption. destruct (Nat.eqb_spec i q) as [->|ne].
    - destruct (in_dec Nat.eq_dec q D) as [a|a], (in_dec Nat.eq_dec q (q :: D)) as [c|c]; try reflexivity; exfalso; apply c; now left.
    - destruct (in_dec Nat.eq_dec i D) as [a|a], (in_dec Nat.eq_dec i (q :: D)) as [c|c]; try reflexivity.
      + exfalso. apply c. now right.
      + exfalso. destruct c as [c|c]; congruence. }
  constructor.
  - assumption.
  - intros p Hp. rewrite get_upd by assumption. destruct (Nat.eqb_spec p q) as [->|]; [contradiction|].
    apply (inv_dl _ _ _ _ I). now right.
  - intros p Hp. rewrite T. apply (inv_zero _ _ _ _ I). rewrite get_upd in Hp by assumption.
    destruct (Nat.eqb_spec p q) as [e|]; [left; left; congruence|]. destruct Hp; [left; now right|now right].
  - intros p c G ND. rewrite T. rewrite get_upd in G by assumption.
    destruct (Nat.eqb_spec p q) as [->|]; [discriminate|]. apply (inv_cnt _ _ _ _ I); [assumption|].
    intros [H|H]; congruence.
  - intros p c G ND. rewrite get_upd in G by assumption.
    destruct (Nat.eqb_spec p q) as [->|]; [discriminate|].
    apply (inv_ty_keep cp h _ E (q :: D) I) with p; [|assumption|intros [H|H]; congruence].
    intros r Lr NDr x Gx. exists x. split; [|reflexivity]. rewrite get_upd by assumption.
    destruct (Nat.eqb_spec r q) as [->|]; [exfalso; apply NDr; now left|assumption].
Qed.

Lemma total_cons h q b D r : get h q = Some b -> ~ In q D ->
  total h D r = total h (q :: D) r + cnt (owned b) r.
Proof.
  intros G N. unfold total.
  pose proof (sumn_change (length (cells h)) (contrib h D r) (contrib h (q :: D) r) q (get_lt _ _ _ G)) as C.
  assert (contrib h (q :: D) r q = 0) as E1.
  { unfold contrib. destruct (in_dec _ _ _) as [|n]; [reflexivity|]. exfalso. apply n. now left. }
  assert (contrib h D r q = cnt (owned b) r) as E2.
  { unfold contrib. destruct (in_dec _ _ _) as [|n]; [contradiction|]. now rewrite G. }
  rewrite E1, E2 in C. rewrite <- C, Nat.add_0_r; [reflexivity|].
  intros i Hi ne. unfold contrib.
  destruct (in_dec Nat.eq_dec i D) as [a|a], (in_dec Nat.eq_dec i (q :: D)) as [c|c]; try reflexivity.
  - exfalso. apply c. now right.
  - exfalso. destruct c as [c|c]; congruence.
Qed.
(** a finished block begins to count *)
Lemma Inv_publish cp h q b E D : Inv cp h (owned b ++ E) (q :: D) -> get h q = Some b ->
  isnh b = false -> refs b = 1%Z -> typed cp h b -> Inv cp h (q :: E) D.
Proof.
  intros I G NH R T. pose proof (inv_nd _ _ _ _ I) as N. inversion N as [|? ? Nq ND']; subst.
  assert (TT := fun r => total_cons h q b D r G Nq).
  assert (Zq := inv_zero _ _ _ _ I q (or_introl (or_introl eq_refl))). rewrite cnt_app in Zq.
  constructor.
  - assumption.
  - intros p Hp. apply (inv_dl _ _ _ _ I). now right.
  - intros p Hp. rewrite TT. assert (p <> q) by (intros ->; destruct Hp; congruence).
    pose proof (inv_zero _ _ _ _ I p) as Zp. rewrite cnt_app in Zp. cbn [count_occ].
    destruct (Nat.eq_dec q p); [congruence|].
    assert (cnt (owned b) p + cnt E p + total h (q :: D) p = 0); [|lia].
    apply Zp. destruct Hp; [left; now right|now right].
  - intros p c Gp NDp NHp. rewrite TT. cbn [count_occ]. destruct (Nat.eq_dec q p) as [<-|ne].
    + assert (c = b) by congruence. subst c. rewrite R. split; lia.
    + pose proof (inv_cnt _ _ _ _ I p c Gp) as C. rewrite cnt_app in C.
      destruct C as [C1 C2]; [intros [H|H]; congruence|assumption|]. split; lia.
  - intros p c Gp NDp. destruct (Nat.eq_dec p q) as [->|ne].
    + assert (c = b) by congruence. now subst c.
    + apply (inv_ty _ _ _ _ I p c Gp). intros [H|H]; congruence.
Qed.
(** the last reference goes: the block is taken apart *)
Lemma Inv_enter cp h q b E D : Inv cp h (q :: E) D -> get h q = Some b ->
  isnh b = false -> refs b = 1%Z -> Inv cp h (owned b ++ E) (q :: D).
Proof.
  intros I G NH R. destruct (inv_E _ _ _ _ q I (or_introl eq_refl)) as [_ Nq].
  assert (TT := fun r => total_cons h q b D r G Nq).
  destruct (inv_cnt _ _ _ _ I q b G Nq NH) as [Cq _]. cbn [count_occ] in Cq.
  destruct (Nat.eq_dec q q) as [_|]; [|congruence]. rewrite R, TT in Cq.
  constructor.
  - constructor; [assumption|apply (inv_nd _ _ _ _ I)].
  - intros p [<-|Hp]; [congruence|now apply (inv_dl _ _ _ _ I)].
  - intros p Hp. rewrite cnt_app. destruct (Nat.eq_dec q p) as [<-|ne]; [lia|].
    assert (cnt (q :: E) p + total h D p = 0) as Zp.
    { apply (inv_zero _ _ _ _ I). destruct Hp as [[Hp|Hp]|Hp]; [congruence|now left|now right]. }
    cbn [count_occ] in Zp. destruct (Nat.eq_dec q p); [congruence|]. rewrite TT in Zp. lia.
  - intros p c Gp NDp NHp. assert (q <> p) by (intros ->; apply NDp; now left).
    destruct (inv_cnt _ _ _ _ I p c Gp) as [C1 C2]; [intros H'; apply NDp; now right|assumption|].
    cbn [count_occ] in C1. destruct (Nat.eq_dec q p); [congruence|]. rewrite TT in C1. rewrite cnt_app. split; lia.
  - intros p c Gp NDp. apply (inv_ty _ _ _ _ I p c Gp). intros H. apply NDp. now right.
Qed.

(** the count of a live object changes together with the references held *)
Lemma total_head h q b b' D r : get h q = Some b -> owned b' = owned b ->
  total (upd h q (Some b')) D r = total h D r.
Proof.
  intros G O. apply get_lt in G as Hq. unfold total. rewrite len_upd by assumption.
  apply sumn_ext. intros i Hi. unfold contrib. destruct (in_dec _ _ _); [reflexivity|].
  rewrite get_upd by assumption. destruct (Nat.eqb_spec i q) as [->|]; [|reflexivity]. now rewrite G, O.
Qed.
Lemma Inv_rc cp h q b b' E E' D : Inv cp h E D -> get h q = Some b -> ~ In q D ->
  strip b' = strip b -> isnh b = false ->
  (forall p, p <> q -> cnt E' p = cnt E p) ->
  (refs b' + Z.of_nat (cnt E q) = refs b + Z.of_nat (cnt E' q))%Z -> (1 <= refs b')%Z ->
  Inv cp (upd h q (Some b')) E' D.
Proof.
  intros I G Nq S' NH CE CR R1. apply get_lt in G as Hq.
  assert (TT := fun r => total_head h q b b' D r G (strip_owned _ _ S')).
  constructor.
  - apply (inv_nd _ _ _ _ I).
  - intros p Hp. rewrite get_upd by assumption. destruct (p =? q); [discriminate|]. now apply (inv_dl _ _ _ _ I).
  - intros p Hp. rewrite TT. rewrite get_upd in Hp by assumption.
    destruct (Nat.eqb_spec p q) as [e|ne]; [rewrite e in *; destruct Hp; [contradiction|discriminate]|].
    rewrite CE by assumption. now apply (inv_zero _ _ _ _ I).
  - intros p c Gp NDp NHp. rewrite TT. rewrite get_upd in Gp by assumption.
    destruct (Nat.eqb_spec p q) as [->|ne].
    + inversion Gp; subst c. destruct (inv_cnt _ _ _ _ I q b G Nq NH) as [C1 C2]. split; lia.
    + rewrite CE by assumption. now apply (inv_cnt _ _ _ _ I).
  - assert (K : forall r, keep h (upd h q (Some b')) r).
    { intros r x Gx. rewrite get_upd by assumption. destruct (Nat.eqb_spec r q) as [->|].
      - exists b'. split; [reflexivity|]. congruence.
      - now exists x. }
    intros p c Gp NDp. rewrite get_upd in Gp by assumption. destruct (Nat.eqb_spec p q) as [->|ne].
    + inversion Gp; subst c. apply (typed_strip cp _ b b' S').
      apply (inv_ty_keep cp h _ E D I) with q; auto.
    + apply (inv_ty_keep cp h _ E D I) with p; auto.
Qed.
(** a reference to a noheap object goes *)
Lemma Inv_nh_drop cp h q b E D : Inv cp h (q :: E) D -> get h q = Some b -> isnh b = true -> Inv cp h E D.
Proof.
  intros I G NH. destruct (inv_E _ _ _ _ q I (or_introl eq_refl)) as [_ Nq].
  constructor.
  - apply (inv_nd _ _ _ _ I).
  - apply (inv_dl _ _ _ _ I).
  - intros p Hp. pose proof (inv_zero _ _ _ _ I p Hp) as Zp. cbn [count_occ] in Zp.
    destruct (Nat.eq_dec q p); lia.
  - intros p c Gp NDp NHp. destruct (inv_cnt _ _ _ _ I p c Gp NDp NHp) as [C1 C2]. cbn [count_occ] in C1.
    destruct (Nat.eq_dec q p) as [->|]; [congruence|]. split; assumption.
  - apply (inv_ty _ _ _ _ I).
Qed.
(** an object becomes noheap *)
Lemma Inv_set_nh h q b b' E D : Inv true h E D -> get h q = Some b -> ~ In q D ->
  (exists hd, b' = set_head hd b /\ h_noheap hd = true /\ head_of b <> None) -> Inv true (upd h q (Some b')) E D.
Proof.
  intros I G Nq (hd & -> & NHh & Hh). apply get_lt in G as Hq.
  assert (TT := fun r => total_head h q b _ D r G (owned_set b hd)).
  assert (NHb : isnh (set_head hd b) = true).
  { destruct (head_of b) as [h1|] eqn:Eh; [|congruence]. now rewrite (nh_set b h1 hd Eh). }
  assert (GG : forall r, get (upd h q (Some (set_head hd b))) r = if r =? q then Some (set_head hd b) else get h r)
    by (intros; now apply get_upd).
  assert (PK : forall f o, (forall c, f (set_head hd c) = f c) -> pk h f o -> pk (upd h q (Some (set_head hd b))) f o).
  { intros f [r|] Hf; [|exact id]. intros (c & Gc & Fc). unfold pk. rewrite GG.
    destruct (Nat.eqb_spec r q) as [->|]; [|now exists c]. exists (set_head hd b). split; [reflexivity|].
    rewrite Hf. congruence. }
  assert (PA : forall f n o, (forall c, f (set_head hd c) = f c) -> parr h f n o -> parr (upd h q (Some (set_head hd b))) f n o).
  { intros f n [a|] Hf; [|exact id]. intros (l & Gl & Ll & Fl). exists l. split; [|split; [assumption|]].
    - rewrite GG. destruct (Nat.eqb_spec a q) as [->|]; [|assumption]. assert (b = BPtrs l) by congruence. subst b. now cbn in Hh.
    - rewrite Forall_forall in *. intros x Hx. apply PK; auto. }
  assert (TY : forall c, typed true h c -> typed true (upd h q (Some (set_head hd b))) c).
  { intros c [_ T]. split; [discriminate|].
    assert (S0 : forall c, is_ring (set_head hd c) = is_ring c) by (intros []; reflexivity).
    assert (S1 : forall c, is_ys (set_head hd c) = is_ys c) by (intros []; reflexivity).
    assert (S2 : forall c, is_pol (set_head hd c) = is_pol c) by (intros []; reflexivity).
    assert (S3 : forall c, is_multi (set_head hd c) = is_multi c) by (intros []; reflexivity).
    assert (S4 : forall c, is_obj (set_head hd c) = is_obj c) by (intros []; reflexivity).
    assert (S5 : forall c, is_str (set_head hd c) = is_str c) by (intros []; reflexivity).
    assert (S6 : forall c, is_ix (set_head hd c) = is_ix c) by (intros []; reflexivity).
    assert (S7 : forall n c, is_ints n (set_head hd c) = is_ints n c) by (intros n []; reflexivity).
    assert (S8 : forall n c, is_dbls n (set_head hd c) = is_dbls n c) by (intros n []; reflexivity).
    destruct c as [? ? ? ?|? ?|? ? ? ?|?|? ?|? pl ? ? ?|? ? ? ? ?|? ?|?|?|?]; try exact T.
    - destruct T. split; auto.
    - destruct T. split; auto.
    - destruct T as [T1 T2]. split; auto. destruct pl; [exact T2| | |]; destruct T2; split; auto.
    - destruct T as (T1 & T2 & T3). split; [|split]; auto. }
  constructor.
  - apply (inv_nd _ _ _ _ I).
  - intros p Hp. rewrite GG. destruct (p =? q); [discriminate|]. now apply (inv_dl _ _ _ _ I).
  - intros p Hp. rewrite TT. rewrite GG in Hp. apply (inv_zero _ _ _ _ I).
    destruct (Nat.eqb_spec p q) as [e|]; [destruct Hp; [now left|discriminate]|assumption].
  - intros p c Gp NDp NHp. rewrite TT. rewrite GG in Gp. destruct (Nat.eqb_spec p q) as [->|].
    + inversion Gp; subst c. congruence.
    + now apply (inv_cnt _ _ _ _ I).
  - intros p c Gp NDp. rewrite GG in Gp. apply TY. destruct (Nat.eqb_spec p q) as [->|].
    + inversion Gp; subst c. pose proof (inv_ty _ _ _ _ I q b G Nq) as [_ T]. split; [discriminate|].
      destruct b; try exact T; now cbn in Hh.
    + now apply (inv_ty _ _ _ _ I p c).
Qed.
