(** * What an object stands for does not change with its count *)

From Coq Require Import ZArith Bool List Lia Arith.
From Verif Require Import F64 Geo Series Geom GeomFacts MultiIx Heap HeapGeom SpecHeap HeapFacts HeapStep HeapFree.
Import ListNotations.
Local Open Scope nat_scope.

(** [v'] shows all that [v] shows, apart from counts *)
Definition vle (v v' : view) : Prop := forall x b, v x = Some b -> exists b', v' x = Some b' /\ strip b' = strip b.

Lemma vle_refl v : vle v v.
Proof. intros x b G. eauto. Qed.
Lemma vle_trans v1 v2 v3 : vle v1 v2 -> vle v2 v3 -> vle v1 v3.
Proof.
  intros A B x b G. destruct (A x b G) as (b1 & G1 & S1). destruct (B x b1 G1) as (b2 & G2 & S2).
  exists b2. split; [assumption|congruence].
Qed.

Lemma vle_ring v v' p h r ix ys : vle v v' -> v p = Some (BRing h r ix ys) ->
  exists h', v' p = Some (BRing h' r ix ys) /\ h_flags h' = h_flags h /\ h_noheap h' = h_noheap h.
Proof.
  intros V G. destruct (V _ _ G) as (b' & G' & S'). destruct b'; cbn in S'; try discriminate. inversion S'; subst. eauto.
Qed.
Lemma vle_poly v v' p h e n a : vle v v' -> v p = Some (BPoly h e n a) ->
  exists h', v' p = Some (BPoly h' e n a) /\ h_flags h' = h_flags h.
Proof.
  intros V G. destruct (V _ _ G) as (b' & G' & S'). destruct b'; cbn in S'; try discriminate. inversion S'; subst. eauto.
Qed.
Lemma vle_point v v' p h x : vle v v' -> v p = Some (BPoint h x) ->
  exists h', v' p = Some (BPoint h' x) /\ h_flags h' = h_flags h.
Proof.
  intros V G. destruct (V _ _ G) as (b' & G' & S'). destruct b'; cbn in S'; try discriminate. inversion S'; subst. eauto.
Qed.
Lemma vle_geom v v' p h pl c n x : vle v v' -> v p = Some (BGeom h pl c n x) ->
  exists h', v' p = Some (BGeom h' pl c n x) /\ h_flags h' = h_flags h.
Proof.
  intros V G. destruct (V _ _ G) as (b' & G' & S'). destruct b'; cbn in S'; try discriminate. inversion S'; subst. eauto.
Qed.
Lemma vle_aux v v' p b : vle v v' -> v p = Some b -> head_of b = None -> v' p = Some b.
Proof.
  intros V G H. destruct (V _ _ G) as (b' & G' & S'). destruct b; try discriminate H; destruct b'; cbn in S'; try discriminate; congruence.
Qed.

Lemma den_ring_vle v v' fl l p : vle v v' -> den_ring v fl l p -> den_ring v' fl l p.
Proof.
  intros V (h & r & ix & ys & G & F & DI & DY & EQ). destruct (vle_ring _ _ _ _ _ _ _ V G) as (h' & G' & F' & _).
  exists h', r, ix, ys. split; [assumption|]. split; [congruence|]. split; [|split; [|assumption]].
  - destruct ix as [x|]; [|exact DI]. destruct DI as (h1 & r1 & i1 & y1 & G1 & E1).
    destruct (vle_ring _ _ _ _ _ _ _ V G1) as (h2 & G2 & _). cbn. eauto 8.
  - destruct ys as [q|]; [|exact DY]. destruct DY as (s & base & s' & base' & G1 & G2 & E1).
    exists s, base, s', base'. split; [|split; [|assumption]]; eapply vle_aux; eauto.
Qed.
Lemma den_opt_imp {A} (d d' : A -> ptr -> Prop) x o : (forall a p, d a p -> d' a p) -> den_opt d x o -> den_opt d' x o.
Proof. intros H. destruct x, o; cbn; auto. Qed.
Lemma Forall2_imp {A B} (P Q : A -> B -> Prop) l l' : (forall a b, P a b -> Q a b) -> Forall2 P l l' -> Forall2 Q l l'.
Proof. intros H F. induction F; constructor; auto. Qed.
Lemma den_poly_vle v v' fl po p : vle v v' -> den_poly v fl po p -> den_poly v' fl po p.
Proof.
  intros V. destruct po as [r|e hs]; cbn [den_poly]; [now apply den_ring_vle|].
  intros (h & pe & a & G & F & (f & DE) & DA). destruct (vle_poly _ _ _ _ _ _ _ V G) as (h' & G' & F').
  exists h', pe, a. split; [assumption|]. split; [congruence|]. split; [exists f; now apply (den_ring_vle v)|].
  destruct a as [a|]; [|exact DA]. destruct DA as (l & Ga & FA). exists l. split; [eapply vle_aux; eauto|].
  eapply Forall2_imp; [|exact FA]. intros o q. apply den_opt_imp. intros r x (g & Dg). exists g. now apply (den_ring_vle v).
Qed.
Lemma den_extra_vle v v' co xj c nc x : vle v v' -> den_extra v co xj c nc x -> den_extra v' co xj c nc x.
Proof.
  intros V [D1 D2]. split.
  - destruct c as [q|]; [|exact D1]. destruct D1 as [D1 L]. split; [eapply vle_aux; eauto|assumption].
  - destruct xj, x; try exact D2. eapply vle_aux; eauto.
Qed.

Lemma den_mindex_vle v v' n ix ixg : vle v v' -> den_mindex v n ix ixg -> den_mindex v' n ix ixg.
Proof.
  intros V. unfold den_mindex. destruct (_ <=? _); [|exact id].
  intros (q & qg & i & base & base' & l & -> & -> & G1 & G2 & G3 & L).
  exists q, qg, i, base, base', l. repeat split; auto; eapply vle_aux; eauto.
Qed.

(** the list of children *)
Definition den_all (v : view) : list (option geom) -> list (option ptr) -> Prop :=
  fix all (gs : list (option geom)) (l : list (option ptr)) : Prop :=
    match gs, l with
    | [], [] => True
    | None :: gs, None :: l => all gs l
    | Some g :: gs, Some q :: l => den v g q /\ all gs l
    | _, _ => False
    end.
Lemma den_multi v t fl gs co xj p : den v (GGMulti t fl gs co xj) p =
  (exists h m c nc s, v p = Some (BGeom h (PlMulti t m) c nc s) /\ h_flags h = fl /\ den_extra v co xj c nc s /\
    match gs, m with
    | None, None => True
    | Some gs', Some m =>
        exists a ix ixg l, v m = Some (BMulti (Some a) (length gs') (rect_of_geom (GGMulti t fl gs co xj)) ix ixg) /\
          v a = Some (BPtrs l) /\ den_mindex v (length gs') ix ixg /\ den_all v gs' l
    | _, _ => False
    end).
Proof. reflexivity. Qed.
Lemma den_all_length v gs l : den_all v gs l -> length gs = length l.
Proof.
  revert l. induction gs as [|[g|] gs IH]; intros [|[q|] l]; cbn; try tauto.
  - intros [_ H]. f_equal. now apply IH.
  - intros H. f_equal. now apply IH.
Qed.

Lemma den_vle v v' g : vle v v' -> forall p, den v g p -> den v' g p.
Proof.
  intros V. induction g as [f x|f l|f po|f x z m xj|f l c xj|f po c xj|t f c xj|t f gs c xj IH] using geom_ind_deep; intros p.
  - cbn. intros (h & G & F). destruct (vle_point _ _ _ _ _ V G) as (h' & G' & F'). exists h'. split; congruence.
  - cbn. now apply den_ring_vle.
  - cbn [den]. now apply den_poly_vle.
  - cbn [den]. intros (h & q & nc & s & G & F & DX). destruct (vle_geom _ _ _ _ _ _ _ _ V G) as (h' & G' & F').
    exists h', q, nc, s. split; [assumption|]. split; [congruence|]. now apply (den_extra_vle v).
  - cbn [den]. intros (h & q & c0 & nc & s & G & F & DX & DL). destruct (vle_geom _ _ _ _ _ _ _ _ V G) as (h' & G' & F').
    exists h', q, c0, nc, s. split; [assumption|]. split; [congruence|]. split; [now apply (den_extra_vle v)|].
    eapply den_opt_imp; [|exact DL]. intros a x (g & Dg). exists g. now apply (den_ring_vle v).
  - cbn [den]. intros (h & q & c0 & nc & s & G & F & DX & DL). destruct (vle_geom _ _ _ _ _ _ _ _ V G) as (h' & G' & F').
    exists h', q, c0, nc, s. split; [assumption|]. split; [congruence|]. split; [now apply (den_extra_vle v)|].
    eapply den_opt_imp; [|exact DL]. intros a x (g & Dg). exists g. now apply (den_poly_vle v).
  - rewrite !den_multi. intros (h & m & c0 & nc & s & G & F & DX & DM). destruct (vle_geom _ _ _ _ _ _ _ _ V G) as (h' & G' & F').
    exists h', m, c0, nc, s. split; [assumption|]. split; [congruence|]. split; [now apply (den_extra_vle v)|exact DM].
  - rewrite !den_multi. intros (h & m & c0 & nc & s & G & F & DX & DM). destruct (vle_geom _ _ _ _ _ _ _ _ V G) as (h' & G' & F').
    exists h', m, c0, nc, s. split; [assumption|]. split; [congruence|]. split; [now apply (den_extra_vle v)|].
    destruct m as [m|]; [|exact DM]. destruct DM as (a & ix & ixg & l & Gm & Ga & DX' & DA).
    exists a, ix, ixg, l. split; [eapply vle_aux; eauto|]. split; [eapply vle_aux; eauto|].
    split; [now apply (den_mindex_vle v)|].
    clear - IH DA. revert l DA. induction gs as [|[g|] gs IHg]; intros [|[q|] l]; cbn [den_all]; try tauto.
    + intros [D1 D2]. inversion IH as [|? ? X1 X2]; subst. cbn in X1. split; [now apply X1|]. now apply IHg.
    + inversion IH as [|? ? X1 X2]; subst. now apply IHg.
Qed.

Lemma fresh_vle n n' v v' : n' <= n -> (forall x, n <= x -> forall b, v x = Some b -> exists b', v' x = Some b' /\ strip b' = strip b) ->
  vle (fresh n v) (fresh n' v').
Proof.
  intros L K x b. unfold fresh. destruct (Nat.ltb_spec x n); [discriminate|]. intros G.
  destruct (Nat.ltb_spec x n'); [lia|]. now apply K.
Qed.
Lemma fresh_vle0 n v : vle (fresh n v) v.
Proof. intros x b. unfold fresh. destruct (x <? n); [discriminate|]. eauto. Qed.
