(** * The index of multi-geometries and collections: C05 and C39 *)

From Coq Require Import ZArith Reals Bool List Lia ZifyBool Permutation.
From Verif Require Import F64 Geo Series Search Geom MultiIx F64Order F64Real F64Mono F32 SpecGeo SpecFacts
  SearchFacts SeriesExamples HilbertFacts MultiFacts MultiReal.
Import ListNotations.

(** the two closed rectangles have a common point *)
Definition rects_meet (a b : rect) : Prop := exists p, point_ok p /\ in_rect a p /\ in_rect b p.
(** no NaN, and the corners are in order *)
Definition proper_rect (r : rect) : Prop := rectangle_ok r /\ ordered r.
(** the children of a multi-geometry that have been numbered in [l], as given to
    a callback one after the other *)
Definition report {A} (gs : list (option geom)) (iter : A -> option geom -> nat -> bool * A) (l : list nat) (st : A) :=
  run_callback (fun st i => iter st (nth i gs None) i) l st.
(** [l] has exactly the numbers of the children whose rectangle meets [q] *)
Definition the_children (gs : list (option geom)) (q : rect) (l : list nat) : Prop :=
  NoDup l /\ forall i, In i l <-> (i < length gs)%nat /\ rects_meet (tg_geom_rect (nth i gs None)) q.

Lemma meet_iff r q : proper_rect r -> proper_rect q -> (rects_meet r q <-> tg_rect_intersects_rect r q = true).
Proof.
  intros [R1 R2] [Q1 Q2]. apply rectangle_ok_iff in R1, Q1.
  pose proof (rect_ok_nn _ R1) as N1. pose proof (rect_ok_nn _ Q1) as N2.
  apply ordered_key in R2, Q2; auto. rewrite intersects_rect_iff by auto.
  rewrite kmeet_common by auto. unfold rects_meet. split.
  - intros (p & Op & A & B). apply point_ok_iff in Op. exists p. split; auto.
    apply in_rect_kin in A, B; auto using pt_ok_nn.
  - intros (p & Op & A & B). exists p. split; [apply point_ok_iff; auto|].
    split; apply in_rect_kin; auto using pt_ok_nn.
Qed.

Lemma filter_children gs q order : proper_rect q -> (forall g, In g gs -> proper_rect (tg_geom_rect g)) ->
  Permutation order (seq 0 (length gs)) ->
  the_children gs q (filter (fun i => tg_rect_intersects_rect (tg_geom_rect (nth i gs None)) q) order).
Proof.
  intros Q G P. split.
  - apply NoDup_filter. apply (Permutation_NoDup (Permutation_sym P)). apply seq_NoDup.
  - intros i. rewrite filter_In. split.
    + intros [I T]. apply (Permutation_in _ P) in I. apply in_seq in I. split; [lia|].
      apply meet_iff; auto. apply G, nth_In. lia.
    + intros [L M]. split; [apply (Permutation_in _ (Permutation_sym P)), in_seq; lia|].
      apply meet_iff; auto. apply G, nth_In. lia.
Qed.

(** ** C05 *)

Lemma search_children {A} gs t f c x mix q (iter : A -> option geom -> nat -> bool * A) st :
  proper_rect q -> (forall g, In g gs -> proper_rect (tg_geom_rect g)) ->
  (mix = None \/ (Forall rect32 (map tg_geom_rect gs) /\ (64 <= length gs)%nat /\
     exists order, Permutation order (seq 0 (length gs)) /\
       mix = Some (order, multi_levels (map tg_geom_rect gs) order))) ->
  exists l, the_children gs q l /\ (mix = None -> forall i j a b, nth_error l i = Some a -> nth_error l j = Some b -> (i < j)%nat -> (a < b)%nat) /\
    tg_geom_search (Some (GGMulti t f (Some gs) c x)) mix q iter st = report gs iter l st.
Proof.
  intros Q G M.
  destruct (geom_search_scan gs t f c x mix q iter st) as (order & P & N & _ & E).
  - apply rectangle_ok_iff, Q.
  - apply Forall_forall. intros r I. apply in_map_iff in I. destruct I as (g & <- & I).
    apply rectangle_ok_iff, (G g I).
  - exact M.
  - exists (filter (fun i => tg_rect_intersects_rect (tg_geom_rect (nth i gs None)) q) order).
    split; [apply filter_children; auto|]. split; [|rewrite E; symmetry; apply run_callback_loop].
    intros HN. rewrite (N HN). generalize (fun i => tg_rect_intersects_rect (tg_geom_rect (nth i gs None)) q).
    intros g. clear. generalize 0%nat. induction (length gs) as [|n IH]; intros s i j a b; cbn [seq filter].
    + destruct i; discriminate.
    + assert (LB : forall i a, nth_error (filter g (seq (S s) n)) i = Some a -> (s < a)%nat).
      { intros k v HK. apply nth_error_In in HK. apply filter_In in HK. destruct HK as [HK _].
        apply in_seq in HK. lia. }
      destruct (g s); [|apply IH].
      destruct i as [|i], j as [|j]; cbn [nth_error]; intros H1 H2 L; try lia.
      * injection H1 as <-. eapply LB; eauto.
      * eapply IH; eauto. lia.
Qed.

(** A multi-geometry too small to be indexed (fewer than 64 children): every child
    whose rectangle meets the query and no other, in order, until the callback
    answers false. *)
Theorem C05_small :
  forall gs t f c x q,
    proper_rect q -> (forall g, In g gs -> proper_rect (tg_geom_rect g)) -> (length gs < 64)%nat ->
    multi_inflate (map tg_geom_rect gs) = Some None /\
    exists l, the_children gs q l /\
      (forall i j a b, nth_error l i = Some a -> nth_error l j = Some b -> (i < j)%nat -> (a < b)%nat) /\
      forall A (iter : A -> option geom -> nat -> bool * A) st,
        tg_geom_search (Some (GGMulti t f (Some gs) c x)) None q iter st = report gs iter l st.
Proof.
  intros gs t f c x q Q G L. split.
  - unfold multi_inflate, multi_spread. rewrite map_length. replace (32 * 2 <=? length gs)%nat with false by lia. reflexivity.
  - exists (filter (fun i => tg_rect_intersects_rect (tg_geom_rect (nth i gs None)) q) (seq 0 (length gs))).
    split; [apply filter_children; auto|]. split.
    + generalize (fun i => tg_rect_intersects_rect (tg_geom_rect (nth i gs None)) q). intros g. clear.
      generalize 0%nat. induction (length gs) as [|n IH]; intros s i j a b; cbn [seq filter].
      * destruct i; discriminate.
      * assert (LB : forall i a, nth_error (filter g (seq (S s) n)) i = Some a -> (s < a)%nat).
        { intros k v HK. apply nth_error_In in HK. apply filter_In in HK. destruct HK as [HK _].
          apply in_seq in HK. lia. }
        destruct (g s); [|apply IH].
        destruct i as [|i], j as [|j]; cbn [nth_error]; intros H1 H2 L; try lia.
        -- injection H1 as <-. eapply LB; eauto.
        -- eapply IH; eauto. lia.
    + intros A iter st. destruct (geom_search_scan gs t f c x None q iter st) as (order & P & N & _ & E).
      * apply rectangle_ok_iff, Q.
      * apply Forall_forall. intros r I. apply in_map_iff in I. destruct I as (g & <- & I).
        apply rectangle_ok_iff, (G g I).
      * left; reflexivity.
      * rewrite (N eq_refl) in E. rewrite E. symmetry. apply run_callback_loop.
Qed.
Print Assumptions C05_small.

(** Full statement: the same for every collection of rectangles without NaN,
    indexed or not.  It is false of the code (see the [_refuted] theorems below).
    Proved for the index the constructors build: coordinates are 0 or have a
    magnitude between 2^-125 and the largest float. *)
Theorem C05_indexed_partial :
  forall gs t f c x mix q,
    proper_rect q -> (forall g, In g gs -> proper_rect (tg_geom_rect g) /\ rect32 (tg_geom_rect g)) ->
    multi_inflate (map tg_geom_rect gs) = Some mix ->
    exists l, the_children gs q l /\
      forall A (iter : A -> option geom -> nat -> bool * A) st,
        tg_geom_search (Some (GGMulti t f (Some gs) c x)) mix q iter st = report gs iter l st.
Proof.
  intros gs t f c x mix q Q G E.
  assert (F : Forall rect32 (map tg_geom_rect gs)).
  { apply Forall_forall. intros r I. apply in_map_iff in I. destruct I as (g & <- & I). apply G; auto. }
  assert (OK : Forall rect_ok (map tg_geom_rect gs)).
  { apply Forall_forall. intros r I. apply in_map_iff in I. destruct I as (g & <- & I).
    apply rectangle_ok_iff. apply (G g I). }
  assert (X : exists order, Permutation order (seq 0 (length gs)) /\
    (mix = None /\ order = seq 0 (length gs) \/
     (64 <= length gs)%nat /\ mix = Some (order, multi_levels (map tg_geom_rect gs) order))).
  { unfold multi_inflate in E. rewrite map_length in E. destruct (multi_spread * 2 <=? length gs)%nat eqn:L.
    - destruct (multi_order _ _) as [order|] eqn:O; [|discriminate]. injection E as <-.
      destruct (multi_order_spec _ _ _ O) as (hs & _ & _ & P & _). rewrite map_length in P.
      exists order. split; [exact P|]. right. unfold multi_spread in L. split; [lia|reflexivity].
    - injection E as <-. eauto. }
  destruct X as (order & P & X).
  exists (filter (fun i => tg_rect_intersects_rect (tg_geom_rect (nth i gs None)) q) order).
  split; [apply filter_children; auto; apply G|].
  intros A iter st.
  destruct X as [[-> ->]|[L ->]].
  - destruct (geom_search_scan gs t f c x None q iter st) as (order & P' & N & _ & E'); auto.
    { apply rectangle_ok_iff, Q. }
    rewrite (N eq_refl) in E'. rewrite E'. symmetry. apply run_callback_loop.
  - rewrite (geom_search_order gs t f c x order q iter st) by (first [assumption | apply rectangle_ok_iff, Q]).
    symmetry. apply run_callback_loop.
Qed.
Print Assumptions C05_indexed_partial.

(** The same whatever order the sort gave the children (the C library leaves the
    order of children with equal keys open). *)
Theorem C05_any_order_partial :
  forall gs t f c x order q,
    proper_rect q -> (forall g, In g gs -> proper_rect (tg_geom_rect g) /\ rect32 (tg_geom_rect g)) ->
    (64 <= length gs)%nat -> Permutation order (seq 0 (length gs)) ->
    exists l, the_children gs q l /\
      forall A (iter : A -> option geom -> nat -> bool * A) st,
        tg_geom_search (Some (GGMulti t f (Some gs) c x))
          (Some (order, multi_levels (map tg_geom_rect gs) order)) q iter st = report gs iter l st.
Proof.
  intros gs t f c x order q Q G L P.
  exists (filter (fun i => tg_rect_intersects_rect (tg_geom_rect (nth i gs None)) q) order).
  split; [apply filter_children; auto; apply G|].
  intros A iter st. rewrite geom_search_order; [symmetry; apply run_callback_loop| | | | |]; auto.
  - apply rectangle_ok_iff, Q.
  - apply Forall_forall. intros r I. apply in_map_iff in I. destruct I as (g & <- & I).
    apply rectangle_ok_iff. apply (G g I).
  - apply Forall_forall. intros r I. apply in_map_iff in I. destruct I as (g & <- & I). apply G; auto.
Qed.
Print Assumptions C05_any_order_partial.

(** a grid of 80 points, a callback that collects the numbers *)
Definition ex_grid : list (option geom) :=
  flat_map (fun y => map (fun x => Some (GPoint fl0 (P x y))) (zs 0 10)) (zs 0 8).
Definition collect (st : list nat) (_ : option geom) (i : nat) : bool * list nat := (true, i :: st).
Definition ex_query : rect := Rect (P 2 3) (P 4 4).

Lemma proper_dec r : f_wf (px (rmin r)) && f_wf (py (rmin r)) && f_wf (px (rmax r)) && f_wf (py (rmax r)) &&
   fle (px (rmin r)) (px (rmax r)) && fle (py (rmin r)) (py (rmax r)) &&
   negb (f_isnan (px (rmin r)) || f_isnan (py (rmin r)) || f_isnan (px (rmax r)) || f_isnan (py (rmax r))) = true ->
  proper_rect r.
Proof.
  intros H. rewrite !andb_true_iff, negb_true_iff, !orb_false_iff in H.
  destruct H as ((((((A & B) & C) & D) & E) & F) & (((G & I) & J) & K)).
  split; [|split; auto]. apply rectangle_ok_iff. repeat split; auto.
Qed.
Definition properb (r : rect) : bool :=
  f_wf (px (rmin r)) && f_wf (py (rmin r)) && f_wf (px (rmax r)) && f_wf (py (rmax r)) &&
   fle (px (rmin r)) (px (rmax r)) && fle (py (rmin r)) (py (rmax r)) &&
   negb (f_isnan (px (rmin r)) || f_isnan (py (rmin r)) || f_isnan (px (rmax r)) || f_isnan (py (rmax r))).
Lemma all_proper gs : forallb (fun g => properb (tg_geom_rect g)) gs = true ->
  forall g, In g gs -> proper_rect (tg_geom_rect g).
Proof. intros H g I. rewrite forallb_forall in H. apply proper_dec. apply (H g I). Qed.

Example C05_example :
  proper_rect ex_query /\
  (forall g, In g ex_grid -> proper_rect (tg_geom_rect g) /\ rect32 (tg_geom_rect g)) /\
  exists mix, multi_inflate (map tg_geom_rect ex_grid) = Some (Some mix) /\
    snd (tg_geom_search (Some (GGMulti MPoints fl0 (Some ex_grid) [] None)) (Some mix) ex_query collect []) =
      [44; 43; 42; 32; 33; 34]%nat.
Proof.
  split; [apply proper_dec; vm_compute; reflexivity|]. split.
  - intros g I. split; [revert g I; apply all_proper; vm_compute; reflexivity|].
    unfold ex_grid in I. apply in_flat_map in I. destruct I as (y & Iy & I). apply in_map_iff in I.
    destruct I as (x & <- & Ix). unfold zs in Ix, Iy. apply in_map_iff in Ix, Iy.
    destruct Ix as (i & <- & Hi), Iy as (j & <- & Hj). apply in_seq in Hi, Hj.
    unfold tg_geom_rect, rect_of_geom, tg_point_rect, P. repeat split; cbn [px py rmin rmax]; apply f32_range_Z; lia.
  - assert (E : match multi_inflate (map tg_geom_rect ex_grid) with
               | Some (Some mix) => snd (tg_geom_search (Some (GGMulti MPoints fl0 (Some ex_grid) [] None)) (Some mix) ex_query collect [])
               | _ => [] end = [44; 43; 42; 32; 33; 34]%nat) by (vm_compute; reflexivity).
    revert E. generalize (multi_inflate (map tg_geom_rect ex_grid)). intros [[mix|]|]; [|discriminate|discriminate].
    intros E. exists mix. split; [reflexivity|exact E].
Qed.

(** Refuted: 80 points with coordinates around 1e300 (C: multi_index_search
    compares the query with boxes whose corners became infinite as floats); the
    query covers all of them and finds nothing. *)
Definition huge (z : Z) : f64 := fmul (f_of_Z z) 9103000000000000000%Z.
Definition ex_huge : list (option geom) :=
  map (fun i => Some (GPoint fl0 (Pt (huge (i + 1)) (huge (i + 1))))) (zs 0 80).
Lemma search_of gs q :
  match multi_inflate (map tg_geom_rect gs) with
  | Some mix => match tg_geom_search (Some (GGMulti MPoints fl0 (Some gs) [] None)) mix q collect [] with
                | (true, []) => true | _ => false end
  | None => false end = true ->
  exists mix, multi_inflate (map tg_geom_rect gs) = Some mix /\
    tg_geom_search (Some (GGMulti MPoints fl0 (Some gs) [] None)) mix q collect [] = (true, []).
Proof.
  destruct (multi_inflate (map tg_geom_rect gs)) as [mix|]; [|discriminate]. intros H. exists mix. split; [reflexivity|].
  destruct (tg_geom_search _ mix q collect []) as [[|] [|]]; try discriminate. reflexivity.
Qed.
Theorem C05_huge_refuted :
  exists gs mix q,
    (forall g, In g gs -> proper_rect (tg_geom_rect g)) /\ proper_rect q /\
    multi_inflate (map tg_geom_rect gs) = Some mix /\
    (forall i, (i < length gs)%nat -> rects_meet (tg_geom_rect (nth i gs None)) q) /\
    (length gs > 0)%nat /\
    tg_geom_search (Some (GGMulti MPoints fl0 (Some gs) [] None)) mix q collect [] = (true, []).
Proof.
  destruct (search_of ex_huge (Rect (Pt (huge 1) (huge 1)) (Pt (huge 90) (huge 90)))) as (mix & EM & ES); [vm_compute; reflexivity|].
  exists ex_huge, mix. exists (Rect (Pt (huge 1) (huge 1)) (Pt (huge 90) (huge 90))).
  assert (G : forall g, In g ex_huge -> proper_rect (tg_geom_rect g)) by (apply all_proper; vm_compute; reflexivity).
  assert (Q : proper_rect (Rect (Pt (huge 1) (huge 1)) (Pt (huge 90) (huge 90)))) by (apply proper_dec; vm_compute; reflexivity).
  split; [exact G|]. split; [exact Q|]. split; [exact EM|]. split.
  - intros i Hi. assert (I : In (nth i ex_huge None) ex_huge) by (apply nth_In; auto).
    apply meet_iff; auto.
    assert (B : forallb (fun g => tg_rect_intersects_rect (tg_geom_rect g) (Rect (Pt (huge 1) (huge 1)) (Pt (huge 90) (huge 90)))) ex_huge = true)
      by (vm_compute; reflexivity).
    rewrite forallb_forall in B. apply B; auto.
  - split; [vm_compute; lia|]. exact ES.
Qed.
Print Assumptions C05_huge_refuted.

(** Refuted: 64 points between 2^-159 and 2^-153, below the smallest float; a
    query that covers all but reaches neither 0 nor a float finds nothing *)
Definition tiny (z : Z) : f64 := fmul (f_of_Z z) 3891110078048108544%Z.
Definition ex_tiny : list (option geom) :=
  map (fun i => Some (GPoint fl0 (Pt (tiny (i + 1)) (tiny (i + 1))))) (zs 0 64).
Theorem C05_tiny_refuted :
  exists gs mix q,
    (forall g, In g gs -> proper_rect (tg_geom_rect g)) /\ proper_rect q /\
    multi_inflate (map tg_geom_rect gs) = Some mix /\
    (exists i, (i < length gs)%nat /\ rects_meet (tg_geom_rect (nth i gs None)) q) /\
    tg_geom_search (Some (GGMulti MPoints fl0 (Some gs) [] None)) mix q collect [] = (true, []).
Proof.
  destruct (search_of ex_tiny (Rect (Pt (tiny 1) (tiny 1)) (Pt (tiny 90) (tiny 90)))) as (mix & EM & ES); [vm_compute; reflexivity|].
  exists ex_tiny, mix. exists (Rect (Pt (tiny 1) (tiny 1)) (Pt (tiny 90) (tiny 90))).
  assert (G : forall g, In g ex_tiny -> proper_rect (tg_geom_rect g)) by (apply all_proper; vm_compute; reflexivity).
  assert (Q : proper_rect (Rect (Pt (tiny 1) (tiny 1)) (Pt (tiny 90) (tiny 90)))) by (apply proper_dec; vm_compute; reflexivity).
  split; [exact G|]. split; [exact Q|]. split; [exact EM|]. split.
  - exists 0%nat. split; [vm_compute; lia|].
    apply meet_iff; [apply G, nth_In; vm_compute; lia|exact Q|]. vm_compute. reflexivity.
  - exact ES.
Qed.
Print Assumptions C05_tiny_refuted.

(** ** C39 *)

(** the curve number of a cell is a 32-bit number and belongs to no other cell *)
Theorem C39_cells :
  forall x y, (0 <= x < 2 ^ 16)%Z -> (0 <= y < 2 ^ 16)%Z ->
    (0 <= hilbert_xy_to_index x y < 2 ^ 32)%Z /\
    forall x' y', (0 <= x' < 2 ^ 16)%Z -> (0 <= y' < 2 ^ 16)%Z ->
      hilbert_xy_to_index x y = hilbert_xy_to_index x' y' -> x = x' /\ y = y'.
Proof.
  intros x y Hx Hy. split; [apply hilbert_range; auto|].
  intros x' y' Hx' Hy' E. apply (hilbert_injective x y x' y'); auto.
Qed.
Print Assumptions C39_cells.

Example C39_cells_example :
  map (fun p => hilbert_xy_to_index (fst p) (snd p))
      [(0, 0); (1, 0); (1, 1); (0, 1); (65535, 0); (12345, 54321)]%Z =
  [0; 1; 2; 3; 4294967295; 1555040834]%Z.
Proof. vm_compute. reflexivity. Qed.

(** the order built for the index has every child exactly once, in ascending
    order of the curve numbers of the centres *)
Theorem C39_order :
  forall rs mr order, multi_order rs mr = Some order ->
    Permutation order (seq 0 (length rs)) /\
    (forall i, (i < length rs)%nat -> count_occ Nat.eq_dec order i = 1%nat) /\
    exists hs, length hs = length order /\ ascending hs /\
      forall k, (k < length order)%nat ->
        tg_point_hilbert (tg_rect_center (nth (nth k order 0%nat) rs rect0)) mr = Some (nth k hs 0%Z).
Proof.
  intros rs mr order E. destruct (multi_order_spec _ _ _ E) as (hs & <- & S & P & H).
  split; [exact P|]. split.
  - intros i Hi. rewrite (Permutation_count_occ Nat.eq_dec) in P. rewrite P.
    apply NoDup_count_occ'; [apply seq_NoDup|apply in_seq; lia].
  - exists (map fst hs). rewrite !map_length. split; [reflexivity|]. split; [exact S|].
    intros k Hk. assert (I : In (nth k hs (0%Z, 0%nat)) hs) by (apply nth_In; auto).
    rewrite (nth_indep _ 0%nat (snd (0%Z, 0%nat))) by (rewrite map_length; auto).
    rewrite (nth_indep _ 0%Z (fst (0%Z, 0%nat))) by (rewrite map_length; auto).
    rewrite !map_nth. apply H. destruct (nth k hs (0%Z, 0%nat)); exact I.
Qed.
Print Assumptions C39_order.

(** Building the index is defined for coordinates in the range of normal floats
    when the rectangles are not all on one vertical or one horizontal line *)
Theorem C39_defined_partial :
  forall rs, (forall r, In r rs -> proper_rect r /\ rect32 r) ->
    (exists a b, In a rs /\ In b rs /\ flt (px (rmin a)) (px (rmax b)) = true) ->
    (exists a b, In a rs /\ In b rs /\ flt (py (rmin a)) (py (rmax b)) = true) ->
    exists mix, multi_inflate rs = Some mix /\
      ((64 <= length rs)%nat -> exists order, mix = Some (order, multi_levels rs order) /\
         Permutation order (seq 0 (length rs))).
Proof.
  intros rs H X Y.
  assert (N : forall r, In r rs -> rect_nn r) by (intros r I; apply rect_ok_nn, rectangle_ok_iff, (H r I)).
  destruct (multi_inflate_ok rs) as [mix E].
  - apply Forall_forall. intros r I. apply H; auto.
  - intros r I. apply (ordered_key r (N r I)). apply (H r I).
  - destruct X as (a & b & Ia & Ib & L). exists a, b. split; auto. split; auto.
    rewrite flt_key in L by (apply N; auto). lia.
  - destruct Y as (a & b & Ia & Ib & L). exists a, b. split; auto. split; auto.
    rewrite flt_key in L by (apply N; auto). lia.
  - exists mix. split; [exact E|]. intros L. unfold multi_inflate in E.
    replace (multi_spread * 2 <=? length rs)%nat with true in E by (unfold multi_spread; lia).
    destruct (multi_order rs (multi_rect rs)) as [order|] eqn:O; [|discriminate]. injection E as <-.
    exists order. split; [reflexivity|]. apply multi_order_spec in O. destruct O as (hs & _ & _ & P & _). exact P.
Qed.
Print Assumptions C39_defined_partial.

Example C39_example :
  (exists mix, multi_inflate (map tg_geom_rect ex_grid) = Some (Some mix) /\
     firstn 6 (fst mix) = [0; 1; 10; 11; 12; 2]%nat) /\
  In (Rect (P 0 0) (P 0 0)) (map tg_geom_rect ex_grid) /\ In (Rect (P 1 1) (P 1 1)) (map tg_geom_rect ex_grid) /\
  flt (f_of_Z 0) (f_of_Z 1) = true.
Proof.
  split.
  { assert (E : match multi_inflate (map tg_geom_rect ex_grid) with Some (Some mix) => firstn 6 (fst mix) | _ => [] end =
      [0; 1; 10; 11; 12; 2]%nat) by (vm_compute; reflexivity).
    revert E. generalize (multi_inflate (map tg_geom_rect ex_grid)). intros [[mix|]|]; [|discriminate|discriminate].
    intros E. exists mix. split; [reflexivity|exact E]. }
  split; [|split; [|vm_compute; reflexivity]].
  - left. reflexivity.
  - change (In (tg_geom_rect (nth 11 ex_grid None)) (map tg_geom_rect ex_grid)). apply in_map, nth_In. vm_compute. lia.
Qed.

(** Refuted in general: 64 points on a vertical line have a rectangle of width 0,
    and tg_point_hilbert converts 0/0 to an unsigned integer, which is undefined
    in C *)
Definition ex_vertical : list (option geom) := map (fun i => Some (GPoint fl0 (P 5 i))) (zs 0 64).
Theorem C39_vertical_refuted :
  exists gs, (forall g, In g gs -> proper_rect (tg_geom_rect g)) /\
    multi_inflate (map tg_geom_rect gs) = None.
Proof.
  exists ex_vertical. split; [apply all_proper; vm_compute; reflexivity|]. vm_compute. reflexivity.
Qed.
Print Assumptions C39_vertical_refuted.
