(** * C04: nearest segments *)

From Coq Require Import ZArith Bool List Permutation Sorted Lia.
From Verif Require Import F64 F64Order F32 Geo Series SeriesFacts RectFacts Search SpecGeo SpecFacts SpecRing RingApi
  Nearest SpecNearest NearestHeap NearestFacts SeriesExamples.
Import ListNotations.
Local Open Scope nat_scope.

(** Any series, any index, any callbacks, any allocator.  The rectangle
    callback must not exceed the distance of a segment filed below the
    rectangle in the index. *)
Theorem C04_nearest :
  forall ps closed kind spread r rdo sd D iter alloc,
    points_ok ps -> 2 <= spread -> series_new ps closed kind spread = Some r ->
    let segs := series_segments closed ps in
    (forall s, In s segs -> measures sd D s) ->
    (forall rd, rdo = Some rd -> forall k i,
       (0 <= k < tg_ring_index_num_levels (Some r))%Z ->
       (0 <= i < tg_ring_index_level_num_rects (Some r) k)%Z ->
       let w := spread ^ Z.to_nat (tg_ring_index_num_levels (Some r) - k) in
       bounds rd D (tg_ring_index_level_rect (Some r) k i)
         (fun s => exists j, Z.to_nat i * w <= j < (Z.to_nat i + 1) * w /\ nth_error segs j = Some s)) ->
    exists fuel0 ok out rest,
      (forall fuel, fuel0 <= fuel -> tg_ring_nearest_segment fuel r rdo sd iter alloc = NDone ok out) /\
      nearest_spec segs D iter alloc ok out rest.
Proof. exact nearest_series. Qed.
Print Assumptions C04_nearest.

(** The same with the condition of the property: the rectangle callback must
    not exceed the distance of a segment inside the rectangle.  This needs that
    the index covers the segments: closed rings and coordinates in the range of
    floats ([search_safe], [pt32]); the full statement has neither hypothesis. *)
Theorem C04_nearest_inside_partial :
  forall ps closed kind spread r rdo sd D iter alloc,
    points_ok ps -> 2 <= spread -> series_new ps closed kind spread = Some r ->
    search_safe ps closed kind spread -> (forall a, In a ps -> pt32 a) ->
    let segs := series_segments closed ps in
    (forall s, In s segs -> measures sd D s) ->
    (forall rd R s, rdo = Some rd -> rectangle_ok R -> In s segs -> inside R s ->
       bounds rd D R (fun s => In s segs /\ inside R s)) ->
    exists fuel0 ok out rest,
      (forall fuel, fuel0 <= fuel -> tg_ring_nearest_segment fuel r rdo sd iter alloc = NDone ok out) /\
      nearest_spec segs D iter alloc ok out rest.
Proof. exact nearest_series_inside. Qed.
Print Assumptions C04_nearest_inside_partial.

(** distance from far left: the smallest x.  The segment callback first gives
    the bound -1000 and asks to be called again. *)
Definition left_of (s : seg) : f64 := fmin0 (px (sa s)) (px (sb s)).
Definition ex_rd (R : rect) (m : Z) : f64 * Z := (px (rmin R), 0%Z).
Definition ex_sd (s : seg) (m : Z) : f64 * Z :=
  if (m =? 0)%Z then (f_of_Z (-1000), 7%Z) else (left_of s, 0%Z).
Definition ex_line : list pt :=
  [P 3 0; P 1 0; P 2 5; P 9 1; P 4 4; P 6 2; P 7 1; P 5 5; P 8 8; P 8 9].

Lemma ex_measures s : segment_ok s -> fle (f_of_Z (-1000)) (left_of s) = true -> measures ex_sd left_of s.
Proof.
  intros [[A _] [B _]] L. split.
  - unfold left_of, fmin0. destruct (flt _ _); auto.
  - eapply settles_more; [reflexivity|discriminate|exact L|].
    eapply settles_done; reflexivity.
Qed.
Lemma ex_bounds R (Q : seg -> Prop) : rectangle_ok R ->
  bounds ex_rd left_of R (fun s => Q s /\ inside R s).
Proof.
  intros [[A _] _]. eapply settles_done; [reflexivity|]. split; auto. intros s [_ [[I1 _] [I2 _]]].
  unfold left_of, fmin0. destruct (flt _ _); auto.
Qed.

Example C04_example :
  points_ok ex_line /\ search_safe ex_line false IxNatural 2 /\ (forall a, In a ex_line -> pt32 a) /\
  (forall s, In s (series_segments false ex_line) -> measures ex_sd left_of s) /\
  (forall R, rectangle_ok R -> bounds ex_rd left_of R (fun s => In s (series_segments false ex_line) /\ inside R s)) /\
  exists r, series_new ex_line false IxNatural 2 = Some r /\
    tg_ring_index_num_levels (Some r) = 3%Z /\
    match tg_ring_nearest_segment 100 r (Some ex_rd) ex_sd (fun out => length out <? 20) (fun _ => true) with
    | NDone true out => map snd out = [0; 1; 2; 3; 4; 6; 7; 5; 8] /\
        map (fun x => snd (fst x)) out = map f_of_Z [1; 1; 2; 4; 4; 5; 5; 6; 8]%Z
    | _ => False
    end /\
    match tg_ring_nearest_segment 100 r (Some ex_rd) ex_sd (fun out => length out <? 2) (fun _ => true) with
    | NDone true out => map snd out = [0; 1]
    | _ => False
    end.
Proof.
  assert (OK : points_ok ex_line) by (apply pts_okb_ok; vm_compute; reflexivity).
  split; auto. split. { left; reflexivity. }
  split. { intros a I. repeat (destruct I as [<-|I]; [split; apply f32_range_Z; lia|]). destruct I. }
  split. { intros s I. apply ex_measures; [eapply segs_ok; eauto|].
    cbn in I. repeat (destruct I as [<-|I]; [vm_compute; reflexivity|]). destruct I. }
  split. { intros R HR. apply ex_bounds; auto. }
  eexists. split; [vm_compute; reflexivity|]. split; [vm_compute; reflexivity|].
  split; [vm_compute; split; reflexivity|vm_compute; reflexivity].
Qed.

(** the queue outgrows its first 256 entries; without memory the call fails *)
Definition ex_long : list pt := map (fun i => P i 0) (zs 0 300).
Example C04_no_memory :
  exists r, series_new ex_long false IxNone 16 = Some r /\
    tg_ring_nearest_segment 1000 r (Some ex_rd) ex_sd (fun _ => true) (fun _ => false) = NDone false [] /\
    match tg_ring_nearest_segment 1000 r (Some ex_rd) ex_sd (fun _ => true) (fun k => k <? 1) with
    | NDone true out => map snd out = seq 0 299
    | _ => False
    end.
Proof. eexists. split; [vm_compute; reflexivity|]. split; vm_compute; reflexivity. Qed.

(** In an unclosed ring the last rectangle of the index does not cover the
    closing segment, which is delivered too late: the distances 0 and then 1, 2
    and 3 come before its 0. *)
Definition flat_sd (s : seg) (m : Z) : f64 * Z := (left_of s, 0%Z).
Definition ex_late : list pt := [P 0 0; P 1 9; P 2 9; P 3 9; P 7 7].
Theorem C04_refuted_unclosed :
  exists ps r,
    points_ok ps /\ (forall a, In a ps -> pt32 a) /\ series_new ps true IxNatural 2 = Some r /\
    (forall s, In s (series_segments true ps) -> measures flat_sd left_of s) /\
    (forall R, rectangle_ok R -> bounds ex_rd left_of R (fun s => In s (series_segments true ps) /\ inside R s)) /\
    match tg_ring_nearest_segment 100 r (Some ex_rd) flat_sd (fun _ => true) (fun _ => true) with
    | NDone ok out => ok = true /\ map snd out = [0; 1; 2; 3; 4] /\
        map (fun x => snd (fst x)) out = map f_of_Z [0; 1; 2; 3; 0]%Z
    | _ => False
    end.
Proof.
  assert (OK : points_ok ex_late) by (apply pts_okb_ok; vm_compute; reflexivity).
  exists ex_late. eexists. split; auto.
  split. { intros a I. repeat (destruct I as [<-|I]; [split; apply f32_range_Z; lia|]). destruct I. }
  split; [vm_compute; reflexivity|].
  split. { intros s I. destruct (segs_ok _ _ _ OK I) as [[A _] [B _]]. split.
    - unfold left_of, fmin0. destruct (flt _ _); auto.
    - eapply settles_done; reflexivity. }
  split. { intros R HR. apply ex_bounds; auto. }
  vm_compute. repeat split; reflexivity.
Qed.
Print Assumptions C04_refuted_unclosed.
