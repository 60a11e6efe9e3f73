(** * C55, C56: allocations hold what is written into them; memsize *)

From Coq Require Import ZArith Bool List Lia ZifyBool PeanoNat.
From Verif Require Import F64 Geo Series SeriesFacts SearchFacts IndexFacts Geom GeomFacts MultiIx MultiFacts Layout
  LayoutFacts SeriesExamples.
Import ListNotations.
Local Open Scope Z_scope.

(** ** Specification *)

(** any compiler: sizes are not negative and the struct with its first five
    points is at least as large as the struct *)
Definition abi_ok (a : abi) : Prop :=
  0 <= sz_point a /\ 0 <= off_points a /\ 0 <= sz_ring a <= off_points a + 5 * sz_point a /\
  0 <= sz_index a /\ 0 <= sz_level a /\ 0 <= sz_ixrect a /\
  0 <= sz_ystripes a /\ 0 <= sz_ystripe a /\ 0 <= sz_int a.

Definition inside (size : Z) (b : bytes_at) : Prop := 0 <= fst b /\ 0 <= snd b /\ fst b + snd b <= size.
Definition apart (b c : bytes_at) : Prop := fst b + snd b <= fst c \/ fst c + snd c <= fst b.

(** ** One block for a ring or line and its index *)
Lemma index_writes_ok a at_ s n : abi_ok a -> 0 <= at_ ->
  let ws := index_writes a at_ s n in
  Forall (fun b => at_ <= fst b /\ 0 <= snd b /\ fst b + snd b <= at_ + calc_index_size a s n) ws /\
  ForallOrdPairs (fun b c => fst b + snd b <= fst c) ws.
Proof.
  intros (P1 & P2 & P3 & P4 & P5 & P6 & _) H0 ws. unfold ws, index_writes, fill_index_struct. cbv zeta.
  set (m := (calc_num_levels s n - 1)%nat). set (keys := map _ _). set (np := sz_index a + Z.of_nat m * sz_level a).
  assert (LEN : length (fill_levels a np keys) = m).
  { rewrite <- (map_length fst), fill_levels_fst. unfold keys. rewrite map_length, seq_length. reflexivity. }
  rewrite LEN.
  assert (M : forall l x, x <= fold_left (fun size k => size + Z.of_nat k * sz_ixrect a) l x).
  { induction l; intros; cbn [fold_left]; [lia|]. eapply Z.le_trans; [|apply IHl]. nia. }
  assert (NP : 0 <= np) by (unfold np; nia).
  assert (SZ : fold_left (fun size k => size + Z.of_nat k * sz_ixrect a) keys np <= calc_index_size a s n).
  { rewrite index_size_raw. cbv zeta. fold m. fold keys. fold np. apply aligned_bounds.
    eapply Z.le_trans; [exact NP|]. apply M. }
  pose proof (M keys np) as M1.
  split.
  - constructor; [cbn [fst snd]; unfold np in *; nia|]. constructor; [cbn [fst snd]; unfold np in *; nia|].
    apply Forall_forall. intros b Hb. apply in_map_iff in Hb. destruct Hb as ((k & o) & <- & Hi).
    apply fill_levels_in in Hi; auto. cbn [fst snd]. nia.
  - constructor; [|constructor].
    + constructor; [cbn [fst snd]; lia|]. apply Forall_forall. intros b Hb. apply in_map_iff in Hb.
      destruct Hb as ((k & o) & <- & Hi). apply fill_levels_in in Hi; auto. cbn [fst snd]. unfold np in *. nia.
    + apply Forall_forall. intros b Hb. apply in_map_iff in Hb.
      destruct Hb as ((k & o) & <- & Hi). apply fill_levels_in in Hi; auto. cbn [fst snd]. unfold np in *. nia.
    + apply fill_levels_apart with (at_ := at_); auto.
Qed.

Lemma ordered_apart l : ForallOrdPairs (fun b c : bytes_at => fst b + snd b <= fst c) l -> ForallOrdPairs apart l.
Proof.
  induction 1; constructor; auto. eapply Forall_impl; [|eassumption]. intros c Hc. left. exact Hc.
Qed.

(** Whatever the points are, every byte that series_new writes lies in the
    block it allocated and no two parts overlap: the struct (also the memset of
    tg.c:2187), the points with the closing one, the index, its levels and each
    level's rectangles.  The levels have exactly the sizes that their
    rectangles need, and every segment's end point is one of the points. *)
Theorem C55_series a ps closed kind s r :
  abi_ok a -> (2 <= s)%nat -> series_new ps closed kind s = Some r ->
  Forall (inside (series_alloc a r)) ((0, sz_ring a) :: series_writes a r) /\
  ForallOrdPairs apart (series_writes a r) /\
  length (r_points r) = S (r_npoints r) /\ (r_nsegs r <= r_npoints r)%nat /\
  series_size a r mod 8 = 0 /\
  (forall ix, r_index r = Some ix ->
     map fst (fill_index_struct a (ix_spread ix) (r_nsegs r)) = map (@length _) (ix_levels ix)) /\
  series_alloc a r = tg_ring_memsize a (Some r)
     - match r_ystripes r with Some y => ystripes_memsz a y | None => 0 end.
Proof.
  intros A S2 E. pose proof A as (P1 & P2 & P3 & P4 & P5 & P6 & _).
  pose proof (series_new_fields _ _ _ _ _ E) as F. cbv zeta in F.
  destruct F as (_ & NP & NS & PTS & _).
  assert (SS : off_points a + sz_point a * (if Z.of_nat (r_npoints r) + 1 <? 5 then 5 else Z.of_nat (r_npoints r) + 1)
      <= series_size a r /\ series_size a r mod 8 = 0).
  { unfold series_size, calc_series_size. cbv zeta. split; apply aligned_bounds; destruct (_ <? 5); nia. }
  destruct SS as [SS AL].
  assert (HD : off_points a + sz_point a * (Z.of_nat (r_npoints r) + 1) <= series_size a r /\
               off_points a + 5 * sz_point a <= series_size a r).
  { destruct (Z.of_nat (r_npoints r) + 1 <? 5) eqn:Q; nia. }
  destruct HD as [HD1 HD2].
  assert (W : Forall (inside (series_alloc a r)) (series_writes a r) /\
              ForallOrdPairs (fun b c : bytes_at => fst b + snd b <= fst c) (series_writes a r) /\ 0 <= series_ixsize a r).
  { unfold series_writes, series_alloc, series_ixsize. destruct (r_index r) as [ix|].
    - destruct (index_writes_ok a (series_size a r) (ix_spread ix) (r_nsegs r) A ltac:(nia)) as [W1 W2].
      cbv zeta in W1, W2. set (ws := index_writes _ _ _ _) in *.
      assert (PI : 0 <= calc_index_size a (ix_spread ix) (r_nsegs r)).
      { unfold ws, index_writes in W1. cbv zeta in W1. apply Forall_inv in W1. cbn [fst snd] in W1. lia. }
      split; [|split; [|exact PI]].
      + constructor; [unfold inside; cbn [fst snd]; nia|]. constructor; [unfold inside; cbn [fst snd]; nia|].
        eapply Forall_impl; [|exact W1]. intros b Hb. cbv beta in Hb. unfold inside. lia.
      + constructor; [|constructor; [|exact W2]].
        * constructor; [cbn [fst snd]; lia|]. eapply Forall_impl; [|exact W1]. intros b Hb. cbv beta in Hb. cbn [fst snd]. nia.
        * eapply Forall_impl; [|exact W1]. intros b Hb. cbv beta in Hb. cbn [fst snd]. lia.
    - split; [|split; [|lia]].
      + constructor; [unfold inside; cbn [fst snd]; nia|]. constructor; [unfold inside; cbn [fst snd]; nia|]. constructor.
      + constructor; [|constructor; [|constructor]]; constructor; auto. cbn [fst snd]. lia. }
  destruct W as (W1 & W2 & W3).
  split; [|split; [|split; [|split; [|split; [|split]]]]].
  - constructor; auto. unfold inside. cbn [fst snd]. unfold series_alloc. lia.
  - apply ordered_apart; auto.
  - rewrite PTS. unfold ringpts. rewrite app_length, NP. cbn. lia.
  - rewrite NS, NP. unfold num_segments. destruct closed.
    + destruct (length ps <? 3)%nat; [lia|]. destruct (pteq _ _); lia.
    + destruct (length ps <? 2)%nat; lia.
  - exact AL.
  - intros ix IX. rewrite (levels_lengths _ _ _ _ _ _ E S2 IX). unfold fill_index_struct. cbv zeta.
    rewrite !fill_levels_fst. reflexivity.
  - unfold series_alloc, series_ixsize, tg_ring_memsize, ring_alloc_size. destruct (r_index r); unfold series_size; lia.
Qed.
Print Assumptions C55_series.

(** ** The index of a multi geometry *)
Theorem C55_multi a rs order :
  abi_ok a -> (2 * multi_spread <= length rs)%nat -> length order = length rs ->
  let ix := multi_levels rs order in
  Forall (inside (calc_index_size a multi_spread (length rs))) (index_writes a 0 multi_spread (length rs)) /\
  ForallOrdPairs apart (index_writes a 0 multi_spread (length rs)) /\
  map fst (fill_index_struct a multi_spread (length rs)) = map (@length _) (ix_levels ix).
Proof.
  intros A N O ix. destruct (index_writes_ok a 0 multi_spread (length rs) A ltac:(lia)) as [W1 W2]. cbv zeta in W1, W2.
  split; [|split].
  - eapply Forall_impl; [|exact W1]. intros b Hb. cbv beta in Hb. unfold inside. lia.
  - apply ordered_apart; auto.
  - unfold ix, multi_levels. cbn [ix_levels]. unfold fill_index_struct. cbv zeta. rewrite fill_levels_fst.
    set (n := length rs) in *. assert (S2 : (2 <= multi_spread)%nat) by (unfold multi_spread; lia).
    pose proof (calc_num_levels_ge2 multi_spread n S2 ltac:(lia)) as G.
    set (m := (calc_num_levels multi_spread n - 1)%nat) in *.
    set (lv := pack_level multi_spread (calc_num_keys multi_spread 1 n) (map (fun i => tg_rect_to_ixrect (nth i rs rect0)) order)).
    assert (LL : length lv = calc_num_keys multi_spread 1 n).
    { apply pack_length; auto.
      - intros Q. apply map_eq_nil in Q. subst order. cbn in O. lia.
      - rewrite map_length, O. apply keys1. }
    pose proof (pack_up_lengths multi_spread n S2 ltac:(lia) (m - 1) 1 lv LL) as SZ.
    pose proof (pack_up_length multi_spread n (m - 1) 1 lv) as BL.
    set (lvls := pack_up _ _ _ _ _) in *. clearbody lvls.
    assert (M : length lvls = m) by lia.
    assert (GEN : forall lvls p, sizes_ok_from multi_spread n (S p) lvls ->
      map (@length _) lvls = map (fun i => calc_num_keys multi_spread (length lvls - i + p) n) (seq 0 (length lvls))).
    { clear. induction lvls as [|h t IH]; intros p; cbn [sizes_ok_from length seq map]; auto.
      intros [A B]. f_equal.
      - rewrite A. f_equal. lia.
      - rewrite (IH p B). rewrite <- seq_shift, map_map. apply map_ext. intros i. f_equal. }
    rewrite (GEN lvls 0%nat SZ), M. apply map_ext. intros i. unfold level_keys. f_equal. lia.
Qed.
Print Assumptions C55_multi.

(** ** The y-stripes of a ring *)

Lemma opt_all_forall {A B} (f : A -> option B) (P : B -> Prop) : (forall x y, f x = Some y -> P y) ->
  forall l ys, Series.opt_all (map f l) = Some ys -> Forall P ys.
Proof.
  intros H. induction l as [|x l IH]; cbn; intros ys E.
  - injection E as <-. constructor.
  - destruct (f x) as [y|] eqn:Q; [|discriminate]. destruct (Series.opt_all (map f l)) as [zs|]; [|discriminate].
    injection E as <-. constructor; eauto.
Qed.

Lemma range_clamped rc ps n i p : ystripe_range rc ps n i = Some p -> 0 <= fst p /\ snd p < n.
Proof.
  unfold ystripe_range. generalize (ystripe_of rc n (fmin0 (py (pt_at ps i)) (py (pt_at ps (i + 1))))) as A.
  generalize (ystripe_of rc n (fmax0 (py (pt_at ps i)) (py (pt_at ps (i + 1))))) as B.
  intros [hi|] [lo|] Q; try discriminate. injection Q as <-. cbn [fst snd]. lia.
Qed.

(** Both passes stay inside their arrays whatever the allocator hands out, and
    the counted, packed arrays hold the segments of each stripe in order. *)
Theorem C55_ystripes a r y :
  abi_ok a -> process_ystripes r = Some y ->
  exists ranges,
    Series.opt_all (map (ystripe_range (r_rect r) (r_points r) (ys_n y)) (seq 0 (r_nsegs r))) = Some ranges /\
    forall fresh, (forall k, length (fresh k) = k) ->
    exists stripes mem, flat_ystripes (ys_n y) ranges fresh = Some (stripes, mem) /\
      map (stripe_ints mem) stripes = ys_stripes y /\
      Z.of_nat (length stripes) = ys_n y /\
      let mark := sz_ystripes a + ys_n y * sz_ystripe a in
      ystripes_memsz a y = mark + Z.of_nat (length mem) * sz_int a /\
      Forall (inside (ystripes_memsz a y))
        ((0, mark) :: map (fun s => (mark + snd s * sz_int a, fst s * sz_int a)) stripes).
Proof.
  intros (_ & _ & _ & _ & _ & _ & P1 & P2 & P3). unfold process_ystripes.
  destruct (f_to_int _) as [n0|]; [|discriminate]. set (n := Z.max n0 32).
  destruct (Series.opt_all _) as [ranges|] eqn:E; [|discriminate]. intros [= <-]. cbn [ys_n ys_stripes].
  exists ranges. split; [exact E|]. intros fresh FR.
  assert (F : Forall (fun r => 0 <= fst r /\ snd r < n) ranges).
  { eapply opt_all_forall; [|exact E]. intros i p Q. exact (range_clamped _ _ _ _ _ Q). }
  destruct (flat_ystripes_spec n ranges fresh ltac:(lia) F FR) as (st & mem & E1 & E2 & E3 & E4).
  exists st, mem.
  assert (LS : Z.of_nat (length st) = n).
  { rewrite <- (map_length (stripe_ints mem)), E2, map_length, seq_length. lia. }
  split; [exact E1|]. split; [exact E2|]. split; [exact LS|]. cbv zeta.
  assert (MS : ystripes_memsz a (Ystripes n (map (fun j => ystripe_fill ranges (Z.of_nat j)) (seq 0 (Z.to_nat n))))
     = sz_ystripes a + n * sz_ystripe a + Z.of_nat (length mem) * sz_int a).
  { unfold ystripes_memsz. cbn [ys_stripes]. rewrite <- E3, map_length, seq_length. lia. }
  split; [exact MS|]. rewrite MS. constructor.
  - unfold inside. cbn [fst snd]. nia.
  - apply Forall_forall. intros b Hb. apply in_map_iff in Hb. destruct Hb as (s & <- & Hs).
    rewrite Forall_forall in E4. specialize (E4 s Hs). unfold inside. cbn [fst snd]. nia.
Qed.
Print Assumptions C55_ystripes.

(** a ring of 33 points with spread 4: three levels, 8 + 2 rectangles and more *)
Definition ex_ring4 : option ring := series_new ex_square true IxNatural 4.
Example C55_example : abi_ok lp64 /\ (2 <= 4)%nat /\
  match ex_ring4 with
  | Some r => series_writes lp64 r =
      [(0, 80); (80, 544); (624, 16); (640, 32); (672, 32); (704, 128)] /\ series_alloc lp64 r = 832
  | None => False
  end.
Proof. split; [unfold abi_ok; cbn; lia|]. split; [lia|]. vm_compute. auto. Qed.

Example C55_multi_example : (2 * multi_spread <= length (repeat rect0 70))%nat /\
  index_writes lp64 0 multi_spread 70 = [(0, 16); (16, 16); (32, 48)] /\ calc_index_size lp64 multi_spread 70 = 80.
Proof. split; [vm_compute; repeat constructor|]. vm_compute. auto. Qed.

(** ** memsize *)

(** what the constructors ask the allocator for: rings and lines (tg.c:2185,
    1711), polygons with holes (3765, 3776: an array of pointers), geometries
    (4286, 4310), multis (4424, 4430, 4443-4444), coordinates (4778) and the
    string with its NUL (15570, 7776) *)
Definition asked_ring (a : abi) (r : ring) : list Z :=
  series_alloc a r :: match r_ystripes r with Some y => [ystripes_memsz a y] | None => [] end.
Definition asked_hole (a : abi) (h : option ring) : list Z :=
  match h with Some r => asked_ring a r | None => [] end.
Definition asked_poly (a : abi) (p : poly) : list Z :=
  match p with
  | PRing r => asked_ring a r
  | PPoly e hs => sz_poly a :: asked_ring a e ++ Z.of_nat (length hs) * sz_ptr a :: flat_map (asked_hole a) hs
  end.
Definition asked_tail (a : abi) (coords : list f64) (xj : option (list Z)) : list Z :=
  [Z.of_nat (length coords) * sz_double a] ++
  match xj with Some s => [Z.of_nat (length s) + 1] | None => [] end.
Fixpoint asked (a : abi) (g : geom) : list Z :=
  match g with
  | GPoint _ _ => [sz_boxed a]
  | GLine _ l => asked_ring a l
  | GPoly _ p => asked_poly a p
  | GGPoint _ _ _ _ xj => sz_geom a :: asked_tail a [] xj
  | GGLine _ l c xj => sz_geom a :: asked_hole a l ++ asked_tail a c xj
  | GGPoly _ p c xj => sz_geom a :: match p with Some p => asked_poly a p | None => [] end ++ asked_tail a c xj
  | GGMulti _ _ None c xj => sz_geom a :: asked_tail a c xj
  | GGMulti _ _ (Some gs) c xj =>
      let n := length gs in
      sz_geom a :: sz_multi a :: Z.of_nat n * sz_ptr a ::
      (if (2 * multi_spread <=? n)%nat then [calc_index_size a multi_spread n; Z.of_nat n * sz_int a] else []) ++
      flat_map (fun o => match o with Some g => asked a g | None => [] end) gs ++ asked_tail a c xj
  end.
Definition total (l : list Z) : Z := fold_right Z.add 0 l.

(** the holes of all polygons *)
Definition holes_of (p : poly) : Z := match p with PRing _ => 0 | PPoly _ hs => Z.of_nat (length hs) end.
Fixpoint holes_in (g : geom) : Z :=
  match g with
  | GPoly _ p | GGPoly _ (Some p) _ _ => holes_of p
  | GGMulti _ _ (Some gs) _ _ => total (map (fun o => match o with Some g => holes_in g | None => 0 end) gs)
  | _ => 0
  end.

Lemma total_app l1 l2 : total (l1 ++ l2) = total l1 + total l2.
Proof. induction l1; cbn [app]; unfold total in *; cbn [fold_right]; lia. Qed.
Lemma total_cons x l : total (x :: l) = x + total l.
Proof. reflexivity. Qed.
Lemma total_nil : total [] = 0.
Proof. reflexivity. Qed.

Lemma ring_memsize a r : tg_ring_memsize a (Some r) = total (asked_ring a r).
Proof.
  unfold tg_ring_memsize, asked_ring, ring_alloc_size, series_alloc, series_ixsize, series_size.
  destruct (r_index r), (r_ystripes r); unfold total; cbn [fold_right]; lia.
Qed.
Lemma hole_memsize a h : tg_ring_memsize a h = total (asked_hole a h).
Proof. destruct h; [apply ring_memsize|reflexivity]. Qed.

Lemma poly_memsize a p : tg_poly_memsize a (Some p) = total (asked_poly a p) + holes_of p * (sz_ring a - sz_ptr a).
Proof.
  destruct p as [r|e hs]; cbn [tg_poly_memsize asked_poly holes_of].
  - rewrite ring_memsize. lia.
  - assert (G : forall x, fold_left (fun size h => size + tg_ring_memsize a h) hs x = x + total (flat_map (asked_hole a) hs)).
    { induction hs as [|h hs IH]; intros x; cbn [fold_left flat_map]; [rewrite total_nil; lia|].
      rewrite IH, total_app, hole_memsize. lia. }
    rewrite G, total_cons, total_app, total_cons, ring_memsize. lia.
Qed.

Lemma tail_total a c xj : tail_memsize a c xj = total (asked_tail a c xj).
Proof. unfold tail_memsize, asked_tail. destruct xj; unfold total; cbn [app fold_right]; lia. Qed.

(** tg_geom_memsize is the number of bytes of the geometry, plus, for every
    hole, the difference between a struct tg_ring and a pointer *)
Theorem C56_memsize_partial a g : tg_geom_memsize a (Some g) = total (asked a g) + holes_in g * (sz_ring a - sz_ptr a).
Proof.
  unfold tg_geom_memsize.
  induction g as [f p|f l|f p|f p z m x|f l c x|f p c x|t f c x|t f gs c x H] using geom_ind_deep;
    cbn [geom_memsize asked holes_in].
  - unfold total; cbn [fold_right]. lia.
  - rewrite ring_memsize. lia.
  - apply poly_memsize.
  - rewrite total_cons, tail_total. lia.
  - rewrite total_cons, total_app, hole_memsize, tail_total. lia.
  - destruct p as [p|].
    + rewrite total_cons, total_app, poly_memsize, tail_total. lia.
    + cbn [tg_poly_memsize app]. rewrite total_cons, tail_total. lia.
  - rewrite total_cons, tail_total. lia.
  - cbv zeta. rewrite !total_cons, !total_app, tail_total.
    assert (G : forall l x, Forall (GeomFacts.opt_all (fun g => geom_memsize a g = total (asked a g) + holes_in g * (sz_ring a - sz_ptr a))) l ->
      fold_left Z.add (map (fun o => match o with Some g => geom_memsize a g | None => 0 end) l) x =
      x + total (flat_map (fun o => match o with Some g => asked a g | None => [] end) l) +
      total (map (fun o => match o with Some g => holes_in g | None => 0 end) l) * (sz_ring a - sz_ptr a)).
    { clear. induction l as [|o l IH]; intros x F; cbn [map fold_left flat_map].
      - unfold total; cbn [fold_right]. lia.
      - inversion F as [|? ? F1 F2]; subst. rewrite (IH _ F2), total_app, total_cons.
        destruct o as [g|]; cbn in F1; [rewrite F1|rewrite total_nil]; lia. }
    rewrite (G gs 0 H). destruct (2 * multi_spread <=? length gs)%nat; rewrite ?total_cons, ?total_nil; lia.
Qed.
Print Assumptions C56_memsize_partial.

(** ... which is too much for every polygon with holes: a square with one hole *)
Definition ex_holed : option geom :=
  match series_new [P 0 0; P 9 0; P 9 9; P 0 9; P 0 0] true IxNone 16,
        series_new [P 1 1; P 2 1; P 2 2; P 1 1] true IxNone 16 with
  | Some e, Some h => Some (GPoly fl0 (PPoly e [Some h]))
  | _, _ => None
  end.
Theorem C56_refuted : exists g, ex_holed = Some g /\ tg_geom_memsize lp64 (Some g) = total (asked lp64 g) + 72.
Proof. eexists. split; [vm_compute; reflexivity|]. vm_compute. reflexivity. Qed.
Print Assumptions C56_refuted.

Example C56_example : exists g, ex_holed = Some g /\ total (asked lp64 g) = 32 + 176 + 8 + 160 /\ holes_in g = 1.
Proof. eexists. split; [vm_compute; reflexivity|]. vm_compute. auto. Qed.

(** 33 points with y-stripes: 32 stripes, 86 entries *)
Example C55_ystripes_example : exists r y, series_new ex_square true IxYstripes 16 = Some r /\
  r_ystripes r = Some y /\ ys_n y = 32 /\ ystripes_memsz lp64 y = 16 + 32 * 16 + 86 * 4.
Proof.
  eexists. eexists. split; [vm_compute; reflexivity|]. split; [reflexivity|]. vm_compute. auto.
Qed.
