(** * Moving translates (C57) *)

From Coq Require Import ZArith Bool List Reals Lia Lra.
From Verif Require Import F64 Geo Series Search RingApi Geom Preds PredsGeom Move SpecGeo F64Real SpecPlane SpecRing SpecShape SpecMove.
From Verif Require Import SeriesFacts SearchFacts SeriesExamples SegExact ShapeBox Thm_Ring Thm_Preds Thm_Shapes MoveFacts.
Import ListNotations.
Local Open Scope R_scope.

(** ** Any doubles: each coordinate of each point of the moved ring or line is
    the rounded sum, in the same order.  Nothing is undefined unless the ring
    has y-stripes; the result is never NULL. *)
Theorem C57_points :
  forall e ps closed kind spread s dx dy,
    series_new ps closed kind spread = Some s ->
    let move := if closed then tg_ring_move else tg_line_move in
    move e None dx dy = Some None /\
    (r_ystripes s = None -> exists s', move e (Some s) dx dy = Some (Some s')) /\
    forall res, move e (Some s) dx dy = Some res ->
      exists s', res = Some s' /\ r_closed s' = closed /\
        tg_ring_num_points (Some s') = tg_ring_num_points (Some s) /\
        forall i p, (0 <= i < tg_ring_num_points (Some s))%Z -> tg_ring_point_at (Some s) i = Some p ->
          tg_ring_point_at (Some s') i = Some (Pt (fadd (px p) dx) (fadd (py p) dy)).
Proof.
  intros e ps closed kind spread s dx dy N move.
  assert (M : move e (Some s) dx dy =
    match series_new (moved dx dy ps) closed (move_kind s) (Z.to_nat (env_spread e)) with
    | Some r' => Some (Some r') | None => None end).
  { unfold move. destruct closed; exact (series_move_new e _ _ _ _ _ _ dx dy N). }
  split. { unfold move. destruct closed; reflexivity. }
  split.
  { intros Y. rewrite M.
    destruct (not_ystripes_some (moved dx dy ps) closed (move_kind s) (Z.to_nat (env_spread e))) as (s' & ->); [|eauto].
    left. unfold move_kind. rewrite Y. destruct (r_index s); discriminate. }
  intros res E. rewrite M in E. destruct (series_new (moved dx dy ps) _ _ _) as [s'|] eqn:N'; [|discriminate].
  injection E as <-. exists s'. split; [reflexivity|].
  apply series_new_fields in N, N'. cbv zeta in N, N'.
  destruct N as (_ & EN & _ & EP & _), N' as (C' & EN' & _ & EP' & _). split; [exact C'|].
  assert (LM : length (moved dx dy ps) = length ps) by (unfold moved; apply map_length).
  cbn [tg_ring_num_points tg_ring_point_at]. rewrite EN, EN', EP, EP', LM.
  split; [reflexivity|]. intros i p I.
  destruct ((i <? 0) || (Z.of_nat (length ps) <=? i))%Z eqn:B; [lia|]. unfold ringpts.
  rewrite !nth_error_app1 by lia. unfold moved. intros H.
  apply (map_nth_error (fun p => tg_point_move p dx dy)) in H. exact H.
Qed.
Print Assumptions C57_points.

(** ** Shapes moved by whole numbers: whichever way the moved geometries were
    made and indexed, intersects answers as before, and so do covers, contains
    and touches about points *)
Lemma shared_sh dx dy a b a' b' : shape_shifted dx dy a a' -> shape_shifted dx dy b b' ->
  ints (vertices a) -> ints (vertices b) -> ints (vertices a') -> ints (vertices b') ->
  (share_a_point a' b' <-> share_a_point a b).
Proof.
  intros SA SB IA IB IA' IB'. unfold share_a_point. split; intros (x & y & H & K).
  - exists (x - dx), (y - dy).
    rewrite <- (proj1 (shape_sh _ _ _ _ SA IA IA' _ _)), <- (proj1 (shape_sh _ _ _ _ SB IB IB' _ _)).
    replace (x - dx + dx) with x by ring. replace (y - dy + dy) with y by ring. auto.
  - exists (x + dx), (y + dy).
    rewrite (proj1 (shape_sh _ _ _ _ SA IA IA' _ _)), (proj1 (shape_sh _ _ _ _ SB IB IB' _ _)). auto.
Qed.

Theorem C57_shifted_partial :
  forall dx dy g a o b g' a' o' b',
    stands (vertices b) g a -> stands (vertices a) o b -> stands (vertices b') g' a' -> stands (vertices a') o' b' ->
    shape_shifted dx dy a a' -> shape_shifted dx dy b b' ->
    tg_geom_intersects g' o' = tg_geom_intersects g o /\
    forall p p', o = Some (GPoint fl0 p) -> o' = Some (GPoint fl0 p') ->
      tg_geom_covers g' o' = tg_geom_covers g o /\ tg_geom_contains g' o' = tg_geom_contains g o /\
      tg_geom_touches g' o' = tg_geom_touches g o.
Proof.
  intros dx dy g a o b g' a' o' b' S1 S2 S3 S4 HA HB.
  pose proof (stands_ints _ _ _ S1) as IA. pose proof (stands_ints _ _ _ S2) as IB.
  pose proof (stands_ints _ _ _ S3) as IA'. pose proof (stands_ints _ _ _ S4) as IB'.
  split.
  - destruct (C49_intersects_exact_partial _ _ _ _ S1 S2) as (v & -> & V).
    destruct (C49_intersects_exact_partial _ _ _ _ S3 S4) as (v' & -> & V').
    f_equal. apply eq_true_iff_eq. rewrite V, V'. apply (shared_sh dx dy); assumption.
  - intros p p' -> ->. inversion S2; subst. inversion S4; subst. cbn [vertices] in *.
    inversion HB as [? ? [X Y]| | | |]; subst.
    destruct (C50_points_exact g a p S1 ltac:(assumption)) as ((v1 & E1 & V1) & (v2 & E2 & V2) & (v3 & E3 & V3)).
    destruct (C50_points_exact g' a' p' S3 ltac:(assumption)) as ((w1 & F1 & W1) & (w2 & F2 & W2) & (w3 & F3 & W3)).
    rewrite E1, E2, E3, F1, F2, F3.
    destruct (shape_sh dx dy a a' HA IA IA' (xR p) (yR p)) as [P Q]. rewrite <- X, <- Y in P, Q.
    split; [|split]; f_equal; apply eq_true_iff_eq; rewrite ?V1, ?V2, ?V3, ?W1, ?W2, ?W3; tauto.
Qed.
Print Assumptions C57_shifted_partial.

(** ** The move functions: polygons, lines and points with integer coordinates *)

(** the geometry of a point, line or polygon moved by the API; [None] = NULL or
    undefined *)
Definition move_of (e : env) (dx dy : f64) (g : geom) : option geom :=
  match g with
  | GPoint f p => Some (GPoint f (tg_point_move p dx dy))
  | GLine f l => match tg_line_move e (Some l) dx dy with Some (Some l') => Some (GLine f l') | _ => None end
  | GPoly f q => match tg_poly_move e (Some q) dx dy with Some (Some q') => Some (GPoly f q') | _ => None end
  | _ => None
  end.

(** no y-stripes; no index when the closing point is left out *)
Definition plain_ring (ps : list pt) (r : ring) : Prop :=
  r_ystripes r = None /\ (explicitly_closed ps \/ r_index r = None).
Definition plain (g : geom) (a : shape) : Prop :=
  match g, a with
  | GPoint _ _, _ | GLine _ _, _ => True
  | GPoly _ (PRing r), SPoly ext _ => plain_ring ext r
  | GPoly _ (PPoly r hs), SPoly ext holes =>
      plain_ring ext r /\ Forall2 (fun ps h => forall r, h = Some r -> plain_ring ps r) holes hs
  | _, _ => False
  end.
(** the moved point keeps to integers up to 2^24 *)
Definition lands_within (dx dy : f64) (p : pt) : Prop :=
  Rabs (xR p + RV dx) <= 2 ^ 24 /\ Rabs (yR p + RV dy) <= 2 ^ 24.

Lemma holes_move dx dy e asked hs l : int_coord 26 dx -> int_coord 26 dy -> (2 <= env_spread e)%Z ->
  Forall2 (hole_stands asked) hs l -> Forall2 (fun ps h => forall r, h = Some r -> plain_ring ps r) hs l ->
  (forall p, In p (concat hs) -> lands_within dx dy p) ->
  exists l', move_holes e l dx dy = Some (Some l') /\ length l' = length l /\
    forall asked', Forall2 (hole_stands asked') (map (moved dx dy) hs) l'.
Proof.
  intros IX IY SP S. induction S as [|ps h hs l A B IH]; intros P L.
  - exists []. split; [reflexivity|]. split; [reflexivity|]. constructor.
  - inversion P; subst.
    destruct IH as (l' & M & LN & S'); [assumption|intros p H; apply L; cbn; apply in_or_app; now right|].
    destruct (hole_move_stands dx dy IX IY e asked ps h SP A) as (r' & MR & SR).
    { assumption. } { intros p H. apply L. cbn. apply in_or_app. now left. }
    exists (Some r' :: l'). cbn [move_holes]. rewrite MR, M. split; [reflexivity|].
    split; [cbn; congruence|]. intros asked'. constructor; auto.
Qed.

Lemma proper_sh dx dy ext hs ext' hs' : ints ext -> Forall ints hs -> ints ext' -> Forall ints hs' ->
  Forall2 (shifted dx dy) ext ext' -> Forall2 (Forall2 (shifted dx dy)) hs hs' ->
  poly_proper ext hs -> poly_proper ext' hs'.
Proof.
  intros I1 I2 I3 I4 F G H x y.
  assert (EX : x = x - dx + dx) by ring. assert (EY : y = y - dy + dy) by ring. rewrite EX, EY.
  generalize (x - dx) (y - dy). clear x y EX EY. intros x y B.
  assert (V : forall hs, Forall ints hs -> ints (concat hs)).
  { clear. induction 1; cbn; [intros ? []|]. intros q K. apply in_app_or in K. destruct K; auto. }
  apply (shape_sh dx dy (SPoly ext hs) (SPoly ext' hs')).
  - constructor; assumption.
  - cbn. intros q K. apply in_app_or in K. destruct K as [K|K]; [auto|exact (V _ I2 q K)].
  - cbn. intros q K. apply in_app_or in K. destruct K as [K|K]; [auto|exact (V _ I4 q K)].
  - apply H. destruct B as [B|(h' & K & B)].
    + left. now apply (border_sh dx dy ext ext').
    + right. clear - I2 I4 G K B. induction G as [|h k hs hs' A C IH]; [destruct K|].
      inversion I2; inversion I4; subst. destruct K as [->|K].
      * exists h. split; [now left|]. now apply (border_sh dx dy h h').
      * destruct IH as (h0 & P & Q); try assumption. exists h0. split; [now right|exact Q].
Qed.

Lemma move_stands e dx dy asked g a : int_coord 26 dx -> int_coord 26 dy -> (2 <= env_spread e)%Z ->
  stands asked (Some g) a -> plain g a -> (forall p, In p (vertices a) -> lands_within dx dy p) ->
  exists g' a', move_of e dx dy g = Some g' /\ shape_shifted (RV dx) (RV dy) a a' /\
    forall asked', stands asked' (Some g') a'.
Proof.
  intros IX IY SP S P L. inversion S; subst; try destruct P.
  - destruct (point_move dx dy IX IY p) as [A B]; [assumption|apply L; now left|].
    do 2 eexists. split; [reflexivity|]. split; [constructor; exact B|]. intros. now constructor.
  - destruct (line_move_stands dx dy IX IY e ps l SP ltac:(assumption) L) as (l' & M & SL).
    exists (GLine f l'), (SLine (moved dx dy ps)). cbn [move_of]. rewrite M. split; [reflexivity|].
    split; [constructor; apply (moved_sh dx dy IX IY); auto; match goal with H : line_stands _ _ |- _ => exact (proj1 H) end|].
    intros. now constructor.
  - match goal with H : poly_stands _ _ _ _ |- _ => destruct H as [PR PS] end.
    pose proof (stands_ints _ _ _ S) as IV. cbn [vertices] in IV, L.
    apply ints_app in IV. destruct IV as [I1 I2]. apply ints_concat in I2.
    assert (L1 : forall p, In p ext -> lands_within dx dy p) by (intros; apply L, in_or_app; auto).
    assert (L2 : forall p, In p (concat holes) -> lands_within dx dy p) by (intros; apply L, in_or_app; auto).
    assert (F1 : Forall2 (shifted (RV dx) (RV dy)) ext (moved dx dy ext)) by (apply moved_sh; auto).
    assert (F2 : Forall2 (Forall2 (shifted (RV dx) (RV dy))) holes (map (moved dx dy) holes) /\ Forall ints (map (moved dx dy) holes)).
    { clear - IX IY I2 L2. induction I2 as [|h hs A B IH]; [split; constructor|].
      destruct IH as [P Q]; [intros; apply L2; cbn; apply in_or_app; auto|].
      assert (forall p, In p h -> lands_within dx dy p) by (intros; apply L2; cbn; apply in_or_app; auto).
      split; constructor; auto; [apply moved_sh|apply moved_ints]; auto. }
    destruct F2 as [F2 I2'].
    assert (PR' : poly_proper (moved dx dy ext) (map (moved dx dy) holes)).
    { apply (proper_sh (RV dx) (RV dy) ext holes); auto. apply moved_ints; auto. }
    destruct q as [r|r hs].
    + destruct PS as [RS ->]. cbn in P. destruct P as [Y C].
      destruct (ring_move_stands dx dy IX IY e asked ext r SP RS Y C L1) as (r' & M & RS').
      exists (GPoly f (PRing r')), (SPoly (moved dx dy ext) []). cbn [move_of tg_poly_move]. rewrite M.
      split; [reflexivity|]. split; [constructor; [assumption|constructor]|].
      intros asked'. constructor. split; [exact PR'|]. split; [apply RS'|reflexivity].
    + destruct PS as [RS HS]. cbn in P. destruct P as [[Y C] PH].
      destruct (ring_move_stands dx dy IX IY e asked ext r SP RS Y C L1) as (r' & M & RS').
      destruct (holes_move dx dy e asked holes hs IX IY SP HS PH L2) as (l' & ML & LN & SL).
      exists (GPoly f (match l' with [] => PRing r' | _ => PPoly r' l' end)), (SPoly (moved dx dy ext) (map (moved dx dy) holes)).
      split.
      { cbn [move_of tg_poly_move]. rewrite M, ML. unfold tg_poly_new. destruct l' as [|h l']; [reflexivity|].
        replace (Z.of_nat (length (h :: l')) =? 0)%Z with false by (cbn [length]; lia).
        replace (0 <? Z.of_nat (length (h :: l')))%Z with true by (cbn [length]; lia).
        rewrite Z.ltb_irrefl, Nat2Z.id, firstn_all. reflexivity. }
      split; [constructor; assumption|].
      intros asked'. constructor. split; [exact PR'|]. specialize (SL asked').
      destruct l' as [|h l'].
      * split; [apply RS'|]. inversion SL. reflexivity.
      * split; [apply RS'|exact SL].
Qed.

Theorem C57_moved_partial :
  forall e dx dy g a o b,
    (2 <= env_spread e)%Z -> int_coord 26 dx -> int_coord 26 dy ->
    stands (vertices b) (Some g) a -> stands (vertices a) (Some o) b -> plain g a -> plain o b ->
    (forall p, In p (vertices a ++ vertices b) -> lands_within dx dy p) ->
    exists g' o', move_of e dx dy g = Some g' /\ move_of e dx dy o = Some o' /\
      tg_geom_intersects (Some g') (Some o') = tg_geom_intersects (Some g) (Some o) /\
      forall p, o = GPoint fl0 p ->
        tg_geom_covers (Some g') (Some o') = tg_geom_covers (Some g) (Some o) /\
        tg_geom_contains (Some g') (Some o') = tg_geom_contains (Some g) (Some o) /\
        tg_geom_touches (Some g') (Some o') = tg_geom_touches (Some g) (Some o).
Proof.
  intros e dx dy g a o b SP IX IY SA SB PA PB L.
  destruct (move_stands e dx dy _ g a IX IY SP SA PA) as (g' & a' & MG & HA & SA').
  { intros. apply L, in_or_app. auto. }
  destruct (move_stands e dx dy _ o b IX IY SP SB PB) as (o' & b' & MO & HB & SB').
  { intros. apply L, in_or_app. auto. }
  exists g', o'. split; [exact MG|]. split; [exact MO|].
  destruct (C57_shifted_partial _ _ _ _ _ _ _ _ _ _ SA SB (SA' (vertices b')) (SB' (vertices a')) HA HB) as [A B].
  split; [exact A|]. intros p ->. cbn in MO. injection MO as <-. eapply B; reflexivity.
Qed.
Print Assumptions C57_moved_partial.

(** ** Refuted *)

(** a ring of 40 points without the closing one, sound with its own leaves of
    10 segments: moved by nothing at all it gets the default leaves of 16 and
    takes in a point outside (C01_refuted_unclosed) *)
Theorem C57_refuted_spread :
  exists ps p r r',
    series_new_ix env_init ps true (tg_index_with_spread TG_NATURAL 10) = Some r /\
    index_safe ps IxNatural 10 p /\
    tg_ring_move env_init (Some r) f_zero f_zero = Some (Some r') /\
    r_points r' = r_points r /\
    tg_ring_contains_point r p true = Some (false, None) /\
    tg_ring_contains_point r' p true = Some (true, None).
Proof.
  exists ex_unclosed, (P 1 50). do 2 eexists.
  split; [vm_compute; reflexivity|]. split; [right; right; vm_compute; reflexivity|]. vms.
Qed.
Print Assumptions C57_refuted_spread.

(** a ring with y-stripes moved so far that its height rounds to nothing:
    undefined behaviour.  A triangle moved so far has two segments instead of
    three and does not come back. *)
Theorem C57_refuted_far :
  exists d, fin d /\
    (exists r, series_new ex_square true IxYstripes 16 = Some r /\
       tg_ring_move env_init (Some r) f_zero d = None) /\
    (exists t t' t'', series_new [P 0 0; P 5 0; P 0 5] true IxNone 16 = Some t /\
       tg_ring_move env_init (Some t) d d = Some (Some t') /\
       tg_ring_num_segments (Some t) = 3%Z /\ tg_ring_num_segments (Some t') = 2%Z /\
       tg_ring_move env_init (Some t') (fsub f_zero d) (fsub f_zero d) = Some (Some t'') /\
       tg_ring_point_at (Some t) 1 = Some (P 5 0) /\ tg_ring_point_at (Some t'') 1 = Some (P 0 0)).
Proof.
  exists (f_of_Z (2 ^ 60)). split.
  { split; vm_compute; reflexivity. }
  split.
  - eexists. split; [vm_compute; reflexivity|]. vm_compute. reflexivity.
  - do 3 eexists. split; [vm_compute; reflexivity|]. split; [vm_compute; reflexivity|]. vms.
Qed.
Print Assumptions C57_refuted_far.

(** a polygon that was given a NULL hole moves to NULL *)
Theorem C57_refuted_null_hole :
  exists r q, series_new ex_square true IxNone 16 = Some r /\ tg_poly_new (Some r) [None] 1 = Some (Some q) /\
    tg_poly_move env_init (Some q) f_zero f_zero = Some None.
Proof.
  destruct (series_new ex_square true IxNone 16) as [r|] eqn:E; [|vm_compute in E; discriminate].
  exists r, (PPoly r [None]). split; [reflexivity|]. split; [reflexivity|].
  assert (M : match series_new ex_square true IxNone 16 with Some r => match tg_ring_move env_init (Some r) f_zero f_zero with
    | Some (Some _) => true | _ => false end | None => false end = true) by (vm_compute; reflexivity).
  rewrite E in M. cbn [tg_poly_move]. destruct (tg_ring_move env_init (Some r) f_zero f_zero) as [[r'|]|]; [reflexivity|discriminate..].
Qed.
Print Assumptions C57_refuted_null_hole.

(** ** Example: a square with a square hole and a point in it, indexed, moved by
    (-7, 1000) *)
Definition ex_poly : geom := GPoly fl0 (PPoly (ring_of (box 0 0 100 100)) [Some (ring_of (box 20 20 60 60))]).
Definition ex_poly_shape : shape := SPoly (box 0 0 100 100) [box 20 20 60 60].
Example C57_example :
  let o := GPoint fl0 (P 10 60) in
  int_coord 26 (f_of_Z (-7)) /\ int_coord 26 (f_of_Z 1000) /\
  stands (vertices (SPoint (P 10 60))) (Some ex_poly) ex_poly_shape /\
  stands (vertices ex_poly_shape) (Some o) (SPoint (P 10 60)) /\
  plain ex_poly ex_poly_shape /\ plain o (SPoint (P 10 60)) /\
  (forall p, In p (vertices ex_poly_shape ++ vertices (SPoint (P 10 60))) -> lands_within (f_of_Z (-7)) (f_of_Z 1000) p) /\
  (exists g', move_of env_init (f_of_Z (-7)) (f_of_Z 1000) ex_poly = Some g' /\
     tg_geom_contains (Some g') (Some (GPoint fl0 (P 3 1060))) = Ret true /\
     tg_geom_contains (Some g') (Some (GPoint fl0 (P 13 1060))) = Ret false /\
     tg_geom_contains (Some g') (Some (GPoint fl0 (P 33 1030))) = Ret false).
Proof.
  assert (IC : forall z, (Z.abs z <= 16777216)%Z -> int_coord 26 (f_of_Z z)).
  { intros z H. destruct (RV_f_of_Z z) as [A B]; [lia|]. split; [exact A|]. exists z. split; [exact B|lia]. }
  assert (PL : forall x1 y1 x2 y2 r, small x1 -> small y1 -> series_new (box x1 y1 x2 y2) true IxNatural 2 = Some r ->
    r_ystripes r = None -> plain_ring (box x1 y1 x2 y2) r).
  { intros x1 y1 x2 y2 r A B E Y. split; [exact Y|]. left. exists (P x1 y1). split; [reflexivity|].
    cbn [box last]. now apply same_self. }
  intros o. split; [apply IC; lia|]. split; [apply IC; lia|].
  split.
  { pose proof (ex_stands (vertices (SPoint (P 10 60)))) as S. inversion S as [| | | | | | | | | | |? ? ? ? ? ? _ _ SA].
    subst. inversion SA as [|? ? ? ? _ SB]. subst. inversion SB. subst. assumption. }
  split. { apply st_point, P_int24; lia. }
  split.
  { split; [apply PL; try (unfold small; lia); vm_compute; reflexivity|].
    constructor; [|constructor]. intros r E. injection E as <-. apply PL; try (unfold small; lia); vm_compute; reflexivity. }
  split; [exact Logic.I|].
  split.
  { destruct (RV_f_of_Z (-7)) as [_ V]; [lia|]. destruct (RV_f_of_Z 1000) as [_ W]; [lia|].
    intros p I. cbn [vertices ex_poly_shape box app concat In] in I. unfold lands_within. rewrite V, W.
    repeat destruct I as [<-|I]; try destruct I;
      match goal with |- context [P ?x ?y] => destruct (P_R x y ltac:(lia) ltac:(lia)) as [-> ->] end;
      split; apply Rabs_le; lra. }
  eexists. split; [vm_compute; reflexivity|]. vms.
Qed.
