(** * Facts about moved shapes *)

From Coq Require Import ZArith Bool List Reals Lia Lra.
From Verif Require Thm_Shapes.
From Verif Require Import F64 Geo F64Real SegExact SegMeet Series SpecGeo SpecPlane SpecPreds SpecShape SpecMove.
Import ListNotations.
Local Open Scope R_scope.

Scheme shape_shifted_ind2 := Minimality for shape_shifted Sort Prop
  with shapes_shifted_ind2 := Minimality for shapes_shifted Sort Prop.
Combined Scheme shifted_both from shape_shifted_ind2, shapes_shifted_ind2.

Lemma Forall2_length {A B} (R : A -> B -> Prop) l l' : Forall2 R l l' -> length l = length l'.
Proof. induction 1; cbn; congruence. Qed.

Definition ints (ps : list pt) : Prop := forall q, In q ps -> int_point 24 q.

Lemma same_point_int p q : int_point 24 p -> int_point 24 q ->
  (same_point p q = true <-> xR p = xR q /\ yR p = yR q).
Proof.
  intros [[A (a & VA & _)] [B (b & VB & _)]] [[C (c & VC & _)] [D (d & VD & _)]].
  unfold same_point, xR, yR. rewrite andb_true_iff.
  rewrite (isz_feqb (px p) (px q) a c), (isz_feqb (py p) (py q) b d) by (split; assumption).
  rewrite VA, VB, VC, VD, !Z.eqb_eq. split.
  - intros [-> ->]. auto.
  - intros [X Y]. apply eq_IZR in X, Y. auto.
Qed.

Section Shift.
Variables dx dy : R.
Notation sh := (shifted dx dy).

Definition seg_sh (s t : seg) : Prop := sh (sa s) (sa t) /\ sh (sb s) (sb t).

Lemma pairs_sh ps qs : Forall2 sh ps qs -> Forall2 seg_sh (pairs ps) (pairs qs).
Proof.
  induction 1 as [|p q ps qs A B IH]; [constructor|].
  destruct B as [|p' q' ps qs C D]; [constructor|].
  change (Forall2 seg_sh (Seg p p' :: pairs (p' :: ps)) (Seg q q' :: pairs (q' :: qs))).
  constructor; [split; assumption|exact IH].
Qed.

Lemma last_sh ps qs a b : Forall2 sh ps qs -> sh a b -> sh (last ps a) (last qs b).
Proof.
  induction 1 as [|p q ps qs A B IH]; [auto|]. intros H. destruct B; [exact A|]. cbn [last] in *. auto.
Qed.

Lemma last_in (ps : list pt) a : In (last (a :: ps) a) (a :: ps).
Proof.
  assert (G : forall l d, In (last (a :: l) d) (a :: l)).
  { induction l as [|b l IH] using rev_ind; intros d; [now left|].
    change (a :: l ++ [b]) with ((a :: l) ++ [b]). rewrite last_last. apply in_or_app. right. now left. }
  apply G.
Qed.

Lemma close_sh ps qs : ints ps -> ints qs -> Forall2 sh ps qs -> Forall2 sh (close_points ps) (close_points qs).
Proof.
  intros IP IQ H. destruct H as [|p q ps qs A B]; [constructor|]. unfold close_points.
  assert (L : sh (last (p :: ps) p) (last (q :: qs) q)) by (apply last_sh; [constructor|]; assumption).
  assert (E : same_point (last (p :: ps) p) p = same_point (last (q :: qs) q) q).
  { apply eq_true_iff_eq.
    rewrite !same_point_int by (first [apply IP, last_in|apply IQ, last_in|apply IP; now left|apply IQ; now left]).
    destruct L as [LX LY], A as [AX AY]. split; intros [X Y]; split; lra. }
  rewrite E. destruct (same_point (last (q :: qs) q) q); [constructor; assumption|].
  apply Forall2_app; [constructor; assumption|]. constructor; [exact A|constructor].
Qed.

Lemma ring_segs_sh ps qs : ints ps -> ints qs -> Forall2 sh ps qs -> Forall2 seg_sh (ring_segments ps) (ring_segments qs).
Proof.
  intros IP IQ H. unfold ring_segments. rewrite (Forall2_length _ _ _ H). destruct (_ <? _)%nat; [constructor|].
  apply pairs_sh, close_sh; assumption.
Qed.

Lemma lies_sh s t x y : seg_sh s t -> (lies_on t (x + dx) (y + dy) <-> lies_on s x y).
Proof.
  intros [[A B] [C D]]. unfold lies_on, on_segment. rewrite A, B, C, D.
  split; intros (u & U & X & Y); exists u; (split; [exact U|]).
  - replace (xR (sb s) + dx - (xR (sa s) + dx)) with (xR (sb s) - xR (sa s)) in X by ring.
    replace (yR (sb s) + dy - (yR (sa s) + dy)) with (yR (sb s) - yR (sa s)) in Y by ring. lra.
  - replace (xR (sb s) + dx - (xR (sa s) + dx)) with (xR (sb s) - xR (sa s)) by ring.
    replace (yR (sb s) + dy - (yR (sa s) + dy)) with (yR (sb s) - yR (sa s)) by ring. lra.
Qed.

Lemma exists_sh P Q l l' : Forall2 seg_sh l l' -> (forall s t, seg_sh s t -> (Q t <-> P s)) ->
  ((exists t, In t l' /\ Q t) <-> (exists s, In s l /\ P s)).
Proof.
  intros H E. induction H as [|s t l l' A B IH].
  - split; intros (? & [] & _).
  - split; intros (u & [->|I] & V).
    + exists s. split; [now left|]. now apply (E s u A).
    + destruct (proj1 IH) as (v & J & W); [eauto|]. exists v. split; [now right|exact W].
    + exists t. split; [now left|]. now apply (E u t A).
    + destruct (proj2 IH) as (v & J & W); [eauto|]. exists v. split; [now right|exact W].
Qed.

Lemma ray_sh s t x y : seg_sh s t -> (ray_meets (x + dx) (y + dy) t <-> ray_meets x y s).
Proof.
  intros H. unfold ray_meets. pose proof H as [[A B] [C D]]. rewrite B, D.
  assert (M1 : Rmin (yR (sa s) + dy) (yR (sb s) + dy) = Rmin (yR (sa s)) (yR (sb s)) + dy).
  { unfold Rmin. destruct (Rle_dec (_ + dy) _), (Rle_dec _ _); lra. }
  assert (M2 : Rmax (yR (sa s) + dy) (yR (sb s) + dy) = Rmax (yR (sa s)) (yR (sb s)) + dy).
  { unfold Rmax. destruct (Rle_dec (_ + dy) _), (Rle_dec _ _); lra. }
  rewrite M1, M2. split; intros [R (x' & L & X)].
  - split; [lra|]. exists (x' - dx). split; [|lra]. apply (lies_sh s t _ _ H).
    replace (x' - dx + dx) with x' by ring. exact L.
  - split; [lra|]. exists (x' + dx). split; [|lra]. now apply (lies_sh s t _ _ H).
Qed.

Lemma counts_sh x y l l' n : Forall2 seg_sh l l' ->
  (counts (ray_meets (x + dx) (y + dy)) l' n <-> counts (ray_meets x y) l n).
Proof.
  intros H. revert n. induction H as [|s t l l' A B IH]; intros n.
  - split; intros C; inversion C; constructor.
  - pose proof (ray_sh s t x y A) as R. split; intros C; inversion C; subst.
    + apply counts_yes; [now apply R|now apply IH].
    + apply counts_no; [now rewrite <- R|now apply IH].
    + apply counts_yes; [now apply R|now apply IH].
    + apply counts_no; [now rewrite R|now apply IH].
Qed.

Lemma border_sh ps qs x y : ints ps -> ints qs -> Forall2 sh ps qs ->
  (ring_border qs (x + dx) (y + dy) <-> ring_border ps x y).
Proof.
  intros IP IQ H. unfold ring_border. apply exists_sh; [now apply ring_segs_sh|]. intros. now apply lies_sh.
Qed.
Lemma has_sh ps qs x y : ints ps -> ints qs -> Forall2 sh ps qs ->
  (ring_has qs (x + dx) (y + dy) <-> ring_has ps x y).
Proof.
  intros IP IQ H. unfold ring_has. rewrite (border_sh ps qs) by assumption.
  pose proof (ring_segs_sh _ _ IP IQ H) as F.
  split; (intros [?|(n & C & O)]; [now left|right; exists n; split; [|exact O]]); now apply (counts_sh _ _ _ _ n F).
Qed.
Lemma interior_sh ps qs x y : ints ps -> ints qs -> Forall2 sh ps qs ->
  (ring_interior qs (x + dx) (y + dy) <-> ring_interior ps x y).
Proof. intros. unfold ring_interior. now rewrite (has_sh ps qs), (border_sh ps qs) by assumption. Qed.

Lemma holes_sh (P Q : list pt -> Prop) hs hs' : Forall ints hs -> Forall ints hs' -> Forall2 (Forall2 sh) hs hs' ->
  (forall ps qs, ints ps -> ints qs -> Forall2 sh ps qs -> (Q qs <-> P ps)) ->
  ((forall h, In h hs' -> ~ Q h) <-> (forall h, In h hs -> ~ P h)).
Proof.
  intros IP IQ H E. revert IP IQ. induction H as [|p q hs hs' A B IH]; intros IP IQ.
  - split; intros _ h [].
  - inversion IP; inversion IQ; subst. specialize (IH ltac:(assumption) ltac:(assumption)).
    split; intros K h [->|I].
    + rewrite <- (E h q) by assumption. apply K. now left.
    + apply IH; [|exact I]. intros h' I'. apply K. now right.
    + rewrite (E p h) by assumption. apply K. now left.
    + apply IH; [|exact I]. intros h' I'. apply K. now right.
Qed.

Lemma ints_app ps qs : ints (ps ++ qs) -> ints ps /\ ints qs.
Proof. intros H. split; intros q I; apply H, in_or_app; auto. Qed.
Lemma ints_concat hs : ints (concat hs) -> Forall ints hs.
Proof.
  induction hs as [|h hs IH]; intros H; constructor; cbn in H; apply ints_app in H; tauto.
Qed.

Lemma on_line_sh ps qs x y : Forall2 sh ps qs -> (on_line qs (x + dx) (y + dy) <-> on_line ps x y).
Proof. intros H. unfold on_line. apply exists_sh; [now apply pairs_sh|]. intros. now apply lies_sh. Qed.

Lemma hd_sh ps qs : Forall2 sh ps qs ->
  match hd_error ps, hd_error qs with Some p, Some q => sh p q | None, None => True | _, _ => False end.
Proof. intros []; cbn; auto. Qed.
Lemma rev_sh ps qs : Forall2 sh ps qs -> Forall2 sh (rev ps) (rev qs).
Proof. induction 1; cbn; [constructor|]. apply Forall2_app; [assumption|]. constructor; [assumption|constructor]. Qed.

Lemma line_end_sh ps qs x y : Forall2 sh ps qs -> (line_end qs (x + dx) (y + dy) <-> line_end ps x y).
Proof.
  intros H. unfold line_end. rewrite (Forall2_length _ _ _ H).
  pose proof (hd_sh _ _ H) as A. pose proof (hd_sh _ _ (rev_sh _ _ H)) as B.
  split; (intros [L (p & E & X & Y)]; split; [exact L|]); destruct E as [E|E]; rewrite E in *.
  - destruct (hd_error ps) as [r|]; [|easy]. destruct A as [A1 A2]. exists r. split; [auto|]. split; lra.
  - destruct (hd_error (rev ps)) as [r|]; [|easy]. destruct B as [A1 A2]. exists r. split; [auto|]. split; lra.
  - destruct (hd_error qs) as [r|]; [|easy]. destruct A as [A1 A2]. exists r. split; [auto|]. split; lra.
  - destruct (hd_error (rev qs)) as [r|]; [|easy]. destruct B as [A1 A2]. exists r. split; [auto|]. split; lra.
Qed.

Theorem shape_sh a b : shape_shifted dx dy a b -> ints (vertices a) -> ints (vertices b) ->
  forall x y, (shape_has b (x + dx) (y + dy) <-> shape_has a x y) /\
              (shape_inside b (x + dx) (y + dy) <-> shape_inside a x y).
Proof.
  intros H. revert a b H.
  cut ((forall a b, shape_shifted dx dy a b -> ints (vertices a) -> ints (vertices b) ->
    forall x y, (shape_has b (x + dx) (y + dy) <-> shape_has a x y) /\
              (shape_inside b (x + dx) (y + dy) <-> shape_inside a x y)) /\
   (forall a b, shapes_shifted dx dy a b -> ints (vertices (SMulti a)) -> ints (vertices (SMulti b)) ->
    forall x y, (shape_has (SMulti b) (x + dx) (y + dy) <-> shape_has (SMulti a) x y) /\
              (shape_inside (SMulti b) (x + dx) (y + dy) <-> shape_inside (SMulti a) x y))).
  { intros [K _]. exact K. }
  apply shifted_both.
  - intros p q [A B] _ _ x y. cbn [shape_has shape_inside]. rewrite A, B. split; split; intros [X Y]; split; lra.
  - intros ps qs A _ _ x y. cbn [shape_has shape_inside].
    rewrite (on_line_sh ps qs), (line_end_sh ps qs) by assumption. tauto.
  - intros ext ext' hs hs' A B IP IQ x y. cbn [vertices] in *. apply ints_app in IP, IQ.
    destruct IP as [P1 P2], IQ as [Q1 Q2]. apply ints_concat in P2, Q2.
    cbn [shape_has shape_inside]. unfold poly_has.
    rewrite (has_sh ext ext'), (interior_sh ext ext') by assumption.
    rewrite (holes_sh (fun h => ring_interior h x y) (fun h => ring_interior h (x + dx) (y + dy)) hs hs')
      by (auto using interior_sh).
    rewrite (holes_sh (fun h => ring_has h x y) (fun h => ring_has h (x + dx) (y + dy)) hs hs')
      by (auto using has_sh).
    tauto.
  - intros l l' _ IH. exact IH.
  - intros _ _ x y. cbn. tauto.
  - intros _ _ x y. cbn. tauto.
  - intros s s' l l' _ IH1 _ IH2 IP IQ x y. cbn [vertices] in IP, IQ. apply ints_app in IP, IQ.
    destruct IP as [P1 P2], IQ as [Q1 Q2].
    destruct (IH1 P1 Q1 x y) as [A B]. destruct (IH2 P2 Q2 x y) as [C D].
    cbn [shape_has shape_inside] in *. rewrite A, B, C, D. tauto.
Qed.

End Shift.

Lemma stands_ints asked g s : stands asked g s -> ints (vertices s).
Proof.
  revert g s.
  assert (RS : forall ps r, ring_stands asked ps r -> ints ps) by (intros ps r [H _]; exact H).
  assert (PS : forall q ext hs, poly_stands asked q ext hs -> ints (ext ++ concat hs)).
  { intros q ext hs [_ H]. destruct q as [r|r l].
    - destruct H as [A ->]. intros q' I. cbn in I. rewrite app_nil_r in I. exact (RS _ _ A q' I).
    - destruct H as [A B]. intros q' I. apply in_app_or in I. destruct I as [I|I]; [exact (RS _ _ A q' I)|].
      clear A. induction B as [|h o hs l C D IH]; [destruct I|]. cbn in I. apply in_app_or in I.
      destruct I as [I|I]; [|auto]. destruct C as (r' & _ & C & _). exact (RS _ _ C q' I). }
  cut ((forall g s, stands asked g s -> ints (vertices s)) /\
       (forall gs l, stand_all asked gs l -> ints (vertices (SMulti l)))).
  { intros [H _]. exact H. }
  apply Thm_Shapes.stands_both; intros; cbn [vertices] in *; try (intros ? []; fail);
    try (intros ? [<-|[]]; assumption); try (match goal with H : line_stands _ _ |- _ => exact (proj1 H) end); eauto.
  intros q I. apply in_app_or in I. destruct I; auto.
Qed.

(** ** The move functions *)

From Verif Require Import RingApi Geom Move SpecRing SpecTurn RingTurn SeriesFacts SearchFacts.

Definition moved (dx dy : f64) (ps : list pt) : list pt := map (fun p => tg_point_move p dx dy) ps.

Lemma map_pts dx dy ps : map (fun i => tg_point_move (pt_at (ringpts ps) i) dx dy) (seq 0 (length ps)) = moved dx dy ps.
Proof.
  assert (G : forall tl, map (fun i => tg_point_move (pt_at (ps ++ tl) i) dx dy) (seq 0 (length ps)) = moved dx dy ps).
  { induction ps as [|p ps IH]; intros tl; [reflexivity|]. cbn [length seq map moved].
    f_equal. rewrite <- seq_shift, map_map. apply IH. }
  apply G.
Qed.

Lemma move_ix_range r : (move_ix r = TG_NONE \/ move_ix r = TG_NATURAL \/ move_ix r = TG_YSTRIPES)%Z.
Proof. unfold move_ix. destruct (r_ystripes r); auto. destruct (r_index r); auto. Qed.

Definition move_kind (r : ring) : ixkind :=
  match r_ystripes r with Some _ => IxYstripes | None => match r_index r with Some _ => IxNatural | None => IxNone end end.

Lemma series_move_new e ps closed kind spread r closed' dx dy : series_new ps closed kind spread = Some r ->
  series_move e (Some r) closed' dx dy =
  match series_new (moved dx dy ps) closed' (move_kind r) (Z.to_nat (env_spread e)) with
  | Some r' => Some (Some r') | None => None end.
Proof.
  intros N. apply series_new_fields in N. cbv zeta in N. destruct N as (_ & EN & _ & EP & _).
  unfold series_move. rewrite EN, EP, map_pts. unfold series_new_ix, move_ix, move_kind.
  destruct (r_ystripes r); [reflexivity|]. destruct (r_index r); reflexivity.
Qed.

Lemma not_ystripes_some ps closed kind spread : kind <> IxYstripes \/ closed = false ->
  exists r, series_new ps closed kind spread = Some r.
Proof.
  intros H. unfold series_new. cbv zeta.
  match goal with |- context [if ?b then _ else _] => match b with context [closed] => destruct b eqn:E end end.
  - exfalso. apply andb_true_iff in E. destruct E as [E F]. apply andb_true_iff in E. destruct E as [_ ->].
    destruct H as [H|H]; [|discriminate]. destruct kind; try discriminate. congruence.
  - eauto.
Qed.

(** integer coordinates *)
Section IntMove.
Variables dx dy : f64.
Hypothesis IX : int_coord 26 dx.
Hypothesis IY : int_coord 26 dy.
Definition lands (p : pt) : Prop := (Rabs (xR p + RV dx) <= 2 ^ 24 /\ Rabs (yR p + RV dy) <= 2 ^ 24)%R.

Lemma coord_move x d : int_coord 24 x -> int_coord 26 d -> (Rabs (RV x + RV d) <= 2 ^ 24)%R ->
  int_coord 24 (fadd x d) /\ RV (fadd x d) = (RV x + RV d)%R.
Proof.
  intros [F (n & V & B)] [G (m & W & C)] L.
  assert (S : (Z.abs (n + m) <= 2 ^ 24)%Z).
  { rewrite V, W, <- plus_IZR, <- abs_IZR in L. apply le_IZR. eapply Rle_trans; [exact L|].
    rewrite (pow_IZR 2 24). apply Rle_refl. }
  destruct (isz_add x d n m (conj F V) (conj G W)) as [H K]; [lia|].
  split; [split; [exact H|]; exists (n + m)%Z; split; [exact K|exact S]|]. rewrite K, V, W. apply plus_IZR.
Qed.
Lemma point_move p : int_point 24 p -> lands p ->
  int_point 24 (tg_point_move p dx dy) /\ shifted (RV dx) (RV dy) p (tg_point_move p dx dy).
Proof.
  intros [A B] [C D]. destruct (coord_move _ _ A IX C), (coord_move _ _ B IY D).
  split; split; assumption.
Qed.

Lemma moved_ints ps : ints ps -> (forall p, In p ps -> lands p) -> ints (moved dx dy ps).
Proof.
  intros I L q H. apply in_map_iff in H. destruct H as (p & <- & H). now apply point_move; [apply I|apply L].
Qed.
Lemma moved_sh ps : ints ps -> (forall p, In p ps -> lands p) -> Forall2 (shifted (RV dx) (RV dy)) ps (moved dx dy ps).
Proof.
  induction ps as [|p ps IH]; intros I L; [constructor|]. cbn. constructor.
  - apply point_move; [apply I|apply L]; now left.
  - apply IH; intros q H; [apply I|apply L]; now right.
Qed.

Lemma moved_closed ps : ints ps -> (forall p, In p ps -> lands p) -> explicitly_closed ps -> explicitly_closed (moved dx dy ps).
Proof.
  intros I L (a & H & S). destruct ps as [|p ps]; [discriminate|]. cbn in H. injection H as ->.
  exists (tg_point_move a dx dy). split; [reflexivity|].
  pose proof (moved_ints _ I L) as I'. pose proof (moved_sh _ I L) as F.
  pose proof (last_sh _ _ _ _ a (tg_point_move a dx dy) F) as E.
  assert (A : shifted (RV dx) (RV dy) a (tg_point_move a dx dy)) by (apply point_move; [apply I|apply L]; now left).
  specialize (E A). apply same_point_int in S; [|apply I, last_in|apply I; now left].
  apply same_point_int; [apply I', last_in|apply I'; now left|].
  destruct E as [E1 E2], A as [A1 A2], S as [S1 S2]. rewrite E1, E2, A1, A2, S1, S2. auto.
Qed.

Lemma ring_move_stands e asked ps r : (2 <= env_spread e)%Z -> ring_stands asked ps r ->
  r_ystripes r = None -> (explicitly_closed ps \/ r_index r = None) -> (forall p, In p ps -> lands p) ->
  exists r', tg_ring_move e (Some r) dx dy = Some (Some r') /\ forall asked', ring_stands asked' (moved dx dy ps) r'.
Proof.
  intros SP (I & kind & spread & S2 & N & _) Y C L.
  unfold tg_ring_move. rewrite (series_move_new _ _ _ _ _ _ _ _ _ N).
  assert (K : move_kind r <> IxYstripes) by (unfold move_kind; rewrite Y; destruct (r_index r); discriminate).
  destruct (not_ystripes_some (moved dx dy ps) true (move_kind r) (Z.to_nat (env_spread e)) (or_introl K)) as (r' & N').
  exists r'. rewrite N'. split; [reflexivity|]. intros asked'. split; [exact (moved_ints _ I L)|].
  exists (move_kind r), (Z.to_nat (env_spread e)). split; [lia|]. split; [exact N'|].
  unfold move_kind. rewrite Y. destruct C as [C| ->].
  - pose proof (moved_closed _ I L C). split; [right; right; right; left; assumption|].
    intros q _. right. destruct (r_index r); [left; assumption|exact Logic.I].
  - split; [right; left; reflexivity|]. intros q _. right. exact Logic.I.
Qed.

Lemma line_move_stands e ps l : (2 <= env_spread e)%Z -> line_stands ps l -> (forall p, In p ps -> lands p) ->
  exists l', tg_line_move e (Some l) dx dy = Some (Some l') /\ line_stands (moved dx dy ps) l'.
Proof.
  intros SP (I & kind & spread & S2 & N) L.
  unfold tg_line_move. rewrite (series_move_new _ _ _ _ _ _ _ _ _ N).
  destruct (not_ystripes_some (moved dx dy ps) false (move_kind l) (Z.to_nat (env_spread e)) (or_intror eq_refl)) as (r' & N').
  exists r'. rewrite N'. split; [reflexivity|]. split; [exact (moved_ints _ I L)|].
  exists (move_kind l), (Z.to_nat (env_spread e)). split; [lia|exact N'].
Qed.

(** convexity *)
Lemma stand_vs ps : ints ps -> exists vs, points_stand_for ps vs /\ within (2 ^ 24) vs.
Proof.
  induction ps as [|p ps IH]; intros I.
  - exists []. split; [constructor|intros ? []].
  - destruct IH as (vs & A & B). { intros q H. apply I. now right. }
    destruct (I p (or_introl eq_refl)) as [[F (n & V & C)] [G (m & W & D)]].
    exists ((n, m) :: vs). split; [constructor; [split; split; assumption|exact A]|].
    intros v [<-|H]; [split; assumption|auto].
Qed.

Lemma turn_sh a b vs vs' : vs' = map (fun v => (fst v + a, snd v + b)%Z) vs -> vs <> [] ->
  forall k, turn_after vs' k = turn_after vs k.
Proof.
  intros -> NE k.
  assert (G : forall k, vertex_at (map (fun v => (fst v + a, snd v + b)%Z) vs) k =
    (fst (vertex_at vs k) + a, snd (vertex_at vs k) + b)%Z).
  { intros k'. unfold vertex_at. rewrite map_length.
    assert (LT : (k' mod length vs < length vs)%nat) by (apply Nat.mod_upper_bound; destruct vs; [congruence|discriminate]).
    rewrite (nth_indep _ (0, 0)%Z ((fun v => (fst v + a, snd v + b)%Z) (0, 0)%Z)) by now rewrite map_length.
    apply (map_nth (fun v => (fst v + a, snd v + b)%Z)). }
  unfold turn_after. rewrite !G. unfold turn. cbn [fst snd]. f_equal; f_equal; lia.
Qed.

Lemma convex_move ps closed kind spread r closed' kind' spread' r' : ints ps -> (forall p, In p ps -> lands p) ->
  (2 <= length ps)%nat -> series_new ps closed kind spread = Some r ->
  series_new (moved dx dy ps) closed' kind' spread' = Some r' -> r_convex r' = r_convex r.
Proof.
  intros I L N A B. destruct (stand_vs ps I) as (vs & S & W).
  destruct (proj2 IX) as (a & VA & _). destruct (proj2 IY) as (b & VB & _).
  set (vs' := map (fun v => (fst v + a, snd v + b)%Z) vs).
  pose proof (moved_ints _ I L) as I'.
  assert (S' : points_stand_for (moved dx dy ps) vs' /\ within (2 ^ 24) vs').
  { unfold vs'. clear A B W N vs'. revert vs S I L I'. induction ps as [|p ps IH]; intros vs S I L I'.
    - inversion S. split; [constructor|intros ? []].
    - inversion S as [|? v ? vs0 H1 H2]; subst.
      assert (J1 : ints ps) by (intros q H; apply I; now right).
      assert (J2 : forall p, In p ps -> lands p) by (intros q H; apply L; now right).
      assert (J3 : ints (moved dx dy ps)) by (intros q H; apply I'; now right).
      destruct (IH vs0 H2 J1 J2 J3) as [P1 P2].
      destruct (point_move p) as [Q1 [Q2 Q3]]; [apply I; now left|apply L; now left|].
      destruct H1 as [[F1 R1] [F2 R2]]. unfold xR, yR in Q2, Q3. rewrite R1, VA, <- plus_IZR in Q2. rewrite R2, VB, <- plus_IZR in Q3.
      destruct Q1 as [[G1 (n & U1 & D1)] [G2 (m & U2 & D2)]].
      split.
      + constructor; [|exact P1]. split; split; assumption.
      + intros w [<-|H]; [|auto]. cbn [fst snd].
        rewrite Q2 in U1. rewrite Q3 in U2. apply eq_IZR in U1, U2. rewrite U1, U2. auto. }
  destruct S' as [S' W'].
  pose proof (convex_exact ps vs closed kind spread r S W N A) as C1.
  assert (N' : (2 <= length (moved dx dy ps))%nat) by (unfold moved; now rewrite map_length).
  pose proof (convex_exact _ vs' closed' kind' spread' r' S' W' N' B) as C2.
  apply eq_true_iff_eq. rewrite C1, C2. unfold vs' at 2. rewrite map_length.
  assert (NE : vs <> []). { intros ->. apply stand_length in S. cbn in S. rewrite S in N. cbn in N. lia. }
  unfold one_sign. setoid_rewrite (turn_sh a b vs vs' eq_refl NE). reflexivity.
Qed.

Lemma short_interior ps x y : (length ps < 3)%nat -> ~ ring_interior ps x y.
Proof.
  intros L [[(s & H & _)|(n & C & O)] _].
  - unfold ring_segments in H. replace (length ps <? 3)%nat with true in H by (symmetry; now apply Nat.ltb_lt). destruct H.
  - unfold ring_segments in C. replace (length ps <? 3)%nat with true in C by (symmetry; now apply Nat.ltb_lt).
    inversion C. subst. discriminate.
Qed.

Lemma convex_set_sh ps qs : ints ps -> ints qs -> Forall2 (shifted (RV dx) (RV dy)) ps qs ->
  convex_set (ring_interior ps) -> convex_set (ring_interior qs).
Proof.
  intros IP IQ F C ax ay bx by_ x y A B (t & T & X & Y).
  pose proof (fun u v => interior_sh (RV dx) (RV dy) ps qs u v IP IQ F) as E.
  assert (M : forall u v, ring_interior qs u v <-> ring_interior ps (u - RV dx) (v - RV dy)).
  { intros u v. rewrite <- E. now replace (u - RV dx + RV dx) with u by ring; replace (v - RV dy + RV dy) with v by ring. }
  rewrite M in *. apply (C _ _ _ _ _ _ A B). exists t. split; [exact T|]. split; [rewrite X|rewrite Y]; ring.
Qed.

Lemma hole_move_stands e asked ps h : (2 <= env_spread e)%Z -> hole_stands asked ps h ->
  (forall r, h = Some r -> r_ystripes r = None /\ (explicitly_closed ps \/ r_index r = None)) -> (forall p, In p ps -> lands p) ->
  exists r', tg_ring_move e h dx dy = Some (Some r') /\ forall asked', hole_stands asked' (moved dx dy ps) (Some r').
Proof.
  intros SP (r & -> & RS & CV) H L. destruct (H r eq_refl) as [Y C].
  destruct (ring_move_stands e asked ps r SP RS Y C L) as (r' & M & RS').
  exists r'. split; [exact M|]. intros asked'. exists r'. split; [reflexivity|]. split; [apply RS'|]. intros T.
  destruct RS as (I & kind & spread & _ & N & _). destruct (RS' asked') as (I' & kind' & spread' & _ & N' & _).
  destruct (Nat.lt_ge_cases (length ps) 3) as [LT|GE].
  - intros ax ay bx by_ x y A. exfalso. refine (short_interior _ _ _ _ A). unfold moved. now rewrite map_length.
  - rewrite (convex_move _ _ _ _ _ _ _ _ _ I L ltac:(lia) N N') in T.
    apply (convex_set_sh ps); auto. apply moved_sh; assumption.
Qed.
End IntMove.
