(** * Induction over geometries and shapes; rings made by the constructors *)

From Coq Require Import ZArith Bool List Lia.
From Verif Require Import F64 Geo Series RingApi Bytes Geom SpecWkb.
Import ListNotations.
Local Open Scope Z_scope.

Definition opt_all {A} (P : A -> Prop) (o : option A) : Prop :=
  match o with Some a => P a | None => True end.

Section GeomInd.
  Variable P : geom -> Prop.
  Hypothesis H1 : forall f p, P (GPoint f p).
  Hypothesis H2 : forall f l, P (GLine f l).
  Hypothesis H3 : forall f p, P (GPoly f p).
  Hypothesis H4 : forall f p z m x, P (GGPoint f p z m x).
  Hypothesis H5 : forall f l c x, P (GGLine f l c x).
  Hypothesis H6 : forall f p c x, P (GGPoly f p c x).
  Hypothesis H7 : forall t f c x, P (GGMulti t f None c x).
  Hypothesis H8 : forall t f gs c x, Forall (opt_all P) gs -> P (GGMulti t f (Some gs) c x).

  Fixpoint geom_ind_deep (g : geom) : P g :=
    match g with
    | GPoint f p => H1 f p
    | GLine f l => H2 f l
    | GPoly f p => H3 f p
    | GGPoint f p z m x => H4 f p z m x
    | GGLine f l c x => H5 f l c x
    | GGPoly f p c x => H6 f p c x
    | GGMulti t f None c x => H7 t f c x
    | GGMulti t f (Some gs) c x =>
        H8 t f gs c x
          ((fix go (l : list (option geom)) : Forall (opt_all P) l :=
              match l with
              | [] => Forall_nil _
              | o :: rest =>
                  Forall_cons o (match o return opt_all P o with
                                 | Some g => geom_ind_deep g
                                 | None => I
                                 end) (go rest)
              end) gs)
    end.
End GeomInd.

Section ShapeInd.
  Variable P : shape -> Prop.
  Hypothesis H1 : forall d p, P (ShPoint d p).
  Hypothesis H2 : forall d p, P (ShLine d p).
  Hypothesis H3 : forall d p, P (ShPoly d p).
  Hypothesis H4 : forall d p, P (ShPoints d p).
  Hypothesis H5 : forall d p, P (ShLines d p).
  Hypothesis H6 : forall d p, P (ShPolys d p).
  Hypothesis H7 : forall gs, Forall P gs -> P (ShGeoms gs).

  Fixpoint shape_ind_deep (s : shape) : P s :=
    match s with
    | ShPoint d p => H1 d p
    | ShLine d p => H2 d p
    | ShPoly d p => H3 d p
    | ShPoints d p => H4 d p
    | ShLines d p => H5 d p
    | ShPolys d p => H6 d p
    | ShGeoms gs =>
        H7 gs ((fix go (l : list shape) : Forall P l :=
                  match l with
                  | [] => Forall_nil _
                  | s :: rest => Forall_cons s (shape_ind_deep s) (go rest)
                  end) gs)
    end.
End ShapeInd.

(** ** The nested definitions as facts about all elements *)

Lemma made_multi t f l c x :
  geom_made (GGMulti t f (Some l) c x) <-> Forall (opt_all geom_made) l.
Proof.
  cbn. induction l as [|[g|] l IH].
  - split; [constructor|auto].
  - rewrite IH, Forall_cons_iff. reflexivity.
  - rewrite IH, Forall_cons_iff. cbn. tauto.
Qed.

Lemma fits_geoms d gs :
  fits d (ShGeoms gs) <->
  (d <= 1024)%nat /\ Z.of_nat (length gs) < 2 ^ 31 /\ Forall (fits (S d)) gs.
Proof.
  cbn [fits].
  assert (E : forall l, (fix all (l : list shape) : Prop :=
                match l with [] => True | s :: rest => fits (S d) s /\ all rest end) l <->
              Forall (fits (S d)) l).
  { induction l as [|s l IH]; [split; [constructor|auto]|].
    rewrite Forall_cons_iff, <- IH. reflexivity. }
  rewrite E. tauto.
Qed.

Lemma reads_geoms d gs :
  reads d (ShGeoms gs) <->
  (d <= 1024)%nat /\ Z.of_nat (length gs) < 2 ^ 31 /\ Forall (reads (S d)) gs.
Proof.
  cbn [reads].
  assert (E : forall l, (fix all (l : list shape) : Prop :=
                match l with [] => True | s :: rest => reads (S d) s /\ all rest end) l <->
              Forall (reads (S d)) l).
  { induction l as [|s l IH]; [split; [constructor|auto]|].
    rewrite Forall_cons_iff, <- IH. reflexivity. }
  rewrite E. tauto.
Qed.

Lemma fits_reads s : forall d, fits d s -> reads d s.
Proof.
  induction s as [d0 p|d0 ps|d0 rs|d0 ps|d0 ls|d0 ps|gs IH] using shape_ind_deep; intros d H;
    try (apply reads_geoms; apply fits_geoms in H; destruct H as (H1 & H2 & H3);
         split; [assumption|]; split; [assumption|]; rewrite Forall_forall in *; auto; fail);
    cbn [fits reads] in *; destruct H as [H1 H]; (split; [assumption|]); try tauto.
  - destruct H as (H2 & H3 & H4). split; [assumption|]. split; [|assumption].
    eapply Forall_impl; [|exact H3]. auto.
  - destruct H as (H2 & H3 & H4). split; [assumption|]. split; [|assumption].
    eapply Forall_impl; [|exact H3]. auto.
  - destruct H as (H2 & H3 & H4). split; [assumption|]. split; [|assumption].
    eapply Forall_impl; [|exact H3]. auto.
Qed.

Lemma all_some_map {A B} (f : A -> option B) l r :
  all_some (map f l) = Some r <-> Forall2 (fun a b => f a = Some b) l r.
Proof.
  revert r. induction l as [|a l IH]; intros r; cbn.
  - split; [intros [= <-]; constructor|intros H; inversion H; reflexivity].
  - destruct (f a) as [b|] eqn:E.
    + destruct (all_some (map f l)) as [bs|] eqn:E2; cbn.
      * split.
        -- intros [= <-]. constructor; [assumption|]. now apply IH.
        -- intros H. inversion H as [|? b' ? r' Hb Hr]; subst.
           rewrite E in Hb. injection Hb as <-. apply IH in Hr. congruence.
      * split; [discriminate|]. intros H. inversion H as [|? b' ? r' Hb Hr]; subst.
        apply IH in Hr. discriminate.
    + split; [discriminate|]. intros H. inversion H; subst. congruence.
Qed.

(** ** Rings made by the constructors *)

Lemma series_new_pts ps closed kind spread r :
  series_new ps closed kind spread = Some r ->
  r_npoints r = length ps /\ r_points r = ps ++ [pt_at ps 0] /\ r_closed r = closed.
Proof.
  unfold series_new. cbv zeta.
  destruct (_ && _ && _).
  - destruct (process_ystripes _); [|discriminate]. intros [= <-]. auto.
  - intros [= <-]. auto.
Qed.

Lemma made_npoints r : ring_made r -> (r_npoints r <= length (r_points r))%nat.
Proof.
  intros (ps & c & k & s & H). apply series_new_pts in H. destruct H as (-> & -> & _).
  rewrite app_length. lia.
Qed.

Lemma made_pts_length r : ring_made r -> length (ring_pts r) = r_npoints r.
Proof. intros H. apply made_npoints in H. unfold ring_pts. rewrite firstn_length. lia. Qed.

Lemma series_new_ring_pts ps closed kind spread r :
  series_new ps closed kind spread = Some r -> ring_pts r = ps.
Proof.
  intros H. apply series_new_pts in H. destruct H as (H1 & H2 & _).
  unfold ring_pts. rewrite H1, H2, firstn_app, Nat.sub_diag, firstn_all. cbn. apply app_nil_r.
Qed.

Lemma series_new_ix_inv e ps closed ix r :
  series_new_ix e ps closed ix = Some r ->
  exists kind spread, series_new ps closed kind spread = Some r.
Proof.
  unfold series_new_ix. destruct (tg_index_extract_spread e ix) as [b s]. eauto.
Qed.

Lemma series_new_ix_pts e ps closed ix r :
  series_new_ix e ps closed ix = Some r -> ring_pts r = ps /\ ring_made r.
Proof.
  intros H. destruct (series_new_ix_inv _ _ _ _ _ H) as (k & s & H').
  split; [eapply series_new_ring_pts; eauto|]. exists ps, closed, k, s. exact H'.
Qed.

(** only a closed ring can fail to be built *)
Lemma series_new_ix_open e ps ix : exists r, series_new_ix e ps false ix = Some r.
Proof.
  unfold series_new_ix. destruct (tg_index_extract_spread e ix) as [b s].
  unfold series_new. cbv zeta. rewrite andb_false_r. cbn. eauto.
Qed.
