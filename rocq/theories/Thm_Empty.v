(** * Empty geometries and the predicates (C53) *)

From Coq Require Import ZArith Bool String List Lia ZifyBool.
From Verif Require Import F64 Geo Series Search RingApi Geom MultiIx Preds PredsGeom GeomFacts PredsFacts SpecPreds RingFacts
  SearchFacts SpecWkb.
Import ListNotations.
Local Open Scope Z_scope.

(** ** What is asked of the geometries *)

(** a ring or line of the constructors *)
Definition built (r : ring) : Prop :=
  exists ps closed kind spread, (2 <= spread)%nat /\ series_new ps closed kind spread = Some r.
Definition poly_built (p : poly) : Prop := match p with PRing r => built r | PPoly e _ => built e end.

(** the flag IS_EMPTY is only on geometries without a point, line, polygon or children *)
Fixpoint made_of (L : ring -> Prop) (P : poly -> Prop) (g : geom) : Prop :=
  match g with
  | GPoint f _ => is_empty f = false
  | GLine f l => is_empty f = false /\ L l
  | GPoly f p => is_empty f = false /\ P p
  | GGPoint _ _ _ _ _ => True
  | GGLine _ l _ _ => opt_all L l
  | GGPoly _ p _ _ => opt_all P p
  | GGMulti _ f gs _ _ =>
      match gs with
      | None => True
      | Some l => is_empty f = false /\
          (fix all (l : list (option geom)) : Prop :=
             match l with
             | [] => True
             | Some g :: rest => made_of L P g /\ all rest
             | None :: rest => all rest
             end) l
      end
  end.
Definition regular (g : option geom) : Prop := opt_all (made_of built poly_built) g.

(** moreover an empty line has no point at all, an empty polygon no holes *)
Definition bare_line (r : ring) : Prop := built r /\ (tg_ring_empty r = true -> r_npoints r = 0%nat).
Definition bare_poly (p : poly) : Prop :=
  poly_built p /\ (tg_poly_empty (Some p) = true -> poly_holes (Some p) = []).
Definition bare (g : option geom) : Prop := opt_all (made_of bare_line bare_poly) g.

Lemma made_children L P gs : (fix all (l : list (option geom)) : Prop :=
             match l with
             | [] => True
             | Some g :: rest => made_of L P g /\ all rest
             | None :: rest => all rest
             end) gs <-> Forall (opt_all (made_of L P)) gs.
Proof.
  induction gs as [|[c|] gs IH].
  - split; auto.
  - rewrite IH. split; [intros [A B]; constructor; auto|inversion 1; auto].
  - rewrite IH. split; [intros A; constructor; [exact I|auto]|inversion 1; auto].
Qed.

(** ** Rings without segments *)

Lemma empty_ring r : built r -> tg_ring_empty r = true -> r_nsegs r = 0%nat /\ r_index r = None /\ r_ystripes r = None.
Proof.
  intros (ps & cl & k & sp & S & E) M. pose proof (series_new_fields _ _ _ _ _ E) as F. cbv zeta in F.
  destruct F as (C & NP & NS & _). unfold tg_ring_empty in M. rewrite C, NP in M.
  assert (L : (length ps < 3)%nat) by lia.
  destruct (short_none _ _ _ _ _ E) as [Y X]; [lia|]. repeat split; auto.
  rewrite NS. unfold num_segments. destruct cl; cbn [andb] in M.
  - now replace (length ps <? 3)%nat with true by lia.
  - now replace (length ps <? 2)%nat with true by lia.
Qed.

Lemma empty_search {A} r q (iter : A -> seg -> nat -> bool * A) st :
  built r -> tg_ring_empty r = true -> tg_ring_search r q iter st = (true, st).
Proof. intros B E. destruct (empty_ring r B E) as (N & X & _). unfold tg_ring_search. now rewrite X, N. Qed.

Lemma empty_covers_point l p : opt_all built l -> line_is_empty l = true -> tg_line_covers_point l p = false.
Proof. destruct l as [r|]; [|reflexivity]. intros B E. cbn. now rewrite empty_search. Qed.

Lemma empty_hits r p edge : built r -> tg_ring_empty r = true -> hits (Some r) p edge = Ret false.
Proof.
  intros B E. destruct (empty_ring r B E) as (N & X & Y). unfold hits, contains_point, tg_ring_contains_point.
  rewrite X, Y. destruct (negb _); [reflexivity|]. unfold standard_pip. rewrite N. reflexivity.
Qed.

(** ** The predicates on points, lines and polygons *)

Definition no_line (l : option ring) : Prop := opt_all built l /\ line_is_empty l = true.
Definition no_poly (q : option poly) : Prop := opt_all poly_built q /\ tg_poly_empty q = true.

Lemma nl_covers_point l p : no_line l -> tg_line_covers_point l p = false.
Proof. intros [B E]. now apply empty_covers_point. Qed.
Lemma nl_contains_point l p : no_line l -> tg_line_contains_point l p = false.
Proof. intros N. unfold tg_line_contains_point. now rewrite nl_covers_point. Qed.
Lemma nl_intersects_line_l l m : no_line l -> tg_line_intersects_line l m = false.
Proof.
  intros [B E]. destruct l as [r|], m as [s|]; try reflexivity. cbn in E |- *.
  unfold tg_line_line_search, tg_ring_ring_search. now rewrite E.
Qed.
Lemma nl_intersects_line_r l m : no_line m -> tg_line_intersects_line l m = false.
Proof.
  intros [B E]. destruct l as [r|], m as [s|]; try reflexivity. cbn in E |- *.
  unfold tg_line_line_search, tg_ring_ring_search. now rewrite E, orb_true_r.
Qed.
Lemma nl_ring_intersects a l edge : no_line l -> tg_ring_intersects_line a l edge = Ret false.
Proof. intros [_ E]. unfold tg_ring_intersects_line. now rewrite E, orb_true_r. Qed.
Lemma nl_poly_intersects q l : no_line l -> tg_poly_intersects_line q l = Ret false.
Proof.
  intros N. destruct q as [[r|e hs]|]; cbn [tg_poly_intersects_line]; [now apply nl_ring_intersects| |];
    destruct N as [_ E]; now rewrite E, orb_true_r.
Qed.
Lemma nl_covers_line_l l m : no_line l -> tg_line_covers_line l m = Ret false.
Proof. intros [_ E]. unfold tg_line_covers_line. now rewrite E. Qed.
Lemma nl_covers_line_r l m : no_line m -> tg_line_covers_line l m = Ret false.
Proof. intros [_ E]. unfold tg_line_covers_line. now rewrite E, orb_true_r. Qed.
Lemma nl_covers_poly l q : no_line l -> tg_line_covers_poly l q = Ret false.
Proof. intros [_ E]. unfold tg_line_covers_poly. now rewrite E. Qed.
Lemma nl_point_covers p l : no_line l -> tg_point_covers_line p l = false.
Proof. intros [_ E]. unfold tg_point_covers_line. now rewrite E. Qed.
Lemma nl_poly_has e b q l : no_line l -> poly_has_line e b q l = Ret false.
Proof. intros [_ E]. unfold poly_has_line. now rewrite E, orb_true_r. Qed.

Lemma np_contains_point q p edge : no_poly q -> poly_contains_point q p edge = Ret false.
Proof.
  intros [B E]. destruct q as [[r|e hs]|]; cbn [poly_contains_point].
  - apply empty_hits; [exact B|exact E].
  - now rewrite E.
  - reflexivity.
Qed.
Lemma np_intersects_line q l : no_poly q -> tg_poly_intersects_line q l = Ret false.
Proof.
  intros [B E]. destruct q as [[r|e hs]|]; cbn [tg_poly_intersects_line].
  - unfold tg_ring_intersects_line. unfold tg_poly_empty in E. cbn [tg_poly_exterior] in E. now rewrite E.
  - now rewrite E.
  - reflexivity.
Qed.
Lemma np_has_line e b q l : no_poly q -> poly_has_line e b q l = Ret false.
Proof. intros [_ E]. unfold poly_has_line. now rewrite E. Qed.
Lemma np_intersects_l q o : no_poly q -> tg_poly_intersects_poly q o = Ret false.
Proof.
  intros [B E]. unfold tg_poly_intersects_poly. rewrite E.
  destruct q as [[r|e hs]|]; [|reflexivity|reflexivity]. destruct o as [[s|e hs]|]; [|reflexivity|reflexivity].
  unfold tg_ring_intersects_ring. unfold tg_poly_empty in E. cbn [tg_poly_exterior] in E. now rewrite E.
Qed.
Lemma np_intersects_r q o : no_poly o -> tg_poly_intersects_poly q o = Ret false.
Proof.
  intros [B E]. unfold tg_poly_intersects_poly. rewrite E, orb_true_r.
  destruct q as [[r|e hs]|]; [|reflexivity|reflexivity]. destruct o as [[s|e hs]|]; [|reflexivity|reflexivity].
  unfold tg_ring_intersects_ring. unfold tg_poly_empty in E. cbn [tg_poly_exterior] in E. now rewrite E, orb_true_r.
Qed.
Lemma np_covers_l q o : no_poly q -> tg_poly_covers_poly q o = Ret false.
Proof.
  intros [B E]. unfold tg_poly_covers_poly. rewrite E.
  destruct q as [[r|e hs]|]; [|reflexivity|reflexivity]. destruct o as [[s|e hs]|]; [|reflexivity|reflexivity].
  unfold tg_ring_contains_ring. unfold tg_poly_empty in E. cbn [tg_poly_exterior] in E. now rewrite E.
Qed.
Lemma np_covers_r q o : no_poly o -> tg_poly_covers_poly q o = Ret false.
Proof.
  intros [B E]. unfold tg_poly_covers_poly. rewrite E, orb_true_r.
  destruct q as [[r|e hs]|]; [|reflexivity|reflexivity]. destruct o as [[s|e hs]|]; [|reflexivity|reflexivity].
  unfold tg_ring_contains_ring. unfold tg_poly_empty in E. cbn [tg_poly_exterior] in E. now rewrite E, orb_true_r.
Qed.
Lemma np_line_covers l q : no_poly q -> tg_line_covers_poly l q = Ret false.
Proof. intros [_ E]. unfold tg_line_covers_poly. now rewrite E, orb_true_r. Qed.
Lemma np_point_covers p q : no_poly q -> tg_point_covers_poly p q = false.
Proof. intros [_ E]. unfold tg_point_covers_poly. now rewrite E. Qed.

(** ** One shape against a geometry *)

(** the shape answers false for every empty line and polygon *)
Definition arms_skip (a : arms) : Prop :=
  (forall l, no_line l -> PredsGeom.on_line a l = Ret false) /\ (forall q, no_poly q -> on_poly a q = Ret false).
(** the shape is itself empty and answers false for everything *)
Definition arms_none (a : arms) : Prop :=
  (forall p, on_point a p = Ret false) /\ (forall l, PredsGeom.on_line a l = Ret false) /\ (forall q, on_poly a q = Ret false).

Lemma all_false l : l <> [] -> (forall x, In x l -> x = Ret false) -> all_of l = Ret false.
Proof. destruct l as [|x l]; [easy|]. intros _ H. cbn [all_of]. now rewrite (H x) by now left. Qed.

Lemma empty_multi t f gs c x : made_of built poly_built (GGMulti t f (Some gs) c x) ->
  is_empty f = false /\ Forall (opt_all (made_of built poly_built)) gs.
Proof. cbn [made_of]. now rewrite made_children. Qed.
Lemma empty_kids t f gs c x : is_empty f = false -> geom_is_empty (GGMulti t f (Some gs) c x) = true ->
  forall d, In (Some d) gs -> geom_is_empty d = true.
Proof.
  intros F E d I. cbn [geom_is_empty geom_flags] in E. rewrite F, forallb_forall in E. now apply (E (Some d)).
Qed.

Lemma child_empty a g : arms_skip a -> made_of built poly_built g -> geom_is_empty g = true ->
  some_child a g = Ret false /\ each_child a g = Ret false.
Proof.
  intros [KL KP]. induction g as [f p|f l|f p|f p z m x|f l c x|f p c x|t f c x|t f gs c x IH] using geom_ind_deep;
    intros M E; cbn [some_child each_child].
  - cbn in M, E. rewrite M in E. discriminate.
  - cbn in M, E. destruct M as [M B]. rewrite M in E. rewrite KL; [auto|]. split; [exact B|exact E].
  - cbn in M, E. destruct M as [M B]. rewrite M in E. rewrite KP; [auto|]. split; [exact B|exact E].
  - cbn in E. destruct (is_empty f); [auto|discriminate].
  - cbn in M, E. destruct (is_empty f); [auto|]. rewrite KL; [auto|]. split; [exact M|exact E].
  - cbn in M, E. destruct (is_empty f); [auto|]. rewrite KP; [auto|]. split; [exact M|exact E].
  - now destruct (is_empty f).
  - destruct (empty_multi _ _ _ _ _ M) as [F MC]. pose proof (empty_kids _ _ _ _ _ F E) as EK. rewrite F.
    rewrite Forall_forall in IH, MC.
    split; [apply any_false|destruct gs as [|g0 gs]; [reflexivity|apply all_false; [discriminate|]]];
      intros y I; apply in_map_iff in I as ([d|] & <- & I); try reflexivity;
      apply (IH (Some d) I (MC (Some d) I) (EK d I)).
Qed.
Lemma child_none a g : arms_none a -> some_child a g = Ret false /\ each_child a g = Ret false.
Proof.
  intros (KT & KL & KP). induction g as [f p|f l|f p|f p z m x|f l c x|f p c x|t f c x|t f gs c x IH] using geom_ind_deep;
    cbn [some_child each_child]; rewrite ?KT, ?KL, ?KP; auto; destruct (is_empty f); auto.
  rewrite Forall_forall in IH.
  split; [apply any_false|destruct gs as [|g0 gs]; [reflexivity|apply all_false; [discriminate|]]];
    intros y I; apply in_map_iff in I as ([d|] & <- & I); try reflexivity; apply (IH (Some d) I).
Qed.

Lemma some_geom a o : arms_none a \/ (arms_skip a /\ regular o /\ tg_geom_is_empty o = true) ->
  on_geom (some_child a) o = Ret false /\ on_geom (each_child a) o = Ret false.
Proof.
  destruct o as [g|]; [|cbn; auto]. intros [N|(S & M & E)]; cbn [on_geom]; [now apply child_none|now apply child_empty].
Qed.

(** ** The predicates on geometries *)

Definition none_or_skip (empty : Prop) (a : arms) : Prop := arms_skip a /\ (empty -> arms_none a).

Lemma ns_point_intersects p : none_or_skip False (Arms (fun q => Ret (pteq p q))
    (fun l => Ret (tg_line_covers_point l p)) (fun q => tg_poly_covers_point q p)).
Proof.
  split; [|tauto]. split; cbn; intros; [now rewrite nl_covers_point|]. unfold tg_poly_covers_point. now rewrite np_contains_point.
Qed.
Lemma ns_line_intersects l : none_or_skip (no_line l) (Arms (fun p => Ret (tg_line_covers_point l p))
    (fun m => Ret (tg_line_intersects_line l m)) (fun q => tg_poly_intersects_line q l)).
Proof.
  split; [|intros N; split; [|split]]; [split| | |]; cbn; intros; rewrite ?nl_intersects_line_r, ?np_intersects_line,
    ?nl_covers_point, ?nl_intersects_line_l, ?nl_poly_intersects by assumption; reflexivity.
Qed.
Lemma ns_poly_intersects q : none_or_skip (no_poly q) (Arms (tg_poly_covers_point q) (tg_poly_intersects_line q)
    (tg_poly_intersects_poly q)).
Proof.
  split; [|intros N; split; [|split]]; [split| | |]; cbn; unfold tg_poly_covers_point; intros;
    first [now apply nl_poly_intersects|now apply np_intersects_r|now apply np_contains_point|now apply np_intersects_line|now apply np_intersects_l].
Qed.
Lemma ns_point_covers p : none_or_skip False (Arms (fun q => Ret (pteq p q)) (fun l => Ret (tg_point_covers_line p l))
    (fun q => Ret (tg_point_covers_poly p q))).
Proof. split; [|tauto]. split; cbn; intros; [now rewrite nl_point_covers|now rewrite np_point_covers]. Qed.
Lemma ns_line_covers l : none_or_skip (no_line l) (Arms (fun p => Ret (tg_line_covers_point l p)) (tg_line_covers_line l)
    (tg_line_covers_poly l)).
Proof.
  split; [|intros N; split; [|split]]; [split| | |]; cbn; intros;
    first [now apply nl_covers_line_r|now apply np_line_covers|now rewrite nl_covers_point|now apply nl_covers_line_l|now apply nl_covers_poly].
Qed.
Lemma ns_poly_covers q : none_or_skip (no_poly q) (Arms (tg_poly_covers_point q) (tg_poly_covers_line q) (tg_poly_covers_poly q)).
Proof.
  split; [|intros N; split; [|split]]; [split| | |]; cbn; unfold tg_poly_covers_point, tg_poly_covers_line; intros;
    first [now apply nl_poly_has|now apply np_covers_r|now apply np_contains_point|now apply np_has_line|now apply np_covers_l].
Qed.
Lemma ns_point_contains p : none_or_skip False (Arms (fun q => Ret (pteq p q)) (fun l => Ret (tg_point_covers_line p l))
    (fun _ => Ret false)).
Proof. split; [|tauto]. split; cbn; intros; [now rewrite nl_point_covers|reflexivity]. Qed.
Lemma ns_line_contains l : none_or_skip (no_line l) (Arms (fun p => Ret (tg_line_contains_point l p)) (tg_line_covers_line l)
    (fun _ => Ret false)).
Proof.
  split; [|intros N; split; [|split]]; [split| | |]; cbn; intros;
    first [now apply nl_covers_line_r|now rewrite nl_contains_point|now apply nl_covers_line_l|reflexivity].
Qed.
Lemma ns_poly_contains q : none_or_skip (no_poly q) (Arms (tg_poly_contains_point q) (tg_poly_contains_line q)
    (tg_poly_covers_poly q)).
Proof.
  split; [|intros N; split; [|split]]; [split| | |]; cbn; unfold tg_poly_contains_point, tg_poly_contains_line; intros;
    first [now apply nl_poly_has|now apply np_covers_r|now apply np_contains_point|now apply np_has_line|now apply np_covers_l].
Qed.

(** one of the two is empty *)
Definition one_empty (g o : option geom) : Prop := tg_geom_is_empty g = true \/ tg_geom_is_empty o = true.

Lemma by_arms E a o : none_or_skip E a -> regular o -> E \/ tg_geom_is_empty o = true ->
  on_geom (some_child a) o = Ret false /\ on_geom (each_child a) o = Ret false.
Proof. intros [S N] R [X|X]; apply some_geom; auto. Qed.

Lemma loop_skips {S} (iter : S -> option geom -> S * bool) gs : forall st,
  (forall st o, In o gs -> iter st o = (st, true) \/ iter st o = (st, false)) -> fst (foreach_loop iter st gs) = st.
Proof.
  induction gs as [|o gs IH]; intros st H; cbn [foreach_loop]; [reflexivity|].
  destruct (H st o ltac:(now left)) as [->| ->]; [apply IH; intros; apply H; now right|reflexivity].
Qed.
Lemma holds_none fs o : regular o ->
  tg_geom_is_empty o = true \/ (forall p f, regular p -> In f fs -> f p = Ret false) -> holds_all fs o = Ret false.
Proof.
  intros R H. unfold holds_all.
  assert (S : forall p, regular p -> (tg_geom_is_empty o = true -> tg_geom_is_empty p = true) ->
    holds_iter fs (Ret false) p = (Ret false, true) \/ holds_iter fs (Ret false) p = (Ret false, false)).
  { intros p RP EP. unfold holds_iter. destruct (tg_geom_is_empty p) eqn:EQ; [auto|]. destruct H as [H|H]; [discriminate (EP H)|].
    rewrite any_false; [auto|]. intros y I. apply in_map_iff in I as (f & <- & I). now apply H. }
  assert (B : forall g, regular (Some g) -> tg_geom_is_empty (Some g) = tg_geom_is_empty o ->
    fst (holds_iter fs (Ret false) (Some g)) = Ret false).
  { intros g RG EG. destruct (S (Some g) RG ltac:(congruence)) as [->| ->]; reflexivity. }
  destruct o as [g|]; [|reflexivity]. destruct g as [f p|f l|f p|f p z m x|f l c x|f p c x|t f gs c x]; cbn [tg_geom_foreach];
    try (now apply B).
  destruct gs as [gs|]; [|reflexivity]. cbn [regular opt_all] in R. destruct (empty_multi _ _ _ _ _ R) as [F MC].
  assert (K : forall d, In d gs -> tg_geom_is_empty (Some (GGMulti t f (Some gs) c x)) = true -> tg_geom_is_empty d = true).
  { intros [d|] I E; [|reflexivity]. exact (empty_kids _ _ _ _ _ F E d I). }
  rewrite Forall_forall in MC. set (o := Some _) in *. clearbody o. clear B R F.
  induction gs as [|d gs IH]; [reflexivity|]. cbn [foreach_loop].
  destruct (S d (MC d ltac:(now left)) (K d ltac:(now left))) as [->| ->]; [|reflexivity].
  apply IH; intros; [apply MC|apply K]; auto; now right.
Qed.

Theorem C53_covers :
  forall g o, regular g -> regular o -> one_empty g o ->
    tg_geom_covers g o = Ret false /\ tg_geom_contains g o = Ret false.
Proof.
  intros g o Rg Ro. destruct g as [g|]; [|split; reflexivity]. cbn [tg_geom_covers tg_geom_contains on_geom regular opt_all] in *.
  unfold one_empty. cbn [tg_geom_is_empty]. revert o Ro.
  induction g as [f p|f l|f p|f p z m x|f l c x|f p c x|t f c x|t f gs c x IH] using geom_ind_deep;
    intros o Ro E; cbn [geom_covers geom_contains]; cbn [made_of geom_is_empty geom_flags] in *.
  - rewrite Rg in E. split; [apply (by_arms _ _ _ (ns_point_covers p) Ro)|apply (by_arms _ _ _ (ns_point_contains p) Ro)]; (destruct E as [E|E]; [discriminate E|now right]).
  - destruct Rg as [F B]. rewrite F in E.
    split; [apply (by_arms _ _ _ (ns_line_covers (Some l)) Ro)|apply (by_arms _ _ _ (ns_line_contains (Some l)) Ro)];
      (destruct E as [E|E]; [left; split; assumption|now right]).
  - destruct Rg as [F B]. rewrite F in E.
    split; [apply (by_arms _ _ _ (ns_poly_covers (Some p)) Ro)|apply (by_arms _ _ _ (ns_poly_contains (Some p)) Ro)];
      (destruct E as [E|E]; [left; split; assumption|now right]).
  - destruct (is_empty f); [auto|].
    split; [apply (by_arms _ _ _ (ns_point_covers p) Ro)|apply (by_arms _ _ _ (ns_point_contains p) Ro)]; (destruct E as [E|E]; [discriminate E|now right]).
  - destruct (is_empty f); [auto|].
    split; [apply (by_arms _ _ _ (ns_line_covers l) Ro)|apply (by_arms _ _ _ (ns_line_contains l) Ro)];
      (destruct E as [E|E]; [left; split; assumption|now right]).
  - destruct (is_empty f); [auto|].
    split; [apply (by_arms _ _ _ (ns_poly_covers p) Ro)|apply (by_arms _ _ _ (ns_poly_contains p) Ro)];
      (destruct E as [E|E]; [left; split; assumption|now right]).
  - destruct (is_empty f); [auto|]. split; (apply holds_none; [exact Ro|right; intros q h _ []]).
  - destruct Rg as [F MC]. rewrite made_children in MC. rewrite F in *. rewrite Forall_forall in IH, MC.
    split; apply holds_none; auto; (destruct E as [E|E]; [right|now left]); intros q h Rq I;
      apply in_map_iff in I as ([d|] & <- & I); try reflexivity;
      rewrite forallb_forall in E; apply (IH (Some d) I (MC (Some d) I) q Rq (or_introl (E (Some d) I))).
Qed.
Print Assumptions C53_covers.

Theorem C53_intersects :
  forall g o, regular g -> regular o -> opt_all index_defined g -> one_empty g o ->
    tg_geom_intersects g o = Ret false /\ tg_geom_disjoint g o = Ret true.
Proof.
  intros g o Rg Ro D E. unfold tg_geom_disjoint. enough (H : tg_geom_intersects g o = Ret false) by now rewrite H.
  destruct g as [g|]; [|reflexivity]. cbn [tg_geom_intersects on_geom regular opt_all] in *.
  unfold one_empty in E. cbn [tg_geom_is_empty] in E.
  induction g as [f p|f l|f p|f p z m x|f l c x|f p c x|t f c x|t f gs c x IH] using geom_ind_deep;
    cbn [geom_intersects]; cbn [made_of geom_is_empty geom_flags] in *.
  - rewrite Rg in E. apply (by_arms _ _ _ (ns_point_intersects p) Ro); (destruct E as [E|E]; [discriminate E|now right]).
  - destruct Rg as [F B]. rewrite F in E. apply (by_arms _ _ _ (ns_line_intersects (Some l)) Ro).
    destruct E as [E|E]; [left; split; assumption|now right].
  - destruct Rg as [F B]. rewrite F in E. apply (by_arms _ _ _ (ns_poly_intersects (Some p)) Ro).
    destruct E as [E|E]; [left; split; assumption|now right].
  - destruct (is_empty f); [auto|]. apply (by_arms _ _ _ (ns_point_intersects p) Ro); (destruct E as [E|E]; [discriminate E|now right]).
  - destruct (is_empty f); [auto|]. apply (by_arms _ _ _ (ns_line_intersects l) Ro).
    destruct E as [E|E]; [left; split; assumption|now right].
  - destruct (is_empty f); [auto|]. apply (by_arms _ _ _ (ns_poly_intersects p) Ro).
    destruct E as [E|E]; [left; split; assumption|now right].
  - now destruct (is_empty f).
  - destruct Rg as [F MC]. rewrite made_children in MC. rewrite F in *. rewrite Forall_forall in IH, MC.
    apply index_defined_multi in D as [D DC]. apply search_false; [|exact D].
    intros k. destruct (nth_in_or_default k (map (fun c0 => match c0 with Some c1 => geom_intersects c1 o | None => Ret false end) gs) (Ret false)) as [I|I]; [|exact I].
    apply in_map_iff in I as ([d|] & <- & I); [|reflexivity].
    apply (IH (Some d) I (MC (Some d) I) (DC d I)).
    destruct E as [E|E]; [left|now right]. rewrite forallb_forall in E. exact (E (Some d) I).
Qed.
Print Assumptions C53_intersects.

(** ** Touches *)

(** the answer is not true (where it is not false, a NULL pointer was followed or an index could not be built) *)
Definition not_true (x : out bool) : Prop := x <> Ret true.

Definition bare_none (l : option ring) : Prop := opt_all bare_line l /\ line_is_empty l = true.
Definition bare_gone (q : option poly) : Prop := opt_all bare_poly q /\ tg_poly_empty q = true.

Lemma bare_no_line l : bare_none l -> no_line l.
Proof. intros [B E]. split; [|exact E]. destruct l as [l|]; [apply B|exact I]. Qed.
Lemma bare_no_poly q : bare_gone q -> no_poly q.
Proof. intros [B E]. split; [|exact E]. destruct q as [q|]; [apply B|exact I]. Qed.
Lemma bare_points l : bare_none l -> match l with Some r => Preds.ring_pts r | None => [] end = [].
Proof. intros [B E]. destruct l as [l|]; [|reflexivity]. unfold Preds.ring_pts. now rewrite (proj2 B E). Qed.
Lemma bare_segs l : no_line l -> match l with Some r => ring_segs r | None => [] end = [].
Proof. intros [B E]. destruct l as [l|]; [|reflexivity]. unfold ring_segs. now rewrite (proj1 (empty_ring l B E)). Qed.
Lemma bare_holes q : bare_gone q -> poly_holes q = [].
Proof. intros [B E]. destruct q as [q|]; [|reflexivity]. exact (proj2 B E). Qed.
Lemma gone_exterior q : no_poly q -> no_line (tg_poly_exterior q).
Proof. intros [B E]. split; [|exact E]. destruct q as [[r|e hs]|]; exact B. Qed.

Lemma nt_point_line p l : no_line l -> tg_point_touches_line p l = false.
Proof. intros [B E]. destruct l as [l|]; [|reflexivity]. cbn. now rewrite (proj1 (empty_ring l B E)). Qed.
Lemma nt_point_poly p q : bare_gone q -> tg_point_touches_poly p q = false.
Proof.
  intros N. unfold tg_point_touches_poly. rewrite (bare_holes q N).
  now rewrite (nl_covers_point _ _ (gone_exterior q (bare_no_poly q N))).
Qed.
Lemma nt_line_line l m : no_line l \/ no_line m -> tg_line_touches_line l m = false.
Proof.
  intros N. destruct l as [r|], m as [s|]; try reflexivity. cbn [tg_line_touches_line].
  unfold tg_line_line_search, tg_ring_ring_search.
  destruct N as [[_ E]|[_ E]]; cbn [line_is_empty] in E; rewrite E, ?orb_true_r; reflexivity.
Qed.
Lemma hole_none inside pts hs : (forall h, inside h = Ret false) -> hole_touch inside pts hs = Ret None.
Proof. intros H. induction hs as [|h hs IH]; [reflexivity|]. cbn [hole_touch]. now rewrite H. Qed.
Lemma nt_poly_line q l : bare_none l \/ bare_gone q -> tg_poly_touches_line q l = Ret false.
Proof.
  intros N. unfold tg_poly_touches_line. destruct (negb _); [reflexivity|]. cbv zeta. destruct N as [N|N].
  - rewrite hole_none; [|intros h; unfold tg_ring_contains_line; now rewrite (proj2 N), orb_true_r]. cbn [bind_out].
    now rewrite (bare_points l N).
  - rewrite (bare_holes q N). cbn [hole_touch bind_out].
    replace (existsb _ _) with false; [reflexivity|]. symmetry.
    destruct (existsb _ _) eqn:X; [|reflexivity]. apply existsb_exists in X as (p & _ & X).
    rewrite (nl_covers_point _ _ (gone_exterior q (bare_no_poly q N))) in X. discriminate.
Qed.
Lemma empty_intersects_segment r s edge : built r -> tg_ring_empty r = true ->
  tg_ring_intersects_segment (Some r) s edge = Ret false.
Proof.
  intros B E. cbn [tg_ring_intersects_segment]. destruct (negb _); [reflexivity|]. cbn [any_of].
  rewrite !empty_hits by assumption. cbn [bind_out]. now rewrite empty_search.
Qed.
Lemma empty_count e segs n : no_line e -> count_touches e segs n = Ret (Some n) \/ count_touches e segs n = Undef.
Proof.
  intros [B E]. induction segs as [|s segs IH]; [now left|]. cbn [count_touches]. destruct e as [r|]; [|now right].
  rewrite !empty_intersects_segment by assumption. exact IH.
Qed.
Lemma nt_poly_poly a b : bare_gone a \/ bare_gone b -> not_true (tg_poly_touches_poly a b).
Proof.
  intros N. unfold tg_poly_touches_poly. destruct (negb _); [discriminate|]. cbv zeta.
  assert (H : hole_touch (fun h => tg_ring_contains_ring h (tg_poly_exterior b) true)
      match tg_poly_exterior b with Some r => Preds.ring_pts r | None => [] end (poly_holes a) = Ret None).
  { destruct N as [N|N]; [now rewrite (bare_holes a N)|]. apply hole_none. intros h. unfold tg_ring_contains_ring.
    destruct N as [_ E]. unfold tg_poly_empty in E. now rewrite E, orb_true_r. }
  assert (H' : hole_touch (fun h => tg_ring_contains_ring h (tg_poly_exterior a) true)
      match tg_poly_exterior a with Some r => Preds.ring_pts r | None => [] end (poly_holes b) = Ret None).
  { destruct N as [N|N]; [|now rewrite (bare_holes b N)]. apply hole_none. intros h. unfold tg_ring_contains_ring.
    destruct N as [_ E]. unfold tg_poly_empty in E. now rewrite E, orb_true_r. }
  rewrite H. cbn [bind_out]. rewrite H'. cbn [bind_out].
  destruct N as [N|N]; pose proof (gone_exterior _ (bare_no_poly _ N)) as X.
  - rewrite (bare_segs _ X). destruct (empty_count (tg_poly_exterior a)
      match tg_poly_exterior b with Some r => ring_segs r | None => [] end 0 X) as [->| ->]; discriminate.
  - rewrite (bare_segs _ X). cbn [count_touches bind_out]. destruct (empty_count (tg_poly_exterior b)
      match tg_poly_exterior a with Some r => ring_segs r | None => [] end 0 X) as [->| ->]; discriminate.
Qed.

Lemma any_not_true l : (forall x, In x l -> not_true x) -> not_true (any_of l).
Proof.
  induction l as [|x l IH]; intros H; cbn [any_of]; [discriminate|].
  pose proof (H x ltac:(now left)) as X. destruct x as [[]| |]; cbn [bind_out]; try discriminate; [now destruct X|].
  apply IH. intros; apply H; now right.
Qed.
Lemma touch_not_true l : (forall t i, In (t, i) l -> not_true t) -> not_true (touch_all l false).
Proof.
  induction l as [|[t i] l IH]; intros H; cbn [touch_all]; [discriminate|].
  pose proof (H t i ltac:(now left)) as X. destruct t as [[]| |]; cbn [bind_out]; try discriminate; [now destruct X|].
  destruct i as [[]| |]; cbn [bind_out]; try discriminate. apply IH. intros u j I. apply (H u j). now right.
Qed.

Lemma bare_multi t f gs c x : made_of bare_line bare_poly (GGMulti t f (Some gs) c x) ->
  is_empty f = false /\ Forall (opt_all (made_of bare_line bare_poly)) gs.
Proof. cbn [made_of]. now rewrite made_children. Qed.

(** a shape against an empty geometry *)
Lemma touch_child_empty a g :
  (forall l, bare_none l -> not_true (PredsGeom.on_line a l)) -> (forall q, bare_gone q -> not_true (on_poly a q)) ->
  made_of bare_line bare_poly g -> geom_is_empty g = true -> not_true (some_child a g).
Proof.
  intros KL KP. induction g as [f p|f l|f p|f p z m x|f l c x|f p c x|t f c x|t f gs c x IH] using geom_ind_deep;
    intros M E; cbn [some_child].
  - cbn in M, E. rewrite M in E. discriminate.
  - cbn in M, E. destruct M as [M B]. rewrite M in E. apply KL. split; [exact B|exact E].
  - cbn in M, E. destruct M as [M B]. rewrite M in E. apply KP. split; [exact B|exact E].
  - cbn in E. destruct (is_empty f); [discriminate|discriminate E].
  - cbn in M, E. destruct (is_empty f); [discriminate|]. apply KL. split; [exact M|exact E].
  - cbn in M, E. destruct (is_empty f); [discriminate|]. apply KP. split; [exact M|exact E].
  - destruct (is_empty f); discriminate.
  - destruct (bare_multi _ _ _ _ _ M) as [F MC]. pose proof (empty_kids _ _ _ _ _ F E) as EK. rewrite F.
    rewrite Forall_forall in IH, MC. apply any_not_true.
    intros y I; apply in_map_iff in I as ([d|] & <- & I); [|discriminate].
    apply (IH (Some d) I (MC (Some d) I) (EK d I)).
Qed.
Lemma touch_child_none a g :
  (forall p, not_true (on_point a p)) -> (forall l, not_true (PredsGeom.on_line a l)) -> (forall q, not_true (on_poly a q)) ->
  not_true (some_child a g).
Proof.
  intros KT KL KP. induction g as [f p|f l|f p|f p z m x|f l c x|f p c x|t f c x|t f gs c x IH] using geom_ind_deep;
    cbn [some_child]; auto; destruct (is_empty f); try discriminate; auto.
  rewrite Forall_forall in IH. apply any_not_true.
  intros y I; apply in_map_iff in I as ([d|] & <- & I); [|discriminate]. apply (IH (Some d) I).
Qed.
Lemma poly_touch_empty q g : made_of bare_line bare_poly g -> geom_is_empty g = true -> not_true (poly_touches q g).
Proof.
  induction g as [f p|f l|f p|f p z m x|f l c x|f p c x|t f c x|t f gs c x IH] using geom_ind_deep;
    intros M E; cbn [poly_touches].
  - cbn in M, E. rewrite M in E. discriminate.
  - cbn in M, E. destruct M as [M B]. rewrite M in E. rewrite nt_poly_line; [discriminate|]. left. split; [exact B|exact E].
  - cbn in M, E. destruct M as [M B]. rewrite M in E. apply nt_poly_poly. right. split; [exact B|exact E].
  - cbn in E. destruct (is_empty f); [discriminate|discriminate E].
  - cbn in M, E. destruct (is_empty f); [discriminate|]. rewrite nt_poly_line; [discriminate|]. left. split; [exact M|exact E].
  - cbn in M, E. destruct (is_empty f); [discriminate|]. apply nt_poly_poly. right. split; [exact M|exact E].
  - destruct (is_empty f); discriminate.
  - destruct (bare_multi _ _ _ _ _ M) as [F MC]. pose proof (empty_kids _ _ _ _ _ F E) as EK. rewrite F.
    rewrite Forall_forall in IH, MC. apply touch_not_true.
    intros y i I; apply in_map_iff in I as ([d|] & [= <- <-] & I); [|discriminate].
    apply (IH (Some d) I (MC (Some d) I) (EK d I)).
Qed.
Lemma poly_touch_none q g : bare_gone q -> not_true (poly_touches q g).
Proof.
  intros N. induction g as [f p|f l|f p|f p z m x|f l c x|f p c x|t f c x|t f gs c x IH] using geom_ind_deep;
    cbn [poly_touches]; rewrite ?nt_point_poly, ?nt_poly_line by auto; try discriminate;
    try (apply nt_poly_poly; now left); destruct (is_empty f); try discriminate;
    try (apply nt_poly_poly; now left).
  rewrite Forall_forall in IH. apply touch_not_true.
  intros y i I; apply in_map_iff in I as ([d|] & [= <- <-] & I); [|discriminate]. apply (IH (Some d) I).
Qed.

(** Missing for the whole claim: lines of one point and polygons with holes but without an exterior (see the refutation). *)
Theorem C53_touches_partial :
  forall g o, bare g -> bare o -> one_empty g o -> tg_geom_touches g o <> Ret true.
Proof.
  intros g o Rg Ro E. change (not_true (tg_geom_touches g o)).
  destruct g as [g|]; [|discriminate]. cbn [tg_geom_touches on_geom bare opt_all] in *.
  unfold one_empty in E. cbn [tg_geom_is_empty] in E.
  assert (PT : forall p, tg_geom_is_empty o = true -> not_true (point_touches_geom p o)).
  { intros p EO. destruct o as [o|]; [|discriminate]. apply touch_child_empty; auto; cbn; intros.
    - rewrite nt_point_line; [discriminate|now apply bare_no_line].
    - rewrite nt_point_poly; [discriminate|assumption]. }
  assert (LT : forall l, bare_none l \/ tg_geom_is_empty o = true -> not_true (line_touches_geom l o)).
  { intros l [N|EO]; (destruct o as [o|]; [|discriminate]).
    - apply touch_child_none; cbn; intros.
      + rewrite nt_point_line; [discriminate|now apply bare_no_line].
      + rewrite nt_line_line; [discriminate|left; now apply bare_no_line].
      + rewrite nt_poly_line; [discriminate|now left].
    - apply touch_child_empty; auto; cbn; intros.
      + rewrite nt_line_line; [discriminate|right; now apply bare_no_line].
      + rewrite nt_poly_line; [discriminate|now right]. }
  assert (QT : forall q, bare_gone q \/ tg_geom_is_empty o = true -> not_true (poly_touches_geom q o)).
  { intros q [N|EO]; (destruct o as [o|]; [|discriminate]); [now apply poly_touch_none|now apply poly_touch_empty]. }
  induction g as [f p|f l|f p|f p z m x|f l c x|f p c x|t f c x|t f gs c x IH] using geom_ind_deep;
    cbn [geom_touches]; cbn [made_of geom_is_empty geom_flags] in *.
  - rewrite Rg in E. apply PT. destruct E as [E|E]; [discriminate E|exact E].
  - destruct Rg as [F B]. rewrite F in E. apply LT. destruct E as [E|E]; [left; split; assumption|now right].
  - destruct Rg as [F B]. rewrite F in E. apply QT. destruct E as [E|E]; [left; split; assumption|now right].
  - destruct (is_empty f); [discriminate|]. apply PT. destruct E as [E|E]; [discriminate E|exact E].
  - destruct (is_empty f); [discriminate|]. apply LT. destruct E as [E|E]; [left; split; assumption|now right].
  - destruct (is_empty f); [discriminate|]. apply QT. destruct E as [E|E]; [left; split; assumption|now right].
  - destruct (is_empty f); discriminate.
  - destruct Rg as [F MC]. rewrite made_children in MC. rewrite F in *. rewrite Forall_forall in IH, MC.
    apply touch_not_true. intros y i I; apply in_map_iff in I as ([d|] & [= <- <-] & I); [|discriminate].
    apply (IH (Some d) I (MC (Some d) I)).
    destruct E as [E|E]; [left|now right]. rewrite forallb_forall in E. exact (E (Some d) I).
Qed.
Print Assumptions C53_touches_partial.

(** a line of one point is empty, yet a polygon with that point on its border touches it *)
Theorem C53_refuted :
  exists l q, built l /\ built q /\
    let line := Some (tg_geom_new_linestring l) in
    let poly := Some (tg_geom_new_polygon (PRing q)) in
    regular line /\ regular poly /\ tg_geom_is_empty line = true /\
    tg_geom_touches poly line = Ret true /\ tg_geom_touches line poly = Ret true /\
    tg_geom_intersects poly line = Ret false.
Proof.
  set (one := 4607182418800017408).
  destruct (series_new [Pt 0 0] false IxNone 16) as [l|] eqn:L; [|discriminate L].
  destruct (series_new [Pt 0 0; Pt one 0; Pt one one; Pt 0 one; Pt 0 0] true IxNone 16) as [q|] eqn:Q; [|discriminate Q].
  exists l, q.
  assert (BL : built l) by (exists [Pt 0 0], false, IxNone, 16%nat; split; [lia|exact L]).
  assert (BQ : built q) by (exists [Pt 0 0; Pt one 0; Pt one one; Pt 0 one; Pt 0 0], true, IxNone, 16%nat; split; [lia|exact Q]).
  split; [exact BL|]. split; [exact BQ|]. cbv zeta. split; [now split|]. split; [now split|].
  vm_compute in L, Q. injection L as <-. injection Q as <-. vm_compute. auto.
Qed.
Print Assumptions C53_refuted.

Ltac parts := repeat first [assumption | reflexivity | exact I | split].

(** empties of every kind against a box: the flagged empty polygon, a line without points, a ring of two points,
    a collection of empties, a collection without children *)
Example C53_example :
  let one := 4607182418800017408 in
  exists l0 r2 q, built l0 /\ built r2 /\ built q /\
    let box := Some (tg_geom_new_polygon (PRing q)) in
    let col := Some (tg_geom_new_geometrycollection [box; Some (tg_geom_new_point (Pt 0 0))]) in
    let empties := [None; Some tg_geom_new_polygon_empty; Some (tg_geom_new_linestring l0); Some (tg_geom_new_polygon (PRing r2));
                    Some (tg_geom_new_geometrycollection [Some tg_geom_new_point_empty; None; Some (tg_geom_new_linestring l0)]);
                    Some (tg_geom_new_geometrycollection [])] in
    bare box /\ bare col /\ regular box /\ regular col /\ opt_all index_defined col /\
    Forall (fun e => bare e /\ regular e /\ opt_all index_defined e /\ tg_geom_is_empty e = true /\
      tg_geom_covers col e = Ret false /\ tg_geom_intersects box e = Ret false /\ tg_geom_touches e col = Ret false) empties /\
    tg_geom_is_empty col = false /\ tg_geom_covers col box = Ret true /\ tg_geom_contains col box = Ret true /\
    tg_geom_intersects box col = Ret true.
Proof.
  intros one.
  destruct (series_new [] false IxNone 16) as [l0|] eqn:L; [|discriminate L].
  destruct (series_new [Pt 0 0; Pt one one] true IxNone 16) as [r2|] eqn:R; [|discriminate R].
  destruct (series_new [Pt 0 0; Pt one 0; Pt one one; Pt 0 one; Pt 0 0] true IxNone 16) as [q|] eqn:Q; [|discriminate Q].
  assert (BL : built l0) by (exists [], false, IxNone, 16%nat; split; [lia|exact L]).
  assert (BR : built r2) by (exists [Pt 0 0; Pt one one], true, IxNone, 16%nat; split; [lia|exact R]).
  assert (BQ : built q) by (exists [Pt 0 0; Pt one 0; Pt one one; Pt 0 one; Pt 0 0], true, IxNone, 16%nat; split; [lia|exact Q]).
  exists l0, r2, q. split; [exact BL|]. split; [exact BR|]. split; [exact BQ|]. cbv zeta.
  assert (XL : bare_line l0) by (split; [exact BL|]; vm_compute in L; injection L as <-; reflexivity).
  assert (XR : bare_poly (PRing r2)) by (split; [exact BR|reflexivity]).
  assert (XQ : bare_poly (PRing q)) by (split; [exact BQ|reflexivity]).
  split; [parts|]. split; [parts|]. split; [parts|]. split; [parts|].
  split. { vm_compute in Q. injection Q as <-. vm_compute. repeat split; discriminate. }
  split; [|vm_compute in Q; injection Q as <-; vm_compute; auto].
  repeat (constructor; [split; [parts|]; split; [parts|]; vm_compute in Q, L, R; injection Q as <-; injection L as <-; injection R as <-;
    split; [vm_compute; repeat split; discriminate|]; vm_compute; auto|]). constructor.
Qed.
