(** * Copies of rings and polygons *)

From Coq Require Import ZArith Bool List Lia Arith.
From Verif Require Import F64 Geo Series Geom MultiIx Heap HeapGeom SpecHeap HeapFacts HeapStep HeapFree HeapDen HeapNew HeapMake.
Import ListNotations.
Local Open Scope nat_scope.

(** an unfinished polygon is released *)
Lemma wp_release_poly {cp rk0 h0 E0 D0} h X Y q (Q : unit -> heap -> Prop) : St cp rk0 h0 E0 D0 h (q :: X) Y -> pk h is_pol (Some q) ->
  (forall h', St cp rk0 h0 E0 D0 h' X Y -> calls h <= calls h' -> Q tt h') -> wp (tg_poly_free (Some q)) Q h.
Proof.
  intros A P K. pose proof (st_inv _ _ _ _ _ _ _ _ A) as I. cbn [app] in I.
  destruct (st_rank _ _ _ _ _ _ _ _ A) as (rk & R & EQ).
  pose proof (proj2 (poly_free_ok cp rk) h (X ++ E0) (Y ++ D0) q I R P Logic.I) as W.
  unfold wp in *. destruct (tg_poly_free (Some q) h) as [[[] h']|] eqn:E; [|exact W].
  destruct (mono_poly_free _ _ _ _ E) as [OK C]. apply K; [|assumption]. constructor; try apply A.
  - apply W.
  - exists rk. split; [apply W|assumption].
  - apply (Fr_trans D0 (Y ++ D0) h0 h h'); [apply A|apply W|]. apply incl_appr, incl_refl.
  - rewrite OK. apply A.
  - pose proof (st_calls _ _ _ _ _ _ _ _ A). lia.
Qed.
Lemma wp_release_ring {cp rk0 h0 E0 D0} h X Y q (Q : unit -> heap -> Prop) : St cp rk0 h0 E0 D0 h (q :: X) Y -> pk h is_ring (Some q) ->
  (forall h', St cp rk0 h0 E0 D0 h' X Y -> calls h <= calls h' -> Q tt h') -> wp (tg_ring_free (Some q)) Q h.
Proof.
  intros A P K. pose proof (st_inv _ _ _ _ _ _ _ _ A) as I. cbn [app] in I.
  destruct (st_rank _ _ _ _ _ _ _ _ A) as (rk & R & EQ).
  pose proof (proj2 (ring_free_ok cp rk) h (X ++ E0) (Y ++ D0) q I R P Logic.I) as W.
  unfold wp in *. destruct (tg_ring_free (Some q) h) as [[[] h']|] eqn:E; [|exact W].
  destruct (mono_ring_free _ _ _ _ E) as [OK C]. apply K; [|assumption]. constructor; try apply A.
  - apply W.
  - exists rk. split; [apply W|assumption].
  - apply (Fr_trans D0 (Y ++ D0) h0 h h'); [apply A|apply W|]. apply incl_appr, incl_refl.
  - rewrite OK. apply A.
  - pose proof (st_calls _ _ _ _ _ _ _ _ A). lia.
Qed.

(** a pointer argument *)
Definition argp (k : block -> bool) (bound : (ptr -> nat) -> ptr -> Prop) (rk : ptr -> nat) (h : heap) (D : list ptr) (o : option ptr) : Prop :=
  forall p, o = Some p -> pk h k (Some p) /\ ~ In p D /\ bound rk p.
Definition nobound (rk : ptr -> nat) (p : ptr) : Prop := True.

Lemma St_argp {cp rk0 h0 E0 D0} h X Y k o : St cp rk0 h0 E0 D0 h X Y -> stripped k -> pk h0 k o ->
  (forall q, In q (olist o) -> ~ In q D0) -> forall q, o = Some q -> pk h k (Some q) /\ ~ In q (Y ++ D0).
Proof.
  intros A Sk P N q ->. specialize (N q (or_introl eq_refl)). split.
  - apply (pk_keep h0); [assumption| |assumption]. intros x [<-|[]]. now apply (St_keep _ _ _ A).
  - destruct P as (b & G & _). eapply St_arg; eauto.
Qed.
(** what a copy is *)
Definition copied {G : Type} (dn : view -> G -> ptr -> Prop) (good fw : G -> bool) (h : heap) (o r : option ptr) (h' : heap) : Prop :=
  match r with
  | None => oom h h' \/ o = None \/ exists p, o = Some p /\ forall g, dn (get h) g p -> good g = false
  | Some q => exists p, o = Some p /\ forall g, dn (get h) g p -> fw g = true -> dn (fresh (length (cells h)) (get h')) g q
  end.
Definition yes {G : Type} (_ : G) : bool := true.
Definition dring (v : view) (x : flags * ring) (p : ptr) : Prop := den_ring v (fst x) (snd x) p.
Definition dpoly (v : view) (x : flags * poly) (p : ptr) : Prop := den_poly v (fst x) (snd x) p.

(** the same while blocks [D] are under construction *)
Definition cop {G : Type} (dn : view -> G -> ptr -> Prop) (fw : G -> bool) (h : heap) (D : list ptr) (h' : heap) (o r : option ptr) : Prop :=
  match r with
  | None => True
  | Some q => exists p, o = Some p /\ forall g, dn (get h) g p -> fw g = true -> dn (fresh (length (cells h)) (off D (get h'))) g q
  end.
Definition stable {G : Type} (dn : view -> G -> ptr -> Prop) : Prop := forall v v' g p, vle v v' -> dn v g p -> dn v' g p.
Lemma stable_ring : stable dring.
Proof. intros v v' g p. apply den_ring_vle. Qed.
Lemma stable_poly : stable dpoly.
Proof. intros v v' g p. apply den_poly_vle. Qed.
Lemma cop_copied {G} (dn : view -> G -> ptr -> Prop) good fw {cp rk0 h0 E0 D0} h X Y o r h' : stable dn ->
  St cp rk0 h0 E0 D0 h X Y -> copied dn good fw h o r h' -> cop dn fw h0 (Y ++ D0) h' o r.
Proof.
  intros Sd A C. destruct r as [q|]; [|exact Logic.I]. destruct C as (p & -> & C). exists p. split; [reflexivity|]. intros g Dg Fg.
  apply (Sd (fresh (length (cells h)) (get h'))).
  - apply fresh_off_vle; [apply (St_len _ _ _ A)|]. intros x Hx. now apply (St_lt _ _ _ A).
  - apply C; [|assumption]. apply (Sd (get h0)); [apply (St_vle _ _ _ A)|assumption].
Qed.
Lemma cop_kept {G} (dn : view -> G -> ptr -> Prop) fw h0 D h h' o r : stable dn ->
  kept D h h' -> cop dn fw h0 D h o r -> cop dn fw h0 D h' o r.
Proof.
  intros Sd K C. destruct r as [q|]; [|exact Logic.I]. destruct C as (p & -> & C). exists p. split; [reflexivity|]. intros g Dg Fg.
  apply (Sd (fresh (length (cells h0)) (off D (get h)))); [now apply off_kept|auto].
Qed.

(** an element that cannot be copied *)
Definition badel {G : Type} (dn : view -> G -> ptr -> Prop) (good : G -> bool) (h : heap) (o : option ptr) : Prop :=
  o = None \/ exists p, o = Some p /\ forall g, dn (get h) g p -> good g = false.
Lemma bad_copied {G} (dn : view -> G -> ptr -> Prop) good fw {cp rk0 h0 E0 D0} h X Y o h' : stable dn ->
  St cp rk0 h0 E0 D0 h X Y -> copied dn good fw h o None h' -> oom h h' \/ badel dn good h0 o.
Proof.
  intros Sd A [C|[C|(p & -> & C)]]; [now left|right; now left|]. right. right. exists p. split; [reflexivity|].
  intros g Dg. apply C. apply (Sd (get h0)); [apply (St_vle _ _ _ A)|assumption].
Qed.

Lemma ring_copy_ok : makes true is_ring (argp is_ring nobound) (copied dring yes yes) tg_ring_copy.
Proof.
  intros rk h E D o I R AR. pose proof (St_start I R) as A0. destruct o as [p|].
  2:{ apply wp_ret. split; [assumption|]. split; [exact Logic.I|]. cbn. auto. }
  destruct (AR p eq_refl) as ((b & G & K) & ND & _). destruct b as [hd r ix ys| | | | | | | | | |]; try discriminate K.
  destruct (inv_ty _ _ _ _ I p _ G ND) as [_ [T _]]. destruct (T eq_refl) as [-> ->]. clear T.
  cbn [tg_ring_copy]. apply wp_bind, (wp_load p _ _ _ G). apply wp_bind, wp_ret, wp_bind.
  eapply wp_alloc; [exact A0|reflexivity| |].
  - intros h1 q Eq A1 G1 O1 L1 C1. apply wp_ret. split; [|split].
    + refine (St_publish h1 [] [] q _ _ G1 _ _ _); [exact A1|reflexivity|reflexivity|].
      split; [reflexivity|]. cbn. auto.
    + eexists. split; [exact G1|reflexivity].
    + exists p. split; [reflexivity|]. intros [fl l] (h' & r' & ix' & ys' & G' & F' & DI & DY & EQ) _.
      rewrite G in G'. inversion G'; subst h' r' ix' ys'. clear G'.
      exists (new_head (h_flags hd)), r, None, None. split; [|auto].
      unfold fresh. rewrite (proj2 (Nat.ltb_ge _ _)) by lia. assumption.
  - intros h1 A1 C1 L1 O1. apply wp_ret. split; [assumption|]. split; [exact Logic.I|]. now left.
Qed.

Lemma oom_ext h h1 h2 : oom h h1 -> calls h1 <= calls h2 -> oom h h2.
Proof. intros (k & L & O) C. exists k. split; [lia|assumption]. Qed.

Definition whole_pol (x : flags * poly) : bool := whole_poly (snd x).

Lemma poly_copy_ok : makes true is_pol (argp is_pol nobound) (copied dpoly whole_pol yes) tg_poly_copy.
Proof.
  intros rk h E D o I R AR. pose proof (St_start I R) as A0. destruct o as [p|].
  2:{ apply wp_ret. split; [assumption|]. split; [exact Logic.I|]. cbn. auto. }
  destruct (AR p eq_refl) as ((b & G & K) & ND & _). cbn [tg_poly_copy]. apply wp_bind, (wp_load p _ _ _ G).
  destruct b as [hd r ix ys| |hd e n hs| | | | | | | |]; try discriminate K.
  { eapply wp_conseq; [apply (ring_copy_ok rk h E D (Some p) I R)|].
    - intros p' [= <-]. split; [|split; [assumption|exact Logic.I]]. eexists. split; [exact G|reflexivity].
    - intros q h' (A & P & C). split; [assumption|]. split.
      + destruct q as [q|]; [|exact Logic.I]. destruct P as (b & Gb & Kb). exists b. split; [assumption|]. destruct b; try discriminate Kb; reflexivity.
      + destruct q as [q|].
        * destruct C as (p' & Ep & C). exists p'. split; [assumption|]. inversion Ep; subst p'. intros [fl [l|e hs]] DP _.
          -- apply (C (fl, l) DP eq_refl).
          -- destruct DP as (h1 & pe & a & G1 & _). congruence.
        * destruct C as [C|[C|(p' & Ep & C)]]; [now left|discriminate|]. right. right. exists p'. split; [assumption|].
          inversion Ep; subst p'. intros [fl [l|e hs]] DP; [apply (C (fl, l) DP)|]. destruct DP as (h1 & pe & a & G1 & _). congruence. }
  destruct (inv_ty _ _ _ _ I p _ G ND) as [_ [Te Ta]].
  assert (OW : forall q, In q (olist e ++ olist hs) -> get h q <> None /\ ~ In q D) by (intros q Hq; exact (inv_owned _ _ _ _ _ _ _ I G ND Hq)).
  set (h2 := new_head (h_flags hd)).
  apply wp_bind. eapply wp_alloc; [exact A0|reflexivity| |].
  2:{ intros h1 A1 C1 L1 O1. apply wp_ret. split; [assumption|]. split; [exact Logic.I|]. now left. }
  intros h1 p2 Ep2 A1 G1 O1 L1 C1. cbv zeta. fold h2.
  (* what is left of the failing branches *)
  assert (FAIL : forall h' X e' n' a', St true rk h E D h' (owned (BPoly h2 e' n' a') ++ X) [p2] -> get h' p2 = Some (BPoly h2 e' n' a') ->
     typed true h' (BPoly h2 e' n' a') -> X = [] ->
     (oom h h' \/ forall g, dpoly (get h) g p -> whole_pol g = false) ->
     wp (tg_poly_free (Some p2) ;;; ret None) (fun r h'' => St true rk h E D h'' (olist r) [] /\ pk h'' is_pol r /\ copied dpoly whole_pol yes h (Some p) r h'') h').
  { intros h' X e' n' a' A' G' T' -> OO. apply wp_bind. eapply wp_release_poly.
    - eapply St_publish; [exact A'|exact G'|reflexivity|reflexivity|exact T'].
    - eexists. split; [exact G'|reflexivity].
    - intros h'' A'' C''. apply wp_ret. split; [exact A''|]. split; [exact Logic.I|]. cbn.
      destruct OO as [OO|OO]; [left; eapply oom_ext; eauto|]. right. right. eauto. }
  apply wp_bind. eapply (wp_call _ _ _ tg_ring_copy); [exact ring_copy_ok|exact A1| |].
  { intros rk' _ pe Epe. destruct (St_argp _ _ _ _ _ A1 st_ring Te) with (q := pe) as [X1 X2]; auto.
    - intros q Hq. apply OW, in_or_app. now left.
    - split; [assumption|]. split; [assumption|exact Logic.I]. }
  intros e2 h3 A3 P3 CP3 S3 K3 C3 L3.
  apply wp_bind. eapply wp_write; [exact A3|now left|reflexivity|].
  intros h4 A4 G4 O4 L4 C4. rewrite app_nil_r in A4.
  assert (KK4 : kept ([p2] ++ D) h3 h4) by (apply (kept_others _ _ _ p2); [now left|assumption]).
  assert (NE2 : forall q, In q (olist e2) -> ~ In q ([p2] ++ D)).
  { intros q Hq. apply (inv_E _ _ _ _ q (st_inv _ _ _ _ _ _ _ _ A4)), in_or_app. now left. }
  assert (PE4 : pk h4 is_ring e2) by (apply (kept_pk ([p2] ++ D) h3); auto using st_ring).
  assert (V1 : vle (get h) (get h1)) by apply (St_vle _ _ _ A1).
  destruct e2 as [e2|].
  2:{ apply (FAIL h4 [] None 0 None); [exact A4|exact G4|repeat split|reflexivity|].
    destruct CP3 as [C|[C|(pe & Epe & C)]].
    - left. apply (oom_0 h1 [] [p2] h4 _ _ A1 A4). eapply oom_ext; [exact C|lia].
    - right. intros [fl [l|e' hs']] DP; [destruct DP as (x1 & x2 & x3 & x4 & Gx & _); congruence|].
      destruct DP as (x1 & pe & x3 & Gx & _). congruence.
    - right. intros [fl [l|e' hs']] DP; [destruct DP as (x1 & x2 & x3 & x4 & Gx & _); congruence|].
      destruct DP as (x1 & pe' & x3 & Gx & _ & (f & DE) & _). rewrite G in Gx. inversion Gx; subst.
      inversion H1; subst. exfalso. assert (yes (f, e') = false) by (apply C; apply (den_ring_vle _ _ _ _ _ V1 DE)). discriminate. }
  destruct CP3 as (pe & -> & DE). cbn [olist app] in OW, A4.
  assert (DE4 : forall g, dring (get h) g pe -> dring (fresh (length (cells h)) (off ([p2] ++ D) (get h4))) g e2).
  { intros g Dg. apply (den_ring_vle (fresh (length (cells h)) (off ([p2] ++ D) (get h3)))); [now apply off_kept|].
    apply (den_ring_vle (fresh (length (cells h1)) (get h3))).
    - apply fresh_off_vle; [lia|]. intros x Hx. now apply (St_lt _ _ _ A1).
    - apply (DE g); [|reflexivity]. apply (den_ring_vle (get h)); assumption. }
  destruct (Nat.ltb_spec 0 n) as [Ln|Ln].
  2:{ assert (n = 0) by lia. subst n. apply wp_ret. split; [|split].
    - refine (St_publish h4 [] [] p2 _ _ G4 _ _ _); [exact A4|reflexivity|reflexivity|]. split; [reflexivity|]. split; [exact PE4|reflexivity].
    - eexists. split; [exact G4|reflexivity].
    - exists p. split; [reflexivity|]. intros [fl [l|e' hs']] DP _; [destruct DP as (x1 & x2 & x3 & x4 & Gx & _); congruence|].
      destruct DP as (x1 & pe' & x3 & Gx & F & (f & DE') & DA). rewrite G in Gx. inversion Gx; subst x1 pe' x3.
      assert (hs' = []) by (destruct hs'; [reflexivity|discriminate]). subst hs'.
      exists h2, e2, None. cbn [length]. split; [|split; [exact F|split; [|reflexivity]]].
      + unfold fresh. rewrite (proj2 (Nat.ltb_ge _ _)) by lia. exact G4.
      + exists f. apply (den_ring_vle _ _ _ _ _ (fresh_off_drop _ _ _) (DE4 (f, e') DE')). }
  destruct hs as [a|]; [|cbn in Ta; lia]. destruct Ta as (l & Ga & Ll & Fl).
  apply wp_bind. eapply wp_alloc; [exact A4|reflexivity| |].
  2:{ intros h5 A5 C5 L5 O5. assert (GG : forall x, get h5 x = get h4 x) by (intros; unfold get; now rewrite C5).
    apply (FAIL h5 [] (Some e2) 0 None); [exact A5|now rewrite GG| |reflexivity|].
    - split; [reflexivity|]. split; [|reflexivity]. unfold pk. rewrite GG. exact PE4.
    - left. exact (oom_0 h4 _ _ h5 _ _ A4 A5 O5). }
  intros h5 a2 Ea2 A5 G5 O5 L5 C5.
  apply wp_bind. eapply wp_write; [exact A5|right; now left|reflexivity|].
  intros h6 A6 G6 O6 L6 C6.
  assert (Gp2 : get h4 p2 <> None) by congruence.
  assert (Np2 : p2 <> a2) by (intros ->; rewrite Ea2 in Gp2; apply Gp2, get_ge; lia).
  assert (K6 : kept ([a2; p2] ++ D) h4 h6).
  { eapply kept_trans; [apply (kept_fresh _ h4 h5 a2); [apply get_ge; lia|assumption]|apply (kept_others _ _ _ p2); [right; now left|assumption]]. }
  assert (G6a : get h6 a2 = Some (BPtrs (repeat None n))) by (rewrite O6; auto).
  assert (Gal : get h6 a = Some (BPtrs l)) by (apply (vle_aux _ _ _ _ (St_vle _ _ _ A6) Ga); reflexivity).
  apply wp_bind, (wp_load a _ _ _ Gal). rewrite (proj2 (Nat.eqb_eq n (length l))) by lia.
  assert (NDa : ~ In a D) by (apply OW; right; now left).
  assert (OWl : forall q, In q (flat_map olist l) -> ~ In q D) by (intros q Hq; exact (proj2 (inv_owned _ _ _ _ _ _ _ I Ga NDa Hq))).
  apply wp_bind.
  change 0 with (length (@nil (option ptr))) at 1.
  eapply (wp_fill is_ring _ _ tg_ring_copy true a2 st_ring (exists o, In o l /\ badel dring yes h o) (cop dring yes h ([a2; p2] ++ D)) [a2; p2] l ring_copy_ok)
    with (rs := []) (X := [e2]); [now left| | | | |reflexivity|exact A6|reflexivity|rewrite <- Ll in G6a; exact G6a|constructor|constructor|constructor|].
  { intros h' X o rk' A' Ho _ q Eq. rewrite Forall_forall in Fl.
    destruct (St_argp _ _ _ _ _ A' st_ring (Fl o Ho)) with (q := q) as [X1 X2]; auto.
    - intros x Hx. apply OWl, in_flat_map. eauto.
    - split; [assumption|]. split; [assumption|exact Logic.I]. }
  { intros h' X o r h'' A' _ Ho C. exact (cop_copied dring yes yes _ _ _ _ _ _ stable_ring A' C). }
  { intros h' h'' o r. now apply cop_kept, stable_ring. }
  { intros h' X o h'' A' Ho C _. destruct (bad_copied dring yes yes _ _ _ _ _ stable_ring A' C) as [O|O]; eauto. }
  intros b h7 rs A7 L7 G7 F7 O7 K7 C7 LL7 B7.
  assert (K47 : kept ([a2; p2] ++ D) h4 h7) by (eapply kept_trans; eauto).
  assert (PE7 : pk h7 is_ring (Some e2)).
  { apply (kept_pk ([a2; p2] ++ D) h4); auto using st_ring. intros q [<-|[]].
    apply (inv_E _ _ _ _ e2 (st_inv _ _ _ _ _ _ _ _ A7)). rewrite !in_app_iff. left. right. now left. }
  assert (Gp7 : get h7 p2 = Some (BPoly h2 (Some e2) n (Some a2))) by (rewrite O7; [exact G6|right; now left|assumption]).
  assert (A7' : St true rk h E D h7 [a2; e2] [p2]) by (apply (St_array h7 [e2] [p2] a2 rs); assumption).
  assert (A7'' : St true rk h E D h7 (owned (BPoly h2 (Some e2) n (Some a2)) ++ []) [p2]) by (eapply St_X; [|exact A7']; perm).
  assert (T7 : typed true h7 (BPoly h2 (Some e2) n (Some a2))).
  { split; [reflexivity|]. split; [exact PE7|]. exists rs. split; [assumption|]. split; [lia|assumption]. }
  destruct b.
  - apply wp_ret. destruct B7 as [F2 NN]. split; [|split].
    + refine (St_publish h7 [] [] p2 _ A7'' Gp7 eq_refl eq_refl T7).
    + eexists. split; [exact Gp7|reflexivity].
    + exists p. split; [reflexivity|]. intros [fl [l'|e' hs']] DP _; [destruct DP as (x1 & x2 & x3 & x4 & Gx & _); congruence|].
      destruct DP as (x1 & pe' & x3 & Gx & F & (f & DE') & DA). rewrite G in Gx. inversion Gx; subst x1 pe' x3.
      destruct DA as (l' & Ga' & DA). rewrite Ga in Ga'. inversion Ga'; subst l'. clear Ga'.
      exists h2, e2, (Some a2). split; [|split; [exact F|split]].
      * unfold fresh. rewrite (proj2 (Nat.ltb_ge _ _)) by lia. rewrite Gp7. congruence.
      * exists f. apply (den_ring_vle (fresh (length (cells h)) (off ([a2; p2] ++ D) (get h7)))); [apply fresh_off_drop|].
        apply (den_ring_vle (fresh (length (cells h)) (off ([a2; p2] ++ D) (get h4)))); [now apply off_kept|].
        apply (den_ring_vle (fresh (length (cells h)) (off ([p2] ++ D) (get h4)))); [|exact (DE4 (f, e') DE')].
        apply fresh_off_sub. intros x [<-|Hx]; [right; apply get_ge; lia|now left].
      * exists rs. split; [unfold fresh; rewrite (proj2 (Nat.ltb_ge _ _)) by lia; exact G7|].
        specialize (NN eq_refl). clear - F2 NN DA. revert hs' DA NN. induction F2 as [|o r l rs C F2 IH]; intros hs' DA NN; inversion DA as [|x ? hs ? D1 D2]; subst; constructor.
        -- inversion NN; subst. destruct r as [q|]; [|congruence]. destruct C as (po & -> & C). destruct x as [x|]; [|contradiction].
           cbn [den_opt] in *. destruct D1 as (f & Df). exists f.
           apply (den_ring_vle _ _ _ _ _ (fresh_off_drop _ _ _) (C (f, x) Df eq_refl)).
        -- inversion NN; subst. now apply IH.
  - destruct B7 as [_ B7]. apply (FAIL h7 [] (Some e2) n (Some a2)); auto. destruct B7 as [O|(o & Ho & Bo)]; [now left|].
    right. intros [fl [l'|e' hs']] DP; [destruct DP as (x1 & x2 & x3 & x4 & Gx & _); congruence|].
    destruct DP as (x1 & pe' & x3 & Gx & F & _ & DA). rewrite G in Gx. inversion Gx; subst x1 pe' x3.
    destruct DA as (l' & Ga' & DA). rewrite Ga in Ga'. inversion Ga'; subst l'.
    unfold whole_pol. cbn [snd whole_poly]. apply Bool.not_true_iff_false. intros W. rewrite forallb_forall in W.
    clear - Ho Bo DA W. induction DA as [|x o' hs l D1 DA IH]; [contradiction|]. destruct Ho as [->|Ho].
    + specialize (W x (or_introl eq_refl)). destruct x as [x|]; [|discriminate]. destruct o as [q|]; [|contradiction].
      destruct D1 as (f & Df). destruct Bo as [Bo|(p & Ep & Bo)]; [discriminate|]. inversion Ep; subst p. discriminate (Bo (f, x) Df).
    + apply IH; auto. intros y Hy. apply W. now right.
Qed.
