(** * The constructors of geometries *)

From Coq Require Import ZArith Bool List Lia Arith Permutation.
From Verif Require Import F64 Geo Series Geom MultiIx MultiFacts Heap HeapGeom SpecHeap HeapFacts HeapStep HeapFree HeapDen HeapNew HeapMake HeapCopy HeapCopyG HeapClone.
Import ListNotations.
Local Open Scope nat_scope.

(** a new object is worked on once more *)
Lemma St_enter {cp rk0 h0 E0 D0} h X Y q b : St cp rk0 h0 E0 D0 h (q :: X) Y -> get h q = Some b -> isnh b = false -> refs b = 1%Z ->
  length (cells h0) <= q -> St cp rk0 h0 E0 D0 h (owned b ++ X) (q :: Y).
Proof.
  intros A G NH R L. pose proof (st_inv _ _ _ _ _ _ _ _ A) as I. cbn [app] in I. constructor; try apply A.
  - rewrite <- app_assoc. cbn [app]. now apply Inv_enter.
  - destruct (st_rank _ _ _ _ _ _ _ _ A) as (rk & RK & EQ). exists rk. split; [|assumption]. eapply Rank_D; [exact RK|]. apply incl_tl, incl_refl.
  - intros y [<-|Hy]; [assumption|]. now apply A.
Qed.

(** the geometry at [g] and its parts are there, without extra coordinates *)
Definition built {T : Type} (h : heap) (x : T) (r : option ptr) (h' : heap) : Prop :=
  match r with
  | None => oom h h'
  | Some g => length (cells h) <= g /\ exists pl, get h' g = Some (BGeom (new_head fl0) pl None 0 None) /\ pointb pl = false
  end.
Lemma typed_pl cp h hd pl co nc xj : h_noheap hd = false -> pointb pl = false -> pk h is_str xj -> pk h (is_dbls nc) co ->
  ty_pl h pl -> typed cp h (BGeom hd pl co nc xj).
Proof. intros NH PB P1 P2 T. split; [intros _; unfold isnh; cbn; assumption|]. split; [assumption|]. destruct pl; cbn in *; auto; discriminate. Qed.
Lemma ow_owned hd pl co nc xj : owned (BGeom hd pl co nc xj) = ow_pl pl ++ olist co ++ olist xj.
Proof. destruct pl; reflexivity. Qed.

Lemma wp_fill_extra {cp rk0 h0 E0 D0} h g pl coords f (Q : option ptr -> heap -> Prop) :
  St cp rk0 h0 E0 D0 h (ow_pl pl) [g] -> get h g = Some (BGeom (new_head fl0) pl None 0 None) -> pointb pl = false -> ty_pl h pl ->
  (forall r h', St cp rk0 h0 E0 D0 h' (olist r) [] -> pk h' is_obj r -> (r = None -> oom h0 h') -> Q r h') ->
  wp (fill_extra_coords g coords f) Q h.
Proof.
  intros A G PB T K. unfold fill_extra_coords. apply wp_bind, (wp_load g _ _ _ G). cbn [new_head h_rc h_noheap].
  assert (TK : forall h', kept ([g] ++ D0) h h' -> ty_pl h' pl) by (intros h' KE; apply (ty_pl_kept h _ _ h' pl A (fun q Hq => Hq) KE T)).
  destruct coords as [|c0 cs].
  - apply wp_bind. eapply wp_write; [exact A|now left|reflexivity|]. intros h1 A1 G1 O1 L1 C1. apply wp_ret. apply K.
    + refine (St_publish h1 [] [] g _ _ G1 eq_refl eq_refl _); [rewrite ow_owned; cbn [olist]; rewrite !app_nil_r; exact A1|].
      apply typed_pl; [reflexivity|assumption|exact Logic.I|exact Logic.I|]. apply TK. apply (kept_others _ _ _ g); [now left|assumption].
    + eexists. split; [exact G1|reflexivity].
    + discriminate.
  - set (coords := c0 :: cs). apply wp_bind. eapply wp_write; [exact A|now left|reflexivity|]. intros h1 A1 G1 O1 L1 C1.
    assert (K1 : kept ([g] ++ D0) h h1) by (apply (kept_others _ _ _ g); [now left|assumption]).
    apply wp_bind. eapply wp_alloc; [exact A1|reflexivity| |].
    + intros h2 q Eq A2 G2 O2 L2 C2. pose proof (St_leaf h2 _ [g] q _ A2 G2 eq_refl) as A2'.
      assert (K2 : kept ([g] ++ D0) h1 h2) by (apply (kept_fresh _ _ _ q); [apply get_ge; lia|assumption]).
      assert (Nq : q <> g) by (intros ->; rewrite Eq in G1; rewrite get_ge in G1 by lia; discriminate).
      apply wp_bind. eapply wp_write; [exact A2'|now left|reflexivity|]. intros h3 A3 G3 O3 L3 C3.
      assert (K3 : kept ([g] ++ D0) h2 h3) by (apply (kept_others _ _ _ g); [now left|assumption]).
      apply wp_ret. apply K.
      * refine (St_publish h3 [] [] g _ _ G3 eq_refl eq_refl _).
        -- rewrite ow_owned. apply (St_X _ (q :: ow_pl pl)); [perm|exact A3].
        -- apply typed_pl; [reflexivity|assumption|exact Logic.I| |apply TK; eapply kept_trans; [eapply kept_trans; eauto|assumption]].
           exists (BDbls coords). split; [rewrite O3 by assumption; exact G2|]. cbn. apply Nat.eqb_refl.
      * eexists. split; [exact G3|reflexivity].
      * discriminate.
    + intros h2 A2 C2 L2 O2. assert (GG : forall x, get h2 x = get h1 x) by (intros; unfold get; now rewrite C2).
      apply wp_bind. eapply wp_release.
      * refine (St_publish h2 [] [] g (BGeom (Head 1 false f) pl None (length coords) None) _ _ eq_refl eq_refl _).
        -- rewrite ow_owned. cbn [olist]. rewrite !app_nil_r. exact A2.
        -- rewrite GG. exact G1.
        -- apply typed_pl; [reflexivity|assumption|exact Logic.I|exact Logic.I|apply TK; eapply kept_trans; [exact K1|now apply kept_cells]].
      * eexists. rewrite GG. split; [exact G1|reflexivity].
      * intros h3 A3 C3. apply wp_ret. apply K; [exact A3|exact Logic.I|]. intros _.
        apply (oom_0 h1 _ _ h3 _ _ A1 A3). exact (oom_ext _ _ _ O2 C3).
Qed.

(** tg_geom_new_linestring_z and the like *)
Lemma new_x_ok cp k (Sk : stripped k) (mkpl : option ptr -> payload) cpost (clone : option ptr -> M (option ptr)) f :
  makes cp k (argp k nobound) cpost clone -> (forall o, pointb (mkpl o) = false) -> (forall o, ow_pl (mkpl o) = olist o) ->
  (forall h o, pk h k o -> ty_pl h (mkpl o)) ->
  makes cp is_obj (fun rk h D x => argp k nobound rk h D (fst x)) null_oom
    (fun x : option ptr * list f64 =>
       g <- geom_new fl0 (mkpl None) ;;
       match g with
       | None => ret None
       | Some g => l2 <- clone (fst x) ;; store g (BGeom (new_head fl0) (mkpl l2) None 0 None) ;;; fill_extra_coords g (snd x) f
       end).
Proof.
  intros CL PB OW TY rk h E D [o coords] I R AR. cbn [fst snd] in *. pose proof (St_start I R) as A0. apply wp_bind. unfold geom_new.
  eapply wp_alloc; [exact A0|reflexivity| |].
  2:{ intros h1 A1 C1 L1 O1. apply wp_ret. split; [assumption|]. split; [exact Logic.I|]. now intros _. }
  intros h1 g Eg A1 G1 O1 L1 C1. apply wp_bind. eapply (wp_call _ _ _ clone); [exact CL|exact A1| |].
  { intros rk' _. apply (argp_later _ _ _ _ _ A1 Sk AR). }
  intros e h2 A2 P2 _ S2 K2 C2 L2. rewrite app_nil_r in A2. apply wp_bind. eapply wp_write; [exact A2|now left|reflexivity|].
  intros h3 A3 G3 O3 L3 C3.
  assert (K3 : kept ([g] ++ D) h2 h3) by (apply (kept_others _ _ _ g); [now left|assumption]).
  eapply (wp_fill_extra h3 g (mkpl e)); [rewrite OW; exact A3|exact G3|apply PB| |].
  - apply TY. apply (held_pk h2 _ _ h3 _ _ A2 Sk (fun q Hq => Hq) K3 P2).
  - intros r h' A' P' N'. split; [assumption|]. split; [assumption|exact N'].
Qed.
Lemma new_linestring_x_ok cp zd md : makes cp is_obj (fun rk h D x => argp is_ring nobound rk h D (fst x)) null_oom
  (fun x => new_linestring_x_mem zd md (fst x) (snd x)).
Proof. apply (new_x_ok cp is_ring st_ring PlLine _ tg_ring_clone (fl_zm zd md) (ring_clone_ok cp)); auto. Qed.
Lemma new_polygon_x_ok cp zd md : makes cp is_obj (fun rk h D x => argp is_pol nobound rk h D (fst x)) null_oom
  (fun x => new_polygon_x_mem zd md (fst x) (snd x)).
Proof. apply (new_x_ok cp is_pol st_pol PlPoly _ tg_poly_clone (fl_zm zd md) (poly_clone_ok cp)); auto. Qed.

(** errors *)
Lemma parse_error_ok cp : makes cp is_obj noarg null_oom make_parse_error_mem.
Proof.
  intros rk h E D msg I R _. pose proof (St_start I R) as A0. unfold make_parse_error_mem. apply wp_bind. eapply wp_alloc; [exact A0|reflexivity| |].
  2:{ intros h1 A1 C1 L1 O1. apply wp_ret. split; [assumption|]. split; [exact Logic.I|]. now intros _. }
  intros h1 e Ee A1 G1 O1 L1 C1. apply wp_bind. unfold geom_new_empty, geom_new. eapply wp_alloc; [exact A1|reflexivity| |].
  2:{ intros h2 A2 C2 L2 O2. apply wp_bind. eapply wp_drop; [exact A2|]. intros h3 A3 O3 C3. apply wp_ret. split; [exact A3|].
    split; [exact Logic.I|]. intros _. apply (oom_0 h1 _ _ h3 _ _ A1 A3). eapply oom_ext; [exact O2|lia]. }
  intros h2 g Eg A2 G2 O2 L2 C2.
  assert (Ne : e <> g) by (intros ->; rewrite Eg in G1; rewrite get_ge in G1 by lia; discriminate).
  assert (G2e : get h2 e = Some (BStr msg)) by (rewrite O2; assumption).
  apply wp_bind. eapply wp_write; [exact A2|now left|reflexivity|]. intros h3 A3 G3 O3 L3 C3.
  assert (G3e : get h3 e = Some (BStr msg)) by (rewrite O3; assumption).
  apply wp_ret. split; [|split; [|discriminate]].
  - refine (St_publish h3 [] [] g _ _ G3 eq_refl eq_refl _).
    + cbn [owned olist app]. refine (St_leaf h3 [] [g] e _ _ G3e eq_refl). apply (St_Y h3 [] [g; e]); [|repeat constructor; cbn; intuition congruence|exact A3].
      intros p. cbn. tauto.
    + split; [reflexivity|]. split; [|reflexivity]. exists (BStr msg). split; [assumption|reflexivity].
  - eexists. split; [exact G3|reflexivity].
Qed.

(** *** Multi geometries *)

Lemma order_length rs : length (order_of rs) = length rs.
Proof.
  unfold order_of. destruct (multi_order rs (multi_rect rs)) as [order|] eqn:EO; [|apply seq_length].
  apply multi_order_spec in EO. destruct EO as (_ & _ & _ & Pm & _).
  apply Permutation_length in Pm. now rewrite seq_length in Pm.
Qed.

Lemma wp_rect {cp h E D} o (Q : rect -> heap -> Prop) : Inv cp h E D -> pk h is_obj o -> (forall q, In q (olist o) -> ~ In q D) ->
  (forall r, Q r h) -> wp (geom_rect_mem o) Q h.
Proof.
  intros I P N K. destruct o as [p|]; cbn [geom_rect_mem]; [|apply wp_ret, K]. destruct P as (b & G & OB).
  assert (Np := N p (or_introl eq_refl)). pose proof (inv_ty _ _ _ _ I p b G Np) as [_ T].
  assert (RR : forall q, pk h is_ring q -> wp (ring_rect_mem q) Q h).
  { intros [q|] Pq; [|apply wp_ret, K]. destruct Pq as (c & Gc & Kc). destruct c; try discriminate Kc. cbn [ring_rect_mem].
    apply wp_bind, (wp_load q _ _ _ Gc). apply wp_ret, K. }
  apply wp_bind, (wp_load p _ _ _ G). destruct b as [hd r ix ys| |hd e n hs| |hd x|hd pl c nc xj| | | | |]; try discriminate OB.
  - apply wp_ret, K.
  - apply RR, T.
  - apply wp_ret, K.
  - destruct T as [_ T]. destruct pl as [x z m|l|q|t m].
    + apply wp_ret, K.
    + apply RR, T.
    + destruct T as [_ T]. destruct q as [q|]; [|apply wp_ret, K]. cbn [poly_rect_mem]. destruct T as (bq & Gq & Kq).
      assert (Nq : ~ In q D) by (eapply (inv_owned _ _ _ _ _ _ q I G Np); rewrite ow_owned; now left).
      pose proof (inv_ty _ _ _ _ I q bq Gq Nq) as [_ Tq]. apply wp_bind, (wp_load q _ _ _ Gq).
      destruct bq as [hq rq iq yq| |hq e n hs| | | | | | | |]; try discriminate Kq; [apply wp_ret, K|]. apply RR, Tq.
    + destruct T as [_ T]. destruct m as [m|]; [|apply wp_ret, K]. destruct T as (bm & Gm & Km). apply wp_bind, (wp_load m _ _ _ Gm).
      destruct bm; try discriminate Km. apply wp_ret, K.
Qed.
Lemma wp_rects {cp h E D} l (Q : list rect -> heap -> Prop) : Inv cp h E D -> Forall (pk h is_obj) l ->
  (forall q, In q (flat_map olist l) -> ~ In q D) ->
  (forall rs, length rs = length l -> Q rs h) -> wp (rects_mem l) Q h.
Proof.
  intros I F N. revert Q. induction F as [|o l P F IH]; intros Q K; cbn [rects_mem]; [now apply wp_ret, K|].
  apply wp_bind. eapply wp_rect; [exact I|exact P| |].
  { intros q Hq. apply N. cbn [flat_map]. apply in_or_app. now left. }
  intros r. apply wp_bind. apply IH.
  { intros q Hq. apply N. cbn [flat_map]. apply in_or_app. now right. }
  intros rs L. apply wp_ret, K. cbn. congruence.
Qed.

Definition ixl (ix : option (ptr * ptr)) : list ptr := match ix with Some (ix, ixg) => [ixg; ix] | None => [] end.
Definition ixp (ix : option (ptr * ptr)) : option ptr := option_map fst ix.
Definition ixgp (ix : option (ptr * ptr)) : option ptr := option_map snd ix.
(** the index blocks of a multi with [n] children *)
Definition ixs (h : heap) (n : nat) (ix : option (ptr * ptr)) : Prop :=
  match ix with
  | None => True
  | Some (ix, ixg) => pk h is_ix (Some ix) /\ pk h (is_ints n) (Some ixg)
  end.
Lemma finish_multi {cp rk0 h0 E0 D0} h g m a ix rs R t :
  St cp rk0 h0 E0 D0 h (flat_map olist rs) (ixl ix ++ [a; m; g]) ->
  get h a = Some (BPtrs rs) -> get h m = Some (BMulti (Some a) (length rs) R (ixp ix) (ixgp ix)) ->
  get h g = Some (BGeom (new_head fl0) (PlMulti t (Some m)) None 0 None) ->
  ixs h (length rs) ix -> Forall (pk h is_obj) rs -> St cp rk0 h0 E0 D0 h [g] [].
Proof.
  intros A Ga Gm Gg IX F. refine (St_publish h [] [] g _ _ Gg eq_refl eq_refl _).
  2:{ split; [reflexivity|]. split; [exact Logic.I|]. split; [exact Logic.I|]. exists (BMulti (Some a) (length rs) R (ixp ix) (ixgp ix)). auto. }
  cbn [owned olist app]. refine (St_publish h [] [g] m _ _ Gm eq_refl eq_refl _).
  2:{ split; [reflexivity|]. split; [exists rs; auto|]. destruct ix as [[ix ixg]|]; cbn; auto. }
  apply (St_X _ (a :: ixl ix)); [destruct ix as [[ix ixg]|]; cbn [ixl ixp ixgp option_map fst snd]; perm|].
  refine (St_array h (ixl ix) [m; g] a rs _ Ga). destruct ix as [[ix ixg]|]; cbn [ixl app] in *; [|rewrite app_nil_r; exact A].
  destruct IX as [(b1 & G1 & K1) (b2 & G2 & K2)].
  apply (St_X _ (ix :: ixg :: flat_map olist rs)); [perm|].
  refine (St_leaf h (ixg :: flat_map olist rs) [a; m; g] ix _ _ G1 _); [|destruct b1; try discriminate K1; reflexivity].
  refine (St_leaf h (flat_map olist rs) [ix; a; m; g] ixg _ A G2 _). destruct b2; try discriminate K2; reflexivity.
Qed.

Definition multi_post (h : heap) (t : mtype) (r : option ptr) (h' : heap) : Prop :=
  match r with
  | None => oom h h'
  | Some g => length (cells h) <= g /\ exists m, get h' g = Some (BGeom (new_head fl0) (PlMulti t (Some m)) None 0 None)
  end.

Lemma wp_inflate {cp rk0 h0 E0 D0} h g m a ix rs t (Q : option ptr -> heap -> Prop) :
  St cp rk0 h0 E0 D0 h (flat_map olist rs) (ixl ix ++ [a; m; g]) -> NoDup (ixl ix ++ [a; m; g]) ->
  get h a = Some (BPtrs rs) -> get h m = Some (BMulti (Some a) (length rs) rect0 (ixp ix) (ixgp ix)) ->
  get h g = Some (BGeom (new_head fl0) (PlMulti t (Some m)) None 0 None) ->
  ixs h (length rs) ix -> Forall (pk h is_obj) rs ->
  (forall r h', St cp rk0 h0 E0 D0 h' (olist r) [] -> pk h' is_obj r -> multi_post h0 t r h' -> Q r h') ->
  wp (multi_geom_inflate_rect g m a ix) Q h.
Proof.
  intros A ND Ga Gm Gg IX F K. unfold multi_geom_inflate_rect. apply wp_bind, (wp_load a _ _ _ Ga). apply wp_bind.
  eapply wp_rects; [exact (st_inv _ _ _ _ _ _ _ _ A)|exact F| |].
  { intros q Hq. apply (held_off _ _ _ _ A Hq). }
  intros R LR.
  assert (Inn : forall x, In x [a; m; g] -> In x (ixl ix ++ [a; m; g])) by (intros x Hx; apply in_or_app; now right).
  assert (Lg : length (cells h0) <= g) by (apply (st_new _ _ _ _ _ _ _ _ A), Inn; cbn; auto).
  assert (FK : forall h1, kept ((ixl ix ++ [a; m; g]) ++ D0) h h1 -> Forall (pk h1 is_obj) rs).
  { intros h1 K1. rewrite Forall_forall in *. intros o Ho. apply (held_pk h _ _ h1 _ _ A st_obj); auto.
    intros q Hq. apply in_flat_map. eauto. }
  assert (Nmg : m <> g /\ a <> m /\ a <> g).
  { assert (N3 : NoDup [a; m; g]). { clear -ND. induction (ixl ix) as [|x l IH]; [exact ND|]. apply IH. now inversion ND. }
    inversion N3 as [|? ? X1 X2]; subst. inversion X2 as [|? ? X3 X4]; subst. clear -X1 X3. cbn in X1, X3. intuition congruence. }
  destruct Nmg as (Nmg & Nam & Nag).
  destruct ix as [[ix ixg]|].
  2:{ apply wp_bind. eapply wp_write; [exact A|apply Inn; cbn; auto|reflexivity|]. intros h1 A1 G1 O1 L1 C1. apply wp_ret.
    assert (G1g : get h1 g = Some (BGeom (new_head fl0) (PlMulti t (Some m)) None 0 None)) by (rewrite O1 by congruence; exact Gg).
    apply K.
    - apply (finish_multi h1 g m a None rs (multi_rect R) t); auto; [rewrite O1 by congruence; exact Ga|].
      apply FK. apply (kept_others _ _ _ m); [cbn; auto|assumption].
    - eexists. split; [exact G1g|reflexivity].
    - cbn. split; [assumption|]. exists m. exact G1g. }
  cbn [ixl app] in A, ND, FK, Inn. destruct IX as [IX1 IX2].
  assert (NDx : ixg <> ix /\ ixg <> a /\ ixg <> m /\ ixg <> g /\ ix <> a /\ ix <> m /\ ix <> g).
  { inversion ND as [|? ? X1 X2]; subst. inversion X2 as [|? ? X3 X4]; subst. clear -X1 X3. cbn in X1, X3. intuition congruence. }
  destruct NDx as (N1 & N2 & N3 & N4 & N5 & N6 & N7).
  apply wp_bind. eapply wp_write; [exact A|apply Inn; cbn; auto|reflexivity|]. intros h1 A1 G1 O1 L1 C1.
  assert (K1 : kept ([ixg; ix; a; m; g] ++ D0) h h1) by (apply (kept_others _ _ _ m); [cbn; auto|assumption]).
  apply wp_bind. eapply wp_alloc; [exact A1|reflexivity| |].
  2:{ intros h2 A2 C2 L2 O2. assert (GG : forall x, get h2 x = get h1 x) by (intros; unfold get; now rewrite C2).
    assert (K2 : kept ([ixg; ix; a; m; g] ++ D0) h h2) by (eapply kept_trans; [exact K1|now apply kept_cells]).
    assert (G2g : get h2 g = Some (BGeom (new_head fl0) (PlMulti t (Some m)) None 0 None)) by (rewrite GG, O1 by congruence; exact Gg).
    apply wp_bind. eapply wp_release.
    - apply (finish_multi h2 g m a (Some (ix, ixg)) rs (multi_rect R) t); [exact A2| | |exact G2g| |now apply FK].
      + rewrite GG, O1 by congruence. exact Ga.
      + rewrite GG. exact G1.
      + unfold ixs, pk. rewrite !GG, !O1 by congruence. split; assumption.
    - eexists. split; [exact G2g|reflexivity].
    - intros h3 A3 C3. apply wp_ret. apply K; [exact A3|exact Logic.I|]. cbn. apply (oom_0 h1 _ _ h3 _ _ A1 A3). exact (oom_ext _ _ _ O2 C3). }
  intros h2 hs Ehs A2 G2 O2 L2 C2.
  assert (HS : forall x, get h1 x <> None -> x <> hs) by (intros x Hx ->; apply Hx, get_ge; lia).
  assert (NH : forall x, In x [ixg; ix; a; m; g] -> x <> hs).
  { intros x Hx. apply HS. apply (St_lt _ _ _ A1 x). apply in_or_app. now left. }
  assert (Nhs : ~ In hs [ixg; ix; a; m; g]) by (intros H; now apply (NH hs)).
  apply wp_bind. eapply wp_write; [exact A2|right; now left|reflexivity|]. intros h3 A3 G3 O3 L3 C3.
  apply wp_bind. eapply wp_drop; [exact A3|]. intros h4 A4 O4 C4.
  apply wp_bind. eapply wp_write; [exact A4|right; now left|reflexivity|]. intros h5 A5 G5 O5 L5 C5. apply wp_ret.
  assert (Gx : forall x, x <> ix -> x <> ixg -> x <> hs -> get h5 x = get h1 x) by (intros x X1 X2 X3; rewrite O5, O4, O3, O2; auto).
  assert (G5x : get h5 ixg = Some (BInts (order_of R))) by (rewrite O5, O4 by (first [congruence|apply NH; clear; cbn; tauto]); exact G3).
  assert (G5g : get h5 g = Some (BGeom (new_head fl0) (PlMulti t (Some m)) None 0 None)).
  { rewrite Gx by (first [congruence|apply NH; clear; cbn; tauto]). rewrite O1 by congruence. exact Gg. }
  apply K.
  - apply (finish_multi h5 g m a (Some (ix, ixg)) rs (multi_rect R) t); [exact A5| | |exact G5g| |].
    + rewrite Gx by (first [congruence|apply NH; clear; cbn; tauto]). rewrite O1 by congruence. exact Ga.
    + rewrite Gx by (first [congruence|apply NH; clear; cbn; tauto]). exact G1.
    + split; [eexists; split; [exact G5|reflexivity]|]. eexists. split; [exact G5x|]. cbn. rewrite order_length, LR. apply Nat.eqb_refl.
    + apply FK. intros x Nx. destruct (Nat.eq_dec x hs) as [e|ne].
      * subst x. intros b Gb. exfalso. rewrite <- (O1 hs) in Gb by (intros ->; apply Nhs; cbn; auto). apply (HS hs); [congruence|reflexivity].
      * intros b Gb. exists b. split; [|reflexivity].
        rewrite Gx by (auto; intros ->; apply Nx; cbn; auto). rewrite O1 by (intros ->; apply Nx; cbn; auto). exact Gb.
  - eexists. split; [exact G5g|reflexivity].
  - cbn. split; [assumption|]. exists m. exact G5g.
Qed.

Lemma multi_new_ok {T} cp k (Sk : stripped k) (Ko : forall b, k b = true -> is_obj b = true) (arg : (ptr -> nat) -> heap -> list ptr -> T -> Prop) cpost (f : T -> M (option ptr)) must t :
  makes cp k arg cpost f ->
  (forall rk0 h0 E0 D0 h X Y x, St cp rk0 h0 E0 D0 h X Y -> arg rk0 h0 D0 x -> forall rk, arg rk h (Y ++ D0) x) ->
  (must = true -> forall h x h', cpost h x None h' -> oom h h') ->
  makes cp is_obj (fun rk h D l => forall x, In x l -> arg rk h D x) (fun h _ r h' => multi_post h t r h') (new_multi_mem t f must).
Proof.
  intros FO AL MO rk h E D l I R AR. pose proof (St_start I R) as A0. unfold new_multi_mem, geom_new_multi, geom_new.
  apply wp_bind. apply wp_bind. eapply wp_alloc; [exact A0|reflexivity| |].
  2:{ intros h1 A1 C1 L1 O1. apply wp_ret, wp_ret. split; [assumption|]. split; [exact Logic.I|exact O1]. }
  intros h1 g Eg A1 G1 O1 L1 C1. apply wp_bind. eapply wp_alloc; [exact A1|reflexivity| |].
  2:{ intros h2 A2 C2 L2 O2. apply wp_bind. eapply wp_drop; [exact A2|]. intros h3 A3 O3 C3. apply wp_ret, wp_ret. split; [exact A3|].
    split; [exact Logic.I|]. apply (oom_0 h1 _ _ h3 _ _ A1 A3). eapply oom_ext; [exact O2|lia]. }
  intros h2 m Em A2 G2 O2 L2 C2.
  assert (Nm : m <> g) by lia.
  assert (Lg : g < length (cells h1)) by lia.
  apply wp_bind. eapply wp_write; [exact A2|right; now left|reflexivity|]. intros h3 A3 G3 O3 L3 C3.
  apply wp_bind. eapply wp_alloc; [exact A3|reflexivity| |].
  2:{ intros h4 A4 C4 L4 O4. apply wp_bind. eapply wp_drop; [exact A4|]. intros h5 A5 O5 C5. apply wp_bind. eapply wp_drop; [exact A5|].
    intros h6 A6 O6 C6. apply wp_ret, wp_ret. split; [exact A6|].
    split; [exact Logic.I|]. apply (oom_0 h3 _ _ h6 _ _ A3 A6). eapply oom_ext; [exact O4|lia]. }
  intros h4 a Ea A4 G4 O4 L4 C4.
  assert (Na : a <> g /\ a <> m) by lia. destruct Na as [Na Na'].
  apply wp_bind. eapply wp_write; [exact A4|right; now left|reflexivity|]. intros h5 A5 G5 O5 L5 C5.
  assert (REST : forall h6 ix, St cp rk h E D h6 [] (ixl ix ++ [a; m; g]) -> NoDup (ixl ix ++ [a; m; g]) ->
     get h6 a = Some (BPtrs (repeat None (length l))) -> get h6 m = Some (BMulti (Some a) (length l) rect0 (ixp ix) (ixgp ix)) ->
     get h6 g = Some (BGeom (new_head fl0) (PlMulti t (Some m)) None 0 None) -> ixs h6 (length l) ix ->
     wp (all <- fill_array f must a 0 l ;;
         if all : bool then multi_geom_inflate_rect g m a ix else tg_geom_free (Some g) ;;; ret None)
       (fun r h' => St cp rk h E D h' (olist r) [] /\ pk h' is_obj r /\ multi_post h t r h') h6).
  { intros h6 ix A6 ND6 G6a G6m G6g IX6. apply wp_bind. change 0 with (length (@nil T)) at 1.
    assert (Inn : forall x, In x [a; m; g] -> In x (ixl ix ++ [a; m; g])) by (intros x Hx; apply in_or_app; now right).
    eapply (wp_fill k arg cpost f must a Sk False (fun _ _ _ => True) (ixl ix ++ [a; m; g]) l FO) with (rs := []) (X := []) (l1 := []);
      [apply Inn; now left| |auto|auto| |reflexivity|exact A6|reflexivity|exact G6a|constructor|constructor|constructor|].
    { intros h' X x rk' A' Hx _. exact (AL rk h E D h' X _ x A' (AR x Hx) rk'). }
    { intros h' X x h'' A' Hx PO HM. left. now apply (MO HM _ x). }
    intros b h7 rs A7 L7 G7 F7 O7 K7 C7 LL7 B7. rewrite app_nil_r in A7.
    assert (F7' : Forall (pk h7 is_obj) rs) by (eapply Forall_impl; [|exact F7]; intros o; apply pk_imp, Ko).
    assert (Nix : forall x, In x (ixl ix) -> x <> a).
    { intros x Hx ->. clear -ND6 Hx. revert ND6 Hx. induction (ixl ix) as [|y yl IH]; [intros _ []|]. intros ND [->|H]; inversion ND; subst; auto.
      apply H1. apply in_or_app. right. now left. }
    assert (G7m : get h7 m = Some (BMulti (Some a) (length rs) rect0 (ixp ix) (ixgp ix))) by (rewrite O7, L7; [exact G6m|apply Inn; cbn; auto|congruence]).
    assert (G7g : get h7 g = Some (BGeom (new_head fl0) (PlMulti t (Some m)) None 0 None)) by (rewrite O7; [exact G6g|apply Inn; cbn; auto|congruence]).
    assert (IX7 : ixs h7 (length rs) ix).
    { rewrite L7. destruct ix as [[ix ixg]|]; [|exact Logic.I]. cbn [ixl] in Nix. unfold ixs, pk. rewrite !O7; auto; try (apply Nix; cbn; auto); cbn; auto. }
    destruct b.
    - eapply (wp_inflate h7 g m a ix rs t); [exact A7|exact ND6|exact G7|exact G7m|exact G7g|exact IX7|exact F7'|].
      intros r h' A' P' M'. auto.
    - destruct B7 as [_ [OO|[]]]. apply wp_bind. eapply wp_release.
      + exact (finish_multi h7 g m a ix rs rect0 t A7 G7 G7m G7g IX7 F7').
      + eexists. split; [exact G7g|reflexivity].
      + intros h8 A8 C8. apply wp_ret. split; [exact A8|]. split; [exact Logic.I|]. cbn. exact (oom_ext _ _ _ OO C8). }
  assert (G5g : get h5 g = Some (BGeom (new_head fl0) (PlMulti t (Some m)) None 0 None)) by (rewrite O5, O4 by congruence; exact G3).
  assert (G5a : get h5 a = Some (BPtrs (repeat None (length l)))) by (rewrite O5 by congruence; exact G4).
  assert (ND5 : NoDup [a; m; g]) by (repeat constructor; cbn; intuition congruence).
  destruct (multi_spread * 2 <=? length l) eqn:LE.
  2:{ apply wp_ret. apply (REST h5 None); auto. exact Logic.I. }
  apply wp_bind. eapply wp_alloc; [exact A5|reflexivity| |].
  - intros h6 ix Eix A6 G6 O6 L6 C6. assert (NI : forall x, In x [a; m; g] -> x <> ix).
    { intros x Hx ->. destruct (St_lt _ _ _ A5 ix) as [_ L]; [apply in_or_app; now left|lia]. }
    assert (N1 := NI a ltac:(cbn; auto)). assert (N2 := NI m ltac:(cbn; auto)). assert (N3 := NI g ltac:(cbn; auto)).
    apply wp_bind. eapply wp_alloc; [exact A6|reflexivity| |].
    + intros h7 ixg Eixg A7 G7 O7 L7 C7. assert (NJ : forall x, In x [ix; a; m; g] -> x <> ixg).
      { intros x Hx ->. destruct (St_lt _ _ _ A6 ixg) as [_ L]; [apply in_or_app; now left|lia]. }
      assert (N4 := NJ ix ltac:(cbn; auto)). assert (N5 := NJ a ltac:(cbn; auto)). assert (N6 := NJ m ltac:(cbn; auto)). assert (N7 := NJ g ltac:(cbn; auto)).
      apply wp_bind. eapply wp_write; [exact A7|cbn; auto|reflexivity|]. intros h8 A8 G8 O8 L8 C8. apply wp_ret.
      apply (REST h8 (Some (ix, ixg))); auto.
      * repeat constructor; cbn; intuition congruence.
      * rewrite O8, O7, O6 by congruence. exact G5a.
      * rewrite O8, O7, O6 by congruence. exact G5g.
      * split; eexists; (split; [rewrite O8 by congruence|]).
        -- rewrite O7 by congruence. exact G6.
        -- reflexivity.
        -- exact G7.
        -- cbn. rewrite repeat_length. apply Nat.eqb_refl.
    + intros h7 A7 C7 L7 O7. cbn [free_opt]. apply wp_bind. eapply wp_drop; [exact A7|]. intros h8 A8 O8 C8. apply wp_bind, wp_ret.
      apply wp_bind. eapply wp_drop; [exact A8|]. intros h9 A9 O9 C9.
      apply wp_bind. eapply wp_drop; [exact A9|]. intros h10 A10 O10 C10.
      apply wp_bind. eapply wp_drop; [exact A10|]. intros h11 A11 O11 C11. apply wp_ret, wp_ret. split; [exact A11|].
      split; [exact Logic.I|]. apply (oom_0 h6 _ _ h11 _ _ A6 A11). eapply oom_ext; [exact O7|lia].
  - intros h6 A6 C6 L6 O6. apply wp_bind. eapply wp_alloc; [exact A6|reflexivity| |].
    + intros h7 ixg Eixg A7 G7 O7 L7 C7. cbn [free_opt]. apply wp_bind, wp_ret. apply wp_bind. eapply wp_drop; [exact A7|]. intros h8 A8 O8 C8.
      apply wp_bind. eapply wp_drop; [exact A8|]. intros h9 A9 O9 C9.
      apply wp_bind. eapply wp_drop; [exact A9|]. intros h10 A10 O10 C10.
      apply wp_bind. eapply wp_drop; [exact A10|]. intros h11 A11 O11 C11. apply wp_ret, wp_ret. split; [exact A11|].
      split; [exact Logic.I|]. apply (oom_0 h5 _ _ h11 _ _ A5 A11). eapply oom_ext; [exact O6|lia].
    + intros h7 A7 C7 L7 O7. cbn [free_opt]. apply wp_bind, wp_ret. apply wp_bind, wp_ret.
      apply wp_bind. eapply wp_drop; [exact A7|]. intros h9 A9 O9 C9.
      apply wp_bind. eapply wp_drop; [exact A9|]. intros h10 A10 O10 C10.
      apply wp_bind. eapply wp_drop; [exact A10|]. intros h11 A11 O11 C11. apply wp_ret, wp_ret. split; [exact A11|].
      split; [exact Logic.I|]. apply (oom_0 h5 _ _ h11 _ _ A5 A11). eapply oom_ext; [exact O6|lia].
Qed.

Lemma argp_AL cp k (Sk : stripped k) rk0 h0 E0 D0 h X Y x : St cp rk0 h0 E0 D0 h X Y -> argp k nobound rk0 h0 D0 x -> forall rk, argp k nobound rk h (Y ++ D0) x.
Proof. intros A AR. exact (argp_later _ _ _ _ _ A Sk AR). Qed.
Lemma new_multipoint_ok cp : makes cp is_obj (fun _ _ _ _ => True) (fun h _ r h' => multi_post h MPoints r h') new_multipoint_mem.
Proof.
  intros rk h E D l I R _. apply (multi_new_ok cp is_obj st_obj (fun _ H => H) noarg null_oom new_point_mem true MPoints (new_point_ok cp)); try assumption; try (intros; exact Logic.I).
  intros _ h1 x h1' H. now apply H.
Qed.
Lemma new_multilinestring_ok cp : makes cp is_obj (fun rk h D l => forall x, In x l -> argp is_ring nobound rk h D x) (fun h _ r h' => multi_post h MLines r h') new_multilinestring_mem.
Proof. eapply (multi_new_ok cp is_ring st_ring); [now intros []|exact (ring_clone_ok cp)|apply argp_AL, st_ring|discriminate]. Qed.
Lemma new_multipolygon_ok cp : makes cp is_obj (fun rk h D l => forall x, In x l -> argp is_pol nobound rk h D x) (fun h _ r h' => multi_post h MPolys r h') new_multipolygon_mem.
Proof. eapply (multi_new_ok cp is_pol st_pol); [now intros []|exact (poly_clone_ok cp)|apply argp_AL, st_pol|discriminate]. Qed.
Lemma new_collection_ok cp : makes cp is_obj (fun rk h D l => forall x, In x l -> argp is_obj nobound rk h D x) (fun h _ r h' => multi_post h MGeoms r h') new_collection_mem.
Proof. eapply (multi_new_ok cp is_obj st_obj); [auto|exact (geom_clone_ok cp)|apply argp_AL, st_obj|discriminate]. Qed.

Lemma with_coords_ok {T} cp (arg : (ptr -> nat) -> heap -> list ptr -> T -> Prop) t (f : T -> M (option ptr)) zd md coords :
  makes cp is_obj arg (fun h _ r h' => multi_post h t r h') f -> makes cp is_obj arg null_oom (fun x => with_coords (f x) zd md coords).
Proof.
  intros FO rk h E D x I R AR. unfold with_coords. apply wp_bind. eapply wp_conseq; [apply (FO rk h E D x I R AR)|].
  intros r h1 (A1 & P1 & M1). destruct r as [g|]; [|apply wp_ret; split; [assumption|]; split; [exact Logic.I|]; now intros _].
  destruct M1 as (L1 & m & G1). cbn [olist] in A1.
  pose proof (St_enter h1 [] [] g _ A1 G1 eq_refl eq_refl L1) as A2. rewrite app_nil_r in A2. rewrite ow_owned in A2. cbn [olist] in A2. rewrite !app_nil_r in A2.
  eapply (wp_fill_extra h1 g (PlMulti t (Some m))); [exact A2|exact G1|reflexivity| |].
  - assert (Ng : ~ In g D) by (apply (held_off h1 [g] [] g A1); now left).
    pose proof (inv_ty _ _ _ _ (st_inv _ _ _ _ _ _ _ _ A1) g _ G1 Ng) as [_ [_ [_ T1]]]. exact T1.
  - intros r h' A' P' N'. split; [assumption|]. split; [assumption|exact N'].
Qed.
