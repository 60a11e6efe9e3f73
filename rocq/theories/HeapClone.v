(** * Clones and constructors *)

From Coq Require Import ZArith Bool List Lia Arith Permutation.
From Verif Require Import F64 Geo Series Geom MultiIx MultiFacts Heap HeapGeom SpecHeap HeapFacts HeapStep HeapFree HeapDen HeapNew HeapMake HeapCopy HeapCopyG.
Import ListNotations.
Local Open Scope nat_scope.

(** the rank of the start does not matter *)
Lemma list_max_seq (rk : ptr -> nat) n x : x < n -> rk x <= list_max (map rk (seq 0 n)).
Proof. intros L. apply list_max_in, in_map, in_seq. lia. Qed.
Lemma St_rk cp rk rk' h E D h' X Y : St cp rk h E D h' X Y -> Rank rk' h D -> St cp rk' h E D h' X Y.
Proof.
  intros A R. constructor; try apply A; [assumption|]. destruct (st_rank _ _ _ _ _ _ _ _ A) as (r2 & R2 & _).
  set (M := S (list_max (map rk' (seq 0 (length (cells h)))))).
  exists (fun x => if x <? length (cells h) then rk' x else M + r2 x). split.
  - intros p b q G N Hq. destruct (Nat.ltb_spec p (length (cells h))) as [Lp|Lp].
    + destruct (get h p) as [b0|] eqn:G0.
      2:{ rewrite (fr_dead _ _ _ (st_fr _ _ _ _ _ _ _ _ A) p Lp G0) in G. discriminate. }
      destruct (fr_live _ _ _ (st_fr _ _ _ _ _ _ _ _ A) p b0 G0) as [G1|(b1 & G1 & S1)]; [congruence|].
      assert (b1 = b) by congruence. subst b1. rewrite (strip_owned _ _ S1) in Hq.
      assert (Np : ~ In p D) by (intros H; apply N, in_or_app; now right).
      destruct (inv_owned _ _ _ _ _ _ _ (st_inv0 _ _ _ _ _ _ _ _ A) G0 Np Hq) as [Lq _].
      assert (q < length (cells h)) as Lq' by (destruct (get h q) eqn:Gq; [eapply get_lt, Gq|congruence]).
      rewrite (proj2 (Nat.ltb_lt _ _) Lq'). exact (R p b0 q G0 Np Hq).
    + destruct (Nat.ltb_spec q (length (cells h))) as [Lq|Lq].
      * pose proof (list_max_seq rk' _ q Lq). unfold M. lia.
      * pose proof (R2 p b q G N Hq). lia.
  - intros x Lx. now rewrite (proj2 (Nat.ltb_lt _ _) Lx).
Qed.

Lemma tg_geom_copy_ok : makes true is_obj (argp is_obj nobound) (copied den whole few) tg_geom_copy.
Proof.
  intros rk h E D o I R AR. pose proof (Rank_norm _ _ _ _ _ I R) as RN.
  pose proof (geom_copy_fuel_ok (S (S (length (cells h)))) (Nat.lt_0_succ _) (rnorm rk h) h E D o I RN) as W.
  assert (W' := W ltac:(intros p Ep; destruct (AR p Ep) as (X1 & X2 & _); split; [assumption|]; split; [assumption|];
     destruct X1 as (b & G & _); pose proof (rnorm_lt rk h p b G); lia)). clear W.
  unfold wp in *. change (tg_geom_copy o h) with (geom_copy_fuel (S (S (length (cells h)))) o h).
  destruct (geom_copy_fuel _ o h) as [[r h']|]; [|exact W']. destruct W' as (A & W'). split; [|exact W'].
  eapply St_rk; eauto.
Qed.

Lemma wp_retain cp rk h E D p b hd (Q : unit -> heap -> Prop) : Inv cp h E D -> Rank rk h D -> get h p = Some b -> ~ In p D ->
  head_of b = Some hd -> h_noheap hd = false ->
  (let h' := upd h p (Some (set_head (Head (h_rc hd + 1) (h_noheap hd) (h_flags hd)) b)) in St cp rk h E D h' [p] [] -> Q tt h') ->
  wp (rc_retain p) Q h.
Proof.
  intros I R G ND H NH K. unfold rc_retain. apply wp_bind, (wp_load p _ _ _ G). rewrite H. apply wp_store; [congruence|]. cbv zeta in K.
  set (b' := set_head (Head (h_rc hd + 1) (h_noheap hd) (h_flags hd)) b) in *. set (h' := upd h p (Some b')) in *.
  assert (SS : strip b' = strip b) by (apply strip_set, H). assert (NHb : isnh b = false) by (unfold isnh; now rewrite H).
  assert (Hp := get_lt _ _ _ G). destruct (inv_cnt _ _ _ _ I p b G ND NHb) as [_ R1].
  assert (RB : refs b = h_rc hd) by (unfold refs; now rewrite H).
  assert (RB' : refs b' = (h_rc hd + 1)%Z) by (unfold b'; now rewrite (refs_set _ hd)).
  apply K. constructor; auto.
  - cbn [app]. apply (Inv_rc cp h p b b' E (p :: E) D); auto.
    + intros q Nq. rewrite cnt_cons. unfold one. destruct (Nat.eq_dec p q); [congruence|reflexivity].
    + rewrite cnt_cons. unfold one. destruct (Nat.eq_dec p p); [|congruence]. lia.
    + lia.
  - exists rk. split; [|reflexivity]. apply (Rank_sub rk h _ D); [assumption|]. intros q c Gq Nq. unfold h' in Gq. rewrite get_upd in Gq by assumption.
    destruct (Nat.eqb_spec q p) as [e|]; [|eauto]. subst q. inversion Gq; subst c. exists b. repeat split; auto. now apply strip_owned.
  - apply (Fr_upd D h h p b); auto using Fr_refl. right. eauto.
  - intros y [].
Qed.

(** what a clone is *)
Definition cloned (cpost : heap -> option ptr -> option ptr -> heap -> Prop) (h : heap) (o r : option ptr) (h' : heap) : Prop :=
  match o with
  | None => r = None /\ h' = h
  | Some p => exists b hd, get h p = Some b /\ head_of b = Some hd /\
      if h_noheap hd then cpost h o r h'
      else r = Some p /\ h' = upd h p (Some (set_head (Head (h_rc hd + 1) (h_noheap hd) (h_flags hd)) b))
  end.

Lemma clone_ok cp k (Sk : stripped k) (Ho : forall b, k b = true -> is_obj b = true) cpost (copy clone : option ptr -> M (option ptr)) :
  (forall rk h E D p, cp = true -> Inv cp h E D -> Rank rk h D -> argp k nobound rk h D (Some p) ->
     wp (copy (Some p)) (fun r h' => St cp rk h E D h' (olist r) [] /\ pk h' k r /\ cpost h (Some p) r h') h) ->
  (forall h, copy None h = Some (None, h)) ->
  (forall p, clone p = match p with
    | None => copy None
    | Some p => b <- load p ;;
        match head_of b with
        | Some h => if h_noheap h then copy (Some p) else rc_retain p ;;; ret (Some p)
        | None => ub
        end
    end) ->
  makes cp k (argp k nobound) (cloned cpost) clone.
Proof.
  intros C CN EQ rk h E D o I R AR. rewrite EQ. destruct o as [p|].
  2:{ unfold wp. rewrite CN. split; [now apply St_start|]. split; [exact Logic.I|]. split; reflexivity. }
  destruct (AR p eq_refl) as ((b & G & K) & ND & _). apply wp_bind, (wp_load p _ _ _ G).
  specialize (Ho b K). unfold is_obj in Ho. destruct (head_of b) as [hd|] eqn:H; [|discriminate]. clear Ho.
  destruct (h_noheap hd) eqn:NH.
  - assert (CT : cp = true).
    { destruct cp; [reflexivity|]. destruct (inv_ty _ _ _ _ I p _ G ND) as [T _]. specialize (T eq_refl). unfold isnh in T. rewrite H in T. congruence. }
    eapply wp_conseq; [apply (C rk h E D p CT I R AR)|]. intros r h' (A & P & PO). split; [assumption|]. split; [assumption|].
    exists b, hd. rewrite NH. auto.
  - apply wp_bind. eapply wp_retain; eauto. cbv zeta. intros A. apply wp_ret. split; [exact A|]. split.
    + eexists. rewrite get_upd by (eapply get_lt, G). rewrite Nat.eqb_refl. split; [reflexivity|]. rewrite <- K. apply Sk. now apply strip_set.
    + exists b, hd. rewrite NH. auto.
Qed.
Lemma ring_clone_ok cp : makes cp is_ring (argp is_ring nobound) (cloned (copied dring yes yes)) tg_ring_clone.
Proof.
  apply (clone_ok cp is_ring st_ring) with (copy := tg_ring_copy); [now intros []| |reflexivity|now intros []].
  intros rk h E D p -> I R AR. now apply ring_copy_ok.
Qed.
Lemma poly_clone_ok cp : makes cp is_pol (argp is_pol nobound) (cloned (copied dpoly whole_pol yes)) tg_poly_clone.
Proof.
  apply (clone_ok cp is_pol st_pol) with (copy := tg_poly_copy); [now intros []| |reflexivity|now intros []].
  intros rk h E D p -> I R AR. now apply poly_copy_ok.
Qed.
Lemma geom_clone_ok cp : makes cp is_obj (argp is_obj nobound) (cloned (copied den whole few)) tg_geom_clone.
Proof.
  apply (clone_ok cp is_obj st_obj) with (copy := tg_geom_copy); [auto| |reflexivity|now intros []].
  intros rk h E D p -> I R AR. now apply tg_geom_copy_ok.
Qed.

(** ** Constructors *)

(** NULL is the answer only when an allocation failed *)
Definition null_oom {T : Type} (h : heap) (x : T) (r : option ptr) (h' : heap) : Prop := r = None -> oom h h'.
Definition noarg {T : Type} (rk : ptr -> nat) (h : heap) (D : list ptr) (x : T) : Prop := True.

Lemma new_point_ok cp : makes cp is_obj noarg null_oom new_point_mem.
Proof.
  intros rk h E D x I R _. pose proof (St_start I R) as A0. unfold new_point_mem. eapply wp_alloc; [exact A0|reflexivity| |].
  - intros h1 q Eq A1 G1 O1 L1 C1. split; [|split].
    + refine (St_publish h1 [] [] q _ _ G1 eq_refl eq_refl _); [exact A1|]. split; [reflexivity|exact Logic.I].
    + eexists. split; [exact G1|reflexivity].
    + discriminate.
  - intros h1 A1 C1 L1 O1. split; [assumption|]. split; [exact Logic.I|]. now intros _.
Qed.
Definition empty_pl (pl : payload) : Prop :=
  match pl with PlPoint _ _ _ => True | PlLine l => l = None | PlPoly l => l = None | PlMulti _ m => m = None end.
Lemma geom_new_ok cp : makes cp is_obj (fun _ _ _ x => empty_pl (snd x)) null_oom (fun x : flags * payload => geom_new (fst x) (snd x)).
Proof.
  intros rk h E D [f pl] I R EP. cbn [fst snd] in *. pose proof (St_start I R) as A0. unfold geom_new. eapply wp_alloc; [exact A0|reflexivity| |].
  - intros h1 q Eq A1 G1 O1 L1 C1. split; [|split].
    + refine (St_publish h1 [] [] q _ _ G1 eq_refl eq_refl _).
      * replace (owned _) with (@nil ptr); [exact A1|]. destruct pl; cbn in EP; subst; reflexivity.
      * split; [reflexivity|]. split; [exact Logic.I|]. destruct pl; cbn in EP; subst; cbn; auto.
    + eexists. split; [exact G1|reflexivity].
    + discriminate.
  - intros h1 A1 C1 L1 O1. split; [assumption|]. split; [exact Logic.I|]. now intros _.
Qed.

(** rings *)
Definition ringarg (cp : bool) (rk : ptr -> nat) (h : heap) (D : list ptr) (x : list pt * bool * ixkind * nat) : Prop :=
  let '(ps, closed, kind, spread) := x in
  exists r, series_new ps closed kind spread = Some r /\ (cp = true -> r_index r = None /\ r_ystripes r = None).
Lemma series_new_ok cp : makes cp is_ring (ringarg cp) null_oom (fun x => let '(ps, closed, kind, spread) := x in series_new_mem ps closed kind spread).
Proof.
  intros rk h E D [[[ps closed] kind] spread] I R (r & ER & CT). pose proof (St_start I R) as A0. unfold series_new_mem. rewrite ER.
  apply wp_bind. eapply wp_alloc; [exact A0|reflexivity| |].
  2:{ intros h1 A1 C1 L1 O1. apply wp_ret. split; [assumption|]. split; [exact Logic.I|]. now intros _. }
  intros h1 q Eq A1 G1 O1 L1 C1. destruct (r_ystripes r) as [y|] eqn:EY.
  2:{ apply wp_ret. split; [|split; [|discriminate]].
    - refine (St_publish h1 [] [] q _ _ G1 eq_refl eq_refl _); [exact A1|]. split; [reflexivity|]. split; [|exact Logic.I].
      intros Hc. destruct (CT Hc) as [-> _]. auto.
    - eexists. split; [exact G1|reflexivity]. }
  assert (CF : cp = false) by (destruct cp; [destruct (CT eq_refl); discriminate|reflexivity]).
  set (ix := match r_index r with Some _ => Some q | None => None end) in *.
  assert (TY : forall h' ys, pk h' is_ys ys -> typed cp h' (BRing (new_head fl0) (no_ystripes r) ix ys)).
  { intros h' ys P. split; [reflexivity|]. split; [rewrite CF; discriminate|exact P]. }
  assert (FAIL : forall h', St cp rk h E D h' [] [q] -> get h' q = Some (BRing (new_head fl0) (no_ystripes r) ix None) -> oom h h' ->
     wp (tg_ring_free (Some q) ;;; ret None) (fun (r0 : option ptr) h'' => St cp rk h E D h'' (olist r0) [] /\ pk h'' is_ring r0 /\ null_oom h (ps, closed, kind, spread) r0 h'') h').
  { intros h' A' G' O'. apply wp_bind. eapply wp_release_ring.
    - refine (St_publish h' [] [] q _ _ G' eq_refl eq_refl _); [exact A'|]. now apply TY.
    - eexists. split; [exact G'|reflexivity].
    - intros h'' A'' C''. apply wp_ret. split; [exact A''|]. split; [exact Logic.I|]. intros _. exact (oom_ext _ _ _ O' C''). }
  apply wp_bind. unfold process_ystripes_mem. apply wp_bind. eapply wp_alloc; [exact A1|reflexivity| |].
  2:{ intros h2 A2 C2 L2 O2. assert (GG : forall x, get h2 x = get h1 x) by (intros; unfold get; now rewrite C2).
    apply wp_ret. apply FAIL; [assumption|now rewrite GG|]. exact (oom_0 h1 _ _ h2 _ _ A1 A2 O2). }
  intros h2 yc Eyc A2 G2 O2 L2 C2.
  assert (Nyq : yc <> q) by (intros ->; rewrite Eyc in G1; rewrite get_ge in G1 by lia; discriminate).
  assert (G2q : get h2 q = get h1 q) by (apply O2; congruence).
  apply wp_bind. eapply wp_alloc; [exact A2|reflexivity| |].
  2:{ intros h3 A3 C3 L3 O3. assert (GG : forall x, get h3 x = get h2 x) by (intros; unfold get; now rewrite C3).
    apply wp_bind. eapply wp_drop; [exact A3|]. intros h4 A4 O4 C4. apply wp_ret. apply FAIL; [assumption| |].
    - rewrite O4 by congruence. rewrite GG, G2q. exact G1.
    - apply (oom_0 h2 _ _ h4 _ _ A2 A4). eapply oom_ext; [exact O3|lia]. }
  intros h3 qy Eqy A3 G3 O3 L3 C3.
  assert (Nqy : qy <> q) by (intros ->; rewrite Eqy in G2q; rewrite get_ge in G2q by lia; congruence).
  assert (Nqc : qy <> yc) by (intros ->; rewrite Eqy in G2; rewrite get_ge in G2 by lia; congruence).
  assert (A3' : St cp rk h E D h3 [] [yc; qy; q]).
  { apply (St_Y h3 [] [qy; yc; q]); [|repeat constructor; cbn; intuition congruence|assumption]. intros p. cbn. tauto. }
  apply wp_bind. eapply wp_drop; [exact A3'|]. intros h4 A4 O4 C4.
  assert (G4y : get h4 qy = Some (BYs y qy)) by (rewrite O4 by assumption; exact G3).
  assert (G4q : get h4 q = Some (BRing (new_head fl0) (no_ystripes r) ix None)) by (rewrite O4 by congruence; rewrite O3 by congruence; rewrite G2q; exact G1).
  pose proof (St_leaf h4 [] [q] qy _ A4 G4y eq_refl) as A4'.
  apply wp_bind, (wp_load q _ _ _ G4q). apply wp_bind. eapply wp_write; [exact A4'|now left|reflexivity|]. intros h5 A5 G5 O5 L5 C5.
  apply wp_ret, wp_ret. split; [|split; [|discriminate]].
  - refine (St_publish h5 [] [] q _ _ G5 eq_refl eq_refl _); [exact A5|]. apply TY. exists (BYs y qy). split; [|reflexivity].
    rewrite O5; assumption.
  - eexists. split; [exact G5|reflexivity].
Qed.

(** polygons *)
Definition polyarg (rk : ptr -> nat) (h : heap) (D : list ptr) (x : option ptr * list (option ptr) * bool) : Prop :=
  let '(ext, holes, neg) := x in argp is_ring nobound rk h D ext /\ (forall o, In o holes -> argp is_ring nobound rk h D o).
Definition polynull (h : heap) (x : option ptr * list (option ptr) * bool) (r : option ptr) (h' : heap) : Prop :=
  r = None -> fst (fst x) = None \/ oom h h'.

(** an argument of the start is one in the middle *)
Lemma argp_later {cp rk0 h0 E0 D0} h X Y k o : St cp rk0 h0 E0 D0 h X Y -> stripped k -> argp k nobound rk0 h0 D0 o ->
  forall rk, argp k nobound rk h (Y ++ D0) o.
Proof.
  intros A Sk AR rk q Eq. destruct (AR q Eq) as (P & N & _).
  destruct (St_argp _ _ _ _ _ A Sk P) with (q := q) as [X1 X2]; [now intros x [<-|[]]|reflexivity|].
  split; [assumption|]. split; [assumption|exact Logic.I].
Qed.
Lemma pk_imp h k k' o : (forall b, k b = true -> k' b = true) -> pk h k o -> pk h k' o.
Proof. intros H. destruct o as [q|]; [|exact id]. intros (b & G & K). exists b. auto. Qed.

Lemma ring_den h p cp E D : cp = true -> Inv cp h E D -> pk h is_ring (Some p) -> ~ In p D -> exists x, dring (get h) x p.
Proof.
  intros -> I (bl & Gl & Kl) N. destruct bl as [hl rl il yl| | | | | | | | | |]; try discriminate Kl.
  destruct (inv_ty _ _ _ _ I p _ Gl N) as [_ [T _]]. destruct (T eq_refl) as [-> ->].
  exists (h_flags hl, Ring (r_closed rl) (r_clockwise rl) (r_convex rl) (r_area rl) (r_npoints rl) (r_nsegs rl) (r_rect rl) None None (r_points rl)).
  exists hl, rl, None, None. split; [assumption|]. repeat split.
Qed.
Lemma nh_cp cp h E D p b hd : Inv cp h E D -> get h p = Some b -> ~ In p D -> head_of b = Some hd -> h_noheap hd = true -> cp = true.
Proof.
  intros I G N H NH. destruct cp; [reflexivity|]. destruct (inv_ty _ _ _ _ I p _ G N) as [T _].
  specialize (T eq_refl). unfold isnh in T. rewrite H in T. congruence.
Qed.

Lemma poly_new_ok cp : makes cp is_pol polyarg polynull (fun x => let '(ext, holes, neg) := x in tg_poly_new_mem ext holes neg).
Proof.
  intros rk h E D [[ext holes] neg] I R [AE AH]. pose proof (St_start I R) as A0. unfold tg_poly_new_mem. destruct ext as [pe|].
  2:{ apply wp_ret. split; [assumption|]. split; [exact Logic.I|]. intros _. now left. }
  destruct (match holes with [] => negb neg | _ => false end).
  { eapply wp_conseq; [apply (ring_clone_ok cp rk h E D (Some pe) I R AE)|]. intros r h' (A & P & CC). split; [assumption|].
    split; [apply (pk_imp _ is_ring); [now intros []|assumption]|]. intros ->. right. destruct CC as (b & hd & G & H & CC).
    destruct (h_noheap hd) eqn:NH; [|destruct CC; discriminate]. destruct CC as [O|[O|(q & Eq & O)]]; [assumption|discriminate|].
    inversion Eq; subst q. destruct (AE pe eq_refl) as (P1 & N1 & _).
    destruct (ring_den h pe cp E D (nh_cp _ _ _ _ _ _ _ I G N1 H NH) I P1 N1) as [x Dx]. discriminate (O x Dx). }
  apply wp_bind. eapply wp_alloc; [exact A0|reflexivity| |].
  2:{ intros h1 A1 C1 L1 O1. apply wp_ret. split; [assumption|]. split; [exact Logic.I|]. intros _. now right. }
  intros h1 p Ep A1 G1 O1 L1 C1. apply wp_bind. eapply (wp_call _ _ _ tg_ring_clone); [exact (ring_clone_ok cp)|exact A1| |].
  { intros rk' _. apply (argp_later _ _ _ _ _ A1 st_ring AE). }
  intros e h2 A2 P2 _ S2 K2 C2 L2. rewrite app_nil_r in A2. apply wp_bind. eapply wp_write; [exact A2|now left|reflexivity|].
  intros h3 A3 G3 O3 L3 C3.
  assert (K3 : kept ([p] ++ D) h2 h3) by (apply (kept_others _ _ _ p); [now left|assumption]).
  assert (P3 : pk h3 is_ring e) by apply (held_pk h2 _ _ h3 _ _ A2 st_ring (fun q Hq => Hq) K3 P2).
  destruct neg.
  { apply wp_ret. split; [|split; [|discriminate]].
    - refine (St_publish h3 [] [] p _ _ G3 eq_refl eq_refl _); [cbn [owned olist]; rewrite !app_nil_r; exact A3|]. split; [reflexivity|]. split; [exact P3|reflexivity].
    - eexists. split; [exact G3|reflexivity]. }
  apply wp_bind. eapply wp_alloc; [exact A3|reflexivity| |].
  2:{ intros h4 A4 C4 L4 O4. assert (GG : forall x, get h4 x = get h3 x) by (intros; unfold get; now rewrite C4).
    apply wp_bind. eapply wp_release_poly.
    - refine (St_publish h4 [] [] p (BPoly (new_head fl0) e 0 None) _ _ eq_refl eq_refl _).
      + cbn [owned olist]. rewrite !app_nil_r. exact A4.
      + now rewrite GG.
      + split; [reflexivity|]. split; [|reflexivity]. unfold pk. destruct e; [|exact Logic.I]. rewrite GG. exact P3.
    - eexists. rewrite GG. split; [exact G3|reflexivity].
    - intros h5 A5 C5. apply wp_ret. split; [exact A5|]. split; [exact Logic.I|]. intros _. right.
      apply (oom_0 h3 _ _ h5 _ _ A3 A5). eapply oom_ext; [exact O4|lia]. }
  intros h4 a Ea A4 G4 O4 L4 C4. apply wp_bind. eapply wp_write; [exact A4|right; now left|reflexivity|]. intros h5 A5 G5 O5 L5 C5.
  assert (Nap : a <> p) by (intros ->; rewrite Ea in G3; rewrite get_ge in G3 by lia; discriminate).
  assert (G5a : get h5 a = Some (BPtrs (repeat None (length holes)))) by (rewrite O5 by assumption; exact G4).
  assert (K5 : kept ([a; p] ++ D) h3 h5).
  { eapply kept_trans; [apply (kept_fresh _ h3 h4 a); [apply get_ge; lia|assumption]|apply (kept_others _ _ _ p); [right; now left|assumption]]. }
  apply wp_bind. change 0 with (length (@nil (option ptr))) at 1.
  eapply (wp_fill is_ring _ _ tg_ring_clone false a st_ring True (fun _ _ _ => True) [a; p] holes (ring_clone_ok cp))
    with (rs := []) (X := olist e); [now left| |auto|auto|discriminate|reflexivity|exact A5|reflexivity|exact G5a|constructor|constructor|constructor|].
  { intros h' X o rk' A' Ho _. apply (argp_later _ _ _ _ _ A' st_ring (AH o Ho)). }
  intros b h6 rs A6 L6 G6 F6 O6 K6 C6 LL6 B6. apply wp_ret.
  assert (G6p : get h6 p = Some (BPoly (new_head fl0) e (length holes) (Some a))) by (rewrite O6; [exact G5|right; now left|congruence]).
  split; [|split; [|discriminate]].
  - refine (St_publish h6 [] [] p _ _ G6p eq_refl eq_refl _).
    + apply (St_X _ (a :: olist e)); [|apply (St_array h6 (olist e) [p] a rs); assumption]. clear. intros x. cbn [owned].
      rewrite ?cnt_app, ?cnt_cons, ?cnt_app. cbn [olist]. rewrite ?cnt_cons, ?cnt_nil. lia.
    + split; [reflexivity|]. split.
      * apply (kept_pk ([a; p] ++ D) h3); [|exact st_ring| |exact P3]; [eapply kept_trans; eauto|].
        intros q Hq. apply (held_off _ _ _ _ A6). apply in_or_app. now right.
      * exists rs. auto.
  - eexists. split; [exact G6p|reflexivity].
Qed.
