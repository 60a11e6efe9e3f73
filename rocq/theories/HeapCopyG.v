(** * Copies of geometries *)

From Coq Require Import ZArith Bool List Lia Arith.
From Verif Require Import F64 Geo Series Geom MultiIx Heap HeapGeom SpecHeap HeapFacts HeapStep HeapFree HeapDen HeapNew HeapMake HeapCopy.
Import ListNotations.
Local Open Scope nat_scope.

Lemma stable_den : stable den.
Proof. intros v v' g p V. now apply den_vle. Qed.

Definition whole_all (gs : list (option geom)) : bool :=
  forallb (fun o => match o with Some g => whole g | None => false end) gs.
Definition few_all (gs : list (option geom)) : bool :=
  forallb (fun o => match o with Some g => few g | None => true end) gs.

(** the memory of a multi *)
Definition dmulti (v : view) (R : rect) (gs : list (option geom)) (m : ptr) : Prop :=
  exists a ix ixg l, v m = Some (BMulti (Some a) (length gs) R ix ixg) /\ v a = Some (BPtrs l) /\
    den_mindex v (length gs) ix ixg /\ den_all v gs l.
Lemma den_all_vle v v' gs l : vle v v' -> den_all v gs l -> den_all v' gs l.
Proof.
  intros V. revert l. induction gs as [|[g|] gs IH]; intros [|[q|] l]; cbn [den_all]; try tauto.
  - intros [A B]. split; [now apply (den_vle v)|now apply IH].
  - apply IH.
Qed.

Lemma dmulti_vle v v' R gs m : vle v v' -> dmulti v R gs m -> dmulti v' R gs m.
Proof.
  intros V (a & ix & ixg & l & G1 & G2 & G3 & G4). exists a, ix, ixg, l.
  split; [eapply vle_aux; eauto|]. split; [eapply vle_aux; eauto|]. split; [now apply (den_mindex_vle v)|].
  now apply (den_all_vle v).
Qed.
Lemma parr_kept {cp rk0 h0 E0 D0} h X Y h' k n o : St cp rk0 h0 E0 D0 h X Y -> stripped k -> (forall q, In q (olist o) -> In q X) ->
  kept (Y ++ D0) h h' -> parr h k n o -> parr h' k n o.
Proof.
  intros A Sk HX KK P. pose proof (st_inv _ _ _ _ _ _ _ _ A) as I. apply (parr_keep h); auto. intros q Hq.
  destruct (inv_E _ _ _ _ q I) as [_ N]; [apply in_or_app; left; auto|]. split; [now apply KK|].
  intros b Gb x Hx. apply KK. exact (proj2 (inv_owned _ _ _ _ _ _ _ I Gb N Hx)).
Qed.
Lemma held_pk {cp rk0 h0 E0 D0} h X Y h' k o : St cp rk0 h0 E0 D0 h X Y -> stripped k -> (forall q, In q (olist o) -> In q X) ->
  kept (Y ++ D0) h h' -> pk h k o -> pk h' k o.
Proof.
  intros A Sk HX KK P. apply (kept_pk (Y ++ D0) h); auto. intros q Hq.
  apply (inv_E _ _ _ _ q (st_inv _ _ _ _ _ _ _ _ A)), in_or_app. left. auto.
Qed.
Lemma held_off {cp rk0 h0 E0 D0} h X Y q : St cp rk0 h0 E0 D0 h X Y -> In q X -> ~ In q (Y ++ D0).
Proof. intros A H. apply (inv_E _ _ _ _ q (st_inv _ _ _ _ _ _ _ _ A)), in_or_app. now left. Qed.
Lemma kept_aux D h h' q b : kept D h h' -> ~ In q D -> get h q = Some b -> head_of b = None -> get h' q = Some b.
Proof.
  intros K N G H. destruct (K q N b G) as (b' & G' & S'). destruct b; try discriminate H; destruct b'; cbn in S'; try discriminate; congruence.
Qed.
Lemma see n D v q : n <= q -> ~ In q D -> fresh n (off D v) q = v q.
Proof. intros L N. unfold fresh, off. rewrite (proj2 (Nat.ltb_ge _ _)) by assumption. now destruct (in_dec Nat.eq_dec q D). Qed.

Lemma cop_all h0 D h' gs l rs : Forall2 (cop den few h0 D h') l rs -> Forall (fun o => o <> None) rs ->
  den_all (get h0) gs l -> few_all gs = true -> den_all (fresh (length (cells h0)) (off D (get h'))) gs rs.
Proof.
  intros F. revert gs. induction F as [|o r l rs C F IH]; intros [|[g|] gs] NN DA FW; cbn [den_all] in *; try tauto.
  - inversion NN; subst. destruct r as [q|]; [|congruence]. destruct C as (p & -> & C). destruct DA as [D1 D2].
    cbn [few_all forallb] in FW. apply andb_true_iff in FW. destruct FW as [F1 F2]. split; [now apply C|]. now apply IH.
  - inversion NN; subst. destruct r as [q|]; [|congruence]. destruct C as (p & -> & C). contradiction.
Qed.
Lemma bad_all h0 gs l o : In o l -> badel den whole h0 o -> den_all (get h0) gs l -> whole_all gs = false.
Proof.
  intros Ho B. revert gs. induction l as [|o' l IH]; [contradiction|]. intros [|[g|] gs] DA; cbn [den_all] in DA.
  - contradiction.
  - destruct o' as [q|]; [|contradiction]. destruct DA as [D1 D2]. cbn [whole_all forallb]. destruct Ho as [<-|Ho].
    + destruct B as [B|(p & Ep & B)]; [discriminate|]. inversion Ep; subst p. now rewrite (B g D1).
    + apply andb_false_iff. right. now apply IH.
  - reflexivity.
Qed.

Section Multi.
Context (n : nat) (c : option ptr -> M (option ptr)).
Hypothesis C : makes true is_obj (argp is_obj (fun rk q => S (rk q) < n)) (copied den whole few) c.
Context (rk : ptr -> nat) (h0 : heap) (E D : list ptr).
Notation St' := (St true rk h0 E D).

Lemma wp_multi_copy h g2 hd2 t m (Q : bool -> heap -> Prop) : St' h [] [g2] ->
  h_noheap hd2 = false ->
  get h g2 = Some (BGeom hd2 (PlMulti t None) None 0 None) -> pk h0 is_multi (Some m) -> ~ In m D -> rk m <= n ->
  (forall b h' mo, St' h' (olist mo) [g2] -> get h' g2 = Some (BGeom hd2 (PlMulti t mo) None 0 None) -> pk h' is_multi mo ->
     (if b : bool then exists m2, mo = Some m2 /\
        forall R gs, dmulti (get h0) R gs m -> (multi_spread * 2 <=? length gs) = false -> few_all gs = true ->
          dmulti (fresh (length (cells h0)) (off ([g2] ++ D) (get h'))) R gs m2
      else oom h0 h' \/ forall R gs, dmulti (get h0) R gs m -> whole_all gs = false) -> Q b h') ->
  wp (multi_copy c g2 hd2 t m) Q h.
Proof.
  intros A NH2 G2 (bm & Gm & Km) NDm Lm K. pose proof (st_inv0 _ _ _ _ _ _ _ _ A) as I0. pose proof (st_rank0 _ _ _ _ _ _ _ _ A) as R0.
  destruct bm as [| | | | | |gs nn r ix ixg| | | |]; try discriminate Km.
  destruct (inv_ty _ _ _ _ I0 m _ Gm NDm) as [_ (Ta & Tix & Tixg)].
  assert (OW : forall q, In q (olist gs ++ olist ix ++ olist ixg) -> ~ In q D) by (intros q Hq; exact (proj2 (inv_owned _ _ _ _ _ _ _ I0 Gm NDm Hq))).
  unfold multi_copy. apply wp_bind, (wp_load m (BMulti gs nn r ix ixg)).
  { apply (vle_aux _ _ _ _ (St_vle _ _ _ A) Gm eq_refl). }
  apply wp_bind. eapply wp_alloc; [exact A|reflexivity| |].
  2:{ intros h1 A1 C1 L1 O1. assert (GG : forall x, get h1 x = get h x) by (intros; unfold get; now rewrite C1).
    apply wp_ret. apply (K false h1 None); [exact A1|now rewrite GG|exact Logic.I|]. left. exact (oom_0 h _ _ h1 _ _ A A1 O1). }
  intros h1 m2 Em2 A1 G1 O1 L1 C1. apply wp_bind. eapply wp_write; [exact A1|right; now left|exact NH2|].
  intros h2 A2 Gg2 O2 L2 C2.
  assert (Ngm : g2 <> m2) by (intros ->; rewrite Em2 in G2; rewrite get_ge in G2 by lia; discriminate).
  assert (Gm2 : get h2 m2 = Some (BMulti None 0 r None None)) by (rewrite O2; auto).
  set (gg := BGeom hd2 (PlMulti t (Some m2)) None 0 None) in *.
  assert (FIN : forall b h' ao no ixo ixgo, St' h' (olist ao ++ olist ixo ++ olist ixgo) [m2; g2] -> get h' g2 = Some gg ->
     get h' m2 = Some (BMulti ao no r ixo ixgo) -> parr h' is_obj no ao -> pk h' is_ix ixo -> pk h' (is_ints no) ixgo ->
     (if b : bool then (forall R gs, dmulti (get h0) R gs m -> (multi_spread * 2 <=? length gs) = false -> few_all gs = true ->
          dmulti (fresh (length (cells h0)) (off ([g2] ++ D) (get h'))) R gs m2)
      else oom h0 h' \/ forall R gs, dmulti (get h0) R gs m -> whole_all gs = false) -> Q b h').
  { intros b h' ao no ixo ixgo A' Gg' Gm' P1 P2 P3 RR. apply (K b h' (Some m2)).
    - refine (St_publish h' [] [g2] m2 _ _ Gm' eq_refl eq_refl _); [|split; [reflexivity|auto]].
      cbn [owned]. rewrite app_nil_r. exact A'.
    - exact Gg'.
    - eexists. split; [exact Gm'|reflexivity].
    - destruct b; [|exact RR]. exists m2. auto. }
  assert (TAIL : forall h' ao, St' h' (olist ao) [m2; g2] -> get h' g2 = Some gg ->
     get h' m2 = Some (BMulti ao (match ao with Some _ => nn | None => 0 end) r None None) ->
     parr h' is_obj (match ao with Some _ => nn | None => 0 end) ao ->
     match gs, ao with
     | None, None => True
     | Some a, Some a2 => exists l rs, get h0 a = Some (BPtrs l) /\ get h' a2 = Some (BPtrs rs) /\ length (cells h0) <= a2 /\
         Forall2 (cop den few h0 ([m2; g2] ++ D) h') l rs /\ Forall (fun o => o <> None) rs
     | _, _ => False
     end ->
     wp (let n2 := match ao with Some _ => nn | None => O end in
         ix2 <- copy_opt ix is_ix ;;
         match ix2 with
         | None => ret false
         | Some ix2 =>
             store m2 (BMulti ao n2 r ix2 None) ;;;
             ixg2 <- copy_opt ixg (is_ints nn) ;;
             match ixg2 with
             | None => ret false
             | Some ixg2 => store m2 (BMulti ao n2 r ix2 ixg2) ;;; ret true
             end
         end) Q h').
  { intros h3 ao A3 Gg3 Gm3 PA3 CH. cbv zeta. set (n2 := match ao with Some _ => nn | None => 0 end) in *.
    apply wp_bind. eapply wp_copy_opt; [exact A3| |now intros []| |].
    { destruct ix as [q|]; [|exact Logic.I]. apply (St_argp _ _ _ _ _ A3 st_ix Tix); [|reflexivity]. intros x [<-|[]]. apply OW.
      rewrite !in_app_iff. right. left. now left. }
    2:{ intros h4 A4 C4 CC4 O4. assert (GG : forall x, get h4 x = get h3 x) by (intros; unfold get; now rewrite C4).
      assert (K4 : kept ([m2; g2] ++ D) h3 h4) by now apply kept_cells.
      apply wp_ret. apply (FIN false h4 ao n2 None None); try exact Logic.I; [now rewrite app_nil_r|now rewrite GG|now rewrite GG| |].
      - apply (parr_kept h3 _ _ h4 _ _ _ A3 st_obj (fun q Hq => Hq) K4 PA3).
      - left. exact (oom_0 h3 _ _ h4 _ _ A3 A4 O4). }
    intros ix2 h4 A4 P4 S4 K4 C4 L4 CP4. apply wp_bind. eapply wp_write; [exact A4|now left|reflexivity|].
    intros h5 A5 Gm5 O5 L5 C5.
    assert (K5 : kept ([m2; g2] ++ D) h4 h5) by (apply (kept_others _ _ _ m2); [now left|assumption]).
    assert (K35 : kept ([m2; g2] ++ D) h3 h5) by (eapply kept_trans; eauto).
    assert (Gg5 : get h5 g2 = Some gg) by (rewrite O5 by assumption; rewrite S4; [assumption|right; now left]).
    assert (PA5 : parr h5 is_obj n2 ao) by apply (parr_kept h3 _ _ h5 _ _ _ A3 st_obj (fun q Hq => Hq) K35 PA3).
    assert (PI5 : pk h5 is_ix ix2) by apply (held_pk h4 _ _ h5 _ _ A4 st_ix (fun q Hq => in_or_app _ _ q (or_introl Hq)) K5 P4).
    apply wp_bind. eapply wp_copy_opt; [exact A5| |now intros []| |].
    { destruct ixg as [q|]; [|exact Logic.I]. apply (St_argp _ _ _ _ _ A5 (st_ints nn) Tixg); [|reflexivity]. intros x [<-|[]]. apply OW.
      rewrite !in_app_iff. right. right. now left. }
    2:{ intros h6 A6 C6 CC6 O6. assert (GG : forall x, get h6 x = get h5 x) by (intros; unfold get; now rewrite C6).
      assert (K6 : kept ([m2; g2] ++ D) h5 h6) by now apply kept_cells.
      apply wp_ret. apply (FIN false h6 ao n2 ix2 None); try exact Logic.I; [|now rewrite GG|now rewrite GG| | |].
      - eapply St_X; [|exact A6]. clear. intros p. rewrite ?cnt_app, ?cnt_nil. lia.
      - apply (parr_kept h5 _ _ h6 _ _ _ A5 st_obj (fun q Hq => in_or_app _ _ q (or_intror Hq)) K6 PA5).
      - apply (held_pk h5 _ _ h6 _ _ A5 st_ix (fun q Hq => in_or_app _ _ q (or_introl Hq)) K6 PI5).
      - left. exact (oom_0 h5 _ _ h6 _ _ A5 A6 O6). }
    intros ixg2 h6 A6 P6 S6 K6 C6 L6 CP6. apply wp_bind. eapply wp_write; [exact A6|now left|reflexivity|].
    intros h7 A7 Gm7 O7 L7 C7.
    assert (K7 : kept ([m2; g2] ++ D) h6 h7) by (apply (kept_others _ _ _ m2); [now left|assumption]).
    assert (K57 : kept ([m2; g2] ++ D) h5 h7) by (eapply kept_trans; eauto).
    assert (K37 : kept ([m2; g2] ++ D) h3 h7) by (eapply kept_trans; eauto).
    apply wp_ret. apply (FIN true h7 ao n2 ix2 ixg2).
    - eapply St_X; [|exact A7]. clear. intros p. rewrite ?cnt_app. lia.
    - rewrite O7 by assumption. rewrite S6; [assumption|right; now left].
    - exact Gm7.
    - apply (parr_kept h5 _ _ h7 _ _ _ A5 st_obj (fun q Hq => in_or_app _ _ q (or_intror Hq)) K57 PA5).
    - apply (held_pk h5 _ _ h7 _ _ A5 st_ix (fun q Hq => in_or_app _ _ q (or_introl Hq)) K57 PI5).
    - assert (n2 = nn) as ->.
      { unfold n2. destruct ao; [reflexivity|]. destruct gs; [contradiction|]. now cbn in Ta. }
      apply (held_pk h6 _ _ h7 _ _ A6 (st_ints nn) (fun q Hq => in_or_app _ _ q (or_introl Hq)) K7 P6).
    - intros R gs' (a & ix' & ixg' & l & Gm' & Ga & DX & DA) NI FW. rewrite Gm in Gm'. inversion Gm'; subst gs nn R ix' ixg'. clear Gm'.
      unfold den_mindex in DX. rewrite NI in DX. destruct DX as [-> ->].
      destruct ao as [a2|]; [|contradiction]. destruct CH as (l' & rs & Ga' & Ga2 & La2 & F2 & NN). rewrite Ga in Ga'. inversion Ga'; subst l'.
      destruct ix2; [contradiction|]. destruct ixg2; [contradiction|].
      exists a2, None, None, rs. unfold n2 in *.
      assert (Na2 : ~ In a2 ([m2; g2] ++ D)) by (apply (held_off _ _ _ _ A3); now left).
      assert (LH : length (cells h0) <= m2) by (rewrite Em2; apply (St_len _ _ _ A)).
      assert (Nm2 : ~ In m2 ([g2] ++ D)).
      { intros H. destruct (St_lt _ _ _ A m2 H). lia. }
      split; [rewrite see by assumption; exact Gm7|]. split; [|split].
      + rewrite see; [|assumption|intros H; apply Na2; right; exact H]. eapply kept_aux; eauto.
      + unfold den_mindex. rewrite NI. auto.
      + apply (den_all_vle (fresh (length (cells h0)) (off ([m2; g2] ++ D) (get h7)))).
        * apply fresh_off_sub. intros x Hx. left. now right.
        * eapply cop_all; eauto. eapply Forall2_imp; [|exact F2]. intros o r0. now apply cop_kept, K37; apply stable_den. }
  apply wp_bind. destruct gs as [a|].
  2:{ apply wp_ret. apply (TAIL h2 None); auto. reflexivity. }
  destruct Ta as (l & Ga & Ll & Fl). apply wp_bind, (wp_load a (BPtrs l)).
  { apply (vle_aux _ _ _ _ (St_vle _ _ _ A2) Ga eq_refl). }
  rewrite (proj2 (Nat.eqb_eq nn (length l))) by lia. apply wp_bind. eapply wp_alloc; [exact A2|reflexivity| |].
  2:{ intros h3 A3 C3 L3 O3. assert (GG : forall x, get h3 x = get h2 x) by (intros; unfold get; now rewrite C3).
    apply wp_ret, wp_ret. apply (FIN false h3 None 0 None None); try exact Logic.I; [exact A3|now rewrite GG|now rewrite GG|reflexivity|].
    left. exact (oom_0 h2 _ _ h3 _ _ A2 A3 O3). }
  intros h3 a2 Ea2 A3 G3 O3 L3 C3. apply wp_bind. eapply wp_write; [exact A3|right; now left|reflexivity|].
  intros h4 A4 Gm4 O4 L4 C4.
  assert (Nam : a2 <> m2) by (intros ->; rewrite Ea2 in Gm2; rewrite get_ge in Gm2 by lia; discriminate).
  assert (Nag : a2 <> g2) by (intros ->; rewrite Ea2 in Gg2; rewrite get_ge in Gg2 by lia; discriminate).
  assert (G4a : get h4 a2 = Some (BPtrs (repeat None (length l)))) by (rewrite O4 by assumption; rewrite Ll; assumption).
  assert (G4g : get h4 g2 = Some gg) by (rewrite O4, O3; auto).
  assert (NDa : ~ In a D) by (apply OW; now left).
  assert (OWl : forall q, In q (flat_map olist l) -> ~ In q D /\ rk q < rk a).
  { intros q Hq. split; [exact (proj2 (inv_owned _ _ _ _ _ _ _ I0 Ga NDa Hq))|exact (R0 a _ q Ga NDa Hq)]. }
  assert (Ram : rk a < rk m) by (apply (R0 m _ a Gm NDm); now left).
  assert (LLT : forall o q, In o l -> o = Some q -> q < length (cells h0)).
  { intros o q Ho ->. rewrite Forall_forall in Fl. destruct (Fl _ Ho) as (b & Gb & _). eapply get_lt, Gb. }
  apply wp_bind. change 0 with (length (@nil (option ptr))) at 1.
  eapply (wp_fill is_obj _ _ c true a2 st_obj (exists o, In o l /\ badel den whole h0 o) (cop den few h0 ([a2; m2; g2] ++ D)) [a2; m2; g2] l C)
    with (rs := []) (X := []); [now left| | | | |reflexivity|exact A4|reflexivity|exact G4a|constructor|constructor|constructor|].
  { intros h' X o rk' A' Ho EQ q Eq. rewrite Forall_forall in Fl.
    assert (Hq : In q (flat_map olist l)) by (apply in_flat_map; exists o; split; [assumption|subst o; now left]).
    destruct (St_argp _ _ _ _ _ A' st_obj (Fl o Ho)) with (q := q) as [X1 X2]; auto.
    - intros x Hx. apply OWl, in_flat_map. eauto.
    - split; [assumption|]. split; [assumption|]. rewrite EQ by now apply (LLT o). destruct (OWl q Hq). lia. }
  { intros h' X o r0 h'' A' _ Ho CC. exact (cop_copied den whole few _ _ _ _ _ _ stable_den A' CC). }
  { intros h' h'' o r0. now apply cop_kept, stable_den. }
  { intros h' X o h'' A' Ho CC _. destruct (bad_copied den whole few _ _ _ _ _ stable_den A' CC) as [O|O]; eauto. }
  intros b h5 rs A5 L5 G5 F5 O5 K5 C5 LL5 B5.
  assert (Gg5 : get h5 g2 = Some gg) by (rewrite O5; [assumption|right; right; now left|congruence]).
  assert (Gm5 : get h5 m2 = Some (BMulti (Some a2) nn r None None)) by (rewrite O5; [assumption|right; now left|congruence]).
  assert (A5' : St' h5 [a2] [m2; g2]) by (eapply St_array; eauto).
  assert (PA5 : parr h5 is_obj nn (Some a2)) by (exists rs; split; [assumption|]; split; [lia|assumption]).
  destruct b.
  - apply wp_ret. apply (TAIL h5 (Some a2)); auto. destruct B5 as [F2 NN]. exists l, rs. split; [assumption|]. split; [assumption|].
    split; [rewrite Ea2; apply (St_len _ _ _ A2)|]. split; [|auto].
    eapply Forall2_imp; [|exact F2]. intros o [q|]; [|auto]. intros (p & -> & CC). exists p. split; [reflexivity|]. intros g Dg Fg.
    apply (den_vle (fresh (length (cells h0)) (off ([a2; m2; g2] ++ D) (get h5)))); [|auto].
    apply fresh_off_sub. intros x Hx. left. now right.
  - apply wp_ret, wp_ret. destruct B5 as [_ B5]. apply (FIN false h5 (Some a2) nn None None); try exact Logic.I; auto.
    destruct B5 as [O|(o & Ho & Bo)]; [now left|]. right. intros R gs' (a' & ix' & ixg' & l' & Gm' & Ga' & _ & DA).
    rewrite Gm in Gm'. inversion Gm'; subst a'. rewrite Ga in Ga'. inversion Ga'; subst l'. eapply bad_all; eauto.
Qed.
End Multi.

Definition ow_pl (pl : payload) : list ptr :=
  match pl with PlPoint _ _ _ => [] | PlLine l => olist l | PlPoly q => olist q | PlMulti _ m => olist m end.
Definition ty_pl (h : heap) (pl : payload) : Prop :=
  match pl with PlPoint _ _ _ => True | PlLine l => pk h is_ring l | PlPoly q => pk h is_pol q | PlMulti _ m => pk h is_multi m end.
Definition pointb (pl : payload) : bool := match pl with PlPoint _ _ _ => true | _ => false end.
Definition cp_pl (v v' : view) (pl pl2 : payload) : Prop :=
  match pl with
  | PlPoint _ _ _ => pl2 = pl
  | PlLine l => exists q q2, l = Some q /\ pl2 = PlLine (Some q2) /\ forall g, dring v g q -> dring v' g q2
  | PlPoly l => exists q q2, l = Some q /\ pl2 = PlPoly (Some q2) /\ forall g, dpoly v g q -> dpoly v' g q2
  | PlMulti t None => pl2 = pl
  | PlMulti t (Some m) => exists m2, pl2 = PlMulti t (Some m2) /\
      forall R gs, dmulti v R gs m -> (multi_spread * 2 <=? length gs) = false -> few_all gs = true -> dmulti v' R gs m2
  end.
Lemma cp_pl_vle v v1 v2 pl pl2 : vle v1 v2 -> cp_pl v v1 pl pl2 -> cp_pl v v2 pl pl2.
Proof.
  intros V. destruct pl as [x z m|l|l|t [m|]]; cbn; auto.
  - intros (q & q2 & A & B & C). exists q, q2. repeat split; auto. intros g Dg. eapply stable_ring; eauto.
  - intros (q & q2 & A & B & C). exists q, q2. repeat split; auto. intros g Dg. eapply stable_poly; eauto.
  - intros (m2 & A & C). exists m2. split; [assumption|]. intros R gs D1 D2 D3. eapply dmulti_vle; eauto.
Qed.
Lemma ty_pl_kept {cp rk0 h0 E0 D0} h X Y h' pl : St cp rk0 h0 E0 D0 h X Y -> (forall q, In q (ow_pl pl) -> In q X) ->
  kept (Y ++ D0) h h' -> ty_pl h pl -> ty_pl h' pl.
Proof.
  intros A HX KK. destruct pl as [x z m|l|l|t m]; cbn [ty_pl ow_pl] in *; auto; refine (held_pk h X Y h' _ _ A _ HX KK); [apply st_ring|apply st_pol|apply st_multi].
Qed.
(** the geometries that a block of memory can stand for *)
Definition bad_pl (v : view) (pl : payload) : Prop :=
  match pl with
  | PlPoint _ _ _ => False
  | PlLine l => l = None
  | PlPoly l => l = None \/ exists q, l = Some q /\ forall g, dpoly v g q -> whole_pol g = false
  | PlMulti t None => False
  | PlMulti t (Some m) => forall R gs, dmulti v R gs m -> whole_all gs = false
  end.
Lemma bad_whole v hd pl co nc xj p : v p = Some (BGeom hd pl co nc xj) -> bad_pl v pl -> forall g, den v g p -> whole g = false.
Proof.
  intros G B g Dg. destruct g as [f x|f l|f po|f x z m s|f l c s|f po c s|t f gs c s].
  - cbn in Dg. destruct Dg as (h & G' & _). congruence.
  - cbn in Dg. destruct Dg as (h & r & ix & ys & G' & _). congruence.
  - cbn [den] in Dg. destruct po as [r|e hs]; [destruct Dg as (h & r' & ix & ys & G' & _)|destruct Dg as (h & r' & ix & G' & _)]; congruence.
  - cbn [den] in Dg. destruct Dg as (h & c & nc' & s' & G' & _). rewrite G in G'. inversion G'; subst. contradiction.
  - cbn [den] in Dg. destruct Dg as (h & q & c' & nc' & s' & G' & _ & _ & DL). rewrite G in G'. inversion G'; subst. cbn in B. subst q.
    destruct l; [contradiction|reflexivity].
  - cbn [den] in Dg. destruct Dg as (h & q & c' & nc' & s' & G' & _ & _ & DL). rewrite G in G'. inversion G'; subst. cbn in B.
    destruct po as [po|]; [|reflexivity]. destruct q as [q|]; [|contradiction]. destruct DL as (f' & DL).
    destruct B as [B|(q' & Eq & B)]; [discriminate|]. inversion Eq; subst q'. apply (B (f', po) DL).
  - rewrite den_multi in Dg. destruct Dg as (h & m & c' & nc' & s' & G' & _ & _ & DL). rewrite G in G'. inversion G'; subst.
    destruct m as [m|]; [|contradiction]. destruct gs as [gs|]; [|contradiction]. cbn [bad_pl] in B. cbn [whole].
    exact (B _ gs DL).
Qed.

Section Geom.
Context (n : nat) (c : option ptr -> M (option ptr)).
Hypothesis C : makes true is_obj (argp is_obj (fun rk q => S (rk q) < n)) (copied den whole few) c.

Lemma geom_copy_ok rk h E D p hd pl co nc xj : Inv true h E D -> Rank rk h D -> get h p = Some (BGeom hd pl co nc xj) -> ~ In p D ->
  rk p <= S n ->
  wp (geom_copy c p) (fun r h' => St true rk h E D h' (olist r) [] /\ pk h' is_obj r /\ copied den whole few h (Some p) r h') h.
Proof.
  intros I R G ND LR. pose proof (St_start I R) as A0.
  destruct (inv_ty _ _ _ _ I p _ G ND) as [_ [Tx Tp]].
  assert (OW : forall q, In q (ow_pl pl ++ olist co ++ olist xj) -> ~ In q D).
  { intros q Hq. refine (proj2 (inv_owned _ _ _ _ p _ q I G ND _)). exact Hq. }
  assert (RK : forall q, In q (ow_pl pl) -> rk q < rk p).
  { intros q Hq. refine (R p _ q G ND _). cbn [owned]. apply in_or_app. left. exact Hq. }
  unfold geom_copy. apply wp_bind, (wp_load p _ _ _ G). cbv zeta. set (h2 := new_head (h_flags hd)).
  set (pl0 := match pl with PlPoint _ _ _ => PlPoint pt0 f_zero f_zero | PlLine _ => PlLine None | PlPoly _ => PlPoly None | PlMulti t _ => PlMulti t None end).
  apply wp_bind. eapply wp_alloc; [exact A0|reflexivity| |].
  2:{ intros h1 A1 C1 L1 O1. apply wp_ret. split; [assumption|]. split; [exact Logic.I|]. now left. }
  intros h1 g2 Eg2 A1 G1 O1 L1 C1.
  assert (V1 : vle (get h) (get h1)) by apply (St_vle _ _ _ A1).
  assert (Ng2 : ~ In g2 D). { intros H. destruct (St_lt _ _ _ A0 g2 H). lia. }
  (* the failing branches *)
  assert (FAIL : forall h' pl' co' nc' xj', St true rk h E D h' (ow_pl pl' ++ olist co' ++ olist xj') [g2] ->
     get h' g2 = Some (BGeom h2 pl' co' nc' xj') -> ty_pl h' pl' -> (if pointb pl' then co' = None else pk h' (is_dbls nc') co') -> pk h' is_str xj' ->
     (oom h h' \/ bad_pl (get h) pl) ->
     wp (tg_geom_free (Some g2) ;;; ret None) (fun r h'' => St true rk h E D h'' (olist r) [] /\ pk h'' is_obj r /\ copied den whole few h (Some p) r h'') h').
  { intros h' pl' co' nc' xj' A' G' T1 T2 T3 OO. apply wp_bind. eapply wp_release.
    - refine (St_publish h' [] [] g2 _ _ G' eq_refl eq_refl _).
      + cbn [owned]. rewrite app_nil_r. exact A'.
      + split; [reflexivity|]. split; [exact T3|]. destruct pl'; cbn in *; auto.
    - eexists. split; [exact G'|reflexivity].
    - intros h'' A'' C''. apply wp_ret. split; [exact A''|]. split; [exact Logic.I|]. cbn.
      destruct OO as [OO|OO]; [left; exact (oom_ext _ _ _ OO C'')|]. right. right. exists p. split; [reflexivity|].
      intros g Dg. exact (bad_whole _ _ _ _ _ _ _ G OO g Dg). }
  set (VV := fun h' => fresh (length (cells h)) (off ([g2] ++ D) (get h'))).
  apply wp_bind.
  (* after the payload *)
  assert (TAIL : forall (b : bool) h' pl', St true rk h E D h' (ow_pl pl') [g2] -> get h' g2 = Some (BGeom h2 pl' None 0 None) -> ty_pl h' pl' ->
     pointb pl' = pointb pl ->
     (if b then cp_pl (get h) (VV h') pl pl' else oom h h' \/ bad_pl (get h) pl) ->
     wp (if b then
            co2 <- match pl with PlPoint _ _ _ => ret (Some None) | _ => copy_opt co (is_dbls nc) end ;;
            match co2 with
            | None => tg_geom_free (Some g2) ;;; ret None
            | Some co2 =>
                bg <- load g2 ;;
                match bg with
                | BGeom _ pl2 _ _ _ =>
                    store g2 (BGeom h2 pl2 co2 (match co2 with Some _ => nc | None => O end) None) ;;;
                    xj2 <- copy_opt xj is_str ;;
                    match xj2 with
                    | None => tg_geom_free (Some g2) ;;; ret None
                    | Some xj2 =>
                        store g2 (BGeom h2 pl2 co2 (match co2 with Some _ => nc | None => O end) xj2) ;;;
                        ret (Some g2)
                    end
                | _ => ub
                end
            end
          else tg_geom_free (Some g2) ;;; ret None)
       (fun r h'' => St true rk h E D h'' (olist r) [] /\ pk h'' is_obj r /\ copied den whole few h (Some p) r h'') h').
  { intros b h3 pl' A3 G3 T3 PB B3. destruct b.
    2:{ apply (FAIL h3 pl' None 0 None); auto; try exact Logic.I; [cbn; now rewrite app_nil_r|]. destruct (pointb pl'); [reflexivity|exact Logic.I]. }
    assert (PC : forall (Q : option (option ptr) -> heap -> Prop),
       (forall r h', St true rk h E D h' (olist r ++ ow_pl pl') [g2] -> (if pointb pl' then r = None else pk h' (is_dbls nc) r) ->
         get h' g2 = get h3 g2 -> kept ([g2] ++ D) h3 h' -> length (cells h3) <= length (cells h') ->
         (if pointb pl' then True else match co, r with None, None => True | Some q, Some q' => length (cells h3) <= q' /\ get h' q' = get h3 q | _, _ => False end) ->
         Q (Some r) h') ->
       (forall h', St true rk h E D h' (ow_pl pl') [g2] -> cells h' = cells h3 -> oom h3 h' -> Q None h') ->
       wp (match pl with PlPoint _ _ _ => ret (Some None) | _ => copy_opt co (is_dbls nc) end) Q h3).
    { intros Q KS KN. assert (Hc : pointb pl = false -> wp (copy_opt co (is_dbls nc)) Q h3).
      { intros NP. assert (Pc : pk h (is_dbls nc) co) by (destruct pl; [discriminate|apply Tp|apply Tp|apply Tp]).
        eapply wp_copy_opt; [exact A3| |now intros []| |].
        - destruct co as [q|]; [|exact Logic.I]. apply (St_argp _ _ _ _ _ A3 (st_dbls nc) Pc); [|reflexivity]. intros x [<-|[]]. apply OW.
          rewrite !in_app_iff. right. left. now left.
        - intros r h' A' P' S' K' C' L' CP'. apply KS; auto.
          + rewrite PB, NP. exact P'.
          + apply S'. now left.
          + rewrite PB, NP. destruct co, r; try contradiction; auto. destruct CP' as (X1 & X2 & X3). auto.
        - intros h' A' C' _ O'. apply KN; auto. }
      destruct pl; try (apply Hc; reflexivity). cbn [pointb] in PB. apply wp_ret, KS; rewrite ?PB; auto using kept_refl. }
    apply wp_bind, PC.
    2:{ intros h4 A4 C4 O4. assert (GG : forall x, get h4 x = get h3 x) by (intros; unfold get; now rewrite C4).
      apply (FAIL h4 pl' None 0 None); try exact Logic.I.
      - cbn. now rewrite app_nil_r.
      - now rewrite GG.
      - apply (ty_pl_kept h3 _ _ h4 _ A3 (fun q Hq => Hq) (kept_cells _ _ _ C4) T3).
      - destruct (pointb pl'); [reflexivity|exact Logic.I].
      - left. exact (oom_0 h3 _ _ h4 _ _ A3 A4 O4). }
    intros co2 h4 A4 P4 S4 K4 L4 CC4. rewrite G3 in S4. apply wp_bind, (wp_load g2 _ _ _ S4).
    apply wp_bind. eapply wp_write; [exact A4|now left|reflexivity|]. intros h5 A5 G5 O5 L5 C5.
    set (nc2 := match co2 with Some _ => nc | None => 0 end) in *.
    assert (K5 : kept ([g2] ++ D) h4 h5) by (apply (kept_others _ _ _ g2); [now left|assumption]).
    assert (K35 : kept ([g2] ++ D) h3 h5) by (eapply kept_trans; eauto).
    assert (T5 : ty_pl h5 pl') by apply (ty_pl_kept h3 _ _ h5 _ A3 (fun q Hq => Hq) K35 T3).
    assert (PD : forall h', kept ([g2] ++ D) h4 h' -> if pointb pl' then co2 = None else pk h' (is_dbls nc2) co2).
    { intros h' K'. destruct (pointb pl'); [assumption|]. unfold nc2. destruct co2 as [q|]; [|exact Logic.I].
      apply (held_pk h4 _ _ h' _ _ A4 (st_dbls nc) (fun q Hq => in_or_app _ _ q (or_introl Hq)) K' P4). }
    apply wp_bind. eapply wp_copy_opt; [exact A5| |now intros []| |].
    { destruct xj as [q|]; [|exact Logic.I]. apply (St_argp _ _ _ _ _ A5 st_str Tx); [|reflexivity]. intros x [<-|[]]. apply OW.
      rewrite !in_app_iff. right. right. now left. }
    2:{ intros h6 A6 C6 _ O6. assert (GG : forall x, get h6 x = get h5 x) by (intros; unfold get; now rewrite C6).
      assert (K6 : kept ([g2] ++ D) h5 h6) by now apply kept_cells.
      apply (FAIL h6 pl' co2 nc2 None); try exact Logic.I.
      - eapply St_X; [|exact A6]. clear. intros x. cbn [olist]. rewrite ?cnt_app, ?cnt_nil. lia.
      - now rewrite GG.
      - apply (ty_pl_kept h5 _ _ h6 _ A5 (fun q Hq => in_or_app _ _ q (or_intror Hq)) K6 T5).
      - apply PD. eapply kept_trans; eauto.
      - left. exact (oom_0 h5 _ _ h6 _ _ A5 A6 O6). }
    intros xj2 h6 A6 P6 S6 K6 C6 L6 CP6. apply wp_bind. eapply wp_write; [exact A6|now left|reflexivity|]. intros h7 A7 G7 O7 L7 C7.
    assert (K7 : kept ([g2] ++ D) h6 h7) by (apply (kept_others _ _ _ g2); [now left|assumption]).
    assert (K57 : kept ([g2] ++ D) h5 h7) by (eapply kept_trans; eauto).
    assert (K47 : kept ([g2] ++ D) h4 h7) by (eapply kept_trans; eauto).
    assert (K37 : kept ([g2] ++ D) h3 h7) by (eapply kept_trans; eauto).
    assert (T7 : ty_pl h7 pl') by apply (ty_pl_kept h3 _ _ h7 _ A3 (fun q Hq => Hq) K37 T3).
    assert (PX7 : pk h7 is_str xj2) by apply (held_pk h6 _ _ h7 _ _ A6 st_str (fun q Hq => in_or_app _ _ q (or_introl Hq)) K7 P6).
    pose proof (PD h7 K47) as PD7.
    apply wp_ret. split; [|split].
    - refine (St_publish h7 [] [] g2 _ _ G7 eq_refl eq_refl _).
      + eapply St_X; [|exact A7]. clear. intros x. cbn [owned]. fold (ow_pl pl'). rewrite ?cnt_app, ?cnt_nil. lia.
      + split; [reflexivity|]. split; [exact PX7|]. destruct pl'; cbn in *; auto.
    - eexists. split; [exact G7|reflexivity].
    - exists p. split; [reflexivity|].
      (* what the new object stands for *)
      assert (GV : fresh (length (cells h)) (get h7) g2 = Some (BGeom h2 pl' co2 nc2 xj2)).
      { unfold fresh. rewrite (proj2 (Nat.ltb_ge _ _)) by lia. exact G7. }
      assert (CP : cp_pl (get h) (fresh (length (cells h)) (get h7)) pl pl').
      { apply (cp_pl_vle _ (VV h7)); [apply fresh_off_drop|]. apply (cp_pl_vle _ (VV h3)); [now apply off_kept|assumption]. }
      assert (LH3 : length (cells h) <= length (cells h3)) by apply (St_len _ _ _ A3).
      assert (DX : forall coords s, den_extra (get h) coords s (if pointb pl then None else co) (if pointb pl then 0 else nc) xj -> den_extra (fresh (length (cells h)) (get h7)) coords s co2 nc2 xj2).
      { intros coords s [D1 D2]. split.
        - rewrite PB in CC4, P4. destruct (pointb pl); [now subst co2|]. destruct co as [q|], co2 as [q2|]; try contradiction; auto.
          destruct CC4 as [Lq Gq]. destruct D1 as [D1 D1']. split; [|exact D1'].
          unfold fresh. rewrite (proj2 (Nat.ltb_ge _ _)) by lia.
          apply (kept_aux ([g2] ++ D) h4); auto.
          + apply (held_off _ _ _ _ A4). now left.
          + rewrite Gq. apply (vle_aux _ _ _ _ (St_vle _ _ _ A3) D1 eq_refl).
        - destruct xj as [q|], xj2 as [q2|]; try contradiction; destruct s as [s|]; try contradiction; auto.
          destruct CP6 as (Lq & Nq & Gq). unfold fresh. rewrite (proj2 (Nat.ltb_ge _ _)) by lia.
          apply (kept_aux ([g2] ++ D) h6); auto.
          rewrite Gq. apply (vle_aux _ _ _ _ (St_vle _ _ _ A5) D2 eq_refl). }
      clear - G GV CP DX. set (V := fresh (length (cells h)) (get h7)) in *. clearbody V.
      intros g Dg FW. destruct g as [f x|f l|f po|f x z m s|f l cc s|f po cc s|t f gs cc s].
      + cbn in Dg. destruct Dg as (h' & G' & _). congruence.
      + cbn in Dg. destruct Dg as (h' & r & ix & ys & G' & _). congruence.
      + cbn [den] in Dg. destruct po as [r|e hs]; [destruct Dg as (h' & r' & ix & ys & G' & _)|destruct Dg as (h' & r' & ix & G' & _)]; congruence.
      + cbn [den] in *. destruct Dg as (h' & c0 & nc' & s' & G' & F & DE). rewrite G in G'. inversion G'; subst. cbn in CP. subst pl'.
        exists h2, co2, nc2, xj2. split; [assumption|]. split; [reflexivity|]. cbn [pointb] in DX. specialize (DX [] s DE).
        destruct DX as [_ DX]. split; [reflexivity|exact DX].
      + cbn [den] in *. destruct Dg as (h' & q & c0 & nc' & s' & G' & F & DE & DL). rewrite G in G'. inversion G'; subst. cbn [pointb] in DX.
        destruct CP as (q1 & q2 & -> & -> & CP). exists h2, (Some q2), co2, nc2, xj2. split; [assumption|]. split; [reflexivity|].
        split; [now apply DX|]. destruct l as [l|]; [|contradiction]. destruct DL as (f' & DL). exists f'. apply (CP (f', l) DL).
      + cbn [den] in *. destruct Dg as (h' & q & c0 & nc' & s' & G' & F & DE & DL). rewrite G in G'. inversion G'; subst. cbn [pointb] in DX.
        destruct CP as (q1 & q2 & -> & -> & CP). exists h2, (Some q2), co2, nc2, xj2. split; [assumption|]. split; [reflexivity|].
        split; [now apply DX|]. destruct po as [po|]; [|contradiction]. destruct DL as (f' & DL). exists f'. apply (CP (f', po) DL).
      + rewrite den_multi in *. destruct Dg as (h' & q & c0 & nc' & s' & G' & F & DE & DL). rewrite G in G'. inversion G'; subst. cbn [pointb] in DX.
        destruct q as [q|].
        * destruct CP as (m2 & -> & CP). destruct gs as [gs|]; [|contradiction]. cbn [few] in FW. apply andb_true_iff in FW. destruct FW as [F1 F2].
          exists h2, (Some m2), co2, nc2, xj2. split; [assumption|]. split; [reflexivity|]. split; [now apply DX|].
          apply CP; auto. now apply negb_true_iff.
        * cbn in CP. subst pl'. exists h2, None, co2, nc2, xj2. split; [assumption|]. split; [reflexivity|]. split; [now apply DX|assumption]. }
  (* the payload *)
  destruct pl as [x z m|l|l|t m]; cbn [ow_pl] in *.
  - apply wp_bind. eapply wp_write; [exact A1|now left|reflexivity|]. intros h3 A3 G3 O3 L3 C3. apply wp_ret.
    apply (TAIL true h3 (PlPoint x z m)); auto; exact Logic.I || reflexivity.
  - destruct Tp as [Tc Tl]. apply wp_bind. eapply (wp_call _ _ _ tg_ring_copy); [exact ring_copy_ok|exact A1| |].
    { intros rk' _ q Eq. destruct (St_argp _ _ _ _ _ A1 st_ring Tl) with (q := q) as [X1 X2]; auto.
      - intros y Hy. apply OW, in_or_app. now left.
      - split; [assumption|]. split; [assumption|exact Logic.I]. }
    intros l2 h3 A3 P3 CP3 S3 K3 C3 L3. apply wp_bind. eapply wp_write; [exact A3|now left|reflexivity|]. intros h4 A4 G4 O4 L4 C4.
    assert (K4 : kept ([g2] ++ D) h3 h4) by (apply (kept_others _ _ _ g2); [now left|assumption]).
    rewrite app_nil_r in A4, A3. apply wp_ret. apply (TAIL _ h4 (PlLine l2)); auto.
    + apply (held_pk h3 _ _ h4 _ _ A3 st_ring (fun q Hq => Hq) K4 P3).
    + destruct l2 as [l2|].
      * pose proof (cop_kept dring yes h ([g2] ++ D) h3 h4 _ _ stable_ring K4 (cop_copied dring yes yes _ _ _ _ _ _ stable_ring A1 CP3)) as (q & -> & CP).
        exists q, l2. split; [reflexivity|]. split; [reflexivity|]. intros g Dg. now apply CP.
      * destruct (bad_copied dring yes yes _ _ _ _ _ stable_ring A1 CP3) as [O|[O|(q & -> & O)]].
        -- left. apply (oom_0 h1 _ _ h4 _ _ A1 A4). eapply oom_ext; [exact O|lia].
        -- right. exact O.
        -- exfalso. destruct Tl as (bl & Gl & Kl). destruct bl as [hl rl il yl| | | | | | | | | |]; try discriminate Kl.
           destruct (inv_ty _ _ _ _ I q _ Gl) as [_ [T _]]; [apply OW; now left|]. destruct (T eq_refl) as [-> ->].
           assert (yes (h_flags hl, Ring (r_closed rl) (r_clockwise rl) (r_convex rl) (r_area rl) (r_npoints rl) (r_nsegs rl) (r_rect rl) None None (r_points rl)) = false); [|discriminate].
           apply O. exists hl, rl, None, None. split; [assumption|]. repeat split.
  - destruct Tp as [Tc Tl]. apply wp_bind. eapply (wp_call _ _ _ tg_poly_copy); [exact poly_copy_ok|exact A1| |].
    { intros rk' _ q Eq. destruct (St_argp _ _ _ _ _ A1 st_pol Tl) with (q := q) as [X1 X2]; auto.
      - intros y Hy. apply OW, in_or_app. now left.
      - split; [assumption|]. split; [assumption|exact Logic.I]. }
    intros l2 h3 A3 P3 CP3 S3 K3 C3 L3. apply wp_bind. eapply wp_write; [exact A3|now left|reflexivity|]. intros h4 A4 G4 O4 L4 C4.
    assert (K4 : kept ([g2] ++ D) h3 h4) by (apply (kept_others _ _ _ g2); [now left|assumption]).
    rewrite app_nil_r in A4, A3. apply wp_ret. apply (TAIL _ h4 (PlPoly l2)); auto.
    + apply (held_pk h3 _ _ h4 _ _ A3 st_pol (fun q Hq => Hq) K4 P3).
    + destruct l2 as [l2|].
      * pose proof (cop_kept dpoly yes h ([g2] ++ D) h3 h4 _ _ stable_poly K4 (cop_copied dpoly whole_pol yes _ _ _ _ _ _ stable_poly A1 CP3)) as (q & -> & CP).
        exists q, l2. split; [reflexivity|]. split; [reflexivity|]. intros g Dg. now apply CP.
      * destruct (bad_copied dpoly whole_pol yes _ _ _ _ _ stable_poly A1 CP3) as [O|[O|(q & -> & O)]].
        -- left. apply (oom_0 h1 _ _ h4 _ _ A1 A4). eapply oom_ext; [exact O|lia].
        -- right. now left.
        -- right. right. eauto.
  - destruct m as [m|].
    + destruct Tp as [Tc Tm]. eapply (wp_multi_copy n c C); [exact A1|reflexivity|exact G1|exact Tm|apply OW; now left| |].
      { specialize (RK m (or_introl eq_refl)). lia. }
      intros b h3 mo A3 G3 P3 B3. apply (TAIL b h3 (PlMulti t mo)); auto.
      destruct b; [|exact B3]. destruct B3 as (m2 & -> & B3). exists m2. split; [reflexivity|exact B3].
    + apply wp_ret. apply (TAIL true h1 (PlMulti t None)); auto; exact Logic.I || reflexivity.
Qed.
End Geom.

Lemma geom_copy_fuel_ok n : 0 < n -> makes true is_obj (argp is_obj (fun rk q => S (rk q) < n)) (copied den whole few) (geom_copy_fuel n).
Proof.
  induction n as [|n IH]; intros Hn; [lia|]. intros rk h E D o I R AR. pose proof (St_start I R) as A0. destruct o as [p|].
  2:{ cbn [geom_copy_fuel]. apply wp_ret. split; [assumption|]. split; [exact Logic.I|]. cbn. auto. }
  destruct (AR p eq_refl) as ((b & G & K) & ND & LR). cbn [geom_copy_fuel]. apply wp_bind, (wp_load p _ _ _ G).
  assert (CONV : forall k r h', (forall b, k b = true -> is_obj b = true) -> pk h' k r -> pk h' is_obj r).
  { intros k [q|] h' H; [|exact id]. intros (b' & Gb & Kb). exists b'. auto. }
  destruct b as [hd r ix ys|y base|hd e m hs|l|hd x|hd pl c nc xj|gs m r ix ixg|i base|l|l|s]; try discriminate K.
  - eapply wp_conseq; [apply (ring_copy_ok rk h E D (Some p) I R)|].
    + intros p' [= <-]. split; [|split; [assumption|exact Logic.I]]. eexists. split; [exact G|reflexivity].
    + intros q h' (A & P & CC). split; [assumption|]. split; [apply (CONV is_ring); [now intros []|assumption]|].
      assert (DD : forall g, den (get h) g p -> exists fl l, g = GLine fl l /\ dring (get h) (fl, l) p \/ g = GPoly fl (PRing l) /\ dring (get h) (fl, l) p).
      { intros g Dg. destruct g as [f x|f l|f po|f x z m s|f l cc s|f po cc s|t f gs cc s]; try rewrite den_multi in Dg; cbn [den] in Dg.
        - destruct Dg as (h1 & G1 & _). congruence.
        - eauto.
        - destruct po as [l|e hs]; [eauto|]. destruct Dg as (h1 & pe & a & G1 & _). congruence.
        - destruct Dg as (h1 & x1 & x2 & x3 & G1 & _). congruence.
        - destruct Dg as (h1 & x0 & x1 & x2 & x3 & G1 & _). congruence.
        - destruct Dg as (h1 & x0 & x1 & x2 & x3 & G1 & _). congruence.
        - destruct Dg as (h1 & x0 & x1 & x2 & x3 & G1 & _). congruence. }
      destruct q as [q|].
      * destruct CC as (p' & Ep & CC). exists p'. split; [assumption|]. inversion Ep; subst p'. intros g Dg FW.
        destruct (DD g Dg) as (fl & l & [[-> DL]|[-> DL]]); exact (CC (fl, l) DL eq_refl).
      * destruct CC as [CC|[CC|(p' & Ep & CC)]]; [now left|discriminate|]. right. right. exists p'. split; [assumption|]. inversion Ep; subst p'. intros g Dg.
        destruct (DD g Dg) as (fl & l & [[-> DL]|[-> DL]]); discriminate (CC (fl, l) DL).
  - eapply wp_conseq; [apply (poly_copy_ok rk h E D (Some p) I R)|].
    + intros p' [= <-]. split; [|split; [assumption|exact Logic.I]]. eexists. split; [exact G|reflexivity].
    + intros q h' (A & P & CC). split; [assumption|]. split; [apply (CONV is_pol); [now intros []|assumption]|].
      assert (DD : forall g, den (get h) g p -> exists fl po, g = GPoly fl po /\ dpoly (get h) (fl, po) p).
      { intros g Dg. destruct g as [f x|f l|f po|f x z m' s|f l cc s|f po cc s|t f gs cc s]; try rewrite den_multi in Dg; cbn [den] in Dg.
        - destruct Dg as (h1 & G1 & _). congruence.
        - destruct Dg as (h1 & x1 & x2 & x3 & G1 & _). congruence.
        - eauto.
        - destruct Dg as (h1 & x1 & x2 & x3 & G1 & _). congruence.
        - destruct Dg as (h1 & x0 & x1 & x2 & x3 & G1 & _). congruence.
        - destruct Dg as (h1 & x0 & x1 & x2 & x3 & G1 & _). congruence.
        - destruct Dg as (h1 & x0 & x1 & x2 & x3 & G1 & _). congruence. }
      destruct q as [q|].
      * destruct CC as (p' & Ep & CC). exists p'. split; [assumption|]. inversion Ep; subst p'. intros g Dg FW.
        destruct (DD g Dg) as (fl & po & -> & DL). exact (CC (fl, po) DL eq_refl).
      * destruct CC as [CC|[CC|(p' & Ep & CC)]]; [now left|discriminate|]. right. right. exists p'. split; [assumption|]. inversion Ep; subst p'. intros g Dg.
        destruct (DD g Dg) as (fl & po & -> & DL). exact (CC (fl, po) DL).
  - unfold boxed_point_copy. apply wp_bind, (wp_load p _ _ _ G). eapply wp_alloc; [exact A0|reflexivity| |].
    + intros h1 q Eq A1 G1 O1 L1 C1. split; [|split].
      * refine (St_publish h1 [] [] q _ _ G1 eq_refl eq_refl _); [exact A1|]. split; [reflexivity|exact Logic.I].
      * eexists. split; [exact G1|reflexivity].
      * exists p. split; [reflexivity|]. intros g Dg _.
        destruct g as [f y|f l|f po|f y z m s|f l cc s|f po cc s|t f gs cc s]; try rewrite den_multi in Dg; cbn [den] in *.
        -- destruct Dg as (h' & G' & F). rewrite G in G'. inversion G'; subst. exists (new_head (h_flags h')). split; [|reflexivity].
           unfold fresh. rewrite (proj2 (Nat.ltb_ge _ _)) by lia. exact G1.
        -- destruct Dg as (x0 & x1 & x2 & x3 & Gx & _). congruence.
        -- destruct po; [destruct Dg as (x0 & x1 & x2 & x3 & Gx & _)|destruct Dg as (x0 & x1 & x2 & Gx & _)]; congruence.
        -- destruct Dg as (x0 & x1 & x2 & x3 & Gx & _). congruence.
        -- destruct Dg as (x0 & x1 & x2 & x3 & x4 & Gx & _). congruence.
        -- destruct Dg as (x0 & x1 & x2 & x3 & x4 & Gx & _). congruence.
        -- destruct Dg as (x0 & x1 & x2 & x3 & x4 & Gx & _). congruence.
    + intros h1 A1 C1 L1 O1. split; [assumption|]. split; [exact Logic.I|]. now left.
  - destruct n as [|n]; [cbn in LR; lia|]. cbn in LR. refine (geom_copy_ok (S n) _ (IH ltac:(lia)) rk h E D p hd pl c nc xj I R G ND _). lia.
Qed.
