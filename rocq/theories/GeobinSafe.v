(** * The GeoBIN parser on arbitrary bytes *)

From Coq Require Import ZArith Bool List Lia ZifyBool.
From Verif Require Import F64 Geo Series RingApi Bytes Geom Writer WkbWrite WkbParse Json Geobin.
From Verif Require Import SpecWkb SpecJson SpecBin WriterFacts GeomFacts WkbWriteFacts WkbParseFacts.
From Verif Require Import WkbRoundFacts WkbSafe WkbReach JsonFacts GeobinFacts.
Import ListNotations.
Local Open Scope Z_scope.

Lemma feats_clean_multi t f l c x :
  feats_clean (GGMulti t f (Some l) c x) <->
  is_error f = false /\
  Forall (opt_all (fun c => if is_feature_col f then error_geom c \/ feats_clean c else no_error c)) l.
Proof.
  cbn [feats_clean geom_flags]. apply and_iff_compat_l. induction l as [|[g|] l IH].
  - split; [constructor|auto].
  - rewrite Forall_cons_iff, <- IH. reflexivity.
  - rewrite Forall_cons_iff, <- IH. cbn. tauto.
Qed.

Lemma clean_of_no_error g : no_error g -> feats_clean g.
Proof.
  induction g as [f p|f l|f p|f p z m x|f l c x|f p c x|t f c x|t f gs c x IH]
    using geom_ind_deep; try (intros H; exact H).
  intros H. apply no_error_multi in H. destruct H as [H1 H2]. apply feats_clean_multi.
  split; [assumption|]. rewrite Forall_forall in *. intros [g|] Hg; [|exact I].
  specialize (H2 _ Hg). specialize (IH _ Hg). cbn [opt_all] in *.
  destruct (is_feature_col f); auto.
Qed.

Lemma no_error_wrap g : no_error g -> no_error (gb_wrap_base g).
Proof. destruct g; auto; intros; (split; [reflexivity|exact I]). Qed.
Lemma no_error_feature g : no_error (with_flags g (set_feature (geom_flags g))) <-> no_error g.
Proof. destruct g as [| | | | | |? ? [|]]; reflexivity. Qed.
Lemma no_error_xjson g x : no_error (set_xjson g x) <-> no_error g.
Proof. destruct g as [| | | | | |? ? [|]]; reflexivity. Qed.

Lemma clean_xjson g x : feats_clean (set_xjson g x) <-> feats_clean g.
Proof. destruct g as [| | | | | |? ? [|]]; reflexivity. Qed.


Lemma error_finish head xj g : error_geom g -> error_geom (gb_finish head xj g).
Proof.
  intros [H1 H2]. unfold gb_finish.
  assert (W : gb_wrap_base g = g) by (destruct g; cbn in *; congruence).
  rewrite W.
  replace (if negb (length xj =? 0)%nat || (head =? 3) then g else g) with g by now destruct (_ || _).
  assert (F : error_geom (if head =? 3 then with_flags g (set_feature (geom_flags g)) else g)).
  { destruct (head =? 3); [|now split]. split; [now destruct g|].
    destruct g; cbn [with_flags geom_flags tg_geom_error set_feature is_error] in *;
      try congruence; rewrite H1 in H2; rewrite H1; exact H2. }
  revert F. generalize (if head =? 3 then with_flags g (set_feature (geom_flags g)) else g).
  intros g' [F1 F2]. destruct (negb _); [|now split]. split; [now destruct g'|].
  destruct g'; cbn [set_xjson geom_flags tg_geom_error] in *; rewrite ?F1; congruence.
Qed.

Lemma no_error_finish head xj g : no_error g -> no_error (gb_finish head xj g).
Proof.
  intros H. unfold gb_finish.
  repeat match goal with |- context [if ?b then _ else _] => destruct b end;
    rewrite ?no_error_xjson, ?no_error_feature; auto using no_error_wrap.
Qed.

Section Safe.
Variable e : env.
Variable ix : Z.
Let U : Prop := exists pts, series_new_ix e pts true ix = None.
Variable W : Prop.

Definition gb_good (k : nat) (bs : list Z) (r : option (list Z) * geom) : Prop :=
  match fst r with
  | None => error_geom (snd r)
  | Some bs' => ate k bs bs' /\ (error_geom (snd r) \/ feats_clean (snd r)) /\
                (hd 0 bs <> 4 -> error_geom (snd r) \/ no_error (snd r))
  end.

Lemma gb_good_none k bs m : gb_good k bs (None, make_parse_error m).
Proof. apply error_parse. Qed.

Lemma good_gb k bs r : good k bs r -> gb_good k bs r.
Proof.
  unfold good, gb_good. destruct (fst r); [|auto]. intros [H1 H2]. split; [assumption|].
  split; [|auto]. destruct H2; auto using clean_of_no_error.
Qed.

Lemma gb_string_ate bs : Forall is_byte bs ->
  let (xj, t) := gb_string bs in
  ate 0 bs t /\ (t <> [] -> Forall (fun b => 0 < b < 256) xj).
Proof.
  induction bs as [|b bs IH]; intros H; cbn [gb_string].
  - split; [apply ate_0|congruence].
  - inversion H; subst. destruct (b =? 0) eqn:E.
    + split; [|constructor]. split; [now exists [b]|cbn; lia].
    + destruct (gb_string bs) as [s t]. destruct (IH H3) as [[[p ->] L] B]. split.
      * split; [now exists (b :: p)|cbn [length] in *; lia].
      * intros N. constructor; [red in H2; lia|auto].
Qed.

Lemma gb_skip_ate dims bs bs' : gb_skip_rect dims bs = Some bs' -> ate 0 bs bs'.
Proof.
  unfold gb_skip_rect. repeat match goal with |- context [if ?b then _ else _] => destruct b end;
    intros [= <-]; [apply ate_0|]. split; [apply suffix_skipn|]. rewrite skipn_length. lia.
Qed.

Lemma json_in_bounds s : Forall (fun b => 0 < b < 256) s -> json_validn s <> None.
Proof.
  intros H E. pose proof (json_valid_sound s) as J. rewrite E in J. apply J.
  eapply Forall_impl; [|exact H]. intros a Ha. red; cbn in Ha; lia.
Qed.

Lemma safe_feats pc : forall fuel count bs,
  (forall b, suffix b bs -> always U W (gb_good 1 b) (pc b)) ->
  (length bs < fuel)%nat ->
  always U W (fun r => match r with
                     | inl (gs, b) => ate 0 bs b /\ Forall (fun g => error_geom g \/ feats_clean g) gs
                     | inr g => error_geom g
                     end) (p_feats pc fuel count bs).
Proof.
  induction fuel as [|fuel IH]; intros count bs H L; [lia|].
  cbn [p_feats]. destruct (count =? 0).
  { cbn. split; [apply ate_0|constructor]. }
  eapply always_bind; [apply H, suffix_refl|]. intros [[b1|] g] Hg; [|exact Hg].
  destruct Hg as (H1 & Hg & _). cbn [fst snd] in *.
  eapply always_bind; [apply IH|].
  - intros b Hb. apply H. eapply suffix_trans; [exact Hb|apply H1].
  - destruct H1. lia.
  - intros [[gs b2]|f] Hr; cbn; [|exact Hr].
    destruct Hr as [H2 HF]. split; [eapply ate_le; [eapply ate_trans; eauto|lia]|].
    constructor; auto.
Qed.

Lemma clean_collection gs x : Forall (fun g => error_geom g \/ feats_clean g) gs ->
  feats_clean (gb_finish 4 x
     (with_flags (tg_geom_new_geometrycollection (map Some gs)) (set_feature_col fl0))).
Proof.
  intros H. unfold gb_finish. change (4 =? 3) with false. rewrite orb_false_r.
  assert (B : feats_clean (with_flags (tg_geom_new_geometrycollection (map Some gs)) (set_feature_col fl0))).
  { apply feats_clean_multi. split; [reflexivity|]. apply Forall_map. exact H. }
  destruct (negb _); [|exact B]. apply clean_xjson. exact B.
Qed.

Theorem safe_parse_geobin : forall dfuel depth bs,
  input_ok W bs -> (MAXDEPTH + 2 <= dfuel + depth)%nat -> (depth <= MAXDEPTH + 1)%nat ->
  always U W (gb_good 1 bs) (parse_geobin e ix dfuel depth bs).
Proof.
  induction dfuel as [|dfuel IH]; intros depth bs HI Hf Hd; [unfold MAXDEPTH in *; lia|].
  cbn [parse_geobin]. destruct bs as [|head bs]; [apply gb_good_none|].
  destruct (Nat.ltb_spec MAXDEPTH depth) as [Hm|Hm]; [apply gb_good_none|].
  assert (HW : forall b, input_ok W b ->
            always U W (good 1 b) (parse_wkb e ix (wkb_fuel depth) depth b)).
  { intros b Hb. apply safe_parse_wkb; [exact Hb| |lia]. unfold wkb_fuel. lia. }
  destruct (head =? 1) eqn:E1.
  { eapply always_impl; [now apply HW|]. intros r Hr. now apply good_gb. }
  destruct ((head <? 2) || (4 <? head)) eqn:E2; [apply gb_good_none|].
  destruct bs as [|dims bs]; [apply gb_good_none|].
  destruct (gb_skip_rect dims bs) as [b1|] eqn:E3; [|apply gb_good_none].
  assert (HI1 : input_ok W b1).
  { eapply input_suffix; [|exact HI]. eapply suffix_trans; [apply (gb_skip_ate _ _ _ E3)|].
    now exists [head; dims]. }
  pose proof (gb_string_ate b1 (proj1 HI1)) as HS.
  destruct (gb_string b1) as [xj b2] eqn:E4. destruct HS as [HA HX].
  assert (A2 : ate 2 (head :: dims :: bs) b2).
  { apply (ate_le (2 + 0 + 0)); [|lia]. eapply ate_trans; [|exact HA].
    eapply ate_trans; [|exact (gb_skip_ate _ _ _ E3)].
    split; [now exists [head; dims]|cbn; lia]. }
  assert (HI2 : input_ok W b2) by (eapply input_suffix; [apply HA|assumption]).
  destruct b2 as [|c b2]; [apply gb_good_none|]. set (b3 := c :: b2) in *.
  assert (HJ : (if (length xj =? 0)%nat then Some true else json_validn xj) <> None).
  { destruct (_ =? _)%nat; [discriminate|]. apply json_in_bounds, HX. discriminate. }
  destruct (if (length xj =? 0)%nat then Some true else json_validn xj) as [[|]|];
    [|apply gb_good_none|congruence].
  destruct (head =? 4) eqn:E5.
  - unfold take_bytes. destruct (Nat.ltb_spec (length b3) 4) as [L4|L4]; [apply gb_good_none|].
    assert (A3 : ate 4 b3 (skipn 4 b3)).
    { split; [apply suffix_skipn|]. rewrite skipn_length. lia. }
    eapply always_bind; [apply safe_feats|].
    + intros b Hb. apply IH; [|lia|lia]. eapply input_suffix; [exact Hb|].
      eapply input_suffix; [apply A3|exact HI2].
    + lia.
    + intros [[gs b4]|g] Hr; cbn [always]; [|exact Hr].
      destruct Hr as [A4 HF]. unfold gb_good. cbn [fst snd]. split; [|split].
      * apply (ate_le (2 + 4 + 0)); [|lia]. eapply ate_trans; [|exact A4].
        eapply ate_trans; [exact A2|exact A3].
      * right. replace head with 4 by lia. now apply clean_collection.
      * intros N. exfalso. apply N. cbn. lia.
  - eapply always_bind; [apply HW, HI2|].
    intros [[b4|] g] Hg; cbn [always]; [|exact Hg].
    destruct Hg as [A4 Hg]. cbn [fst snd] in *. unfold gb_good. cbn [fst snd].
    assert (R : error_geom (gb_finish head xj g) \/ no_error (gb_finish head xj g))
      by (destruct Hg; auto using error_finish, no_error_finish).
    split; [|split].
    + apply (ate_le (2 + 1)); [|lia]. eapply ate_trans; [exact A2|exact A4].
    + destruct R; auto using clean_of_no_error.
    + auto.
Qed.

Lemma wrap_clean g : error_geom g \/ feats_clean g ->
  error_geom (wrap_error g) \/ feats_clean (wrap_error g).
Proof.
  unfold wrap_error. intros [[H1 H2]|H].
  - left. rewrite H1. destruct (tg_geom_error (Some g)); [|congruence]. apply error_parse.
  - right. assert (E : is_error (geom_flags g) = false) by (destruct g; apply H). now rewrite E.
Qed.

Theorem safe_tg_parse_geobin bs : input_ok W bs ->
  always U W (fun g => (error_geom g \/ feats_clean g) /\
                       (hd 0 bs <> 4 -> error_geom g \/ no_error g)) (tg_parse_geobin_ix e ix bs).
Proof.
  intros HI. unfold tg_parse_geobin_ix.
  assert (H := safe_parse_geobin (wkb_fuel 0) 0 bs HI).
  eapply always_bind; [apply H; unfold wkb_fuel, MAXDEPTH; lia|].
  intros [i g] G. cbn [always snd]. unfold gb_good in G. cbn [fst snd] in G. destruct i as [b|].
  - destruct G as (_ & G1 & G2). split; [now apply wrap_clean|]. intros N. now apply wrap_good, G2.
  - split; [apply wrap_clean; now left|]. intros _. apply wrap_good. now left.
Qed.
End Safe.

(** ** Everything the parser produces is built from an object *)

Section Reach.
Variable e : env.
Variable ix : Z.

Definition gb_reach (depth : nat) (g : geom) : Prop :=
  no_error g -> no_null g -> geom_small g ->
  exists o, obj_fits depth o /\ obj_builds e ix o /\ g = gb_build e ix o.

Definition gb_found (depth : nat) (r : option (list Z) * geom) : Prop :=
  match fst r with
  | None => error_geom (snd r)
  | Some b => Forall is_byte b /\ (error_geom (snd r) \/ gb_reach depth (snd r))
  end.

Lemma null_wrap g : no_null (gb_wrap_base g) <-> no_null g.
Proof. destruct g; reflexivity. Qed.
Lemma null_flags g f : no_null (with_flags g f) <-> no_null g.
Proof. destruct g as [| | | | |? [|]|? ? [|]]; reflexivity. Qed.
Lemma null_xjson g x : no_null (set_xjson g x) <-> no_null g.
Proof. destruct g as [| | | | |? [|]|? ? [|]]; reflexivity. Qed.
Lemma small_wrap g : geom_small (gb_wrap_base g) <-> geom_small g.
Proof. destruct g; reflexivity. Qed.
Lemma small_flags g f : geom_small (with_flags g f) <-> geom_small g.
Proof. destruct g as [| | | |? [|]|? [|]|? ? [|]]; reflexivity. Qed.
Lemma small_xjson g x : geom_small (set_xjson g x) <-> geom_small g.
Proof. destruct g as [| | | |? [|]|? [|]|? ? [|]]; reflexivity. Qed.

Lemma null_finish head xj g : no_null (gb_finish head xj g) <-> no_null g.
Proof.
  unfold gb_finish.
  repeat match goal with |- context [if ?b then _ else _] => destruct b end;
    rewrite ?null_xjson, ?null_flags, ?null_wrap; reflexivity.
Qed.
Lemma small_finish head xj g : geom_small (gb_finish head xj g) <-> geom_small g.
Proof.
  unfold gb_finish.
  repeat match goal with |- context [if ?b then _ else _] => destruct b end;
    rewrite ?small_xjson, ?small_flags, ?small_wrap; reflexivity.
Qed.

Lemma xj_of (xj : list Z) : Forall (fun b => 0 < b < 256) xj ->
  (if (length xj =? 0)%nat then Some true else json_validn xj) = Some true ->
  exists x, xj_ok x /\ xj = xj_text x.
Proof.
  intros HB HJ. destruct xj as [|b xj].
  - exists None. split; [exact I|reflexivity].
  - cbn [length Nat.eqb] in HJ. exists (Some (b :: xj)). split; [|reflexivity].
    split; [discriminate|]. split; [exact HB|].
    pose proof (json_valid_sound (b :: xj)) as J. rewrite HJ in J. apply J.
    eapply Forall_impl; [|exact HB]. intros a Ha. red; cbn in Ha; lia.
Qed.

Lemma y_feats depth pc : forall fuel count bs,
  (forall b, Forall is_byte b -> yields (gb_found depth) (pc b)) -> Forall is_byte bs ->
  yields (fun r => match r with
                   | inl (gs, b) => Forall is_byte b /\
                        Forall (fun g => error_geom g \/ gb_reach depth g) gs
                   | inr g => error_geom g
                   end) (p_feats pc fuel count bs).
Proof.
  induction fuel as [|fuel IH]; intros count bs H HB; cbn [p_feats]; (destruct (count =? 0);
    [split; [exact HB|constructor]|]); [exact I|].
  eapply yields_bind; [now apply H|]. intros [[b1|] g] Hg; [|exact Hg].
  destruct Hg as [H1 Hg]. cbn [fst snd] in *. eapply yields_bind; [now apply IH|].
  intros [[gs b2]|f] Hr; cbn [yields]; [|exact Hr]. destruct Hr as [H2 HF].
  split; [exact H2|]. constructor; auto.
Qed.

Lemma null_multi t f l c x : no_null (GGMulti t f (Some (map Some l)) c x) <-> Forall no_null l.
Proof.
  cbn [no_null]. induction l as [|g l IH]; [split; [constructor|exact (fun _ => I)]|].
  cbn [map]. split.
  - intros [H1 H2]. constructor; [exact H1|]. now apply IH.
  - intros H. inversion H; subst. split; [assumption|]. now apply IH.
Qed.
Lemma small_multi t f l c x : geom_small (GGMulti t f (Some (map Some l)) c x) <->
  Z.of_nat (length l) < 2 ^ 31 /\ Forall geom_small l.
Proof.
  cbn [geom_small]. rewrite map_length. apply and_iff_compat_l.
  induction l as [|g l IH]; [split; [constructor|exact (fun _ => I)]|].
  cbn [map]. split.
  - intros [H1 H2]. constructor; [exact H1|]. now apply IH.
  - intros H. inversion H; subst. split; [assumption|]. now apply IH.
Qed.


Lemma reach_collection depth gs : Forall (fun g => error_geom g \/ gb_reach (S depth) g) gs ->
  Forall no_error gs -> Forall no_null gs -> Forall geom_small gs ->
  exists fs, Forall (obj_fits (S depth)) fs /\ Forall (obj_builds e ix) fs /\
             gs = map (gb_build e ix) fs.
Proof.
  induction gs as [|g gs IH]; intros H1 H2 H3 H4.
  - exists []. repeat split; constructor.
  - inversion H1; subst. inversion H2; subst. inversion H3; subst. inversion H4; subst.
    destruct IH as (fs & F1 & F2 & ->); [assumption..|].
    destruct H5 as [[E _]|R].
    + exfalso. assert (is_error (geom_flags g) = false) by (destruct g; apply H7). congruence.
    + destruct R as (o & O1 & O2 & ->); [assumption..|]. exists (o :: fs).
      repeat split; constructor; assumption.
Qed.

Theorem y_parse_geobin : forall dfuel depth bs, Forall is_byte bs ->
  yields (gb_found depth) (parse_geobin e ix dfuel depth bs).
Proof.
  induction dfuel as [|dfuel IH]; intros depth bs HB; [exact I|].
  cbn [parse_geobin]. destruct bs as [|head bs]; [apply error_parse|].
  destruct (Nat.ltb_spec MAXDEPTH depth) as [Hm|Hm]; [apply error_parse|].
  unfold MAXDEPTH in Hm.
  destruct (head =? 1) eqn:E1.
  { eapply yields_impl; [now apply (y_parse_wkb e ix)|]. intros [[b|] g] Hr; [|exact Hr].
    destruct Hr as [H1 H2]. split; [exact H1|]. destruct H2 as [H2|H2]; [now left|right].
    intros _ Hn Hs. destruct (H2 Hn Hs) as (s & F1 & F2 & Es). exists (OGeom false None s).
    split; [split; [exact I|exact F1]|]. split; [exact F2|]. exact Es. }
  destruct ((head <? 2) || (4 <? head)) eqn:E2; [apply error_parse|].
  destruct bs as [|dims bs]; [apply error_parse|].
  destruct (gb_skip_rect dims bs) as [b1|] eqn:E3; [|apply error_parse].
  assert (HB1 : Forall is_byte b1).
  { destruct (gb_skip_ate _ _ _ E3) as [[p ->] _]. inversion HB; subst. inversion H2; subst.
    apply Forall_app in H4. apply H4. }
  pose proof (gb_string_ate b1 HB1) as HS.
  destruct (gb_string b1) as [xj b2] eqn:E4. destruct HS as [HA HX].
  assert (HB2 : Forall is_byte b2).
  { destruct HA as [[p ->] _]. apply Forall_app in HB1. apply HB1. }
  destruct b2 as [|c b2]; [apply error_parse|]. set (b3 := c :: b2) in *.
  destruct (if (length xj =? 0)%nat then Some true else json_validn xj) as [[|]|] eqn:EJ;
    [|apply error_parse|exact I].
  assert (HXJ : exists x, xj_ok x /\ xj = xj_text x).
  { apply xj_of; [apply HX; discriminate|exact EJ]. }
  destruct HXJ as (x & Hx & ->). clear EJ HX.
  destruct (head =? 4) eqn:E5.
  - unfold take_bytes. destruct (Nat.ltb_spec (length b3) 4) as [L4|L4]; [apply error_parse|].
    eapply yields_bind; [apply (y_feats (S depth))|].
    + intros b Hb. now apply IH.
    + now apply bytes_skipn.
    + intros [[gs b4]|g] Hr; cbn [yields]; [|exact Hr].
      destruct Hr as [HB4 HF]. split; [exact HB4|]. right. cbn [snd].
      intros HE HN HS. apply null_finish in HN. apply small_finish in HS.
      unfold tg_geom_new_geometrycollection in HN, HS. cbn [with_flags] in HN, HS.
      apply null_multi in HN. apply small_multi in HS. destruct HS as [HL HS].
      assert (HE2 : Forall no_error gs).
      { assert (HE1 : no_error (with_flags (tg_geom_new_geometrycollection (map Some gs))
                   (set_feature_col fl0))).
        { clear -HE E5. unfold gb_finish in HE. replace (head =? 3) with false in HE by lia.
          rewrite orb_false_r in HE. destruct (negb _); [|exact HE].
          apply no_error_xjson in HE. exact HE. }
        apply no_error_multi in HE1. destruct HE1 as [_ HE1]. exact (proj1 (Forall_map Some (opt_all no_error) gs) HE1). }
      destruct (reach_collection depth gs HF HE2 HN HS) as (fs & F1 & F2 & ->).
      exists (OFeats x fs). split; [|split].
      * apply obj_fits_feats. rewrite map_length in HL. repeat split; assumption.
      * intros r Hr. cbn [obj_shape rings_of] in Hr. apply in_concat in Hr.
        destruct Hr as (l & Hl & Hr). apply in_map_iff in Hl. destruct Hl as (s & <- & Hl).
        apply in_map_iff in Hl. destruct Hl as (o & <- & Ho). rewrite Forall_forall in F2.
        exact (F2 o Ho r Hr).
      * cbn [gb_build]. replace head with 4 by lia. reflexivity.
  - eapply yields_bind; [apply (y_parse_wkb e ix), HB2|].
    intros [[b4|] g] Hg; cbn [yields]; [|exact Hg].
    destruct Hg as [HB4 Hg]. cbn [fst snd] in *. split; [exact HB4|]. cbn [snd].
    destruct Hg as [Hg|Hg]; [left; now apply error_finish|right].
    intros _ HN HS. apply null_finish in HN. apply small_finish in HS.
    destruct (Hg HN HS) as (s & F1 & F2 & ->). exists (OGeom (head =? 3) x s).
    split; [split; assumption|]. split; [exact F2|]. cbn [gb_build].
    f_equal. destruct (head =? 3) eqn:E6; lia.
Qed.

Theorem gb_parsed_reach bs g : Forall is_byte bs ->
  tg_parse_geobin_ix e ix bs = Ok g -> no_error g -> no_null g -> geom_small g ->
  exists o, obj_fits 0 o /\ obj_builds e ix o /\ g = gb_build e ix o.
Proof.
  intros HB. unfold tg_parse_geobin_ix.
  assert (Y := y_parse_geobin (wkb_fuel 0) 0 bs HB). revert Y.
  generalize (parse_geobin e ix (wkb_fuel 0) 0 bs). intros x Y H HE HN HS.
  destruct x as [[i g0]|m| | |]; try discriminate.
  assert (Eg : g = wrap_error g0) by (cbn in H; congruence). subst g. clear H.
  assert (E1 : is_error (geom_flags (wrap_error g0)) = false) by (destruct (wrap_error g0); apply HE).
  assert (E0 : is_error (geom_flags g0) = false).
  { unfold wrap_error in E1. destruct (is_error (geom_flags g0)) eqn:E2; [|reflexivity].
    destruct (tg_geom_error (Some g0)); [discriminate|congruence]. }
  rewrite (wrap_ok _ E0) in *. cbn [yields] in Y. unfold gb_found in Y. cbn [fst snd] in Y.
  destruct i as [b|]; [|destruct Y; congruence].
  destruct Y as [_ [[Y _]|Y]]; [congruence|]. now apply Y.
Qed.

Theorem gb_parsed_round_trip bs g : Forall is_byte bs ->
  tg_parse_geobin_ix e ix bs = Ok g -> no_error g -> no_null g -> geom_small g ->
  exists w, written (tg_geom_geobin (Some g)) w /\ tg_parse_geobin_ix e ix w = Ok g.
Proof.
  intros HB H HE HN HS.
  destruct (gb_parsed_reach bs g HB H HE HN HS) as (o & Hf & Hb & ->).
  destruct (gb_build_object e ix o 0 Hf Hb) as [Ho Hm].
  destruct (emits_geobin _ _ _ Hm Ho Hf) as (w & E & Hw & _).
  exists w. split.
  - intros dst. unfold tg_geom_geobin. rewrite E, emit_start. reflexivity.
  - rewrite <- (app_nil_r w). unfold tg_parse_geobin_ix.
    rewrite (parse_geobin_ok e ix o 0 (wkb_fuel 0) w [] (obj_fits_reads _ _ Hf) Hb Hw).
    + cbn [obind snd]. now rewrite wrap_ok by now apply (gb_build_error e ix o 0).
    + apply parse_wkb_fuel.
Qed.
End Reach.
