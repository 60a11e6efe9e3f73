(** * The WKB parser on arbitrary bytes *)

From Coq Require Import ZArith Bool List Lia ZifyBool.
From Verif Require Import F64 Geo Series RingApi Bytes Geom WkbParse.
From Verif Require Import SpecWkb WriterFacts GeomFacts WkbParseFacts.
Import ListNotations.
Local Open Scope Z_scope.

(** Never out of fuel; undefined only if [U] or [W], out of bounds only if [W]. *)
Section Outcome.
Variable U W : Prop.
Definition safe {A} (P : A -> Prop) (x : out A) : Prop :=
  match x with
  | Ok a => P a
  | Err _ => True
  | Ub => U \/ W
  | Oob => W
  | NoFuel => False
  end.
Definition always {A} (P : A -> Prop) (x : out A) : Prop :=
  match x with Ok a => P a | Ub => U \/ W | Oob => W | _ => False end.
End Outcome.
Arguments safe U W {A}. Arguments always U W {A}.

Lemma safe_bind U W {A B} (P : A -> Prop) (Q : B -> Prop) x f :
  safe U W P x -> (forall a, P a -> safe U W Q (f a)) -> safe U W Q (obind x f).
Proof. destruct x; cbn; auto. Qed.

Lemma safe_impl U W {A} (P Q : A -> Prop) x :
  safe U W P x -> (forall a, P a -> Q a) -> safe U W Q x.
Proof. destruct x; cbn; auto. Qed.

Definition suffix (s bs : list Z) : Prop := exists pre, bs = pre ++ s.

Lemma suffix_refl bs : suffix bs bs.
Proof. exists []. reflexivity. Qed.
Lemma suffix_trans a b c : suffix a b -> suffix b c -> suffix a c.
Proof. intros [p ->] [q ->]. exists (q ++ p). now rewrite app_assoc. Qed.
Lemma suffix_skipn k bs : suffix (skipn k bs) bs.
Proof. exists (firstn k bs). symmetry. apply firstn_skipn. Qed.
Lemma suffix_length a b : suffix a b -> (length a <= length b)%nat.
Proof. intros [p ->]. rewrite app_length. lia. Qed.

Lemma le_val_range bs : Forall is_byte bs -> 0 <= le_val bs < 256 ^ Z.of_nat (length bs).
Proof.
  induction 1 as [|b bs H _ IH]; [cbn; lia|].
  change (le_val (b :: bs)) with (b + 256 * le_val bs). cbn [length].
  rewrite Nat2Z.inj_succ, Z.pow_succ_r by lia. unfold is_byte in H. lia.
Qed.

Lemma rd_val_range swap bs : Forall is_byte bs -> 0 <= rd_val swap bs < 256 ^ Z.of_nat (length bs).
Proof.
  intros H. unfold rd_val. destruct swap; [|now apply le_val_range].
  rewrite <- rev_length. apply le_val_range. now apply Forall_rev.
Qed.

Section Safe.
Variable e : env.
Variable ix : Z.
(** a closed series may fail to be built *)
Let U : Prop := exists pts, series_new_ix e pts true ix = None.
(** whether wrapping counts are allowed *)
Variable W : Prop.

(** consumed at least k bytes *)
Definition ate (k : nat) (bs bs' : list Z) : Prop :=
  suffix bs' bs /\ (length bs' + k <= length bs)%nat.

Lemma ate_trans j k a b c : ate j a b -> ate k b c -> ate (j + k) a c.
Proof. intros [H1 H2] [H3 H4]. split; [eapply suffix_trans; eauto|lia]. Qed.
Lemma ate_0 a : ate 0 a a.
Proof. split; [apply suffix_refl|lia]. Qed.
Lemma ate_le j k a b : ate j a b -> (k <= j)%nat -> ate k a b.
Proof. intros [H1 H2] L. split; [assumption|lia]. Qed.

(** bytes that are bytes, without a wrapping count unless that is allowed *)
Definition input_ok (bs : list Z) : Prop := Forall is_byte bs /\ (W \/ no_wrapping_count bs).
Lemma input_suffix a b : suffix a b -> input_ok b -> input_ok a.
Proof.
  intros [p ->] [H1 H2]. split.
  - apply Forall_app in H1. apply H1.
  - destruct H2 as [H2|H2]; [now left|right].
    intros pre cnt post -> Hc. apply (H2 (p ++ pre)). now rewrite app_assoc. exact Hc.
Qed.

Lemma safe_uint32 swap bs : input_ok bs ->
  safe U W (fun r => ate 4 bs (snd r) /\ 0 <= fst r < 2 ^ 32 /\
            (swap = false -> W \/ 2 ^ 28 > fst r \/
             Z.of_nat (length (snd r)) < (fst r * 16) mod 2 ^ 32)) (p_uint32 swap bs).
Proof.
  intros [HB HW]. unfold p_uint32. destruct (Nat.ltb_spec (length bs) 4) as [L|L]; [exact I|].
  unfold take_bytes. replace (length bs <? 4)%nat with false by lia. cbn [safe fst snd].
  assert (Lf : length (firstn 4 bs) = 4%nat) by (rewrite firstn_length; lia).
  split; [|split].
  - split; [apply suffix_skipn|]. rewrite skipn_length. lia.
  - assert (HF : Forall is_byte (firstn 4 bs)).
    { rewrite <- (firstn_skipn 4 bs) in HB. apply Forall_app in HB. apply HB. }
    apply (rd_val_range swap) in HF. rewrite Lf in HF. exact HF.
  - intros ->. destruct HW as [HW|HW]; [now left|right]. unfold rd_val.
    destruct (Z_lt_le_dec (le_val (firstn 4 bs)) (2 ^ 28)); [lia|right].
    apply (HW [] (firstn 4 bs)); [|exact Lf|assumption].
    cbn [app]. symmetry. apply firstn_skipn.
Qed.

Lemma safe_doubles swap : forall n bs, (8 * n <= length bs)%nat ->
  safe U W (fun r => ate (8 * n) bs (snd r) /\ length (fst r) = n) (p_doubles n swap bs).
Proof.
  induction n as [|n IH]; intros bs L; cbn [p_doubles].
  - split; [apply ate_0|reflexivity].
  - unfold take_bytes. replace (length bs <? 8)%nat with false by lia.
    assert (L' : (8 * n <= length (skipn 8 bs))%nat) by (rewrite skipn_length; lia).
    eapply safe_bind; [exact (IH _ L')|].
    intros [ds rest] [H1 H2]. cbn [safe fst snd] in *. split; [|cbn; lia].
    replace (8 * S n)%nat with (8 + 8 * n)%nat by lia.
    eapply ate_trans; [|exact H1]. split; [apply suffix_skipn|rewrite skipn_length; lia].
Qed.

Lemma safe_posn dims swap bs :
  safe U W (fun r => ate (8 * dims) bs (snd r) /\ length (fst r) = dims) (p_posn dims swap bs).
Proof.
  unfold p_posn. destruct (Nat.ltb_spec (length bs) (8 * dims)); [exact I|].
  now apply safe_doubles.
Qed.

Lemma safe_posns dims swap : (1 <= dims)%nat -> forall fuel count bs,
  (length bs < fuel)%nat ->
  safe U W (fun r => ate 0 bs (snd r)) (p_posns fuel dims swap count bs).
Proof.
  intros Hd. induction fuel as [|fuel IH]; intros count bs L; [lia|].
  cbn [p_posns]. destruct (count =? 0); [apply ate_0|].
  eapply safe_bind; [apply safe_posn|]. intros [ds b1] [H1 _]. cbn [fst snd] in *.
  assert (length b1 < fuel)%nat by (destruct H1; lia).
  eapply safe_bind; [now apply IH|]. intros [dss b2] H2. cbn [safe fst snd] in *.
  eapply ate_le; [eapply ate_trans; eauto|lia].
Qed.

Lemma safe_posns_check ring bs0 bs pts x : ate 0 bs0 bs ->
  safe U W (fun r => ate 0 bs0 (fst (fst r))) (posns_check ring bs pts x).
Proof. intros H. unfold posns_check. destruct (check_parse_posns _ _); [exact I|exact H]. Qed.

Lemma safe_parse_posns ring dims swap bs : (1 <= dims)%nat -> input_ok bs ->
  safe U W (fun r => ate 4 bs (fst (fst r))) (parse_wkb_posns ring dims swap bs).
Proof.
  intros Hd HI. unfold parse_wkb_posns. eapply safe_bind; [now apply safe_uint32|].
  intros [count b1] (H1 & H2 & H3). cbn [fst snd] in *.
  change (2 ^ 32) with 4294967296 in *. change (2 ^ 28) with 268435456 in *.
  destruct (count =? 0) eqn:E0; [exact H1|].
  destruct (_ && _ && _) eqn:E.
  - apply andb_prop in E. destruct E as [E E2]. apply andb_prop in E. destruct E as [_ E].
    assert (swap = false) by (destruct swap; [discriminate|reflexivity]). subst swap.
    specialize (H3 eq_refl). unfold p_direct.
    destruct (Z_lt_le_dec count 268435456) as [Hc|Hc].
    2:{ assert (HW : W) by (destruct H3 as [H3|[H3|H3]]; [assumption|lia|lia]).
        match goal with |- context [if ?b then Ub else _] => destruct b end; [now right|].
        match goal with |- context [if ?b then posns_check _ _ _ _ else _] => destruct b end.
        { eapply safe_impl; [apply (safe_posns_check ring b1), ate_0|].
          intros r Hr. change 4%nat with (4 + 0)%nat. eapply ate_trans; eauto. }
        match goal with |- context [if ?b then Oob else _] => destruct b end; [exact HW|].
        eapply safe_bind; [apply (safe_posns 2); lia|]. intros [dss b2] _. cbn [fst snd].
        eapply safe_impl; [apply (safe_posns_check ring b1)|].
        - split; [apply suffix_skipn|]. rewrite skipn_length. lia.
        - intros r Hr. change 4%nat with (4 + 0)%nat. eapply ate_trans; eauto. }
    rewrite Z.mod_small in E2 by lia.
    replace (count <? 2147483648) with true by lia.
    replace (count * 2 <? -2147483648) with false by lia.
    replace (2147483647 <? count * 2) with false by lia. cbn [orb].
    replace (count <? 0) with false by lia.
    replace (Z.of_nat (length b1) <? 16 * count) with false by lia.
    eapply safe_bind; [apply (safe_posns 2); lia|]. intros [dss b2] _. cbn [fst snd].
    eapply safe_impl; [apply (safe_posns_check ring b1)|].
    + split; [apply suffix_skipn|]. rewrite skipn_length. lia.
    + intros r Hr. change 4%nat with (4 + 0)%nat. eapply ate_trans; eauto.
  - eapply safe_bind; [apply (safe_posns dims); lia|]. intros [dss b2] Hb. cbn [fst snd] in *.
    eapply safe_impl; [apply (safe_posns_check ring b1); exact Hb|].
    intros r Hr. change 4%nat with (4 + 0)%nat. eapply ate_trans; eauto.
Qed.

Lemma safe_rings dims swap : (1 <= dims)%nat -> forall fuel count bs,
  (length bs < fuel)%nat -> input_ok bs ->
  safe U W (fun r => ate 0 bs (fst (fst r))) (p_rings e ix fuel dims swap count bs).
Proof.
  intros Hd. induction fuel as [|fuel IH]; intros count bs L HI; [lia|].
  cbn [p_rings]. destruct (count =? 0); [apply ate_0|].
  eapply safe_bind; [now apply safe_parse_posns|]. intros [[b1 pts] x] H1. cbn [fst snd] in *.
  destruct (series_new_ix e pts true ix) as [r|] eqn:Er; [|left; exists pts; exact Er].
  assert (length b1 < fuel)%nat by (destruct H1; lia).
  eapply safe_bind; [apply IH; [assumption|]|].
  - eapply input_suffix; [apply H1|assumption].
  - intros [[b2 rs] xs] H2. cbn [safe fst snd] in *.
    eapply ate_le; [eapply ate_trans; eauto|lia].
Qed.

Lemma safe_multi_posns dims swap bs : (1 <= dims)%nat -> input_ok bs ->
  safe U W (fun r => ate 4 bs (fst (fst r))) (parse_wkb_multi_posns e ix dims swap bs).
Proof.
  intros Hd HI. unfold parse_wkb_multi_posns. eapply safe_bind; [now apply safe_uint32|].
  intros [count b1] (H1 & H2 & _). cbn [fst snd] in *.
  destruct (count =? 0); [exact H1|].
  eapply safe_bind; [apply safe_rings; [assumption|lia|]|].
  - eapply input_suffix; [apply H1|assumption].
  - intros [[b2 rs] x] Hb. cbn [fst snd] in *.
    assert (A : ate 4 bs b2) by (change 4%nat with (4 + 0)%nat; eapply ate_trans; eauto).
    destruct rs as [|r0 holes]; [exact A|]. rewrite tg_poly_new_mk. exact A.
Qed.

(** ** Geometries *)

Lemma no_error_multi t f l c x :
  no_error (GGMulti t f (Some l) c x) <->
  is_error f = false /\ Forall (opt_all no_error) l.
Proof.
  cbn [no_error geom_flags]. apply and_iff_compat_l. induction l as [|[g|] l IH].
  - split; [constructor|auto].
  - rewrite Forall_cons_iff, <- IH. reflexivity.
  - rewrite Forall_cons_iff, <- IH. cbn. tauto.
Qed.

(** a result: an error, or a geometry without errors after at least k bytes *)
Definition good (k : nat) (bs : list Z) (r : option (list Z) * geom) : Prop :=
  match fst r with
  | None => error_geom (snd r)
  | Some bs' => ate k bs bs' /\ (error_geom (snd r) \/ no_error (snd r))
  end.

Lemma error_parse m : error_geom (make_parse_error m).
Proof. split; [reflexivity|discriminate]. Qed.


Lemma always_safe (P : option (list Z) * geom -> Prop) x :
  safe U W P x -> (forall m, P (None, make_parse_error m)) -> always U W P (to_gres x).
Proof. destruct x; cbn; auto. Qed.

Lemma always_bind {A B} (P : A -> Prop) (Q : B -> Prop) x f :
  always U W P x -> (forall a, P a -> always U W Q (f a)) -> always U W Q (obind x f).
Proof. destruct x; cbn; auto. Qed.

Lemma always_impl {A} (P Q : A -> Prop) x : always U W P x -> (forall a, P a -> Q a) -> always U W Q x.
Proof. destruct x; cbn; auto. Qed.

Lemma good_none k bs m : good k bs (None, make_parse_error m).
Proof. apply error_parse. Qed.

Lemma zm_dims_pos z m : (1 <= zm_dims z m)%nat.
Proof. unfold zm_dims. lia. Qed.

Lemma safe_point swap z m bs : always U W (good 0 bs) (parse_wkb_point swap z m bs).
Proof.
  unfold parse_wkb_point. apply always_safe; [|apply good_none].
  eapply safe_bind; [apply safe_posn|]. intros [p b1] [H _]. cbn [fst snd] in *.
  apply (ate_le _ 0) in H; [|lia].
  destruct (forallb f_isnan p); (split; [exact H|]); right.
  - split; [reflexivity|exact I].
  - destruct z, m; split; (reflexivity || exact I).
Qed.

Lemma safe_linestring swap z m bs : input_ok bs ->
  always U W (good 0 bs) (parse_wkb_linestring e ix swap z m bs).
Proof.
  intros HI. unfold parse_wkb_linestring. apply always_safe; [|apply good_none].
  eapply safe_bind; [apply safe_parse_posns; [apply zm_dims_pos|assumption]|].
  intros [[b1 pts] x] H. cbn [fst snd] in *. apply (ate_le _ 0) in H; [|lia].
  destruct pts as [|p pts].
  - split; [exact H|]. right. split; [reflexivity|exact I].
  - destruct (series_new_ix_open e (p :: pts) ix) as [r ->]. split; [exact H|]. right.
    cbn [snd]. destruct (z || m); split; (reflexivity || exact I).
Qed.

Lemma safe_polygon swap z m bs : input_ok bs ->
  always U W (good 0 bs) (parse_wkb_polygon e ix swap z m bs).
Proof.
  intros HI. unfold parse_wkb_polygon. apply always_safe; [|apply good_none].
  eapply safe_bind; [apply safe_multi_posns; [apply zm_dims_pos|assumption]|].
  intros [[b1 p] x] H. cbn [fst snd] in *. apply (ate_le _ 0) in H; [|lia].
  destruct p as [p|].
  - split; [exact H|]. right. cbn [snd]. destruct (z || m); split; (reflexivity || exact I).
  - split; [exact H|]. right. split; [reflexivity|exact I].
Qed.

Lemma error_none g : tg_geom_error (Some g) = None -> error_geom g \/ no_error g -> no_error g.
Proof. intros H [[_ E]|E]; [congruence|exact E]. Qed.

Lemma safe_children pc ok : forall fuel count bs,
  (forall b, suffix b bs -> always U W (good 1 b) (pc b)) ->
  (length bs < fuel)%nat ->
  always U W (fun r => match r with
                     | inl (b, gs) => ate 0 bs b /\ Forall no_error gs
                     | inr f => good 0 bs f
                     end) (p_children pc ok fuel count bs).
Proof.
  induction fuel as [|fuel IH]; intros count bs H L; [lia|].
  cbn [p_children]. destruct (count =? 0).
  { cbn. split; [apply ate_0|constructor]. }
  eapply always_bind; [apply H, suffix_refl|]. intros [[b1|] g] Hg; [|exact Hg].
  destruct Hg as [H1 Hg]. cbn [fst snd] in *.
  destruct (tg_geom_error (Some g)) as [m|] eqn:Em.
  { cbn. split; [eapply ate_le; [exact H1|lia]|exact Hg]. }
  destruct (ok g).
  2:{ cbn. split; [eapply ate_le; [exact H1|lia]|]. left. apply error_parse. }
  eapply always_bind; [apply IH|].
  - intros b Hb. apply H. eapply suffix_trans; [exact Hb|apply H1].
  - destruct H1. lia.
  - intros [[b2 gs]|f] Hr; cbn.
    + destruct Hr as [H2 HF]. split; [eapply ate_le; [eapply ate_trans; eauto|lia]|].
      constructor; [|exact HF]. eapply error_none; eauto.
    + unfold good in *. destruct f as [[b2|] g2]; cbn [fst snd] in *; [|exact Hr].
      destruct Hr as [H2 Hr]. split; [|exact Hr]. eapply ate_le; [eapply ate_trans; eauto|lia].
Qed.

Lemma safe_multi pc ok swap bld bs : input_ok bs ->
  (forall b, suffix b bs -> always U W (good 1 b) (pc b)) ->
  (forall gs, Forall no_error gs -> no_error (bld gs)) ->
  always U W (good 0 bs) (p_multi pc ok swap bld bs).
Proof.
  intros HI H HB. unfold p_multi. pose proof (safe_uint32 swap bs HI) as H1.
  destruct (p_uint32 swap bs) as [[count b1]|m| | |]; cbn in H1; try contradiction; try exact H1.
  - destruct H1 as (H1 & _).
    eapply always_bind; [apply (safe_children pc ok (S (length b1)) count b1)|].
    + intros b Hb. apply H. eapply suffix_trans; [exact Hb|apply H1].
    + lia.
    + intros [[b2 gs]|[i g]] Hr; cbn [always].
      * destruct Hr as [H2 HF]. split; [eapply ate_le; [eapply ate_trans; eauto|lia]|].
        right. now apply HB.
      * unfold good in *. cbn [fst snd] in *. destruct i as [b2|]; [|exact Hr].
        destruct Hr as [H2 Hr]. split; [|exact Hr]. eapply ate_le; [eapply ate_trans; eauto|lia].
  - cbn. split; [apply ate_0|]. left. apply error_parse.
Qed.

Lemma no_error_multi_of t f gs c :
  is_error f = false -> Forall (opt_all no_error) gs -> no_error (GGMulti t f (Some gs) c None).
Proof. intros H1 H2. apply no_error_multi. auto. Qed.

Lemma no_error_multipoint z m gs : no_error (build_multipoint z m gs).
Proof.
  unfold build_multipoint, tg_geom_new_multipoint, fill_multi_coords.
  destruct (z || m); apply no_error_multi_of; try reflexivity;
    apply Forall_map, Forall_forall; intros p _; (split; [reflexivity|exact I]).
Qed.
Lemma no_error_multilinestring z m gs : no_error (build_multilinestring z m gs).
Proof.
  unfold build_multilinestring, tg_geom_new_multilinestring, fill_multi_coords.
  destruct (z || m); apply no_error_multi_of; try reflexivity;
    apply Forall_map, Forall_forall; intros [p|] _; (exact I || (split; [reflexivity|exact I])).
Qed.
Lemma no_error_multipolygon z m gs : no_error (build_multipolygon z m gs).
Proof.
  unfold build_multipolygon, tg_geom_new_multipolygon, fill_multi_coords.
  destruct (z || m); apply no_error_multi_of; try reflexivity;
    apply Forall_map, Forall_forall; intros [p|] _; (exact I || (split; [reflexivity|exact I])).
Qed.
Lemma no_error_collection gs : Forall no_error gs -> no_error (build_collection gs).
Proof. intros H. apply no_error_multi_of; [reflexivity|]. apply Forall_map. exact H. Qed.

Lemma always_to_gres P x : always U W P x -> always U W P (to_gres x).
Proof. destruct x; cbn; auto. contradiction. Qed.

Theorem safe_parse_wkb : forall dfuel depth bs,
  input_ok bs -> (MAXDEPTH + 2 <= dfuel + depth)%nat -> (depth <= MAXDEPTH + 1)%nat ->
  always U W (good 1 bs) (parse_wkb e ix dfuel depth bs).
Proof.
  induction dfuel as [|dfuel IH]; intros depth bs HI Hf Hd; [unfold MAXDEPTH in *; lia|].
  cbn [parse_wkb]. destruct bs as [|order bs]; [apply good_none|].
  destruct (negb _); [apply good_none|].
  destruct (Nat.ltb_spec MAXDEPTH depth) as [Hm|Hm]; [apply good_none|].
  assert (HI1 : input_ok bs) by (eapply input_suffix; [|exact HI]; exists [order]; reflexivity).
  set (swap := order =? 0).
  assert (V : forall b x, ate 0 bs b -> always U W (good 0 b) x ->
              always U W (good 1 (order :: bs)) x).
  { intros b x [A1 A2] Hx. eapply always_impl; [exact Hx|]. intros [[b'|] g]; [|auto].
    intros [[B1 B2] B3]. split; [|exact B3]. cbn [length] in *. split; [|cbn; lia].
    eapply suffix_trans; [exact B1|]. eapply suffix_trans; [exact A1|].
    exists [order]. reflexivity. }
  assert (G : forall x, always U W (good 1 (order :: bs)) x -> safe U W (good 1 (order :: bs)) x).
  { intros x. destruct x; cbn; auto. }
  apply always_safe; [|apply good_none].
  eapply safe_bind; [now apply safe_uint32|]. intros [type b1] (H1 & _). cbn [fst snd] in *.
  assert (HI2 : input_ok b1) by (eapply input_suffix; [apply H1|assumption]).
  apply (safe_bind U W (fun r => ate 0 bs (snd r))).
  { destruct (Z.testbit type 29).
    - eapply safe_impl; [now apply safe_uint32|]. intros [c b2] (H2 & _). cbn [snd] in *.
      eapply ate_le; [eapply ate_trans; eauto|lia].
    - cbn. eapply ate_le; [exact H1|lia]. }
  intros [c b2] H2. cbn [fst snd] in *.
  assert (HI3 : input_ok b2) by (eapply input_suffix; [apply H2|assumption]).
  apply G. destruct (wkb_kind _) as [[[k z] m]|]; [|apply good_none].
  assert (HC : forall b, suffix b b2 -> always U W (good 1 b) (parse_wkb e ix dfuel (S depth) b)).
  { intros b Hb. apply IH; [|lia|lia]. eapply input_suffix; eauto. }
  apply (V b2); [assumption|].
  repeat (match goal with |- context [if ?b then _ else _] => destruct b end).
  - apply safe_point.
  - now apply safe_linestring.
  - now apply safe_polygon.
  - apply safe_multi; auto. intros; apply no_error_multipoint.
  - apply safe_multi; auto. intros; apply no_error_multilinestring.
  - apply safe_multi; auto. intros; apply no_error_multipolygon.
  - apply safe_multi; auto. intros; now apply no_error_collection.
Qed.

Lemma wrap_good g : error_geom g \/ no_error g -> error_geom (wrap_error g) \/ no_error (wrap_error g).
Proof.
  unfold wrap_error. intros [[H1 H2]|H].
  - left. rewrite H1. destruct (tg_geom_error (Some g)); [|congruence]. apply error_parse.
  - right. assert (E : is_error (geom_flags g) = false) by (destruct g; apply H). now rewrite E.
Qed.

Theorem safe_tg_parse bs : input_ok bs ->
  always U W (fun g => error_geom g \/ no_error g) (tg_parse_wkb_ix e ix bs).
Proof.
  intros HI. unfold tg_parse_wkb_ix.
  assert (H := safe_parse_wkb (wkb_fuel 0) 0 bs HI).
  destruct (parse_wkb e ix (wkb_fuel 0) 0 bs) as [[i g]|m| | |];
    cbn in H; unfold wkb_fuel, MAXDEPTH in *.
  - apply wrap_good. assert (G : good 1 bs (i, g)) by (apply H; lia).
    unfold good in G. destruct i; cbn [fst snd] in G; [apply G|now left].
  - apply H; lia.
  - apply H; lia.
  - apply H; lia.
  - apply H; lia.
Qed.
End Safe.
