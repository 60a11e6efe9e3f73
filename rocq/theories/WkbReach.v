(** * What the WKB parser produces: every geometry without a missing part is the
    one built from some shape that fits *)

From Coq Require Import ZArith Bool List Lia ZifyBool.
From Verif Require Import F64 Geo Series RingApi Bytes Geom Writer WkbWrite WkbParse.
From Verif Require Import SpecWkb WriterFacts GeomFacts WkbWriteFacts WkbParseFacts WkbRoundFacts WkbSafe.
Import ListNotations.
Local Open Scope Z_scope.

(** [yields P x]: if [x] is a result it satisfies [P] *)
Definition yields {A} (P : A -> Prop) (x : out A) : Prop :=
  match x with Ok a => P a | _ => True end.

Lemma yields_bind {A B} (P : A -> Prop) (Q : B -> Prop) x f :
  yields P x -> (forall a, P a -> yields Q (f a)) -> yields Q (obind x f).
Proof. destruct x; cbn; auto. Qed.
Lemma yields_impl {A} (P Q : A -> Prop) x : yields P x -> (forall a, P a -> Q a) -> yields Q x.
Proof. destruct x; cbn; auto. Qed.

Lemma bytes_skipn k bs : Forall is_byte bs -> Forall is_byte (skipn k bs).
Proof. intros H. rewrite <- (firstn_skipn k bs) in H. apply Forall_app in H. apply H. Qed.
Lemma bytes_firstn k bs : Forall is_byte bs -> Forall is_byte (firstn k bs).
Proof. intros H. rewrite <- (firstn_skipn k bs) in H. apply Forall_app in H. apply H. Qed.

Lemma y_uint32 swap bs : Forall is_byte bs ->
  yields (fun r => Forall is_byte (snd r)) (p_uint32 swap bs).
Proof.
  intros H. unfold p_uint32, take_bytes. destruct (_ <? _)%nat; [exact I|].
  apply bytes_skipn, H.
Qed.

Definition bits64 (x : f64) : Prop := 0 <= x < 2 ^ 64.

Lemma y_doubles swap : forall n bs, Forall is_byte bs ->
  yields (fun r => length (fst r) = n /\ Forall bits64 (fst r) /\ Forall is_byte (snd r))
         (p_doubles n swap bs).
Proof.
  induction n as [|n IH]; intros bs H; cbn [p_doubles].
  - cbn. auto.
  - unfold take_bytes. destruct (Nat.ltb_spec (length bs) 8) as [L|L]; [exact I|].
    eapply yields_bind; [apply IH, bytes_skipn, H|].
    intros [ds rest] (H1 & H2 & H3). cbn [fst snd yields length] in *. repeat split; auto.
    constructor; [|exact H2]. unfold bits64.
    change (2 ^ 64) with (256 ^ Z.of_nat 8). replace 8%nat with (length (firstn 8 bs)) at 3.
    + apply rd_val_range, bytes_firstn, H.
    + rewrite firstn_length. lia.
Qed.

Lemma y_posn d swap bs : Forall is_byte bs ->
  yields (fun r => posn_ok d (fst r) /\ Forall is_byte (snd r)) (p_posn (ndim d) swap bs).
Proof.
  intros H. unfold p_posn. destruct (_ <? _)%nat; [exact I|].
  eapply yields_impl; [now apply y_doubles|]. intros r (H1 & H2 & H3). repeat split; auto.
Qed.

Lemma y_posns d swap : forall fuel count bs, Forall is_byte bs ->
  yields (fun r => Forall (posn_ok d) (fst r) /\ Forall is_byte (snd r))
         (p_posns fuel (ndim d) swap count bs).
Proof.
  induction fuel as [|fuel IH]; intros count bs H; cbn [p_posns];
    (destruct (count =? 0); [cbn; auto|]); [exact I|].
  eapply yields_bind; [now apply (y_posn d)|]. intros [p b1] [H1 H2]. cbn [fst snd] in *.
  eapply yields_bind; [now apply IH|]. intros [ps b2] [H3 H4]. cbn [fst snd yields] in *. auto.
Qed.

(** the positions behind a list of points and their extra coordinates *)
Definition posns_form (ring : bool) (d : dim) (pts : list pt) (x : list f64) (ps : list posn) : Prop :=
  pts = map posn_point ps /\ x = extras ps /\
  (Z.of_nat (length ps) < 2 ^ 26 -> ps = [] \/ posns_fine ring d ps).

Lemma check_fine ring d ps : Forall (posn_ok d) ps ->
  check_parse_posns ring (map posn_point ps) = None ->
  Z.of_nat (length ps) < 2 ^ 26 -> posns_fine ring d ps.
Proof.
  intros HF HC L. unfold check_parse_posns in HC. rewrite map_length in HC. destruct ring.
  - destruct (Nat.ltb_spec (length ps) 3) as [L3|L3]; [discriminate|].
    rewrite !pt_at_map in HC by lia. cbn [posn_point px py] in HC.
    split; [assumption|]. split; [lia|]. split; [assumption|].
    rewrite hd_nth0, last_nth. cbv zeta. destruct (_ && _); [reflexivity|discriminate].
  - destruct (Nat.ltb_spec (length ps) 2) as [L3|L3]; [discriminate|].
    split; [assumption|]. split; [lia|assumption].
Qed.

Lemma y_parse_posns ring d swap bs : Forall is_byte bs ->
  yields (fun r => let '(b, pts, x) := r in
            Forall is_byte b /\ exists ps, posns_form ring d pts x ps)
         (parse_wkb_posns ring (ndim d) swap bs).
Proof.
  intros HB. unfold parse_wkb_posns. eapply yields_bind; [now apply y_uint32|].
  intros [count b1] H1. cbn [fst snd] in *.
  destruct (count =? 0).
  { split; [exact H1|]. exists []. repeat split. auto. }
  destruct (Nat.eqb_spec (ndim d) 2) as [E|E].
  - apply ndim_xy in E. subst d. cbn [andb].
    destruct (negb swap && _).
    + unfold p_direct. destruct (_ || _); [exact I|].
      destruct (_ <? 0); [unfold posns_check; destruct ring; exact I|].
      destruct (_ <? _); [exact I|].
      eapply yields_bind; [now apply (y_posns xy)|]. intros [ps b2] [H2 H3]. cbn [fst snd] in *.
      unfold posns_check. change (map posn_pt ps) with (map posn_point ps).
      destruct (check_parse_posns _ _) eqn:Ec; [exact I|]. split; [now apply bytes_skipn|].
      exists ps. repeat split.
      * symmetry. now apply extras_xy.
      * intros L. right. now apply check_fine.
    + eapply yields_bind; [now apply (y_posns xy)|]. intros [ps b2] [H2 H3]. cbn [fst snd] in *.
      unfold posns_check. change (map posn_pt ps) with (map posn_point ps).
      destruct (check_parse_posns _ _) eqn:Ec; [exact I|]. split; [assumption|].
      exists ps. repeat split. intros L. right. now apply check_fine.
  - cbn [andb]. eapply yields_bind; [now apply (y_posns d)|]. intros [ps b2] [H2 H3].
    cbn [fst snd] in *. unfold posns_check. change (map posn_pt ps) with (map posn_point ps).
    destruct (check_parse_posns _ _) eqn:Ec; [exact I|]. split; [assumption|].
    exists ps. repeat split. intros L. right. now apply check_fine.
Qed.

Section Reach.
Variable e : env.
Variable ix : Z.

Definition rings_form (d : dim) (rs : list ring) (x : list f64) (pss : list (list posn)) : Prop :=
  rs = map (mk_series e ix true) pss /\ x = ring_extras pss /\ Forall (ring_builds e ix) pss /\
  Forall (fun ps => Z.of_nat (length ps) < 2 ^ 26 -> ps = [] \/ ring_ok d ps) pss.

Lemma y_rings d swap : forall fuel count bs, Forall is_byte bs ->
  yields (fun r => let '(b, rs, x) := r in
            Forall is_byte b /\ exists pss, rings_form d rs x pss)
         (p_rings e ix fuel (ndim d) swap count bs).
Proof.
  induction fuel as [|fuel IH]; intros count bs H; cbn [p_rings];
    (destruct (count =? 0); [cbn; split; [assumption|]; exists []; repeat split; constructor|]);
    [exact I|].
  eapply yields_bind; [now apply (y_parse_posns true d)|].
  intros [[b1 pts] x] (H1 & ps & -> & -> & Hp).
  destruct (series_new_ix e (map posn_point ps) true ix) as [r|] eqn:Er; [|exact I].
  eapply yields_bind; [now apply IH|]. intros [[b2 rs] xs] (H2 & pss & -> & -> & HB & HF).
  cbn [yields]. split; [assumption|]. exists (ps :: pss). split; [|split; [reflexivity|split]].
  - cbn [map]. f_equal. unfold mk_series. now rewrite Er.
  - constructor; [|assumption]. unfold ring_builds. congruence.
  - constructor; assumption.
Qed.

Lemma y_multi_posns d swap bs : Forall is_byte bs ->
  yields (fun r => let '(b, p, x) := r in
            Forall is_byte b /\
            match p with
            | None => True
            | Some p => exists pss, pss <> [] /\ p = mk_poly (map (mk_series e ix true) pss) /\
                exists rs, rings_form d rs x pss
            end)
         (parse_wkb_multi_posns e ix (ndim d) swap bs).
Proof.
  intros HB. unfold parse_wkb_multi_posns. eapply yields_bind; [now apply y_uint32|].
  intros [count b1] H1. cbn [fst snd] in *. destruct (count =? 0); [cbn; auto|].
  eapply yields_bind; [now apply (y_rings d)|]. intros [[b2 rs] x] (H2 & pss & HF).
  destruct rs as [|r0 holes]; [cbn; auto|]. rewrite tg_poly_new_mk. cbn [yields].
  split; [assumption|]. exists pss. split; [|split].
  - intros ->. destruct HF as [HF _]. discriminate.
  - destruct HF as [-> _]. reflexivity.
  - eauto.
Qed.

(** ** Sizes and missing parts, as facts about all elements *)

Lemma no_null_multi t f l c x :
  no_null (GGMulti t f (Some l) c x) <-> Forall (fun o => exists g, o = Some g /\ no_null g) l.
Proof.
  cbn. induction l as [|[g|] l IH].
  - split; [constructor|auto].
  - rewrite Forall_cons_iff, IH. split; intros [H1 H2]; split; auto.
    + eauto.
    + destruct H1 as (g' & [= <-] & H1). exact H1.
  - rewrite Forall_cons_iff. split; [contradiction|]. intros [(g & [=] & _) _].
Qed.

Lemma small_multi t f l c x :
  geom_small (GGMulti t f (Some l) c x) <->
  Z.of_nat (length l) < 2 ^ 31 /\ Forall (opt_all geom_small) l.
Proof.
  cbn [geom_small]. apply and_iff_compat_l. induction l as [|[g|] l IH].
  - split; [constructor|auto].
  - rewrite Forall_cons_iff, <- IH. reflexivity.
  - rewrite Forall_cons_iff, <- IH. cbn. tauto.
Qed.

Lemma mk_poly_small rs : rs <> [] -> poly_small (mk_poly rs) ->
  Z.of_nat (length rs) < 2 ^ 31 /\ Forall ring_small rs.
Proof.
  destruct rs as [|r [|h hs]]; [congruence| |].
  - intros _ H. split; [cbn; lia|]. repeat constructor. exact H.
  - intros _ (H1 & H2 & H3). rewrite map_length in H2. cbn [length] in *.
    split; [lia|]. constructor; [exact H1|]. apply Forall_map in H3. exact H3.
Qed.

(** what is known of a parsed geometry *)
Definition reach (depth : nat) (g : geom) : Prop :=
  no_null g -> geom_small g ->
  exists s, fits depth s /\ buildable e ix s /\ g = build e ix s.

Definition found (depth : nat) (r : option (list Z) * geom) : Prop :=
  match fst r with
  | None => error_geom (snd r)
  | Some b => Forall is_byte b /\ (error_geom (snd r) \/ reach depth (snd r))
  end.

Lemma y_point depth swap z m bs : (depth <= 1024)%nat -> Forall is_byte bs ->
  yields (found depth) (parse_wkb_point swap z m bs).
Proof.
  intros Hd HB. unfold parse_wkb_point.
  assert (H : yields (found depth) (obind (p_posn (zm_dims z m) swap bs) (fun r =>
    if forallb f_isnan (fst r) then Ok (Some (snd r), tg_geom_new_point_empty)
    else Ok (Some (snd r),
        if z then if m then tg_geom_new_point_zm (posn_pt (fst r)) (nth 2 (fst r) f_zero) (nth 3 (fst r) f_zero)
                  else tg_geom_new_point_z (posn_pt (fst r)) (nth 2 (fst r) f_zero)
        else if m then tg_geom_new_point_m (posn_pt (fst r)) (nth 2 (fst r) f_zero)
        else tg_geom_new_point (posn_pt (fst r)))))).
  { change (zm_dims z m) with (zm_dims (dz (Dim z m)) (dm (Dim z m))). rewrite zm_dims_ndim.
    eapply yields_bind; [now apply (y_posn (Dim z m))|]. intros [p b1] [H1 H2]. cbn [fst snd] in *.
    destruct (forallb f_isnan p) eqn:En; (split; [exact H2|]); right; intros _ _.
    - exists (ShPoint xy []). repeat split; auto. intros r [].
    - exists (ShPoint (Dim z m) p). split; [|split].
      + split; [assumption|]. right. split; assumption.
      + intros r [].
      + cbn [build build_point dz dm]. destruct p; [destruct H1; discriminate|].
        destruct z, m; reflexivity. }
  destruct (obind _ _); cbn in *; auto. apply error_parse.
Qed.

Lemma to_gres_found depth x : yields (found depth) x -> yields (found depth) (to_gres x).
Proof. destruct x; cbn; auto. intros _. apply error_parse. Qed.

Lemma y_linestring depth swap z m bs : (depth <= 1024)%nat -> Forall is_byte bs ->
  yields (found depth) (parse_wkb_linestring e ix swap z m bs).
Proof.
  intros Hd HB. unfold parse_wkb_linestring. apply to_gres_found.
  change (zm_dims z m) with (zm_dims (dz (Dim z m)) (dm (Dim z m))). rewrite zm_dims_ndim.
  eapply yields_bind; [now apply (y_parse_posns false (Dim z m))|].
  intros [[b1 pts] x] (H1 & ps & -> & -> & Hp).
  destruct ps as [|p ps].
  - cbn. split; [exact H1|]. right. intros _ _. exists (ShLine xy []). repeat split; auto.
    intros r [].
  - cbn [map]. change (posn_point p :: map posn_point ps) with (map posn_point (p :: ps)).
    rewrite mk_series_open. split; [exact H1|]. right. cbn [snd]. intros _ Hs.
    exists (ShLine (Dim z m) (p :: ps)). split; [|split].
    + split; [assumption|]. right. destruct Hp as [Hp|Hp]; [|discriminate|exact Hp].
      destruct (mk_open_pts e ix (p :: ps)) as [E _].
      destruct (z || m); cbn in Hs; unfold ring_small in Hs; rewrite E, map_length in Hs; exact Hs.
    + intros r [].
    + reflexivity.
Qed.

Lemma y_polygon depth swap z m bs : (depth <= 1024)%nat -> Forall is_byte bs ->
  yields (found depth) (parse_wkb_polygon e ix swap z m bs).
Proof.
  intros Hd HB. unfold parse_wkb_polygon. apply to_gres_found.
  change (zm_dims z m) with (zm_dims (dz (Dim z m)) (dm (Dim z m))). rewrite zm_dims_ndim.
  eapply yields_bind; [now apply (y_multi_posns (Dim z m))|].
  intros [[b1 p] x] (H1 & Hp). destruct p as [p|].
  - destruct Hp as (pss & N & -> & rs & -> & -> & Hb & HF).
    split; [exact H1|]. right. cbn [snd]. intros _ Hs.
    assert (Hps : poly_small (mk_poly (map (mk_series e ix true) pss)))
      by (destruct (z || m); exact Hs).
    apply mk_poly_small in Hps; [|destruct pss; [congruence|discriminate]].
    destruct Hps as [L1 L2]. rewrite map_length in L1. rewrite Forall_map in L2.
    exists (ShPoly (Dim z m) pss). split; [|split].
    + split; [assumption|]. right. split; [assumption|]. split; [assumption|].
      rewrite Forall_forall in *. intros r Hr. apply (HF r Hr).
      specialize (L2 r Hr). unfold ring_small in L2.
      destruct (mk_series_pts e ix true r (Hb r Hr)) as [E _]. rewrite E, map_length in L2. exact L2.
    + intros r Hr. cbn [rings_of] in Hr. apply in_map_iff in Hr. destruct Hr as (q & <- & Hq).
      rewrite Forall_forall in Hb. now apply Hb.
    + cbn [build]. unfold build_poly. destruct pss; [congruence|]. reflexivity.
  - split; [exact H1|]. right. intros _ _. exists (ShPoly xy []). repeat split; auto. intros r [].
Qed.

Lemma y_children pc ok depth : (forall b, Forall is_byte b -> yields (found depth) (pc b)) ->
  forall fuel count bs, Forall is_byte bs ->
  yields (fun r => match r with
                   | inl (b, gs) => Forall is_byte b /\
                       Forall (fun g => reach depth g /\ ok g = true) gs
                   | inr (None, g) => error_geom g
                   | inr (Some b, g) => Forall is_byte b /\ error_geom g
                   end) (p_children pc ok fuel count bs).
Proof.
  intros H. induction fuel as [|fuel IH]; intros count bs HB; cbn [p_children];
    (destruct (count =? 0); [cbn; auto|]); [exact I|].
  eapply yields_bind; [now apply H|]. intros [[b1|] g] Hg; [|exact Hg].
  destruct Hg as [H1 Hg]. cbn [fst snd] in *.
  destruct (tg_geom_error (Some g)) as [m|] eqn:Em.
  { cbn. split; [assumption|]. split.
    - destruct g; cbn [tg_geom_error geom_flags] in *; try discriminate;
        (destruct (is_error _); [reflexivity|discriminate]).
    - congruence. }
  destruct (ok g) eqn:Eo.
  2:{ cbn. split; [assumption|apply error_parse]. }
  eapply yields_bind; [now apply IH|]. intros [[b2 gs]|f] Hr; cbn; [|exact Hr].
  destruct Hr as [H2 HF]. split; [assumption|]. constructor; [|assumption]. split; [|assumption].
  destruct Hg as [[_ Hg]|Hg]; [congruence|exact Hg].
Qed.

Lemma y_multi pc ok depth D swap bld bs :
  (forall b, Forall is_byte b -> yields (found D) (pc b)) ->
  (forall gs, Forall (fun g => reach D g /\ ok g = true) gs -> reach depth (bld gs)) ->
  Forall is_byte bs -> yields (found depth) (p_multi pc ok swap bld bs).
Proof.
  intros H HB HI. unfold p_multi. pose proof (y_uint32 swap bs HI) as H1.
  destruct (p_uint32 swap bs) as [[count b1]|m| | |]; cbn in H1; try exact I.
  - eapply yields_bind; [apply (y_children pc ok D H _ count b1 H1)|].
    intros [[b2 gs]|[[b2|] g]] Hr; cbn.
    + destruct Hr as [H2 HF]. split; [assumption|]. right. now apply HB.
    + destruct Hr as [H2 Hr]. split; [assumption|now left].
    + exact Hr.
  - cbn. split; [assumption|]. left. apply error_parse.
Qed.

(** the shape of a geometry of a given simple type *)
Lemma build_head_point s : head_type (build e ix s) = TG_POINT ->
  exists d p, s = ShPoint d p.
Proof.
  destruct s as [d p|d p|d p|d p|d p|d p|gs]; [eauto|..]; intros H; exfalso; revert H; cbn [build].
  - destruct p; [discriminate|]. unfold build_line. destruct (dz d || dm d); discriminate.
  - destruct p; [discriminate|]. unfold build_poly. destruct (dz d || dm d); discriminate.
  - unfold build_multipoint. destruct (dz d || dm d); discriminate.
  - unfold build_multilinestring. destruct (dz d || dm d); discriminate.
  - unfold build_multipolygon. destruct (dz d || dm d); discriminate.
  - discriminate.
Qed.
Lemma build_head_line s : head_type (build e ix s) = TG_LINESTRING ->
  exists d p, s = ShLine d p.
Proof.
  destruct s as [d p|d p|d p|d p|d p|d p|gs]; [|eauto|..]; intros H; exfalso; revert H; cbn [build].
  - destruct p; [discriminate|]. unfold build_point. destruct (dz d), (dm d); discriminate.
  - destruct p; [discriminate|]. unfold build_poly. destruct (dz d || dm d); discriminate.
  - unfold build_multipoint. destruct (dz d || dm d); discriminate.
  - unfold build_multilinestring. destruct (dz d || dm d); discriminate.
  - unfold build_multipolygon. destruct (dz d || dm d); discriminate.
  - discriminate.
Qed.
Lemma build_head_poly s : head_type (build e ix s) = TG_POLYGON ->
  exists d p, s = ShPoly d p.
Proof.
  destruct s as [d p|d p|d p|d p|d p|d p|gs]; [| |eauto|..]; intros H; exfalso; revert H; cbn [build].
  - destruct p; [discriminate|]. unfold build_point. destruct (dz d), (dm d); discriminate.
  - destruct p; [discriminate|]. unfold build_line. destruct (dz d || dm d); discriminate.
  - unfold build_multipoint. destruct (dz d || dm d); discriminate.
  - unfold build_multilinestring. destruct (dz d || dm d); discriminate.
  - unfold build_multipolygon. destruct (dz d || dm d); discriminate.
  - discriminate.
Qed.

Lemma match_parts g t z m : wkb_type_match g t z m = true ->
  head_type g = t /\ dim_of (geom_flags g) = Dim z m.
Proof.
  unfold wkb_type_match. rewrite !andb_true_iff, !Bool.eqb_true_iff, Z.eqb_eq.
  intros [[H1 H2] H3]. unfold dim_of. split; [assumption|congruence].
Qed.

Lemma Forall_exists {A B} (R : A -> B -> Prop) l :
  Forall (fun a => exists b, R a b) l -> exists r, Forall2 R l r.
Proof.
  induction 1 as [|a l [b Hb] _ [r IH]]; [exists []; constructor|].
  exists (b :: r). now constructor.
Qed.

(** points of a multipoint: an empty point is taken as (0,0) *)
Lemma reach_points depth z m gs : (depth <= 1024)%nat ->
  Forall (fun g => reach (S depth) g /\ wkb_type_match g TG_POINT z m = true) gs ->
  reach depth (build_multipoint z m gs).
Proof.
  intros Hd0 HF HN HS.
  assert (P : Forall (fun g => exists p, point_ok (Dim z m) p /\ (depth < 1024)%nat /\
                tg_geom_point (Some g) = posn_point p /\ point_extra z m g = skipn 2 p) gs).
  { eapply Forall_impl; [|exact HF]. intros g [Hr Hm]. apply match_parts in Hm.
    destruct Hm as [Ht Hd].
    assert (Hs : no_null g /\ geom_small g)
      by (destruct g; try discriminate Ht; try (split; exact I); destruct mt; discriminate Ht).
    destruct (Hr (proj1 Hs) (proj2 Hs)) as (s & Hf & _ & ->).
    destruct (build_head_point s Ht) as (d & p & ->). cbn [build] in *.
    destruct Hf as [Hdep [[-> ->]|Hp]].
    - cbn in Hd. unfold dim_of in Hd. cbn in Hd. injection Hd as <- <-.
      exists [0; 0]. split; [|split; [lia|split; reflexivity]].
      split; [|reflexivity]. split; [reflexivity|].
      constructor; [lia|constructor; [lia|constructor]].
    - destruct (build_point_head d p (or_introl (point_ok_nonempty _ _ Hp))) as (_ & Hd' & _).
      rewrite Hd' in Hd. subst d. exists p. split; [assumption|]. split; [lia|].
      destruct (build_point_point _ _ Hp) as [H1 H2]. split; [assumption|exact H2]. }
  destruct (Forall_exists _ _ P) as [ps HP]. clear P HF.
  assert (E1 : map (fun g => tg_geom_point (Some g)) gs = map posn_point ps)
    by (clear -HP; induction HP as [|? ? ? ? (_ & _ & H & _)]; cbn [map]; [reflexivity|f_equal; assumption]).
  assert (E2 : map (point_extra z m) gs = map (skipn 2) ps)
    by (clear -HP; induction HP as [|? ? ? ? (_ & _ & _ & H)]; cbn [map]; [reflexivity|f_equal; assumption]).
  assert (HPo : Forall (point_ok (Dim z m)) ps)
    by (clear -HP; induction HP as [|? ? ? ? (H & _)]; constructor; auto).
  assert (Hdep : ps <> [] -> (depth < 1024)%nat)
    by (destruct HP as [|? ? ? ? (_ & H & _)]; [congruence|auto]).
  assert (Hlen : Z.of_nat (length ps) < 2 ^ 31).
  { unfold build_multipoint in HS. rewrite E1 in HS. unfold tg_geom_new_multipoint in HS.
    rewrite multi_flags in HS. apply small_multi in HS. destruct HS as [HS _].
    rewrite !map_length in HS. exact HS. }
  exists (ShPoints (Dim z m) ps). split; [|split].
  - repeat split; assumption.
  - intros r [].
  - cbn [build dz dm]. unfold build_multipoint. rewrite E1, E2, !map_map.
    rewrite Forall_forall in HPo.
    replace (map (fun x => tg_geom_point (Some (build_point (Dim z m) x))) ps)
      with (map posn_point ps)
      by (apply map_ext_in; intros a Ha; symmetry; now apply build_point_point, HPo).
    replace (map (fun x => point_extra z m (build_point (Dim z m) x)) ps)
      with (map (skipn 2) ps)
      by (apply map_ext_in; intros a Ha; symmetry; now apply (build_point_point (Dim z m)), HPo).
    reflexivity.
Qed.

Lemma reach_lines depth z m gs : (depth <= 1024)%nat ->
  Forall (fun g => reach (S depth) g /\ wkb_type_match g TG_LINESTRING z m = true) gs ->
  reach depth (build_multilinestring z m gs).
Proof.
  intros Hd0 HF HN HS.
  assert (HN' : Forall (fun g => exists l, tg_geom_line (Some g) = Some l /\ ring_small l) gs).
  { unfold build_multilinestring, tg_geom_new_multilinestring in *.
    rewrite multi_flags in HN, HS. apply no_null_multi in HN. apply small_multi in HS.
    destruct HS as [_ HS]. rewrite !Forall_map in HN, HS. rewrite Forall_forall in *.
    intros g Hg. specialize (HN g Hg). specialize (HS g Hg).
    destruct (tg_geom_line (Some g)) as [l|]; [|destruct HN as (? & [=] & _)].
    exists l. split; [reflexivity|exact HS]. }
  assert (P : Forall (fun g => exists p, line_ok (Dim z m) p /\ (depth < 1024)%nat /\
                g = build_line e ix (Dim z m) p) gs).
  { rewrite Forall_forall in *. intros g Hg. destruct (HF g Hg) as [Hr Hm].
    destruct (HN' g Hg) as (l & Hl & Hls). apply match_parts in Hm.
    destruct Hm as [Ht Hd].
    assert (Hs : no_null g /\ geom_small g).
    { destruct g; try discriminate; cbn in Hl; split; try exact I.
      - injection Hl as ->. exact Hls.
      - subst. exact Hls. }
    destruct (Hr (proj1 Hs) (proj2 Hs)) as (s & Hf & _ & ->).
    destruct (build_head_line s Ht) as (d & p & ->). cbn [build] in *.
    destruct Hf as [Hdep [[-> ->]|Hp]]; [discriminate Hl|].
    destruct (build_line_head e ix d p (or_introl (line_ok_nonempty _ _ Hp))) as (_ & Hd' & _).
    rewrite Hd' in Hd. subst d. exists p. split; [assumption|]. split; [lia|reflexivity]. }
  destruct (Forall_exists _ _ P) as [ps HP]. clear P HF HN'.
  assert (E1 : gs = map (build_line e ix (Dim z m)) ps)
    by (clear -HP; induction HP as [|? ? ? ? (_ & _ & H)]; cbn [map]; [reflexivity|f_equal; assumption]).
  assert (HPo : Forall (line_ok (Dim z m)) ps)
    by (clear -HP; induction HP as [|? ? ? ? (H & _)]; constructor; auto).
  assert (Hdep : ps <> [] -> (depth < 1024)%nat)
    by (destruct HP as [|? ? ? ? (_ & H & _)]; [congruence|auto]).
  assert (Hlen : Z.of_nat (length ps) < 2 ^ 31).
  { unfold build_multilinestring in HS. rewrite E1 in HS. unfold tg_geom_new_multilinestring in HS.
    rewrite multi_flags in HS. apply small_multi in HS. destruct HS as [HS _].
    rewrite !map_length in HS. exact HS. }
  exists (ShLines (Dim z m) ps). split; [|split].
  - repeat split; assumption.
  - intros r [].
  - cbn [build dz dm]. now rewrite E1.
Qed.

Lemma reach_polys depth z m gs : (depth <= 1024)%nat ->
  Forall (fun g => reach (S depth) g /\ wkb_type_match g TG_POLYGON z m = true) gs ->
  reach depth (build_multipolygon z m gs).
Proof.
  intros Hd0 HF HN HS.
  assert (HN' : Forall (fun g => exists l, tg_geom_poly (Some g) = Some l /\ poly_small l /\
                                           poly_no_null l) gs).
  { unfold build_multipolygon, tg_geom_new_multipolygon in *.
    rewrite multi_flags in HN, HS. apply no_null_multi in HN. apply small_multi in HS.
    destruct HS as [_ HS]. rewrite !Forall_map in HN, HS. rewrite Forall_forall in *.
    intros g Hg. specialize (HN g Hg). specialize (HS g Hg).
    destruct (tg_geom_poly (Some g)) as [l|]; [|destruct HN as (? & [=] & _)].
    exists l. split; [reflexivity|]. split; [exact HS|].
    destruct HN as (? & [= <-] & HN). exact HN. }
  assert (P : Forall (fun g => exists p, (poly_ok (Dim z m) p /\ Forall (ring_builds e ix) p) /\
                (depth < 1024)%nat /\ g = build_poly e ix (Dim z m) p) gs).
  { rewrite Forall_forall in *. intros g Hg. destruct (HF g Hg) as [Hr Hm].
    destruct (HN' g Hg) as (l & Hl & Hls & Hln). apply match_parts in Hm.
    destruct Hm as [Ht Hd].
    assert (Hs : no_null g /\ geom_small g).
    { destruct g; try discriminate; cbn in Hl.
      - injection Hl as ->. split; assumption.
      - subst. split; assumption. }
    destruct (Hr (proj1 Hs) (proj2 Hs)) as (s & Hf & HB & ->).
    destruct (build_head_poly s Ht) as (d & p & ->). cbn [build] in *.
    destruct Hf as [Hdep [[-> ->]|Hp]]; [discriminate Hl|].
    destruct (build_poly_head e ix d p (or_introl (poly_ok_nonempty _ _ Hp))) as (_ & Hd' & _).
    rewrite Hd' in Hd. subst d. exists p. split; [split; [assumption|]|].
    - apply Forall_forall. intros q Hq. apply HB. cbn [rings_of]. now apply in_map.
    - split; [lia|reflexivity]. }
  destruct (Forall_exists _ _ P) as [ps HP]. clear P HF HN'.
  assert (E1 : gs = map (build_poly e ix (Dim z m)) ps)
    by (clear -HP; induction HP as [|? ? ? ? (_ & _ & H)]; cbn [map]; [reflexivity|f_equal; assumption]).
  assert (HPo : Forall (poly_ok (Dim z m)) ps)
    by (clear -HP; induction HP as [|? ? ? ? ((H & _) & _)]; constructor; auto).
  assert (HPb : Forall (Forall (ring_builds e ix)) ps)
    by (clear -HP; induction HP as [|? ? ? ? ((_ & H) & _)]; constructor; auto).
  assert (Hdep : ps <> [] -> (depth < 1024)%nat)
    by (destruct HP as [|? ? ? ? (_ & H & _)]; [congruence|auto]).
  assert (Hlen : Z.of_nat (length ps) < 2 ^ 31).
  { unfold build_multipolygon in HS. rewrite E1 in HS. unfold tg_geom_new_multipolygon in HS.
    rewrite multi_flags in HS. apply small_multi in HS. destruct HS as [HS _].
    rewrite !map_length in HS. exact HS. }
  exists (ShPolys (Dim z m) ps). split; [|split].
  - repeat split; assumption.
  - intros r Hr. cbn [rings_of] in Hr. apply in_concat in Hr. destruct Hr as (q & Hq & Hr).
    apply in_map_iff in Hq. destruct Hq as (p & <- & Hp). apply in_map_iff in Hr.
    destruct Hr as (c & <- & Hc). rewrite Forall_forall in HPb. specialize (HPb p Hp).
    rewrite Forall_forall in HPb. now apply HPb.
  - cbn [build dz dm]. now rewrite E1.
Qed.

Lemma reach_geoms depth gs : (depth <= 1024)%nat ->
  Forall (fun g => reach (S depth) g /\ true = true) gs -> reach depth (build_collection gs).
Proof.
  intros Hd0 HF HN HS.
  unfold build_collection, tg_geom_new_geometrycollection in *.
  apply no_null_multi in HN. apply small_multi in HS. destruct HS as [HL HS].
  rewrite map_length in HL. rewrite !Forall_map in HN, HS.
  assert (P : Forall (fun g => exists s, fits (S depth) s /\ buildable e ix s /\ g = build e ix s) gs).
  { rewrite Forall_forall in *. intros g Hg. destruct (HF g Hg) as [Hr _].
    apply Hr; [|exact (HS g Hg)]. destruct (HN g Hg) as (? & [= <-] & H). exact H. }
  destruct (Forall_exists _ _ P) as [ss HP]. clear P HF.
  assert (E1 : gs = map (build e ix) ss)
    by (clear -HP; induction HP as [|? ? ? ? (_ & _ & H)]; cbn [map]; [reflexivity|f_equal; assumption]).
  exists (ShGeoms ss). split; [|split].
  - apply fits_geoms. split; [assumption|]. split.
    + rewrite E1, map_length in HL. exact HL.
    + clear -HP; induction HP as [|? ? ? ? (H & _)]; constructor; auto.
  - intros r Hr. cbn [rings_of] in Hr. apply in_concat in Hr. destruct Hr as (q & Hq & Hr).
    apply in_map_iff in Hq. destruct Hq as (s & <- & Hs).
    assert (B : Forall (buildable e ix) ss)
      by (clear -HP; induction HP as [|? ? ? ? (_ & H & _)]; constructor; auto).
    rewrite Forall_forall in B. now apply (B s).
  - cbn [build]. now rewrite E1.
Qed.

Theorem y_parse_wkb : forall dfuel depth bs, Forall is_byte bs ->
  yields (found depth) (parse_wkb e ix dfuel depth bs).
Proof.
  induction dfuel as [|dfuel IH]; intros depth bs HI; [exact I|].
  cbn [parse_wkb]. destruct bs as [|order bs]; [apply error_parse|].
  destruct (negb _); [apply error_parse|].
  destruct (Nat.ltb_spec MAXDEPTH depth) as [Hm|Hm]; [apply error_parse|].
  unfold MAXDEPTH in Hm.
  assert (HI1 : Forall is_byte bs) by (inversion HI; assumption).
  apply to_gres_found.
  eapply yields_bind; [now apply y_uint32|]. intros [type b1] H1. cbn [fst snd] in *.
  apply (yields_bind (fun r => Forall is_byte (snd r))).
  { destruct (Z.testbit type 29); [now apply y_uint32|exact H1]. }
  intros [c b2] H2. cbn [fst snd] in *.
  destruct (wkb_kind _) as [[[k z] m]|]; [|apply error_parse].
  destruct (k =? 1); [now apply y_point|].
  destruct (k =? 2); [now apply y_linestring|].
  destruct (k =? 3); [now apply y_polygon|].
  destruct (k =? 4).
  { apply (y_multi _ _ depth (S depth)); auto. intros; now apply reach_points. }
  destruct (k =? 5).
  { apply (y_multi _ _ depth (S depth)); auto. intros; now apply reach_lines. }
  destruct (k =? 6).
  { apply (y_multi _ _ depth (S depth)); auto. intros; now apply reach_polys. }
  apply (y_multi _ _ depth (S depth)); auto. intros; now apply reach_geoms.
Qed.

Lemma no_error_flag g : no_error g -> is_error (geom_flags g) = false.
Proof. destruct g; intros H; apply H. Qed.

Lemma found_top x g : yields (found 0) x ->
  match x with
  | Ok (_, g) => Ok (wrap_error g)
  | Err m => Err m
  | Oob => Oob
  | Ub => Ub
  | NoFuel => NoFuel
  end = Ok g ->
  is_error (geom_flags g) = false -> reach 0 g.
Proof.
  intros Y H HE. destruct x as [[i g0]|m| | |]; try discriminate.
  injection H as <-. cbn [yields] in Y.
  assert (E0 : is_error (geom_flags g0) = false).
  { unfold wrap_error in HE. destruct (is_error (geom_flags g0)) eqn:E1; [|reflexivity].
    destruct (tg_geom_error (Some g0)); [discriminate|congruence]. }
  rewrite (wrap_ok _ E0) in *. unfold found in Y. cbn [fst snd] in Y.
  destruct i as [b|]; [|destruct Y; congruence].
  destruct Y as [_ [[Y _]|Y]]; [congruence|exact Y].
Qed.

Theorem parsed_reach bs g : Forall is_byte bs ->
  tg_parse_wkb_ix e ix bs = Ok g -> is_error (geom_flags g) = false ->
  no_null g -> geom_small g ->
  exists s, fits 0 s /\ buildable e ix s /\ g = build e ix s.
Proof.
  intros HB. unfold tg_parse_wkb_ix.
  assert (Y := y_parse_wkb (wkb_fuel 0) 0 bs HB). revert Y.
  generalize (parse_wkb e ix (wkb_fuel 0) 0 bs). intros x Y H HE.
  exact (found_top x g Y H HE).
Qed.

(** the round trip of everything the parser produces *)
Theorem parsed_round_trip bs g : Forall is_byte bs ->
  tg_parse_wkb_ix e ix bs = Ok g -> is_error (geom_flags g) = false ->
  no_null g -> geom_small g ->
  exists w, (forall dst, tg_geom_wkb (Some g) dst =
               Some (length w, firstn (length dst) w ++ skipn (length w) dst)) /\
            tg_parse_wkb_ix e ix w = Ok g.
Proof.
  intros HB H HE HN HS.
  destruct (parsed_reach bs g HB H HE HN HS) as (s & Hf & Hb & ->).
  destruct (build_shape e ix s 0 Hf Hb) as [Hs Hm].
  destruct (emits_geom _ _ _ Hm Hs Hf) as (w & E & Hw).
  exists w. split.
  - intros dst. unfold tg_geom_wkb. rewrite E, emit_start. reflexivity.
  - rewrite <- (app_nil_r w). apply tg_parse_ok; auto using fits_reads.
Qed.
End Reach.
