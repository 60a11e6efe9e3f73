(** * The WKB parser reads every encoding of a shape into the same geometry *)

From Coq Require Import ZArith Bool List Lia ZifyBool.
From Verif Require Import F64 Geo Series RingApi Bytes Geom WkbParse.
From Verif Require Import SpecWkb WriterFacts GeomFacts.
Import ListNotations.
Local Open Scope Z_scope.

(** ** Numbers *)

Lemma le_val_bytes k : forall x, 0 <= x < 256 ^ Z.of_nat k -> le_val (le_bytes k x) = x.
Proof.
  induction k as [|k IH]; intros x H.
  - cbn in *. lia.
  - rewrite Nat2Z.inj_succ, Z.pow_succ_r in H by lia.
    cbn [le_bytes]. change (le_val (?b :: ?l)) with (b + 256 * le_val l).
    rewrite IH.
    + pose proof (Z.div_mod x 256). lia.
    + split; [apply Z.div_pos; lia|]. apply Z.div_lt_upper_bound; lia.
Qed.

Lemma e_int_length big k x : length (e_int big k x) = k.
Proof. unfold e_int. destruct big; rewrite ?rev_length; apply le_bytes_length. Qed.

Lemma rd_val_int big k x : 0 <= x < 256 ^ Z.of_nat k -> rd_val big (e_int big k x) = x.
Proof.
  intros H. unfold rd_val, e_int. destruct big; rewrite ?rev_involutive; now apply le_val_bytes.
Qed.

Lemma take_app k (a b : list Z) : length a = k -> take_bytes k (a ++ b) = Some (a, b).
Proof.
  intros H. unfold take_bytes. replace (length (a ++ b) <? k)%nat with false.
  - rewrite firstn_app, skipn_app, H, Nat.sub_diag. cbn.
    rewrite app_nil_r, <- H, firstn_all, skipn_all. reflexivity.
  - symmetry. apply Nat.ltb_ge. rewrite app_length. lia.
Qed.

Lemma p_uint32_ok big x rest : 0 <= x < 2 ^ 32 ->
  p_uint32 big (e_int big 4 x ++ rest) = Ok (x, rest).
Proof.
  intros H. unfold p_uint32. rewrite app_length, e_int_length.
  replace (4 + length rest <? 4)%nat with false by (symmetry; apply Nat.ltb_ge; lia).
  rewrite take_app by apply e_int_length. rewrite rd_val_int by exact H. reflexivity.
Qed.

Lemma p_doubles_ok big : forall p rest, Forall (fun x => 0 <= x < 2 ^ 64) p ->
  p_doubles (length p) big (e_posn big p ++ rest) = Ok (p, rest).
Proof.
  unfold e_posn. induction p as [|x p IH]; intros rest H; [reflexivity|].
  inversion H; subst. cbn [length map concat p_doubles]. rewrite <- app_assoc.
  rewrite take_app by apply e_int_length. rewrite IH by assumption. cbn [obind fst snd].
  rewrite rd_val_int; [reflexivity|]. assumption.
Qed.

Lemma e_posn_length big p : length (e_posn big p) = (8 * length p)%nat.
Proof.
  unfold e_posn. induction p as [|x p IH]; [reflexivity|].
  cbn [map concat length]. rewrite app_length, e_int_length, IH. lia.
Qed.

Lemma p_posn_ok big d p rest : posn_ok d p ->
  p_posn (ndim d) big (e_posn big p ++ rest) = Ok (p, rest).
Proof.
  intros [H1 H2]. unfold p_posn. rewrite app_length, e_posn_length, H1.
  replace (8 * ndim d + length rest <? 8 * ndim d)%nat with false
    by (symmetry; apply Nat.ltb_ge; lia).
  rewrite <- H1. now apply p_doubles_ok.
Qed.

(** ** Positions *)

Lemma p_posns_ok big d : forall ps fuel rest, Forall (posn_ok d) ps -> (length ps <= fuel)%nat ->
  p_posns fuel (ndim d) big (Z.of_nat (length ps)) (concat (map (e_posn big) ps) ++ rest)
  = Ok (ps, rest).
Proof.
  induction ps as [|p ps IH]; intros fuel rest H L.
  - destruct fuel; reflexivity.
  - inversion H; subst. cbn [length] in L. destruct fuel as [|fuel]; [lia|].
    cbn [map concat length p_posns].
    replace (Z.of_nat (S (length ps)) =? 0) with false by lia.
    rewrite <- app_assoc, p_posn_ok by assumption. cbn [obind fst snd].
    replace (Z.of_nat (S (length ps)) - 1) with (Z.of_nat (length ps)) by lia.
    rewrite IH by (assumption || lia). reflexivity.
Qed.

Lemma e_posns_data_length big d ps : Forall (posn_ok d) ps ->
  length (concat (map (e_posn big) ps)) = (length ps * (8 * ndim d))%nat.
Proof.
  induction 1 as [|p ps [H _] _ IH]; [reflexivity|].
  cbn [map concat length]. rewrite app_length, e_posn_length, IH, H. lia.
Qed.

Definition extras (ps : list posn) : list f64 := concat (map (skipn 2) ps).

Lemma ndim_ge d : (2 <= ndim d)%nat.
Proof. unfold ndim. lia. Qed.

Lemma posn_pt_point p : posn_pt p = posn_point p.
Proof. reflexivity. Qed.

Lemma extras_xy ps : Forall (posn_ok xy) ps -> extras ps = [].
Proof.
  induction 1 as [|p ps [H _] _ IH]; [reflexivity|].
  change (extras (p :: ps)) with (skipn 2 p ++ extras ps). rewrite IH, app_nil_r.
  destruct p as [|a [|b [|c p]]]; try discriminate. reflexivity.
Qed.

Lemma ndim_xy d : ndim d = 2%nat -> d = xy.
Proof. destruct d as [[] []]; cbn; (discriminate || reflexivity). Qed.

(** the check passes *)
Definition posns_fine (ring : bool) (d : dim) (ps : list posn) : Prop :=
  if ring then ring_ok d ps else line_ok d ps.

Lemma hd_nth0 (ps : list posn) : hd [] ps = nth 0 ps [].
Proof. destruct ps; reflexivity. Qed.

Lemma last_nth (ps : list posn) : last ps [] = nth (length ps - 1) ps [].
Proof.
  induction ps as [|p ps IH]; [reflexivity|]. destruct ps as [|q ps]; [reflexivity|].
  change (last (p :: q :: ps) []) with (last (q :: ps) []). rewrite IH. cbn [length].
  replace (S (S (length ps)) - 1)%nat with (S (S (length ps) - 1)) by lia. reflexivity.
Qed.

Lemma pt_at_map ps i : (i < length ps)%nat -> pt_at (map posn_point ps) i = posn_point (nth i ps []).
Proof.
  intros H. unfold pt_at. rewrite (nth_indep _ _ (posn_point [])) by (rewrite map_length; exact H).
  apply map_nth.
Qed.

Lemma check_ok ring d ps : posns_fine ring d ps ->
  check_parse_posns ring (map posn_point ps) = None.
Proof.
  intros H. unfold check_parse_posns. rewrite map_length. destruct ring.
  - destruct H as (_ & L & _ & E). cbn [negb].
    replace (length ps <? 3)%nat with false by (symmetry; apply Nat.ltb_ge; lia).
    rewrite !pt_at_map by lia. rewrite hd_nth0, last_nth in E.
    cbn [posn_point px py]. rewrite E. reflexivity.
  - destruct H as (_ & L & _).
    replace (length ps <? 2)%nat with false by (symmetry; apply Nat.ltb_ge; lia). reflexivity.
Qed.

Lemma fine_parts ring d ps : posns_fine ring d ps ->
  Forall (posn_ok d) ps /\ (2 <= length ps)%nat /\ Z.of_nat (length ps) < 2 ^ 26.
Proof.
  destruct ring; cbn.
  - intros (H1 & H2 & H3 & _). repeat split; auto; lia.
  - intros H. exact H.
Qed.

Lemma parse_wkb_posns_ok ring big d ps rest : ps = [] \/ posns_fine ring d ps ->
  parse_wkb_posns ring (ndim d) big (e_posns big ps ++ rest)
  = Ok (rest, map posn_point ps, extras ps).
Proof.
  intros [->|H].
  { unfold parse_wkb_posns, e_posns, e_count. rewrite <- app_assoc, p_uint32_ok by (cbn; lia).
    reflexivity. }
  destruct (fine_parts _ _ _ H) as (HF & L & U).
  change (2 ^ 26) with 67108864 in U.
  unfold parse_wkb_posns, e_posns, e_count. rewrite <- app_assoc, p_uint32_ok by lia.
  cbn [obind fst snd].
  replace (Z.of_nat (length ps) =? 0) with false by lia.
  pose proof (e_posns_data_length big d ps HF) as Len. pose proof (ndim_ge d) as Nd.
  destruct (Nat.eqb_spec (ndim d) 2) as [E|E].
  - apply ndim_xy in E. subst d. cbn [andb].
    destruct big; cbn [negb andb].
    + rewrite p_posns_ok; [|assumption|rewrite app_length, Len; nia].
      cbn [obind fst snd]. unfold posns_check.
      change (map posn_pt ps) with (map posn_point ps).
      rewrite (check_ok ring xy) by assumption. reflexivity.
    + change (ndim xy) with 2%nat in *.
      rewrite Z.mod_small by lia.
      replace (Z.of_nat (length ps) * 16 <=? _) with true
        by (symmetry; apply Z.leb_le; rewrite app_length, Len; lia).
      unfold p_direct.
      replace (Z.of_nat (length ps) <? 2147483648) with true by lia.
      replace (Z.of_nat (length ps) * 2 <? -2147483648) with false by lia.
      replace (2147483647 <? Z.of_nat (length ps) * 2) with false by lia. cbn [orb].
      replace (Z.of_nat (length ps) <? 0) with false by lia.
      replace (Z.of_nat _ <? 16 * Z.of_nat (length ps)) with false
        by (symmetry; apply Z.ltb_ge; rewrite app_length, Len; lia).
      rewrite (p_posns_ok false xy); [|assumption|rewrite app_length, Len; lia].
      cbn [obind fst snd]. rewrite Z.mod_small by lia.
      unfold posns_check. change (map posn_pt ps) with (map posn_point ps).
      rewrite (check_ok ring xy) by assumption. rewrite extras_xy by assumption.
      f_equal. f_equal. f_equal.
      replace (Z.to_nat _) with (length (concat (map (e_posn false) ps)))
        by (rewrite Len; lia).
      rewrite skipn_app, skipn_all, Nat.sub_diag. reflexivity.
  - cbn [andb].
    rewrite p_posns_ok; [|assumption|rewrite app_length, Len; nia].
    cbn [obind fst snd]. unfold posns_check.
    change (map posn_pt ps) with (map posn_point ps).
    rewrite (check_ok ring d) by assumption. reflexivity.
Qed.

(** ** Rings, and the geometry that a shape stands for *)

Definition ring_none : ring := Ring false false false 0 0 0 rect0 None None [].

Section Build.
Variable e : env.
Variable ix : Z.

Definition mk_series (closed : bool) (ps : list posn) : ring :=
  match series_new_ix e (map posn_point ps) closed ix with Some r => r | None => ring_none end.
Definition mk_poly (rs : list ring) : poly :=
  match rs with
  | [] => PRing ring_none
  | [r] => PRing r
  | r :: holes => PPoly r (map Some holes)
  end.
Definition ring_extras (rs : list (list posn)) : list f64 := concat (map extras rs).

Definition build_point (d : dim) (p : posn) : geom :=
  match p with
  | [] => tg_geom_new_point_empty
  | _ =>
      let q := posn_point p in
      if dz d then if dm d then tg_geom_new_point_zm q (nth 2 p 0) (nth 3 p 0)
                   else tg_geom_new_point_z q (nth 2 p 0)
      else if dm d then tg_geom_new_point_m q (nth 2 p 0)
      else tg_geom_new_point q
  end.
Definition build_line (d : dim) (ps : list posn) : geom :=
  match ps with
  | [] => tg_geom_new_linestring_empty
  | _ => if dz d || dm d then tg_geom_new_linestring_x (dz d) (dm d) (mk_series false ps) (extras ps)
         else tg_geom_new_linestring (mk_series false ps)
  end.
Definition build_poly (d : dim) (rs : list (list posn)) : geom :=
  match rs with
  | [] => tg_geom_new_polygon_empty
  | _ =>
      let p := mk_poly (map (mk_series true) rs) in
      if dz d || dm d then tg_geom_new_polygon_x (dz d) (dm d) p (ring_extras rs)
      else tg_geom_new_polygon p
  end.
Fixpoint build (s : shape) : geom :=
  match s with
  | ShPoint d p => build_point d p
  | ShLine d ps => build_line d ps
  | ShPoly d rs => build_poly d rs
  | ShPoints d ps => build_multipoint (dz d) (dm d) (map (build_point d) ps)
  | ShLines d ls => build_multilinestring (dz d) (dm d) (map (build_line d) ls)
  | ShPolys d ps => build_multipolygon (dz d) (dm d) (map (build_poly d) ps)
  | ShGeoms gs => build_collection (map build gs)
  end.

(** every ring can be built *)
Definition buildable (s : shape) : Prop :=
  forall r, In r (rings_of s) -> series_new_ix e r true ix <> None.

Lemma mk_series_open ps : series_new_ix e (map posn_point ps) false ix = Some (mk_series false ps).
Proof.
  unfold mk_series. destruct (series_new_ix_open e (map posn_point ps) ix) as [r ->]. reflexivity.
Qed.

Lemma mk_series_closed ps : series_new_ix e (map posn_point ps) true ix <> None ->
  series_new_ix e (map posn_point ps) true ix = Some (mk_series true ps).
Proof. unfold mk_series. destruct (series_new_ix _ _ _ _); congruence. Qed.

Lemma e_rings_data_length big rs : (length rs <= length (concat (map (e_posns big) rs)))%nat.
Proof.
  induction rs as [|r rs IH]; [cbn; lia|]. cbn [map concat length]. rewrite app_length.
  unfold e_posns at 1. rewrite app_length. unfold e_count at 1. rewrite e_int_length. lia.
Qed.

Lemma p_rings_ok big d : forall rs fuel rest,
  Forall (fun r => r = [] \/ ring_ok d r) rs -> (length rs <= fuel)%nat ->
  (forall r, In r rs -> series_new_ix e (map posn_point r) true ix <> None) ->
  p_rings e ix fuel (ndim d) big (Z.of_nat (length rs)) (concat (map (e_posns big) rs) ++ rest)
  = Ok (rest, map (mk_series true) rs, ring_extras rs).
Proof.
  induction rs as [|r rs IH]; intros fuel rest HF L HB.
  - destruct fuel; reflexivity.
  - inversion HF; subst. cbn [length] in L. destruct fuel as [|fuel]; [lia|].
    cbn [map concat length p_rings].
    replace (Z.of_nat (S (length rs)) =? 0) with false by lia.
    rewrite <- app_assoc, (parse_wkb_posns_ok true) by assumption. cbn [obind].
    rewrite mk_series_closed by (apply HB; now left).
    replace (Z.of_nat (S (length rs)) - 1) with (Z.of_nat (length rs)) by lia.
    rewrite IH; [reflexivity|assumption|lia|]. intros; apply HB; now right.
Qed.

Lemma tg_poly_new_mk r holes :
  tg_poly_new (Some r) (map Some holes) (Z.of_nat (length holes)) = Some (Some (mk_poly (r :: holes))).
Proof.
  unfold tg_poly_new, mk_poly. destruct holes as [|h holes]; [reflexivity|].
  cbn [length]. replace (Z.of_nat (S (length holes)) =? 0) with false by lia.
  replace (0 <? Z.of_nat (S (length holes))) with true by lia.
  rewrite map_length. cbn [length]. rewrite Z.ltb_irrefl.
  rewrite Nat2Z.id. rewrite firstn_all2 by (rewrite map_length; cbn; lia). reflexivity.
Qed.

Lemma parse_wkb_multi_posns_ok big d rs rest : poly_ok d rs ->
  (forall r, In r rs -> series_new_ix e (map posn_point r) true ix <> None) ->
  parse_wkb_multi_posns e ix (ndim d) big (e_rings big rs ++ rest)
  = Ok (rest, Some (mk_poly (map (mk_series true) rs)), ring_extras rs).
Proof.
  intros (N & U & HF) HB. change (2 ^ 31) with 2147483648 in U.
  unfold parse_wkb_multi_posns, e_rings, e_count. rewrite <- app_assoc, p_uint32_ok by lia.
  cbn [obind fst snd].
  replace (Z.of_nat (length rs) =? 0) with false by (destruct rs; [congruence|cbn [length]; lia]).
  rewrite (p_rings_ok big d); [|assumption| |assumption].
  2:{ rewrite app_length. pose proof (e_rings_data_length big rs). lia. }
  cbn [obind]. destruct rs as [|r rs]; [congruence|]. cbn [map].
  rewrite tg_poly_new_mk. reflexivity.
Qed.

(** ** One header *)

Definition body (fuel depth : nat) (swap : bool) (k : Z) (z m : bool) (bs : list Z) : gres :=
  let child := parse_wkb e ix fuel (S depth) in
  if k =? 1 then parse_wkb_point swap z m bs
  else if k =? 2 then parse_wkb_linestring e ix swap z m bs
  else if k =? 3 then parse_wkb_polygon e ix swap z m bs
  else if k =? 4 then
    p_multi child (fun g => wkb_type_match g TG_POINT z m) swap (build_multipoint z m) bs
  else if k =? 5 then
    p_multi child (fun g => wkb_type_match g TG_LINESTRING z m) swap (build_multilinestring z m) bs
  else if k =? 6 then
    p_multi child (fun g => wkb_type_match g TG_POLYGON z m) swap (build_multipolygon z m) bs
  else p_multi child (fun _ => true) swap build_collection bs.

Lemma parse_head fuel depth big k d bs : 1 <= k <= 7 -> (depth <= 1024)%nat ->
  parse_wkb e ix (S fuel) depth (e_head big k d ++ bs) =
  to_gres (body fuel depth big k (dz d) (dm d) bs).
Proof.
  intros Hk Hd. unfold e_head. cbn [app parse_wkb].
  replace (negb (Z.shiftr (if big then 0 else 1) 1 =? 0)) with false by (destruct big; reflexivity).
  replace (MAXDEPTH <? depth)%nat with false
    by (symmetry; apply Nat.ltb_ge; unfold MAXDEPTH; lia).
  replace ((if big then 0 else 1) =? 0) with big by (destruct big; reflexivity).
  rewrite p_uint32_ok by (destruct (dz d), (dm d); lia). cbn [obind fst snd].
  assert (K : k = 1 \/ k = 2 \/ k = 3 \/ k = 4 \/ k = 5 \/ k = 6 \/ k = 7) by lia.
  assert (E : Z.testbit (k + (if dz d then 1000 else 0) + (if dm d then 2000 else 0)) 29 = false /\
              wkb_kind (Z.land (k + (if dz d then 1000 else 0) + (if dm d then 2000 else 0)) 65535)
              = Some (k, dz d, dm d)).
  { destruct d as [[] []]; cbn [dz dm]; destruct K as [->|[->|[->|[->|[->|[->| ->]]]]]];
      vm_compute; auto. }
  destruct E as [-> ->]. cbn [obind fst snd]. reflexivity.
Qed.

(** ** Children *)

Lemma e_seq_length {A} (enc : A -> list Z -> Prop) :
  forall l cs, (forall a b, In a l -> enc a b -> b <> []) -> e_seq enc l cs ->
  (length l <= length cs)%nat.
Proof.
  induction l as [|a l IH]; intros cs H; cbn; [lia|].
  intros (b1 & b2 & -> & E1 & E2). rewrite app_length.
  assert (b1 <> []) by (apply (H a); [now left|assumption]).
  assert (length l <= length b2)%nat by (apply IH; [intros; eapply H; eauto; now right|assumption]).
  destruct b1; [congruence|cbn; lia].
Qed.

Lemma p_children_ok {A} pc ok (enc : A -> list Z -> Prop) (g : A -> geom) :
  forall l fuel cs rest,
  (forall a b rest, In a l -> enc a b -> pc (b ++ rest) = Ok (Some rest, g a)) ->
  (forall a, In a l -> tg_geom_error (Some (g a)) = None /\ ok (g a) = true) ->
  e_seq enc l cs -> (length l <= fuel)%nat ->
  p_children pc ok fuel (Z.of_nat (length l)) (cs ++ rest) = Ok (inl (rest, map g l)).
Proof.
  induction l as [|a l IH]; intros fuel cs rest H1 H2 H L.
  - cbn in H. subst. destruct fuel; reflexivity.
  - cbn [length] in L. destruct fuel as [|fuel]; [lia|].
    destruct H as (b1 & b2 & -> & E1 & E2). cbn [length p_children map].
    replace (Z.of_nat (S (length l)) =? 0) with false by lia.
    rewrite <- app_assoc, (H1 a) by (now left || assumption). cbn [obind].
    destruct (H2 a (or_introl eq_refl)) as [-> ->].
    replace (Z.of_nat (S (length l)) - 1) with (Z.of_nat (length l)) by lia.
    rewrite IH; [reflexivity| | |assumption|lia]; intros; [apply H1|apply H2]; auto; now right.
Qed.

Lemma p_multi_ok {A} pc ok (enc : A -> list Z -> Prop) (g : A -> geom) bld big l cs rest :
  e_seq enc l cs ->
  (forall a b rest, In a l -> enc a b -> pc (b ++ rest) = Ok (Some rest, g a)) ->
  (forall a b, In a l -> enc a b -> b <> []) ->
  (forall a, In a l -> tg_geom_error (Some (g a)) = None /\ ok (g a) = true) ->
  Z.of_nat (length l) < 2 ^ 31 ->
  p_multi pc ok big bld (e_count big l ++ cs ++ rest) = Ok (Some rest, bld (map g l)).
Proof.
  intros H H1 H0 H2 U. change (2 ^ 31) with 2147483648 in U.
  unfold p_multi, e_count. rewrite p_uint32_ok by lia.
  rewrite (p_children_ok _ _ enc g); [reflexivity|assumption|assumption|assumption|].
  rewrite app_length. pose proof (e_seq_length enc l cs H0 H). lia.
Qed.

(** ** The three simple types *)

Lemma zm_dims_ndim d : zm_dims (dz d) (dm d) = ndim d.
Proof. destruct d as [[] []]; reflexivity. Qed.

Lemma point_body big d q rest p : posn_ok d q ->
  match p with
  | [] => forallb f_isnan q = true
  | _ => q = p /\ forallb f_isnan p = false
  end ->
  parse_wkb_point big (dz d) (dm d) (e_posn big q ++ rest) = Ok (Some rest, build_point d p).
Proof.
  intros Hq Hp. unfold parse_wkb_point. rewrite zm_dims_ndim, p_posn_ok by assumption.
  cbn [obind fst snd].
  destruct p as [|x p].
  - rewrite Hp. reflexivity.
  - destruct Hp as [-> ->]. cbn [to_gres]. unfold build_point.
    destruct (dz d), (dm d); reflexivity.
Qed.

Lemma line_body big d ps rest : ps = [] \/ line_ok d ps ->
  parse_wkb_linestring e ix big (dz d) (dm d) (e_posns big ps ++ rest)
  = Ok (Some rest, build_line d ps).
Proof.
  intros [->|H]; unfold parse_wkb_linestring; rewrite zm_dims_ndim.
  - unfold parse_wkb_posns, e_posns, e_count. rewrite <- app_assoc, p_uint32_ok by (cbn; lia).
    reflexivity.
  - rewrite (parse_wkb_posns_ok false) by (right; exact H). cbn [obind].
    destruct ps as [|p ps]; [destruct H as (_ & L & _); cbn in L; lia|].
    rewrite mk_series_open. reflexivity.
Qed.

Lemma poly_body big d rs rest : rs = [] \/ poly_ok d rs ->
  (forall r, In r rs -> series_new_ix e (map posn_point r) true ix <> None) ->
  parse_wkb_polygon e ix big (dz d) (dm d) (e_rings big rs ++ rest)
  = Ok (Some rest, build_poly d rs).
Proof.
  intros H HB. unfold parse_wkb_polygon. rewrite zm_dims_ndim. destruct H as [->|H].
  - unfold parse_wkb_multi_posns, e_rings, e_count.
    rewrite <- app_assoc, p_uint32_ok by (cbn; lia). reflexivity.
  - rewrite parse_wkb_multi_posns_ok by assumption. cbn [obind].
    unfold build_poly. destruct rs as [|r rs]; [destruct H; congruence|]. reflexivity.
Qed.

(** flags and types of what is built *)
Ltac destruct_dim := try match goal with d : dim |- _ => destruct d as [[] []] end; repeat split.
Lemma build_point_head d p : p <> [] \/ d = xy ->
  head_type (build_point d p) = TG_POINT /\ dim_of (geom_flags (build_point d p)) = d /\
  is_error (geom_flags (build_point d p)) = false.
Proof. destruct p; [intros [H| ->]; [congruence|]|intros _]; destruct_dim. Qed.
Lemma build_line_head d p : p <> [] \/ d = xy ->
  head_type (build_line d p) = TG_LINESTRING /\ dim_of (geom_flags (build_line d p)) = d /\
  is_error (geom_flags (build_line d p)) = false.
Proof. destruct p; [intros [H| ->]; [congruence|]|intros _]; destruct_dim. Qed.
Lemma build_poly_head d p : p <> [] \/ d = xy ->
  head_type (build_poly d p) = TG_POLYGON /\ dim_of (geom_flags (build_poly d p)) = d /\
  is_error (geom_flags (build_poly d p)) = false.
Proof. destruct p; [intros [H| ->]; [congruence|]|intros _]; destruct_dim. Qed.

Lemma error_flag g : is_error (geom_flags g) = false -> tg_geom_error (Some g) = None.
Proof. destruct g; cbn; intros H; rewrite ?H; reflexivity. Qed.

Lemma head_match g t d : head_type g = t -> dim_of (geom_flags g) = d ->
  is_error (geom_flags g) = false ->
  tg_geom_error (Some g) = None /\ wkb_type_match g t (dz d) (dm d) = true.
Proof.
  intros H1 H2 H3. split; [now apply error_flag|]. unfold wkb_type_match. rewrite H1. subst d.
  cbn [dim_of dz dm]. now rewrite Z.eqb_refl, !Bool.eqb_reflx.
Qed.

Lemma build_error s : is_error (geom_flags (build s)) = false.
Proof.
  destruct s as [d p|d p|d p|d p|d p|d p|gs]; cbn [build].
  - destruct p; [reflexivity|]. apply build_point_head. left; discriminate.
  - destruct p; [reflexivity|]. apply build_line_head. left; discriminate.
  - destruct p; [reflexivity|]. apply build_poly_head. left; discriminate.
  - destruct d as [[] []]; reflexivity.
  - destruct d as [[] []]; reflexivity.
  - destruct d as [[] []]; reflexivity.
  - reflexivity.
Qed.

Lemma wkb_enc_nonempty s bs : wkb_enc s bs -> bs <> [].
Proof.
  destruct s; cbn [wkb_enc]; unfold e_head.
  - intros (b & q & -> & _). discriminate.
  - intros (b & ->). discriminate.
  - intros (b & ->). discriminate.
  - intros (b & c & -> & _). discriminate.
  - intros (b & c & -> & _). discriminate.
  - intros (b & c & -> & _). discriminate.
  - intros (b & c & -> & _). discriminate.
Qed.

Lemma poly_ok_nonempty d rs : poly_ok d rs -> rs <> [].
Proof. intros H. apply H. Qed.
Lemma line_ok_nonempty d ps : line_ok d ps -> ps <> [].
Proof. intros (_ & H & _) ->. cbn in H. lia. Qed.
Lemma point_ok_nonempty d p : point_ok d p -> p <> [].
Proof. intros [[H _] _] ->. discriminate. Qed.

Theorem parse_ok s : forall depth fuel bs rest,
  reads depth s -> buildable s -> wkb_enc s bs -> (1026 <= fuel + depth)%nat ->
  parse_wkb e ix fuel depth (bs ++ rest) = Ok (Some rest, build s).
Proof.
  induction s as [d p|d ps|d rs|d ps|d ls|d ps|gs IH] using shape_ind_deep;
    intros depth fuel bs rest Hf HB He Hfu;
    assert (Hd : (depth <= 1024)%nat) by (apply Hf);
    (destruct fuel as [|fuel]; [lia|]).
  - destruct He as (big & q & -> & Hq & Hp). destruct Hf as [_ Hf].
    rewrite <- app_assoc, parse_head by lia. unfold body. cbn [Z.eqb Pos.eqb].
    rewrite (point_body big d q rest p); [reflexivity|exact Hq|].
    exact Hp.
  - destruct He as (big & ->). destruct Hf as [_ Hf].
    rewrite <- app_assoc, parse_head by lia. unfold body. cbn [Z.eqb Pos.eqb].
    rewrite line_body by assumption. reflexivity.
  - destruct He as (big & ->). destruct Hf as [_ Hf].
    rewrite <- app_assoc, parse_head by lia. unfold body. cbn [Z.eqb Pos.eqb].
    rewrite poly_body; [reflexivity|assumption|].
    intros r Hr. apply HB. cbn [rings_of]. now apply in_map.
  - destruct He as (big & cs & -> & Hs). destruct Hf as (_ & U & HF & Hdd).
    rewrite <- app_assoc, parse_head by lia. unfold body. cbn [Z.eqb Pos.eqb].
    rewrite <- app_assoc. rewrite Forall_forall in HF.
    assert (Hcd : forall a, In a ps -> (depth < 1024)%nat).
    { intros a Ha. apply Hdd. intros ->. destruct Ha. }
    rewrite (p_multi_ok _ _ _ (build_point d) _ _ _ _ _ Hs);
      [reflexivity| | | |exact U].
    + intros a b r Ha (bg & q & -> & Hq & Hn). rewrite <- app_assoc.
      specialize (Hcd a Ha). destruct fuel as [|fuel]; [lia|].
      rewrite parse_head by lia. unfold body. cbn [Z.eqb Pos.eqb].
      rewrite (point_body bg d q r a); [reflexivity|assumption|assumption].
    + intros a b _ (bg & q & -> & _). unfold e_head. discriminate.
    + intros a Ha. destruct (build_point_head d a) as (A & B & C); [|now apply head_match].
      destruct (HF a Ha) as [[_ H]|H]; [now right|left; now apply (point_ok_nonempty d)].
  - destruct He as (big & cs & -> & Hs). destruct Hf as (_ & U & HF & Hdd).
    rewrite <- app_assoc, parse_head by lia. unfold body. cbn [Z.eqb Pos.eqb].
    rewrite <- app_assoc. rewrite Forall_forall in HF.
    assert (Hcd : forall a, In a ls -> (depth < 1024)%nat).
    { intros a Ha. apply Hdd. intros ->. destruct Ha. }
    rewrite (p_multi_ok _ _ _ (build_line d) _ _ _ _ _ Hs);
      [reflexivity| | | |exact U].
    + intros a b r Ha (bg & ->). rewrite <- app_assoc.
      specialize (Hcd a Ha). destruct fuel as [|fuel]; [lia|].
      rewrite parse_head by lia. unfold body. cbn [Z.eqb Pos.eqb].
      rewrite line_body; [reflexivity|]. destruct (HF a Ha) as [[-> _]|H]; auto.
    + intros a b _ (bg & ->). unfold e_head. discriminate.
    + intros a Ha. destruct (build_line_head d a) as (A & B & C); [|now apply head_match].
      destruct (HF a Ha) as [[_ H]|H]; [now right|left; now apply (line_ok_nonempty d)].
  - destruct He as (big & cs & -> & Hs). destruct Hf as (_ & U & HF & Hdd).
    rewrite <- app_assoc, parse_head by lia. unfold body. cbn [Z.eqb Pos.eqb].
    rewrite <- app_assoc. rewrite Forall_forall in HF.
    assert (Hcd : forall a, In a ps -> (depth < 1024)%nat).
    { intros a Ha. apply Hdd. intros ->. destruct Ha. }
    rewrite (p_multi_ok _ _ _ (build_poly d) _ _ _ _ _ Hs);
      [reflexivity| | | |exact U].
    + intros a b r Ha (bg & ->). rewrite <- app_assoc.
      specialize (Hcd a Ha). destruct fuel as [|fuel]; [lia|].
      rewrite parse_head by lia. unfold body. cbn [Z.eqb Pos.eqb].
      rewrite poly_body; [reflexivity|destruct (HF a Ha) as [[-> _]|H]; auto|].
      intros q Hq. apply HB. cbn [rings_of]. apply in_concat.
      exists (map (map posn_point) a). split; [now apply in_map|now apply in_map].
    + intros a b _ (bg & ->). unfold e_head. discriminate.
    + intros a Ha. destruct (build_poly_head d a) as (A & B & C); [|now apply head_match].
      destruct (HF a Ha) as [[_ H]|H]; [now right|left; now apply (poly_ok_nonempty d)].
  - destruct He as (big & cs & -> & Hs). apply reads_geoms in Hf. destruct Hf as (_ & U & HF).
    rewrite <- app_assoc, parse_head by lia. unfold body. cbn [Z.eqb Pos.eqb].
    rewrite <- app_assoc. rewrite Forall_forall in HF, IH.
    rewrite (p_multi_ok _ _ _ build _ _ _ _ _ Hs);
      [reflexivity| | | |exact U].
    + intros a b r Ha Hb. apply (IH a Ha); [auto| |assumption|lia].
      intros q Hq. apply HB. cbn [rings_of]. apply in_concat.
      exists (rings_of a). split; [now apply in_map|exact Hq].
    + intros a b _. apply wkb_enc_nonempty.
    + intros a Ha. split; [|reflexivity]. apply error_flag, build_error.
Qed.
End Build.
