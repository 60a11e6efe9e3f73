(** * GeoBIN: the writer emits an encoding, the parser reads it back *)

From Coq Require Import ZArith Bool List Lia ZifyBool.
From Verif Require Import F64 Geo Series RingApi Bytes Geom Writer WkbWrite WkbParse Json Geobin.
From Verif Require Import SpecWkb SpecJson SpecBin WriterFacts GeomFacts WkbWriteFacts WkbParseFacts.
From Verif Require Import WkbRoundFacts WkbSafe JsonFacts.
Import ListNotations.
Local Open Scope Z_scope.

Section ObjInd.
  Variable P : obj -> Prop.
  Hypothesis H1 : forall f x s, P (OGeom f x s).
  Hypothesis H2 : forall x fs, Forall P fs -> P (OFeats x fs).
  Fixpoint obj_ind_deep (o : obj) : P o :=
    match o with
    | OGeom f x s => H1 f x s
    | OFeats x fs =>
        H2 x fs ((fix go (l : list obj) : Forall P l :=
                    match l with
                    | [] => Forall_nil _
                    | s :: rest => Forall_cons s (obj_ind_deep s) (go rest)
                    end) fs)
    end.
End ObjInd.

Lemma obj_fits_feats d x fs :
  obj_fits d (OFeats x fs) <->
  xj_ok x /\ (d <= 1024)%nat /\ Z.of_nat (length fs) < 2 ^ 31 /\ Forall (obj_fits (S d)) fs.
Proof.
  cbn [obj_fits].
  assert (E : forall l, (fix all (l : list obj) : Prop :=
                match l with [] => True | s :: rest => obj_fits (S d) s /\ all rest end) l <->
              Forall (obj_fits (S d)) l).
  { induction l as [|s l IH]; [split; [constructor|auto]|].
    rewrite Forall_cons_iff, <- IH. reflexivity. }
  rewrite E. tauto.
Qed.
Lemma obj_reads_feats d x fs :
  obj_reads d (OFeats x fs) <->
  xj_ok x /\ (d <= 1024)%nat /\ Z.of_nat (length fs) < 2 ^ 31 /\ Forall (obj_reads (S d)) fs.
Proof.
  cbn [obj_reads].
  assert (E : forall l, (fix all (l : list obj) : Prop :=
                match l with [] => True | s :: rest => obj_reads (S d) s /\ all rest end) l <->
              Forall (obj_reads (S d)) l).
  { induction l as [|s l IH]; [split; [constructor|auto]|].
    rewrite Forall_cons_iff, <- IH. reflexivity. }
  rewrite E. tauto.
Qed.

Lemma obj_fits_reads o : forall d, obj_fits d o -> obj_reads d o.
Proof.
  induction o as [f x s|x fs IH] using obj_ind_deep; intros d H.
  - destruct H as [H1 H2]. split; [assumption|now apply fits_reads].
  - apply obj_fits_feats in H. destruct H as (H1 & H2 & H3 & H4). apply obj_reads_feats.
    repeat split; try assumption. rewrite Forall_forall in *. auto.
Qed.

(** ** The parser *)

Lemma gb_string_text t : forall rest, Forall (fun b => 0 < b < 256) t ->
  gb_string (t ++ 0 :: rest) = (t, rest).
Proof.
  induction t as [|b t IH]; intros rest H; [reflexivity|]. inversion H; subst. cbn [app gb_string].
  rewrite (proj2 (Z.eqb_neq b 0)) by lia. now rewrite IH.
Qed.

Lemma xj_bytes x : xj_ok x -> Forall (fun b => 0 < b < 256) (xj_text x).
Proof. destruct x; cbn; [tauto|constructor]. Qed.

Lemma xj_valid x : xj_ok x ->
  (if (length (xj_text x) =? 0)%nat then Some true else json_validn (xj_text x)) = Some true.
Proof.
  destruct x as [t|]; cbn [xj_ok xj_text]; [|reflexivity]. intros (N & _ & L).
  destruct t; [congruence|]. cbn [length Nat.eqb]. now apply json_valid_complete.
Qed.

Lemma skip_mbr m rest : mbr_enc m -> rest <> [] ->
  exists dims r, m = dims :: r /\ gb_skip_rect dims (r ++ rest) = Some rest.
Proof.
  intros [->|(dims & r & -> & Hd & Hl)] N.
  - exists 0, []. auto.
  - exists dims, r. split; [reflexivity|]. unfold gb_skip_rect.
    rewrite (proj2 (Z.eqb_neq dims 0)) by lia.
    replace ((dims <? 2) || (4 <? dims)) with false by lia.
    rewrite app_length, Hl. replace (_ <=? _)%nat with false.
    2:{ symmetry. apply Nat.leb_gt. destruct rest; [congruence|cbn; lia]. }
    rewrite skipn_exact by exact Hl. reflexivity.
Qed.

Section Parse.
Variable e : env.
Variable ix : Z.

Fixpoint gb_build (o : obj) : geom :=
  match o with
  | OGeom f x s => gb_finish (if f then 3 else 2) (xj_text x) (build e ix s)
  | OFeats x fs =>
      gb_finish 4 (xj_text x)
        (with_flags (tg_geom_new_geometrycollection (map Some (map gb_build fs)))
                    (set_feature_col fl0))
  end.

Definition obj_builds (o : obj) : Prop := buildable e ix (obj_shape o).

Lemma obj_builds_in x fs o : obj_builds (OFeats x fs) -> In o fs -> obj_builds o.
Proof.
  intros H Ho r Hr. apply H. cbn [obj_shape rings_of]. apply in_concat.
  exists (rings_of (obj_shape o)). split; [|exact Hr]. apply in_map, in_map, Ho.
Qed.

Lemma geobin_enc_nonempty o bs : geobin_enc o bs -> bs <> [].
Proof.
  destruct o; cbn [geobin_enc].
  - intros [(_ & _ & _ & H)|(m & w & -> & _)]; [now apply wkb_enc_nonempty in H|discriminate].
  - intros (m & cs & -> & _). discriminate.
Qed.

Lemma p_feats_ok {A} pc (enc : A -> list Z -> Prop) (g : A -> geom) :
  forall l fuel cs rest,
  (forall a b rest, In a l -> enc a b -> pc (b ++ rest) = Ok (Some rest, g a)) ->
  e_seq enc l cs -> (length l <= fuel)%nat ->
  p_feats pc fuel (Z.of_nat (length l)) (cs ++ rest) = Ok (inl (map g l, rest)).
Proof.
  induction l as [|a l IH]; intros fuel cs rest H1 H L.
  - cbn in H. subst. destruct fuel; reflexivity.
  - cbn [length] in L. destruct fuel as [|fuel]; [lia|].
    destruct H as (b1 & b2 & -> & E1 & E2). cbn [length p_feats map].
    replace (Z.of_nat (S (length l)) =? 0) with false by lia.
    rewrite <- app_assoc, (H1 a) by (now left || assumption). cbn [obind].
    replace (Z.of_nat (S (length l)) - 1) with (Z.of_nat (length l)) by lia.
    rewrite IH; [reflexivity| |assumption|lia]; intros; apply H1; auto; now right.
Qed.

Lemma parse_wkb_fuel depth : (1026 <= wkb_fuel depth + depth)%nat.
Proof. unfold wkb_fuel, MAXDEPTH. lia. Qed.

Lemma reads_depth s d : reads d s -> (d <= 1024)%nat.
Proof. destruct s; cbn; tauto. Qed.

Lemma maxdepth_ok d : (d <= 1024)%nat -> (MAXDEPTH <? d)%nat = false.
Proof. intros H. apply Nat.ltb_ge. unfold MAXDEPTH. lia. Qed.

(** what follows the header *)
Definition gb_body (dfuel depth : nat) (head : Z) (xj bs : list Z) : gres :=
  if head =? 4 then
    match take_bytes 4 bs with
    | None => fail_invalid
    | Some (n, bs) =>
        obind (p_feats (parse_geobin e ix dfuel (S depth)) (S (length bs)) (le_val n) bs) (fun r =>
        match r with
        | inr g => Ok (None, g)
        | inl (gs, bs) =>
            let g := tg_geom_new_geometrycollection (map Some gs) in
            Ok (Some bs, gb_finish head xj (with_flags g (set_feature_col (geom_flags g))))
        end)
    end
  else
    obind (parse_wkb e ix (wkb_fuel depth) depth bs) (fun r =>
    match r with
    | (None, g) => Ok (None, g)
    | (Some bs, g) => Ok (Some bs, gb_finish head xj g)
    end).

Lemma parse_gb_head dfuel depth head m x w :
  (depth <= 1024)%nat -> 2 <= head <= 4 -> mbr_enc m -> xj_ok x -> w <> [] ->
  parse_geobin e ix (S dfuel) depth (head :: m ++ xj_text x ++ 0 :: w) =
  gb_body dfuel depth head (xj_text x) w.
Proof.
  intros Hd Hh Hm Hx Hw. cbn [parse_geobin]. rewrite (maxdepth_ok _ Hd).
  rewrite (proj2 (Z.eqb_neq head 1)) by lia.
  replace ((head <? 2) || (4 <? head)) with false by lia.
  destruct (skip_mbr m (xj_text x ++ 0 :: w) Hm) as (dims & r & -> & E).
  { destruct (xj_text x); discriminate. }
  cbn [app]. rewrite E, gb_string_text by (now apply xj_bytes).
  destruct w as [|b w]; [congruence|]. rewrite (xj_valid x Hx). reflexivity.
Qed.

Theorem parse_geobin_ok o : forall depth fuel bs rest,
  obj_reads depth o -> obj_builds o -> geobin_enc o bs -> (1026 <= fuel + depth)%nat ->
  parse_geobin e ix fuel depth (bs ++ rest) = Ok (Some rest, gb_build o).
Proof.
  induction o as [f x s|x fs IH] using obj_ind_deep; intros depth fuel bs rest HR HB HE HF.
  - destruct HR as [Hx HR]. pose proof (reads_depth _ _ HR) as Hd.
    destruct fuel as [|fuel]; [lia|].
    pose proof (parse_wkb_fuel depth) as WF.
    destruct HE as [(-> & -> & H1 & HE)|(m & w & -> & Hm & HE)].
    + cbn [gb_build xj_text]. change (gb_finish 2 [] (build e ix s)) with (build e ix s).
      assert (N := wkb_enc_nonempty _ _ HE). destruct bs as [|b bs]; [congruence|].
      cbn [hd] in H1. subst b.
      rewrite <- (parse_ok e ix s depth (wkb_fuel depth) (1 :: bs) rest HR HB HE WF).
      cbn [app parse_geobin]. rewrite (maxdepth_ok _ Hd). reflexivity.
    + replace (((if f then 3 else 2) :: m ++ xj_text x ++ 0 :: w) ++ rest)
        with ((if f then 3 else 2) :: m ++ xj_text x ++ 0 :: (w ++ rest))
        by (cbn [app]; rewrite <- !app_assoc; reflexivity).
      rewrite parse_gb_head; [|assumption|destruct f; lia|assumption|assumption|].
      2:{ pose proof (wkb_enc_nonempty _ _ HE). destruct w; [congruence|discriminate]. }
      unfold gb_body. replace ((if f then 3 else 2) =? 4) with false by (destruct f; reflexivity).
      rewrite (parse_ok e ix s depth (wkb_fuel depth) w rest HR HB HE WF). reflexivity.
  - apply obj_reads_feats in HR. destruct HR as (Hx & Hd & Hn & HR).
    destruct HE as (m & cs & -> & Hm & HE). destruct fuel as [|fuel]; [lia|].
    set (n4 := le_bytes 4 (Z.of_nat (length fs))).
    replace ((4 :: m ++ xj_text x ++ 0 :: n4 ++ cs) ++ rest)
      with (4 :: m ++ xj_text x ++ 0 :: (n4 ++ cs ++ rest))
      by (cbn [app]; rewrite <- !app_assoc; cbn [app]; rewrite <- !app_assoc; reflexivity).
    assert (L4 : length n4 = 4%nat) by apply le_bytes_length.
    rewrite parse_gb_head; [|assumption|lia|assumption|assumption|].
    2:{ destruct n4; discriminate. }
    unfold gb_body. change (4 =? 4) with true. cbn match.
    rewrite take_app by exact L4. unfold n4. rewrite le_val_bytes.
    2:{ change (256 ^ Z.of_nat 4) with 4294967296. change (2 ^ 31) with 2147483648 in Hn. lia. }
    rewrite (p_feats_ok _ geobin_enc gb_build fs _ cs rest).
    + cbn [obind]. cbn [gb_build]. reflexivity.
    + intros o b r Ho Hb. rewrite Forall_forall in IH, HR. apply IH; auto; [|lia].
      eapply obj_builds_in; eauto.
    + exact HE.
    + rewrite app_length. assert (LL : (length fs <= length cs)%nat).
      { eapply e_seq_length; [|exact HE]. intros a b _ Hab. now apply geobin_enc_nonempty in Hab. }
      lia.
Qed.
End Parse.

(** ** What the parser builds *)

Lemma posn_ok_flags g f : geom_flags (with_flags g f) = f.
Proof. now destruct g. Qed.

Lemma bare_parts g : bare g = true ->
  is_feature (geom_flags g) = false /\ is_feature_col (geom_flags g) = false /\
  xjson_of g = None /\ bare_children g = true.
Proof.
  intros H. destruct g; cbn [bare geom_flags] in *;
    repeat rewrite andb_true_iff in H; rewrite !negb_true_iff in H; destruct H as [[[H1 H2] H3] H4];
    repeat split; try assumption; unfold xj_none in H3;
    destruct (xjson_of _) eqn:E; congruence.
Qed.

Lemma shape_wrap g s : shape_of g = Some s -> shape_of (gb_wrap_base g) = Some s.
Proof.
  destruct g as [f p|f l|f p| | | |]; cbn [shape_of gb_wrap_base]; try auto.
  - destruct (is_xy f); [|discriminate]. auto.
  - destruct (is_xy f); [|discriminate]. intros H. cbn [obind2 fl0 is_empty].
    change (dim_of fl0) with xy. change (xdim xy) with 0%nat. rewrite posns_0. exact H.
  - destruct (is_xy f); [|discriminate]. intros H. cbn [obind2 fl0 is_empty].
    change (dim_of fl0) with xy. change (xdim xy) with 0%nat.
    destruct (poly_pts p) as [rs|]; [|discriminate]. cbn [obind2]. rewrite posns_list_0. exact H.
Qed.
Lemma made_wrap g : geom_made g -> geom_made (gb_wrap_base g).
Proof. destruct g; auto. Qed.
Lemma bare_wrap g : bare g = true -> bare (gb_wrap_base g) = true.
Proof. destruct g; auto. Qed.
Lemma error_wrap g : is_error (geom_flags g) = false -> is_error (geom_flags (gb_wrap_base g)) = false.
Proof. destruct g; auto. Qed.

Lemma shape_feature g : shape_of (with_flags g (set_feature (geom_flags g))) = shape_of g.
Proof. destruct g; reflexivity. Qed.
Lemma shape_xjson g x : shape_of (set_xjson g x) = shape_of g.
Proof. destruct g; reflexivity. Qed.
Lemma children_feature g f : bare_children (with_flags g f) = bare_children g.
Proof. destruct g; reflexivity. Qed.
Lemma children_xjson g x : bare_children (set_xjson g x) = bare_children g.
Proof. destruct g; reflexivity. Qed.
Lemma flags_xjson g x : geom_flags (set_xjson g x) = geom_flags g.
Proof. destruct g; reflexivity. Qed.
Lemma made_flags g f : geom_made (with_flags g f) <-> geom_made g.
Proof. destruct g; reflexivity. Qed.
Lemma made_xjson g x : geom_made (set_xjson g x) <-> geom_made g.
Proof. destruct g; reflexivity. Qed.
Lemma xjson_flags g f : xjson_of (with_flags g f) = xjson_of g.
Proof. destruct g; reflexivity. Qed.
Lemma xjson_set g x : (match g with GPoint _ _ | GLine _ _ | GPoly _ _ => False | _ => True end) ->
  xjson_of (set_xjson g x) = Some x.
Proof. destruct g; cbn; tauto. Qed.
Lemma wrapped g : match gb_wrap_base g with GPoint _ _ | GLine _ _ | GPoly _ _ => False | _ => True end.
Proof. destruct g; exact I. Qed.
Lemma wrapped_flags g f : match with_flags (gb_wrap_base g) f with
  GPoint _ _ | GLine _ _ | GPoly _ _ => False | _ => True end.
Proof. destruct g; exact I. Qed.

Lemma object_geom g s : is_error (geom_flags g) = false -> is_feature_col (geom_flags g) = false ->
  bare_children g = true -> shape_of g = Some s ->
  object_of g = Some (OGeom (is_feature (geom_flags g)) (xjson_of g) s).
Proof.
  intros H1 H2 H3 H4.
  destruct g; cbn [object_of geom_flags] in *; rewrite H1, H2, H3, H4; reflexivity.
Qed.

Lemma xj_empty x : xj_ok x -> (length (xj_text x) =? 0)%nat = match x with None => true | _ => false end.
Proof. destruct x as [[|]|]; cbn; intuition congruence. Qed.

Lemma finish_object (f : bool) x g s : xj_ok x -> bare g = true -> is_error (geom_flags g) = false ->
  shape_of g = Some s ->
  object_of (gb_finish (if f then 3 else 2) (xj_text x) g) = Some (OGeom f x s).
Proof.
  intros Hx Hb He Hs. unfold gb_finish. rewrite (xj_empty x Hx).
  pose proof (bare_parts _ Hb) as (B1 & B2 & B3 & B4).
  pose proof (bare_parts _ (bare_wrap g Hb)) as (W1 & W2 & W3 & W4).
  pose proof (shape_wrap _ _ Hs) as Ws. pose proof (error_wrap _ He) as We.
  destruct f.
  - change (3 =? 3) with true. rewrite orb_true_r. destruct x as [t|]; cbn [negb].
    + cbn [xj_text]. erewrite object_geom.
      * rewrite flags_xjson, posn_ok_flags, xjson_set by apply wrapped_flags. reflexivity.
      * now rewrite flags_xjson, posn_ok_flags.
      * now rewrite flags_xjson, posn_ok_flags.
      * now rewrite children_xjson, children_feature.
      * now rewrite shape_xjson, shape_feature.
    + erewrite object_geom.
      * now rewrite posn_ok_flags, xjson_flags, W3.
      * now rewrite posn_ok_flags.
      * now rewrite posn_ok_flags.
      * now rewrite children_feature.
      * now rewrite shape_feature.
  - change (2 =? 3) with false. rewrite orb_false_r. destruct x as [t|]; cbn [negb].
    + cbn [xj_text]. erewrite object_geom.
      * rewrite flags_xjson, xjson_set by apply wrapped. now rewrite W1.
      * now rewrite flags_xjson.
      * now rewrite flags_xjson.
      * now rewrite children_xjson.
      * now rewrite shape_xjson.
    + erewrite object_geom; eauto. now rewrite B1, B3.
Qed.

Lemma made_finish head xj g : geom_made g -> geom_made (gb_finish head xj g).
Proof.
  intros H. unfold gb_finish.
  repeat match goal with |- context [if ?b then _ else _] => destruct b end;
    rewrite ?made_xjson, ?made_flags; auto using made_wrap.
Qed.


Lemma forallb_some {A} (P : geom -> bool) (h : A -> geom) l : (forall a, In a l -> P (h a) = true) ->
  forallb (fun o => match o with Some c => P c | None => false end) (map (fun a => Some (h a)) l) = true.
Proof.
  intros H. apply forallb_forall. intros o Ho. apply in_map_iff in Ho. destruct Ho as (a & <- & Ha).
  now apply H.
Qed.

Section Round.
Variable e : env.
Variable ix : Z.

Lemma build_bare s : forall depth, fits depth s -> bare (build e ix s) = true.
Proof.
  induction s as [d p|d ps|d rs|d ps|d ls|d ps|gs IH] using shape_ind_deep;
    intros depth Hf; cbn [build].
  - destruct p; [reflexivity|]. destruct d as [[] []]; reflexivity.
  - destruct ps; [reflexivity|]. destruct d as [[] []]; reflexivity.
  - destruct rs; [reflexivity|]. destruct d as [[] []]; reflexivity.
  - unfold build_multipoint, tg_geom_new_multipoint. rewrite multi_flags, !map_map.
    cbn [bare]. destruct d as [[] []]; cbn [fl_zm geom_flags is_feature is_feature_col negb andb];
      cbn [xj_none xjson_of andb];
      apply (forallb_some bare (fun x => tg_geom_new_point (tg_geom_point (Some (build_point _ x)))));
      reflexivity.
  - destruct Hf as (_ & _ & HF & _). rewrite Forall_forall in HF.
    unfold build_multilinestring, tg_geom_new_multilinestring. rewrite multi_flags, !map_map.
    assert (E : map (fun x => option_map tg_geom_new_linestring
                   (tg_geom_line (Some (build_line e ix d x)))) ls =
                map (fun x => Some (tg_geom_new_linestring (mk_series e ix false x))) ls).
    { apply map_ext_in. intros a Ha. destruct (build_line_line e ix d a (HF a Ha)) as [-> _]. reflexivity. }
    rewrite E. cbn [bare].
    destruct d as [[] []]; cbn [fl_zm geom_flags is_feature is_feature_col negb andb];
      cbn [xj_none xjson_of andb];
      apply (forallb_some bare (fun x => tg_geom_new_linestring (mk_series e ix false x))); reflexivity.
  - destruct Hf as (_ & _ & HF & _). rewrite Forall_forall in HF.
    unfold build_multipolygon, tg_geom_new_multipolygon. rewrite multi_flags, !map_map.
    assert (E : map (fun x => option_map tg_geom_new_polygon
                   (tg_geom_poly (Some (build_poly e ix d x)))) ps =
                map (fun x => Some (tg_geom_new_polygon (mk_poly (map (mk_series e ix true) x)))) ps).
    { apply map_ext_in. intros a Ha. destruct (build_poly_poly e ix d a (HF a Ha)) as [-> _]. reflexivity. }
    rewrite E. cbn [bare].
    destruct d as [[] []]; cbn [fl_zm geom_flags is_feature is_feature_col negb andb];
      cbn [xj_none xjson_of andb];
      apply (forallb_some bare (fun x => tg_geom_new_polygon (mk_poly (map (mk_series e ix true) x))));
      reflexivity.
  - apply fits_geoms in Hf. destruct Hf as (_ & _ & HF). rewrite Forall_forall in IH, HF.
    unfold build_collection, tg_geom_new_geometrycollection. rewrite map_map. cbn [bare].
    cbn [fl0 geom_flags is_feature is_feature_col negb andb xj_none xjson_of].
    apply (forallb_some bare (fun x => build e ix x)). intros a Ha. apply (IH a Ha (S depth)). auto.
Qed.

Theorem gb_build_object o : forall depth, obj_fits depth o -> obj_builds e ix o ->
  object_of (gb_build e ix o) = Some o /\ geom_made (gb_build e ix o).
Proof.
  induction o as [f x s|x fs IH] using obj_ind_deep; intros depth Hf HB; cbn [gb_build].
  - destruct Hf as [Hx Hf]. destruct (build_shape e ix s depth Hf HB) as [Hs Hm]. split.
    + apply finish_object; try assumption; [now apply (build_bare s depth)|apply build_error].
    + now apply made_finish.
  - apply obj_fits_feats in Hf. destruct Hf as (Hx & _ & _ & HF). rewrite Forall_forall in IH, HF.
    assert (HI : forall a, In a fs ->
              object_of (gb_build e ix a) = Some a /\ geom_made (gb_build e ix a)).
    { intros a Ha. apply (IH a Ha (S depth)); [auto|]. eapply obj_builds_in; eauto. }
    assert (EF : all_some (map (fun o : option geom => match o with Some c => object_of c | None => None end)
              (map Some (map (gb_build e ix) fs))) = Some fs).
    { rewrite !map_map. rewrite (all_some_maps _ (fun a => a)).
      - now rewrite map_id.
      - intros a Ha. now apply HI. }
    split.
    + unfold gb_finish. rewrite (xj_empty x Hx). change (4 =? 3) with false. rewrite orb_false_r.
      unfold tg_geom_new_geometrycollection.
      destruct x as [t|]; cbn [negb xj_text gb_wrap_base with_flags set_xjson object_of geom_flags
        fl0 set_feature_col is_error is_feature_col is_feature is_empty is_xy has_z has_m orb andb];
        rewrite EF; reflexivity.
    + apply made_finish. apply made_flags. apply made_multi. rewrite map_map.
      apply Forall_map. apply Forall_forall. intros a Ha. now apply HI.
Qed.

Lemma gb_build_error o depth : obj_fits depth o -> obj_builds e ix o ->
  is_error (geom_flags (gb_build e ix o)) = false.
Proof.
  intros H1 H2. destruct (gb_build_object o depth H1 H2) as [H _].
  destruct (is_error (geom_flags (gb_build e ix o))) eqn:E; [|reflexivity].
  destruct (gb_build e ix o); cbn [object_of geom_flags] in *; rewrite E in H; discriminate.
Qed.

Theorem tg_parse_geobin_ok o bs rest : obj_fits 0 o -> obj_builds e ix o -> geobin_enc o bs ->
  exists g, tg_parse_geobin_ix e ix (bs ++ rest) = Ok g /\ object_of g = Some o /\ geom_made g.
Proof.
  intros Hf HB HE. exists (gb_build e ix o). split; [|now apply (gb_build_object o 0)].
  unfold tg_parse_geobin_ix.
  rewrite (parse_geobin_ok e ix o 0 (wkb_fuel 0) bs rest (obj_fits_reads _ _ Hf) HB HE).
  - cbn [obind snd]. now rewrite wrap_ok by now apply (gb_build_error o 0).
  - apply parse_wkb_fuel.
Qed.
End Round.

(** ** The writer *)

Definition fr_ok (a : frect) : Prop :=
  (2 <= fr_dims a <= 4)%nat /\ length (fr_min a) = 4%nat /\ length (fr_max a) = 4%nat.

Lemma aset_length l i x : (i < length l)%nat -> length (aset l i x) = length l.
Proof. intros H. unfold aset. rewrite app_length, firstn_length_le by lia. cbn [length].
  rewrite skipn_length. lia. Qed.

Lemma fr_start_ok r : fr_ok (fr_start r).
Proof. unfold fr_ok; cbn; lia. Qed.
Lemma fr_push_ok x a : fr_ok a -> (fr_dims a < 4)%nat -> fr_ok (fr_push x a).
Proof. intros (H1 & H2 & H3) H. unfold fr_ok; cbn [fr_push fr_dims fr_min fr_max]. rewrite !aset_length; lia. Qed.
Lemma fr_join_ok i c a : (i < 4)%nat -> fr_ok a -> fr_ok (fr_join i c a).
Proof.
  intros Hi (H1 & H2 & H3). unfold fr_join. destruct (S i <=? fr_dims c)%nat; [|now repeat split].
  destruct (fr_dims a =? i)%nat eqn:E; unfold fr_ok; cbn [fr_push fr_dims fr_min fr_max]; rewrite !aset_length; lia.
Qed.
Lemma fr_child_ok c a : fr_ok a -> fr_ok (fr_child a c).
Proof. intros H. apply fr_join_ok; [lia|]. apply fr_join_ok; [lia|assumption]. Qed.
Lemma fr_extend1_ok cs : forall a, fr_ok a -> fr_ok (fr_extend1 cs a).
Proof.
  induction cs as [|c cs IH]; intros a H; [assumption|]. cbn [fr_extend1]. apply IH.
  destruct H as (H1 & H2 & H3). unfold fr_ok; cbn [fr_push fr_dims fr_min fr_max]. rewrite !aset_length; lia.
Qed.
Lemma fr_extend2_ok cs a : fr_ok a -> fr_ok (fr_extend2 cs a).
Proof.
  enough (H : forall n cs a, (length cs <= n)%nat -> fr_ok a -> fr_ok (fr_extend2 cs a))
    by (intros; now apply (H (length cs))).
  clear. induction n as [|n IH]; intros [|c [|d cs]] a L H; try assumption; cbn in L; try lia.
  cbn [fr_extend2]. apply IH; [lia|].
  destruct H as (H1 & H2 & H3). unfold fr_ok; cbn [fr_push fr_dims fr_min fr_max]. rewrite !aset_length; rewrite ?aset_length; lia.
Qed.
Lemma fr_coords_ok f cs r : fr_ok (fr_coords f cs (fr_start r)).
Proof.
  unfold fr_coords. cbn [fr_start fr_dims fr_min fr_max].
  destruct (has_z f), (has_m f); cbn [Nat.add Nat.eqb].
  - destruct cs as [|c [|d cs]]; [unfold fr_ok; cbn; lia..|]. apply fr_extend2_ok. unfold fr_ok; cbn; lia.
  - destruct cs as [|c cs]; [unfold fr_ok; cbn; lia|]. apply fr_extend1_ok. unfold fr_ok; cbn; lia.
  - destruct cs as [|c cs]; [unfold fr_ok; cbn; lia|]. apply fr_extend1_ok. unfold fr_ok; cbn; lia.
  - unfold fr_ok; cbn; lia.
Qed.
Lemma fold_child_ok l : forall a, fr_ok a -> fr_ok (fold_left fr_child l a).
Proof. induction l as [|c l IH]; intros a H; [assumption|]. cbn. apply IH. now apply fr_child_ok. Qed.

Lemma fullrect_ok g : fr_ok (fullrect g).
Proof.
  destruct g as [f p|f l|f p|f p z m x|f l c x|f p c x|t f gs c x]; cbn [fullrect];
    try apply fr_start_ok; try apply fr_coords_ok.
  - destruct (has_z f), (has_m f); repeat (apply fr_push_ok; [|cbn; lia]); apply fr_start_ok.
  - destruct t; try apply fr_coords_ok. destruct gs; [|apply fr_coords_ok].
    apply fold_child_ok, fr_start_ok.
Qed.

Definition mbr_bytes (a : frect) : list Z :=
  Z.of_nat (fr_dims a) :: doubles (firstn (fr_dims a) (fr_min a)) ++ doubles (firstn (fr_dims a) (fr_max a)).

Lemma mbr_bytes_enc a : fr_ok a -> mbr_enc (mbr_bytes a).
Proof.
  intros (H1 & H2 & H3). right. exists (Z.of_nat (fr_dims a)), (doubles (firstn (fr_dims a) (fr_min a)) ++ doubles (firstn (fr_dims a) (fr_max a))).
  repeat split; try lia. rewrite app_length, !doubles_length, !firstn_length_le by lia. lia.
Qed.

Lemma emits_doubles l : emits (wloop (map write_doublele l)) (doubles l).
Proof. apply (emits_loop write_doublele (le_bytes 8)). intros; apply emits_le. Qed.

Lemma emits_mbr a : fr_ok a -> emits (write_mbr a) (mbr_bytes a).
Proof.
  intros (H1 & H2 & H3). unfold write_mbr, mbr_bytes.
  change (?x :: ?a ++ ?b) with ([x] ++ a ++ b).
  apply emits_seq; [apply emits_byte_ok; red; lia|]. apply emits_seq; apply emits_doubles.
Qed.

Lemma emits_xjson x : xj_ok x -> emits (write_xjson x) (xj_text x ++ [0]).
Proof.
  intros H. unfold write_xjson. apply emits_seq; [|apply emits_byte_ok; red; lia].
  destruct x as [t|]; [|apply emits_skip]. apply emits_string. destruct H as (_ & H & _).
  eapply Forall_impl; [|exact H]. intros a Ha. red; cbn in Ha; lia.
Qed.

Lemma object_inv g o : object_of g = Some o ->
  is_error (geom_flags g) = false /\
  ((is_feature_col (geom_flags g) = true /\ is_feature (geom_flags g) = false /\
    exists f l c x fs, g = GGMulti MGeoms f (Some l) c x /\ o = OFeats x fs /\
      is_empty f = false /\ is_xy f = true /\
      Forall2 (fun a b => exists c, a = Some c /\ object_of c = Some b) l fs) \/
   (is_feature_col (geom_flags g) = false /\ bare_children g = true /\
    exists s, o = OGeom (is_feature (geom_flags g)) (xjson_of g) s /\ shape_of g = Some s)).
Proof.
  intros H.
  assert (E1 : is_error (geom_flags g) = false).
  { destruct (is_error (geom_flags g)) eqn:E; [|reflexivity].
    destruct g; cbn [object_of geom_flags] in *; rewrite E in H; discriminate. }
  split; [exact E1|]. destruct (is_feature_col (geom_flags g)) eqn:E2.
  - left. split; [reflexivity|].
    destruct g as [f p|f l|f p|f p z m x|f l c x|f p c x|t f gs c x];
      cbn [object_of geom_flags] in *; rewrite E1, E2 in H; try discriminate.
    destruct t; try discriminate. destruct gs as [l|]; [|discriminate].
    destruct (is_feature f) eqn:F1; [discriminate|]. destruct (is_empty f) eqn:F2; [discriminate|].
    destruct (is_xy f) eqn:F3; [|discriminate]. cbn [orb negb] in H. split; [reflexivity|].
    destruct (all_some _) as [fs|] eqn:EA; [|discriminate]. injection H as <-.
    exists f, l, c, x, fs. repeat split; try assumption.
    clear -EA. apply all_some_Some in EA. revert fs EA.
    induction l as [|a l IH]; intros [|b fs] EA; try discriminate; [constructor|].
    cbn [map] in EA. assert (Ea : match a with Some c => object_of c | None => None end = Some b) by congruence.
    constructor; [|apply IH; congruence]. destruct a as [a|]; [|discriminate]. now exists a.
  - right. split; [reflexivity|].
    destruct (bare_children g) eqn:E3.
    + split; [reflexivity|]. destruct (shape_of g) as [s|] eqn:E4.
      * exists s. split; [|reflexivity]. rewrite (object_geom g s E1 E2 E3 E4) in H. congruence.
      * destruct g; cbn [object_of geom_flags] in *; rewrite E1, E2, E3, E4 in H; discriminate.
    + destruct g; cbn [object_of geom_flags] in *; rewrite E1, E2, E3 in H; discriminate.
Qed.

Lemma extra_json_of g : is_error (geom_flags g) = false -> tg_geom_extra_json (Some g) = xjson_of g.
Proof. intros H. destruct g; cbn [tg_geom_extra_json xjson_of geom_flags] in *; rewrite ?H; reflexivity. Qed.

(** what stands in front of the geometry *)
Definition gb_pre (head : Z) (g : geom) (x : option (list Z)) (rest : list Z) : list Z :=
  head :: mbr_bytes (fullrect g) ++ xj_text x ++ 0 :: rest.

Lemma emits_pre head g x k w : is_byte head -> xj_ok x -> emits k w ->
  emits (write_byte head ;; write_mbr (fullrect g) ;; write_xjson x ;; k) (gb_pre head g x w).
Proof.
  intros Hh Hx Hk. unfold gb_pre.
  replace (head :: mbr_bytes (fullrect g) ++ xj_text x ++ 0 :: w)
    with ([head] ++ mbr_bytes (fullrect g) ++ (xj_text x ++ [0]) ++ w)
    by (rewrite <- !app_assoc; reflexivity).
  apply emits_seq; [now apply emits_byte_ok|]. apply emits_seq; [apply emits_mbr, fullrect_ok|].
  apply emits_seq; [now apply emits_xjson|exact Hk].
Qed.

Lemma emits_start r k w : emits k w ->
  emits (write_geobin_rect r ;; write_byte 0 ;; k) (mbr_bytes (fr_start r) ++ 0 :: w).
Proof.
  intros Hk. change (0 :: w) with ([0] ++ w). apply emits_seq.
  - unfold write_geobin_rect, mbr_bytes, fr_start, doubles.
    cbn [fr_dims fr_min fr_max firstn map concat app].
    rewrite !app_nil_r. 
    replace (Z.of_nat 2 :: (le_bytes 8 (px (rmin r)) ++ le_bytes 8 (py (rmin r))) ++
              le_bytes 8 (px (rmax r)) ++ le_bytes 8 (py (rmax r)))
      with ([2] ++ le_bytes 8 (px (rmin r)) ++ le_bytes 8 (py (rmin r)) ++
              le_bytes 8 (px (rmax r)) ++ le_bytes 8 (py (rmax r)))
      by (rewrite <- !app_assoc; reflexivity).
    apply emits_seq; [apply emits_byte_ok; red; lia|].
    do 3 (apply emits_seq; [exact (emits_le 8 _)|]). exact (emits_le 8 _).
  - apply emits_seq; [apply emits_byte_ok; red; lia|exact Hk].
Qed.

Lemma feats_seq (l : list (option geom)) fs :
  Forall2 (fun a b => exists c, a = Some c /\ exists w, emits (write_geom_geobin c) w /\ geobin_enc b w) l fs ->
  exists cs, emits (wloop (map (fun o => match o with
                                         | Some c => write_geom_geobin c
                                         | None => wundef
                                         end) l)) cs /\ e_seq geobin_enc fs cs.
Proof.
  induction 1 as [|a b l fs (c & -> & w & Hw & He) _ (cs & IH1 & IH2)].
  - exists []. split; [apply emits_skip|reflexivity].
  - exists (w ++ cs). split; [|now exists w, cs]. cbn [map]. unfold wloop. cbn [fold_right].
    apply emits_seq; [exact Hw|exact IH1].
Qed.

(** a point that is not wrapped in a GeoBIN header *)
Definition plain_point (g : geom) : Prop :=
  is_feature (geom_flags g) = false /\ is_feature_col (geom_flags g) = false /\ xjson_of g = None /\
  head_type g = TG_POINT.

Theorem emits_geobin g : forall depth o,
  geom_made g -> object_of g = Some o -> obj_fits depth o ->
  exists w, emits (write_geom_geobin g) w /\ geobin_enc o w /\
    ((plain_point g /\ emits (write_geom_wkb g) w) \/
     (~ plain_point g /\ exists head t, 2 <= head <= 4 /\ w = head :: mbr_bytes (fullrect g) ++ t)).
Proof.
  induction g as [f p|f l|f p|f p z m x|f l c x|f p c x|t f c x|t f gs c x IH]
    using geom_ind_deep; intros depth o Hm Ho Hf;
  destruct (object_inv _ _ Ho) as [He [(Ec & Ef & f' & l' & c' & x' & fs & Eg & -> & Em & Exy & HF)|
     (Ec & Hbc & s & -> & Hs)]]; try discriminate Eg; cbn [geom_flags] in *.
  - destruct Hf as [Hx Hf]. destruct (emits_geom _ depth s Hm Hs Hf) as (w & Hw & Hew).
    cbn [write_geom_geobin geom_flags]. destruct (is_feature f) eqn:Ff.
    + unfold write_base_geom_geobin. cbn [geom_flags tg_geom_extra_json]. rewrite Ec, Ff.
      eexists. split; [apply (emits_pre 3 (GPoint f p) None _ w); [red; lia|exact I|exact Hw]|].
      split; [right; do 2 eexists; split; [reflexivity|]; split; [apply mbr_bytes_enc, fullrect_ok|exact Hew]|].
      right. split; [intros (H & _); cbn in H; congruence|]. exists 3. eexists. split; [lia|reflexivity].
    + exists w. split; [exact Hw|]. split.
      * left. destruct (first_geom _ _ Hm Hw) as [r ->]. repeat split. exact Hew.
      * left. split; [|exact Hw]. repeat split; assumption.
  - destruct Hf as [Hx Hf]. destruct (emits_geom _ depth s Hm Hs Hf) as (w & Hw & Hew).
    cbn [write_geom_geobin geom_flags]. destruct (is_feature f) eqn:Ff.
    + unfold write_base_geom_geobin. cbn [geom_flags tg_geom_extra_json]. rewrite Ec, Ff.
      eexists. split; [apply (emits_pre 3 (GLine f l) None _ w); [red; lia|exact I|exact Hw]|].
      split; [right; do 2 eexists; split; [reflexivity|]; split; [apply mbr_bytes_enc, fullrect_ok|exact Hew]|].
      right. split; [intros (H & _); cbn in H; congruence|]. exists 3. eexists. split; [lia|reflexivity].
    + exists ([2] ++ mbr_bytes (fr_start (r_rect l)) ++ 0 :: w). split.
      { apply emits_seq; [apply emits_byte_ok; red; lia|]. now apply emits_start. }
      split.
      * right. exists (mbr_bytes (fr_start (r_rect l))), w. split; [reflexivity|].
        split; [apply mbr_bytes_enc, fr_start_ok|exact Hew].
      * right. split; [intros (_ & _ & _ & H); discriminate H|]. exists 2. eexists.
        split; [lia|reflexivity].
  - destruct Hf as [Hx Hf]. destruct (emits_geom _ depth s Hm Hs Hf) as (w & Hw & Hew).
    cbn [write_geom_geobin geom_flags]. destruct (is_feature f) eqn:Ff.
    + unfold write_base_geom_geobin. cbn [geom_flags tg_geom_extra_json]. rewrite Ec, Ff.
      eexists. split; [apply (emits_pre 3 (GPoly f p) None _ w); [red; lia|exact I|exact Hw]|].
      split; [right; do 2 eexists; split; [reflexivity|]; split; [apply mbr_bytes_enc, fullrect_ok|exact Hew]|].
      right. split; [intros (H & _); cbn in H; congruence|]. exists 3. eexists. split; [lia|reflexivity].
    + exists ([2] ++ mbr_bytes (fr_start (tg_poly_rect (Some p))) ++ 0 :: w). split.
      { apply emits_seq; [apply emits_byte_ok; red; lia|]. now apply emits_start. }
      split.
      * right. exists (mbr_bytes (fr_start (tg_poly_rect (Some p)))), w. split; [reflexivity|].
        split; [apply mbr_bytes_enc, fr_start_ok|exact Hew].
      * right. split; [intros (_ & _ & _ & H); discriminate H|]. exists 2. eexists.
        split; [lia|reflexivity].
  - destruct Hf as [Hx Hf]. destruct (emits_geom _ depth s Hm Hs Hf) as (w & Hw & Hew).
    cbn [write_geom_geobin geom_flags xjson_of] in *. 
    assert (HB : emits (write_base_geom_geobin (GGPoint f p z m x) wskip)
      (if is_feature f then gb_pre 3 (GGPoint f p z m x) x w
       else match x with None => w | Some _ => gb_pre 2 (GGPoint f p z m x) x w end)).
    { unfold write_base_geom_geobin. rewrite extra_json_of by exact He. cbn [geom_flags xjson_of].
      rewrite Ec. destruct (is_feature f); [apply emits_pre; [red; lia|exact Hx|exact Hw]|].
      destruct x as [x|]; cbn [negb andb head_type];
        [apply emits_pre; [red; lia|exact Hx|exact Hw]|exact Hw]. }
    exists (if is_feature f then gb_pre 3 (GGPoint f p z m x) x w
       else match x with None => w | Some _ => gb_pre 2 (GGPoint f p z m x) x w end).
    split; [destruct (is_feature f); exact HB|]. destruct (is_feature f) eqn:Ff.
    + split; [right; do 2 eexists; split; [reflexivity|]; split; [apply mbr_bytes_enc, fullrect_ok|exact Hew]|].
      right. split; [intros (H & _); cbn in H; congruence|]. exists 3. eexists. split; [lia|reflexivity].
    + destruct x as [x|].
      * split; [right; do 2 eexists; split; [reflexivity|]; split; [apply mbr_bytes_enc, fullrect_ok|exact Hew]|].
        right. split; [intros (_ & _ & H & _); discriminate H|]. exists 2. eexists. split; [lia|reflexivity].
      * split.
        -- left. destruct (first_geom _ _ Hm Hw) as [r ->]. repeat split. exact Hew.
        -- left. split; [|exact Hw]. repeat split; assumption.
  - destruct Hf as [Hx Hf]. destruct (emits_geom _ depth s Hm Hs Hf) as (w & Hw & Hew).
    cbn [write_geom_geobin geom_flags xjson_of] in *.
    assert (HB : emits (write_base_geom_geobin (GGLine f l c x) wskip)
      (gb_pre (if is_feature f then 3 else 2) (GGLine f l c x) x w)).
    { unfold write_base_geom_geobin. rewrite extra_json_of by exact He. cbn [geom_flags xjson_of].
      rewrite Ec. destruct (is_feature f); apply emits_pre; (red; lia) || assumption. }
    exists (gb_pre (if is_feature f then 3 else 2) (GGLine f l c x) x w). split; [destruct (is_feature f); exact HB|]. split.
    + right. do 2 eexists. split; [reflexivity|]. split; [apply mbr_bytes_enc, fullrect_ok|exact Hew].
    + right. split; [intros (_ & _ & _ & H); discriminate H|].
      do 2 eexists. split; [|reflexivity]. destruct (is_feature f); lia.
  - destruct Hf as [Hx Hf]. destruct (emits_geom _ depth s Hm Hs Hf) as (w & Hw & Hew).
    cbn [write_geom_geobin geom_flags xjson_of] in *.
    assert (HB : emits (write_base_geom_geobin (GGPoly f p c x) wskip)
      (gb_pre (if is_feature f then 3 else 2) (GGPoly f p c x) x w)).
    { unfold write_base_geom_geobin. rewrite extra_json_of by exact He. cbn [geom_flags xjson_of].
      rewrite Ec. destruct (is_feature f); apply emits_pre; (red; lia) || assumption. }
    exists (gb_pre (if is_feature f then 3 else 2) (GGPoly f p c x) x w). split; [destruct (is_feature f); exact HB|]. split.
    + right. do 2 eexists. split; [reflexivity|]. split; [apply mbr_bytes_enc, fullrect_ok|exact Hew].
    + right. split; [intros (_ & _ & _ & H); discriminate H|].
      do 2 eexists. split; [|reflexivity]. destruct (is_feature f); lia.
  - destruct Hf as [Hx Hf]. destruct (emits_geom _ depth s Hm Hs Hf) as (w & Hw & Hew).
    set (g := GGMulti t f None c x) in *.
    assert (HB : forall k, emits (write_base_geom_geobin g k)
      (gb_pre (if is_feature f then 3 else 2) g x w)).
    { intros k. unfold write_base_geom_geobin. rewrite extra_json_of by exact He. cbn [geom_flags xjson_of g].
      rewrite Ec. replace (head_type g =? TG_POINT) with false by now destruct t. cbn [andb].
      destruct (is_feature f); apply emits_pre; (red; lia) || assumption. }
    exists (gb_pre (if is_feature f then 3 else 2) g x w). split; [unfold g; cbn [write_geom_geobin geom_flags]; destruct t, (is_feature f); apply HB|]. split.
    + right. do 2 eexists. split; [reflexivity|]. split; [apply mbr_bytes_enc, fullrect_ok|exact Hew].
    + right. split; [intros (_ & _ & _ & H); destruct t; discriminate H|].
      do 2 eexists. split; [|reflexivity]. destruct (is_feature f); lia.
  - assert (t = MGeoms) by congruence. assert (f = f') by congruence. assert (gs = l') by congruence.
    assert (x = x') by congruence. assert (c = c') by congruence. subst t f' l' x' c'. clear Eg.
    apply obj_fits_feats in Hf. destruct Hf as (Hx & Hd & Hn & Hfs).
    apply made_multi in Hm.
    assert (HF2 : Forall2 (fun a b => exists c, a = Some c /\ exists w, emits (write_geom_geobin c) w /\ geobin_enc b w) gs fs).
    { clear -IH Hm Hfs HF. induction HF as [|a b l fs (g & -> & Hg) HF IH2]; [constructor|].
      inversion IH; subst. inversion Hm; subst. inversion Hfs; subst. constructor; [|now apply IH2].
      exists g. split; [reflexivity|]. cbn [opt_all] in *.
      match goal with Hi : forall depth o, _ |- _ => destruct (Hi (S depth) b) as (w & Hw & He & _); auto end.
      now exists w. }
    destruct (feats_seq _ _ HF2) as (cs & Hcs & Hes).
    assert (LE : length gs = length fs) by now apply Forall2_length in HF.
    eexists. split; [|split].
    + cbn [write_geom_geobin]. cbn [geom_flags]. rewrite Ef. unfold write_base_geom_geobin. rewrite extra_json_of by exact He.
      cbn [geom_flags xjson_of]. rewrite Ec. cbn [tg_geom_num_geometries multi_geoms num_of].
      apply (emits_pre 4 (GGMulti MGeoms f (Some gs) c x) x _
               (le_bytes 4 (Z.of_nat (length fs)) ++ cs)); [red; lia|exact Hx|].
      apply emits_seq; [|exact Hcs]. cbn [num_of]. rewrite <- LE. apply emits_le.
    + do 2 eexists. split; [reflexivity|]. split; [apply mbr_bytes_enc, fullrect_ok|exact Hes].
    + right. split; [intros (_ & H & _); cbn in H; congruence|].
      exists 4. eexists. split; [lia|reflexivity].
  - destruct Hf as [Hx Hf]. destruct (emits_geom _ depth s Hm Hs Hf) as (w & Hw & Hew).
    set (g := GGMulti t f (Some gs) c x) in *.
    assert (HB : forall k, emits (write_base_geom_geobin g k)
      (gb_pre (if is_feature f then 3 else 2) g x w)).
    { intros k. unfold write_base_geom_geobin. rewrite extra_json_of by exact He. cbn [geom_flags xjson_of g].
      rewrite Ec. replace (head_type g =? TG_POINT) with false by now destruct t. cbn [andb].
      destruct (is_feature f); apply emits_pre; (red; lia) || assumption. }
    exists (gb_pre (if is_feature f then 3 else 2) g x w). split; [unfold g; cbn [write_geom_geobin geom_flags]; destruct t, (is_feature f); apply HB|]. split.
    + right. do 2 eexists. split; [reflexivity|]. split; [apply mbr_bytes_enc, fullrect_ok|exact Hew].
    + right. split; [intros (_ & _ & _ & H); destruct t; discriminate H|].
      do 2 eexists. split; [|reflexivity]. destruct (is_feature f); lia.
Qed.

Lemma object_shape g : forall o, object_of g = Some o -> shape_of g = Some (obj_shape o).
Proof.
  induction g as [f p|f l|f p|f p z m x|f l c x|f p c x|t f c x|t f gs c x IH]
    using geom_ind_deep; intros o Ho;
  destruct (object_inv _ _ Ho) as [He [(Ec & Ef & f' & l' & c' & x' & fs & Eg & -> & Em & Exy & HF)|
     (Ec & Hbc & s & -> & Hs)]]; try discriminate Eg; try exact Hs.
  assert (t = MGeoms) by congruence. assert (f = f') by congruence. assert (gs = l') by congruence.
  assert (x = x') by congruence. assert (c = c') by congruence. subst t f' l' x' c'. clear Eg.
  cbn [shape_of obj_shape]. rewrite Exy, Em.
  enough (E : all_some (map (fun o => match o with Some g => shape_of g | None => None end) gs)
              = Some (map obj_shape fs)) by now rewrite E.
  clear -HF IH. induction HF as [|a b l fs (g & -> & Hg) HF IH2]; [reflexivity|].
  inversion IH; subst. cbn [map all_some]. cbn [opt_all] in *.
  match goal with Hi : forall o, _ |- _ => rewrite (Hi b Hg) end. rewrite IH2 by assumption. reflexivity.
Qed.
