(** * What the GeoJSON writer types *)

From Coq Require Import ZArith Bool String List Lia ZifyBool Arith.
From Verif Require Import F64 Geo Series RingApi Bytes Geom Writer WriterFacts WkbWrite Num WktWrite Json SpecJson JsonTok
  JsonStrFacts SpecTree JsonTree Thm_Tree GeomFacts SpecWkb WkbParse WkbParseFacts WkbWriteFacts WkbRoundFacts TextFacts
  SpecWkt WktText WktTypes GeojsonParse GeojsonWrite SpecNotes GeojsonText GeojsonRead.
Import ListNotations.
Local Open Scope Z_scope.

Lemma types_assoc a b c t : types ((a ;; b) ;; c) t -> types (a ;; (b ;; c)) t.
Proof.
  intros H w bs Hw. destruct (H w bs Hw) as (w' & E & R). exists w'. split; [|exact R].
  unfold wseq in *. destruct (a w); exact E.
Qed.
Lemma types_rewind a u c : types a (u ++ [c]) -> types (a ;; write_rewind) u.
Proof.
  intros H w bs Hw. destruct (H w bs Hw) as (w1 & E & N & HH).
  exists (Wr (w_dst w1) (length (bs ++ u))). unfold wseq. rewrite E. unfold write_rewind.
  rewrite app_assoc in HH. destruct HH as [HC HD].
  assert (HH : holds w1 ((bs ++ u) ++ [c])) by now split.
  rewrite HC, app_length, Nat.add_1_r. split; [reflexivity|]. split; [exact N|].
  now apply (holds_prefix w1 (bs ++ u) [c]).
Qed.
Lemma types_eq f t u : types f t -> t = u -> types f u.
Proof. now intros H <-. Qed.
Lemma types_lit l : forallb (fun b => (0 <=? b) && (b <? 256)) l = true -> types (write_string l) l.
Proof.
  intros H. apply types_string. apply Forall_forall. intros b B.
  pose proof (proj1 (forallb_forall _ l) H b B) as X. cbv beta in X. lia.
Qed.

Lemma types_arr fs ts : Forall2 types fs ts -> types (wbrack (wsep wcomma fs)) (arr ts).
Proof.
  intros H. unfold wbrack, arr. apply (types_seq _ _ [91]); [apply types_byte; lia|].
  apply types_seq; [|apply types_byte; lia]. apply types_sep; [lia|assumption].
Qed.

(** the text of a geometry without more members *)
Definition core (T tn C : list Z) : list Z :=
  123 :: pair_text (str "type", qt T) ++ 44 :: pair_text (tn, C) ++ [125].
Definition core_head (T tn : list Z) : list Z :=
  123 :: pair_text (str "type", qt T) ++ 44 :: 34 :: tn ++ [34; 58].
Lemma core_split T tn C : core T tn C = core_head T tn ++ C ++ [125].
Proof.
  unfold core, core_head, pair_text. cbn [fst snd]. repeat (cbn [app]; rewrite <- ?app_assoc). reflexivity.
Qed.
Lemma types_core h T tn w C : h = core_head T tn -> forallb (fun b => (0 <=? b) && (b <? 256)) h = true ->
  types w C -> types (write_string h ;; w ;; write_byte 125) (core T tn C).
Proof.
  intros -> H W. rewrite core_split. apply types_seq; [now apply types_lit|].
  apply types_seq; [assumption|apply types_byte; lia].
Qed.
Lemma types_multi h T tn w l : h = core_head T tn ++ [91] -> forallb (fun b => (0 <=? b) && (b <? 256)) h = true ->
  types w (join 44 l) -> types (write_string h ;; w ;; write_string (str "]}")) (core T tn (arr l)).
Proof.
  intros -> H W. rewrite core_split. unfold arr.
  replace (core_head T tn ++ (91 :: join 44 l ++ [93]) ++ [125]) with ((core_head T tn ++ [91]) ++ join 44 l ++ [93; 125])
    by (cbn [app]; rewrite <- !app_assoc; reflexivity).
  apply types_seq; [now apply types_lit|]. apply types_seq; [assumption|]. now apply types_lit.
Qed.

Section types.
Variable fixed : bool.
Variable num : f64 -> list Z.
Local Notation typed x := (types (write_string_double fixed x) (num x)).
Local Notation typeds := (Forall (fun x => typed x)).

Lemma gtypes_posn p : typeds p -> types (write_posn_geojson fixed p) (c_posn num p).
Proof. intros H. apply types_arr. induction H; cbn; constructor; assumption. Qed.
Lemma gtypes_posns ds : Forall typeds ds ->
  Forall2 types (map (write_posn_geojson fixed) ds) (map (c_posn num) ds).
Proof. intros H. induction H; cbn; constructor; [now apply gtypes_posn|assumption]. Qed.

Lemma gtypes_ring k r a b ds : posns k (ring_pts r) a = Some ds -> Forall typeds ds ->
  types (write_ring_points_geojson fixed k (Some r) (a ++ b)) (c_posns num ds).
Proof.
  intros Hp H. unfold write_ring_points_geojson. change (ring_points r) with (ring_pts r).
  rewrite (posns_with_extra _ _ _ _ _ Hp). apply types_arr. now apply gtypes_posns.
Qed.

Lemma gtypes_rings k : forall rs cs tl dss,
  Forall ring_made rs -> posns_list k (map ring_pts rs) cs = Some dss -> Forall (Forall typeds) dss ->
  Forall2 types (geojson_rings fixed k (map Some rs) (cs ++ tl)) (map (c_posns num) dss).
Proof.
  induction rs as [|r rs IH]; intros cs tl dss Hm; cbn [map posns_list geojson_rings].
  - destruct cs; [intros [= <-] _; constructor|discriminate].
  - inversion Hm as [|? ? Hr Hrs]; subst.
    destruct (posns k (ring_pts r) _) as [a|] eqn:Ea; [|discriminate].
    destruct (posns_list k (map ring_pts rs) _) as [b|] eqn:Eb; [|discriminate].
    intros [= <-] HF. inversion HF; subst. cbn [map].
    set (n := (k * length (ring_pts r))%nat) in *.
    assert (Hc := posns_cs _ _ _ _ Ea). fold n in Hc. rewrite firstn_length in Hc.
    constructor.
    + rewrite <- (firstn_skipn n cs) at 1. rewrite <- app_assoc. now apply gtypes_ring.
    + cbn [ring_extra]. replace (k * r_npoints r)%nat with n
        by (unfold n; rewrite made_pts_length by assumption; reflexivity).
      rewrite skipn_app. replace (n - length cs)%nat with 0%nat by lia.
      cbn [skipn]. now apply IH.
Qed.

Lemma gtypes_poly k p rs cs tl dss : poly_made p -> poly_pts p = Some rs ->
  posns_list k rs cs = Some dss -> Forall (Forall typeds) dss ->
  types (write_poly_points_geojson fixed k (Some p) (cs ++ tl)) (c_rings num dss).
Proof.
  intros Hm Hr Hp HF. destruct (poly_pts_rings _ _ Hr Hm) as (l & E1 & E2 & Hl & En).
  unfold write_poly_points_geojson. rewrite E1. apply types_arr. subst rs. now apply gtypes_rings.
Qed.

Lemma gtypes_lines k gs : forall ls cs tl dss,
  Forall2 (fun o l => match o with Some (GLine _ r) => Some (ring_pts r) | _ => None end = Some l)
          gs ls ->
  Forall (opt_all geom_made) gs ->
  posns_list k ls cs = Some dss -> Forall (Forall typeds) dss ->
  Forall2 types (geojson_lines fixed k gs (cs ++ tl)) (map (c_posns num) dss).
Proof.
  induction gs as [|o gs IH]; intros ls cs tl dss HF Hm.
  - inversion HF; subst. cbn. destruct cs; [|discriminate]. intros [= <-] _. constructor.
  - inversion HF as [|? l ? ls' Hl HF']; subst. inversion Hm as [|? ? Ho Hm']; subst.
    destruct o as [[|f0 r| | | | |]|]; try discriminate. injection Hl as <-. cbn in Ho.
    cbn [posns_list].
    destruct (posns k (ring_pts r) _) as [a|] eqn:Ea; [|discriminate].
    destruct (posns_list k ls' _) as [b|] eqn:Eb; [|discriminate].
    intros [= <-] Hok. inversion Hok as [|? ? Ha Hb]; subst.
    set (n := (k * length (ring_pts r))%nat) in *.
    assert (Hc := posns_cs _ _ _ _ Ea). fold n in Hc. rewrite firstn_length in Hc.
    cbn [geojson_lines tg_geom_line ring_extra map].
    replace (k * r_npoints r)%nat with n
      by (unfold n; rewrite made_pts_length by assumption; reflexivity).
    rewrite skipn_app. replace (n - length cs)%nat with 0%nat by lia. cbn [skipn].
    constructor.
    + rewrite <- (firstn_skipn n cs) at 1. rewrite <- app_assoc. now apply gtypes_ring.
    + now apply (IH ls').
Qed.

Lemma gtypes_polys k gs : forall ls cs tl dss,
  Forall2 (fun o l => match o with Some (GPoly _ p) => poly_pts p | _ => None end = Some l)
          gs ls ->
  Forall (opt_all geom_made) gs ->
  posns_list2 k ls cs = Some dss -> Forall (Forall (Forall typeds)) dss ->
  Forall2 types (geojson_polys fixed k gs (cs ++ tl)) (map (c_rings num) dss).
Proof.
  induction gs as [|o gs IH]; intros ls cs tl dss HF Hm.
  - inversion HF; subst. cbn. destruct cs; [|discriminate]. intros [= <-] _. constructor.
  - inversion HF as [|? l ? ls' Hl HF']; subst. inversion Hm as [|? ? Ho Hm']; subst.
    destruct o as [[| |f0 p| | | |]|]; try discriminate. cbn in Ho.
    cbn [posns_list2].
    set (n := (k * length (concat l))%nat) in *.
    destruct (posns_list k l _) as [a|] eqn:Ea; [|discriminate].
    destruct (posns_list2 k ls' _) as [b|] eqn:Eb; [|discriminate].
    intros [= <-] Hok. inversion Hok as [|? ? Ha Hb]; subst.
    assert (Hc := posns_list_cs _ _ _ _ Ea). fold n in Hc. rewrite firstn_length in Hc.
    cbn [geojson_polys tg_geom_poly map].
    rewrite (poly_extra_pts k p l Ho Hl). fold n.
    rewrite skipn_app. replace (n - length cs)%nat with 0%nat by lia. cbn [skipn].
    constructor.
    + rewrite <- (firstn_skipn n cs) at 1. rewrite <- app_assoc.
      now apply (gtypes_poly k p l).
    + now apply (IH ls').
Qed.

(** the geometry itself *)
Definition gbody (g : geom) : W :=
  match g with
  | GPoint f p =>
      write_string (qstr "{'type':'Point','coordinates':") ;;
      write_posn_geojson fixed [px p; py p] ;; write_byte 125
  | GLine f l =>
      write_string (qstr "{'type':'LineString','coordinates':") ;;
      write_ring_points_geojson fixed 0 (Some l) [] ;; write_byte 125
  | GPoly f p =>
      write_string (qstr "{'type':'Polygon','coordinates':") ;;
      write_poly_points_geojson fixed 0 (Some p) [] ;; write_byte 125
  | GGPoint f p z m x => write_geom_point_geojson fixed f p z m
  | GGLine f l coords x => write_geom_linestring_geojson fixed f l coords
  | GGPoly f p coords x => write_geom_polygon_geojson fixed f p coords
  | GGMulti t f gs coords x =>
      write_string (geojson_multi_head t f) ;;
      (match gs with
       | None => wskip
       | Some l =>
           wsep wcomma
             (match t with
              | MPoints => geojson_points fixed (xdims f) l coords
              | MLines => geojson_lines fixed (xdims f) l coords
              | MPolys => geojson_polys fixed (xdims f) l coords
              | MGeoms => map (fun o => match o with
                                        | Some g => write_geom_geojson fixed g
                                        | None => wundef
                                        end) l
              end)
       end) ;;
      write_string (str "]}")
  end.
Lemma write_geom_body g : write_geom_geojson fixed g =
  match g with
  | GPoint f _ | GLine f _ | GPoly f _ => write_plain_feature f (gbody g)
  | _ => write_base_geom_geojson (geom_flags g) (xjson_of g) (gbody g)
  end.
Proof. destruct g; cbn [write_geom_geojson gbody geom_flags xjson_of]; reflexivity. Qed.

Definition tname (s : shape) : list Z :=
  match s with
  | ShPoint _ _ => str "Point" | ShLine _ _ => str "LineString" | ShPoly _ _ => str "Polygon"
  | ShPoints _ _ => str "MultiPoint" | ShLines _ _ => str "MultiLineString" | ShPolys _ _ => str "MultiPolygon"
  | ShGeoms _ => str "GeometryCollection"
  end.
Definition ctext (s : shape) : list Z :=
  match s with
  | ShPoint _ p => c_posn num p
  | ShLine _ ps | ShPoints _ ps => c_posns num ps
  | ShPoly _ rs | ShLines _ rs => c_rings num rs
  | ShPolys _ ps => c_polys num ps
  | ShGeoms _ => []
  end.

Lemma gtypes_body g s : ~ collection g -> geom_made g -> shape_of g = Some s -> empty_ok g -> typeds (coords_of s) ->
  types (gbody g) (core (tname s) (str "coordinates") (ctext s)).
Proof.
  intros NC Hm Hs HE Hf. destruct g as [f p|f l|f p|f p z m x|f l c x|f p c x|t f gs c x].
  - cbn [shape_of] in Hs. destruct (is_xy f) eqn:Ef; [|discriminate]. injection Hs as <-.
    apply types_core; [reflexivity|reflexivity|]. now apply gtypes_posn.
  - cbn [shape_of] in Hs. destruct (is_xy f) eqn:Ef; [|discriminate]. injection Hs as <-.
    cbn [coords_of] in Hf. apply Forall_concat in Hf. apply types_core; [reflexivity|reflexivity|].
    apply (gtypes_ring 0 l [] []); [apply posns_0|assumption].
  - cbn [shape_of] in Hs. destruct (is_xy f) eqn:Ef; [|discriminate].
    destruct (poly_pts p) as [rs|] eqn:Ep; [|discriminate]. injection Hs as <-.
    cbn [coords_of] in Hf. apply Forall_concat, Forall_concat in Hf. apply types_core; [reflexivity|reflexivity|].
    apply (gtypes_poly 0 p rs [] []); [exact Hm|exact Ep|apply posns_list_0|assumption].
  - cbn [shape_of] in Hs. injection Hs as <-. cbn [gbody]. unfold write_geom_point_geojson.
    apply types_core; [reflexivity|reflexivity|].
    cbn [ctext]. destruct (is_empty f) eqn:Ef; [now apply types_lit|]. now apply gtypes_posn.
  - cbn [shape_of] in Hs. cbn [gbody]. unfold write_geom_linestring_geojson. destruct (is_empty f) eqn:Ef.
    + injection Hs as <-. apply types_core; [reflexivity|reflexivity|]. now apply types_lit.
    + destruct l as [l|]; [|discriminate]. cbn [obind2] in Hs.
      destruct (posns _ (ring_pts l) c) as [ds|] eqn:Ep; [|discriminate]. injection Hs as <-.
      cbn [coords_of] in Hf. apply Forall_concat in Hf. apply types_core; [reflexivity|reflexivity|].
      rewrite <- (app_nil_r c), xdims_xdim. now apply gtypes_ring.
  - cbn [shape_of] in Hs. cbn [gbody]. unfold write_geom_polygon_geojson. destruct (is_empty f) eqn:Ef.
    + injection Hs as <-. apply types_core; [reflexivity|reflexivity|]. now apply types_lit.
    + destruct p as [p|]; [|discriminate]. cbn [obind2] in Hs.
      destruct (poly_pts p) as [rs|] eqn:Er; [|discriminate]. cbn [obind2] in Hs.
      destruct (posns_list _ rs c) as [ds|] eqn:Ep; [|discriminate]. injection Hs as <-.
      cbn [coords_of] in Hf. apply Forall_concat, Forall_concat in Hf. apply types_core; [reflexivity|reflexivity|].
      rewrite <- (app_nil_r c), xdims_xdim. now apply (gtypes_poly _ p rs).
  - set (l := match gs with Some l => l | None => [] end).
    assert (EL : (if is_empty f then [] else l) = l).
    { cbn [empty_ok] in HE. destruct (is_empty f); [|reflexivity]. unfold l. specialize (HE eq_refl).
      destruct gs as [[|]|]; [reflexivity|contradiction|reflexivity]. }
    assert (Hml : Forall (opt_all geom_made) l) by (unfold l; destruct gs as [gs|]; [now apply made_multi in Hm|constructor]).
    assert (EW : forall F : list (option geom) -> list W, F [] = [] ->
      match gs with None => wskip | Some l => wsep wcomma (F l) end = wsep wcomma (F l)).
    { intros F F0. unfold l. destruct gs; [reflexivity|]. now rewrite F0. }
    cbn [shape_of] in Hs. fold l in Hs. cbn [gbody].
    destruct t.
    + rewrite EL in Hs. destruct (all_some (map _ l)) as [ps|] eqn:Ea; [|discriminate]. cbn [obind2] in Hs.
      apply all_some_map in Ea.
      destruct (posns _ ps c) as [ds|] eqn:Ep; [|discriminate]. injection Hs as <-.
      cbn [coords_of] in Hf. apply Forall_concat in Hf.
      apply types_multi; [reflexivity|reflexivity|].
      rewrite (EW (fun l => geojson_points fixed (xdims f) l c)) by reflexivity.
      unfold geojson_points.
      assert (E : map tg_geom_point l = ps).
      { clear -Ea. induction Ea as [|o p gs0 pts H _ IH]; cbn; [reflexivity|].
        rewrite IH. f_equal. destruct o as [[]|]; try discriminate. now injection H. }
      rewrite E, xdims_xdim.
      rewrite <- (app_nil_r c), (posns_with_extra _ _ _ _ _ Ep). apply types_sep; [lia|]. now apply gtypes_posns.
    + rewrite EL in Hs. destruct (all_some (map _ l)) as [ps|] eqn:Ea; [|discriminate]. cbn [obind2] in Hs.
      apply all_some_map in Ea.
      destruct (posns_list _ ps c) as [ds|] eqn:Ep; [|discriminate]. injection Hs as <-.
      cbn [coords_of] in Hf. apply Forall_concat, Forall_concat in Hf.
      apply types_multi; [reflexivity|reflexivity|].
      rewrite (EW (fun l => geojson_lines fixed (xdims f) l c)) by reflexivity.
      rewrite <- (app_nil_r c), xdims_xdim. apply types_sep; [lia|]. now apply (gtypes_lines _ l ps).
    + rewrite EL in Hs. destruct (all_some (map _ l)) as [ps|] eqn:Ea; [|discriminate]. cbn [obind2] in Hs.
      apply all_some_map in Ea.
      destruct (posns_list2 _ ps c) as [ds|] eqn:Ep; [|discriminate]. injection Hs as <-.
      cbn [coords_of] in Hf. apply Forall_concat, Forall_concat, Forall_concat in Hf.
      apply types_multi; [reflexivity|reflexivity|].
      rewrite (EW (fun l => geojson_polys fixed (xdims f) l c)) by reflexivity.
      rewrite <- (app_nil_r c), xdims_xdim. apply types_sep; [lia|]. now apply (gtypes_polys _ l ps).
    + now destruct NC.
Qed.

(** ** The members behind it *)

Lemma extra_text_members n x own : own <> [] -> members_of n x own ->
  exists ms, x = Some (123 :: ms ++ [125]) /\ membs n ms own.
Proof.
  intros NE. destruct x as [x|]; cbn [members_of]; [|congruence]. intros (l & O & ->).
  destruct O as [w W|ms l M]; [contradiction|]. exists ms. split; [reflexivity|].
  exists l. split; [assumption|]. symmetry. apply pairs_behind.
Qed.
Lemma object_jvalue n x L : members_of n (Some x) L -> jvalue (S n) x.
Proof.
  intros (l & O & _). destruct O as [w W|ms l M]; [now apply v_obj0|].
  apply v_obj. now apply (members_grammar n ms l).
Qed.
Lemma root_den n v : jvalue n v -> den (json_parse v) v.
Proof.
  intros V. exists []. pose proof (C25_root n [] v [] ltac:(constructor) V ltac:(constructor)) as X.
  cbn [app] in X. rewrite app_nil_r in X. exact X.
Qed.
Lemma object_first n t L j : members_of n (Some t) L -> den j t ->
  json_exists (json_first j) = match L with [] => false | _ => true end.
Proof.
  intros M D. destruct (object_meets n t L j M D) as (MM & _). destruct L as [|[k v] L]; cbn [meets] in MM.
  - now rewrite MM.
  - destruct MM as (_ & _ & (r & ->) & _). reflexivity.
Qed.

Lemma forall_bytes n t : jvalue n t -> Forall (fun b => 0 <= b < 256) t.
Proof. intros V. apply (jvalue_bytes n t V). Qed.

(** the object text with the members of another *)
Definition merged (T tn C : list Z) (own : list pair) (x : option (list Z)) : list Z :=
  match own, x with
  | _ :: _, Some x => 123 :: pair_text (str "type", qt T) ++ 44 :: pair_text (tn, C) ++ 44 :: tl x
  | _, _ => core T tn C
  end.
Lemma types_extra body n T tn C own x j : types body (core T tn C) -> members_of n x own ->
  match x with Some x => den j x | None => j = JNone end ->
  types (body ;; write_geometry_extra j) (merged T tn C own x).
Proof.
  intros B M D. unfold write_geometry_extra. destruct own as [|p own].
  - cbn [merged]. assert (E : (json_type j =? JSON_OBJECT) && json_exists (json_first j) = false).
    { destruct x as [x|]; [|now subst j]. rewrite (object_first n x [] j M D). apply andb_false_r. }
    rewrite E. cbn [andb]. rewrite <- (app_nil_r (core T tn C)). apply types_seq; [assumption|apply types_skip].
  - destruct (extra_text_members n x (p :: own) ltac:(discriminate) M) as (ms & -> & MS).
    cbn [merged tl]. destruct (object_meets n _ _ j M D) as (_ & _ & TY).
    rewrite TY, (object_first n _ _ j M D), (den_raw j _ D).
    assert (L : (1 <? json_raw_length j - 1)%nat = true).
    { destruct D as (r & _ & _ & L). rewrite L. cbn [length]. rewrite app_length. cbn [length].
      apply Nat.ltb_lt. destruct MS as (l & MM & _).
      assert (length ms <> 0)%nat; [|lia]. destruct MM; repeat rewrite app_length; cbn [length]; repeat rewrite app_length; cbn [length]; lia. }
    rewrite L. change (JSON_OBJECT =? JSON_OBJECT) with true. cbn [andb tl].
    apply types_assoc. change (core T tn C) with ((123 :: pair_text (str "type", qt T) ++ 44 :: pair_text (tn, C) ++ [125])) in B.
    apply (types_eq _ ((123 :: pair_text (str "type", qt T) ++ 44 :: pair_text (tn, C)) ++ [44] ++ ms ++ [125])).
    + apply types_seq.
      * apply types_rewind with (c := 125). eapply types_eq; [exact B|]. cbn [app]. f_equal. rewrite <- app_assoc. reflexivity.
      * apply (types_seq _ _ [44]); [apply types_byte; lia|]. apply types_string.
        pose proof (forall_bytes _ _ (object_jvalue n _ _ M)) as FB. inversion FB; assumption.
    + cbn [app]. f_equal. rewrite <- app_assoc. reflexivity.
Qed.

Lemma merged_members n T tn C own x : members_of n x own -> plain T -> plain tn -> jvalue n C ->
  (0 < n)%nat -> members_of n (Some (merged T tn C own x)) ((str "type", qt T) :: (tn, C) :: own).
Proof.
  intros M PT PN JC N0. assert (JT : jvalue n (qt T)).
  { destruct n; [lia|]. apply v_str. constructor. now apply plain_chars. }
  assert (CT : chars rfc_char (str "type")) by (apply plain_chars; now apply plainly).
  assert (CN : chars rfc_char tn) by now apply plain_chars.
  destruct own as [|p own].
  - cbn [merged]. unfold core.
    replace (123 :: pair_text (str "type", qt T) ++ 44 :: pair_text (tn, C) ++ [125])
      with (123 :: (pair_text (str "type", qt T) ++ 44 :: pair_text (tn, C)) ++ [125])
      by (cbn [app]; f_equal; rewrite <- app_assoc; reflexivity).
    apply membs_object. apply membs_more; try assumption. now apply membs_one.
  - destruct (extra_text_members n x (p :: own) ltac:(discriminate) M) as (ms & -> & MS). cbn [merged tl].
    replace (123 :: pair_text (str "type", qt T) ++ 44 :: pair_text (tn, C) ++ 44 :: ms ++ [125])
      with (123 :: (pair_text (str "type", qt T) ++ 44 :: pair_text (tn, C) ++ 44 :: ms) ++ [125])
      by (cbn [app]; f_equal; repeat (rewrite <- app_assoc; cbn [app]); reflexivity).
    apply membs_object. apply membs_more; try assumption. now apply membs_more.
Qed.
End types.
