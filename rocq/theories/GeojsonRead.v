(** * Reading the GeoJSON texts of coordinates and geometries *)

From Coq Require Import ZArith Bool String List Lia ZifyBool Arith.
From Verif Require Import F64 Geo Series RingApi Bytes Geom WkbParse Num WktParse Json SpecJson JsonFacts JsonTok JsonStrFacts
  SpecTree JsonTree Thm_Tree GeomFacts SpecWkb WkbParseFacts WkbWriteFacts WkbRoundFacts SpecWkt WktText WktRound WktTypes
  GeojsonParse SpecNotes GeojsonText.
Import ListNotations.
Local Open Scope Z_scope.

(** ** The type *)

Definition plain (k : list Z) : Prop := Forall (fun b => 32 <= b <= 127 /\ b <> 34 /\ b <> 92) k.
Lemma plainly k : forallb (fun b => (32 <=? b) && (b <=? 127) && negb (b =? 34) && negb (b =? 92)) k = true -> plain k.
Proof. intros H. apply Forall_forall. intros b B. pose proof (proj1 (forallb_forall _ k) H b B) as X. cbv beta in X. lia. Qed.

Lemma den_copy j T dst : den j (qt T) -> plain T ->
  json_string_copy j dst = Some (length T, text_into T dst).
Proof.
  intros D P. assert (DT : decodes right_pair T T) by now apply plain_decodes.
  assert (X : existsb (Z.eqb 92) T = false).
  { clear - P. induction P as [|b T (B & _ & C) _ IH]; [reflexivity|]. cbn [existsb]. rewrite IH.
    replace (92 =? b) with false by lia. reflexivity. }
  pose proof (den_head j _ _ D) as TY. change (tok typetoks 34) with JSON_STRING in TY.
  destruct D as (r & E & R & L).
  assert (I : string_inner j = T).
  { unfold string_inner. rewrite L, R. unfold qt. cbn [length app tl]. rewrite app_length. cbn [length].
    replace (S (length T + 1) <? 2)%nat with false by lia.
    replace (S (length T + 1) - 2)%nat with (length T) by lia.
    rewrite <- app_assoc, firstn_app, firstn_all, Nat.sub_diag, firstn_O. apply app_nil_r. }
  unfold json_string_copy. rewrite TY, I. cbv zeta. change (JSON_STRING =? JSON_STRING) with true.
  cbn [andb]. destruct (json_string_is_escaped j); cbn [negb].
  - rewrite (unescape_decodes T T DT) by lia. apply copied_text.
  - apply plain_text.
Qed.

Definition type_names : list (list Z) :=
  [str "Point"; str "LineString"; str "Polygon"; str "MultiPoint"; str "MultiLineString"; str "MultiPolygon";
   str "GeometryCollection"; str "Feature"; str "FeatureCollection"].
Definition targets : list (list Z) := [str "coordinates"; str "geometries"; str "features"; str "geometry"].
Lemma names_plain s : In s (str "type" :: str "id" :: str "properties" :: type_names ++ targets) -> plain s.
Proof.
  unfold type_names, targets. cbn [In app]. intros H.
  repeat (destruct H as [<-|H]; [now apply plainly|]); destruct H.
Qed.
Lemma plain_nonzero k : plain k -> Forall (fun x => x <> 0) k.
Proof. apply Forall_impl. intros b H. lia. Qed.
Lemma type_copy j T : In T type_names -> den j (qt T) -> geojson_type j = Ok T.
Proof.
  intros H D. unfold geojson_type. rewrite (den_copy j T) by (auto; apply names_plain; cbn in *; tauto).
  unfold type_names in H. cbn [In] in H. repeat (destruct H as [<-|H]; [reflexivity|]); destruct H.
Qed.

Section Parse.
Variable e : env.
Variable ix : Z.

(** the body of parse_geojson once the type is known *)
Definition dispatch (fuel : nat) (type : list Z) (j : json) (req_geom : bool) : out geom :=
  let child v := parse_geojson e ix fuel v false in
  if zlist_eqb type (str "Point") then parse_geojson_point j req_geom
  else if zlist_eqb type (str "LineString") then parse_geojson_linestring e ix j req_geom
  else if zlist_eqb type (str "Polygon") then parse_geojson_polygon e ix j req_geom
  else if zlist_eqb type (str "MultiPoint") then parse_geojson_multipoint j
  else if zlist_eqb type (str "MultiLineString") then parse_geojson_multilinestring e ix j
  else if zlist_eqb type (str "MultiPolygon") then parse_geojson_multipolygon e ix j
  else if zlist_eqb type (str "GeometryCollection") then
    parse_geojson_geometrycollection child j
  else if zlist_eqb type (str "Feature") then
    parse_geojson_feature (fun v req => parse_geojson e ix fuel v req) j
  else if zlist_eqb type (str "FeatureCollection") then
    parse_geojson_featurecollection child j
  else Err (str "unknown type '" ++ type ++ str "'").

Lemma parse_typed n fuel j t T L req : den j t -> In T type_names ->
  members_of n (Some t) ((str "type", qt T) :: L) ->
  parse_geojson e ix (S fuel) j req = dispatch fuel T j req.
Proof.
  intros D HT M. destruct (object_meets n t _ j M D) as (MM & LL & TY).
  cbn [parse_geojson]. rewrite TY. change (negb (JSON_OBJECT =? JSON_OBJECT)) with false. cbv iota.
  assert (PT : plain (str "type")) by (apply names_plain; cbn; tauto).
  destruct (meets_get_here (S (length (json_raw j))) _ _ _ _ (str "type") MM) as (jt & G & DT);
    [now apply plain_decodes|now apply plain_nonzero|lia|].
  unfold json_object_get. rewrite TY. change (JSON_OBJECT =? JSON_OBJECT) with true. cbv iota. rewrite G.
  rewrite (den_exists _ _ DT). cbn [negb]. rewrite (type_copy jt T HT DT). reflexivity.
Qed.

(** ** The members *)

Lemma is_false t name : t <> name -> is t name = false.
Proof. unfold is. intros N. destruct (list_eq_dec Z.eq_dec t name); [contradiction|reflexivity]. Qed.
Lemma is_true t : is t t = true.
Proof. unfold is. destruct (list_eq_dec Z.eq_dec t t); [reflexivity|contradiction]. Qed.

Lemma loop_others tn L : Forall (fun x => x <> 0) tn -> others [str "type"; tn] L -> forall j b fuel,
  meets L j -> (length L < fuel)%nat ->
  basic_loop false tn fuel j b
  = Ok (Basic (b_target b) (b_null b) (b_props b) (b_id b) (fold_left add_pair L (b_extra b))).
Proof.
  intros NZ. induction 1 as [|[k v] L ((t & D & NI) & _) _ IH]; intros j b fuel M F;
    (destruct fuel as [|fuel]; [cbn in F; lia|]).
  - cbn [meets] in M. subst j. cbn. destruct b; reflexivity.
  - cbn [fst] in D. destruct (loop_step false tn fuel k v L j b t M D NZ) as (DV & M' & ->).
    cbn [In] in NI. unfold member_step. rewrite (is_false t (str "type")) by (intros ->; tauto).
    rewrite (is_false t tn) by (intros ->; tauto). cbn [andb obind].
    rewrite IH; [reflexivity|assumption|cbn in F; lia].
Qed.

Lemma take_core n j t tn T C own : den j t -> In tn [str "coordinates"; str "geometries"; str "features"] ->
  members_of n (Some t) ((str "type", qt T) :: (tn, C) :: own) -> others [str "type"; tn] own ->
  (exists u, C = 91 :: u) ->
  exists jc, den jc C /\
    take_basic_geojson j tn = Ok (Taken jc (negb (json_exists (json_first jc))) false false (extra_of own)).
Proof.
  intros D HT M O (u & EC). destruct (object_meets n t _ j M D) as (MM & LL & TY).
  assert (PT : plain (str "type")) by (apply names_plain; cbn; tauto).
  assert (PN : plain tn) by (apply names_plain; cbn in *; tauto).
  pose proof (plain_nonzero tn PN) as NZ.
  assert (NT : tn <> str "type") by (intros ->; cbn in HT; repeat (destruct HT as [HT|HT]; [discriminate|]); destruct HT).
  assert (NF : zlist_eqb tn (str "geometry") = false)
    by (cbn in HT; repeat (destruct HT as [<-|HT]; [reflexivity|]); destruct HT).
  unfold take_basic_geojson. rewrite NF. cbv zeta. cbn [length] in LL.
  destruct (length (json_raw j)) as [|[|f]] eqn:EF; [lia|lia|].
  destruct (loop_step false tn (S (S f)) _ _ _ _ (Basic JNone false false false []) (str "type") MM (plain_decodes _ _ PT) NZ) as (D1 & M1 & ->).
  unfold member_step at 1. rewrite is_true. cbn [obind].
  destruct (loop_step false tn (S f) _ _ _ _ (Basic JNone false false false []) tn M1 (plain_decodes _ _ PN) NZ) as (D2 & M2 & ->).
  unfold member_step at 1. rewrite (is_false tn (str "type") NT), is_true. cbn [obind b_null b_props b_id b_extra].
  rewrite (loop_others tn own); [|assumption|assumption|assumption|lia].
  cbn [b_target b_null b_props b_id b_extra obind]. fold (extra_text own).
  set (jc := json_ensure _) in *. assert (DC : den jc C) by (unfold jc; now apply den_ensure).
  exists jc. split; [assumption|]. rewrite (den_exists _ _ DC). cbn [negb]. rewrite extra_opt.
  subst C. rewrite (den_head _ _ _ DC). reflexivity.
Qed.

(** ** Coordinates *)

Variable num : f64 -> list Z.
Variable rd : f64 -> f64.
Definition readable (x : f64) : Prop := number (num x) /\ parse_double (num x) = rd x.

Definition c_posn (p : posn) : list Z := arr (map num p).
Definition c_posns (ps : list posn) : list Z := arr (map c_posn ps).
Definition c_rings (rs : list (list posn)) : list Z := arr (map c_posns rs).
Definition c_polys (ps : list (list (list posn))) : list Z := arr (map c_rings ps).

Lemma num_sound n x : readable x -> sound (S n) (num x).
Proof. intros [N _]. split; now apply v_num. Qed.
Lemma posn_sound n p : Forall readable p -> sound (S (S n)) (c_posn p).
Proof. intros H. apply arr_sound. rewrite Forall_map. eapply Forall_impl; [|exact H]. apply num_sound. Qed.
Lemma posns_sound n ps : Forall (Forall readable) ps -> sound (S (S (S n))) (c_posns ps).
Proof. intros H. apply arr_sound. rewrite Forall_map. eapply Forall_impl; [|exact H]. apply posn_sound. Qed.
Lemma rings_sound n ps : Forall (Forall (Forall readable)) ps -> sound (S (S (S (S n)))) (c_rings ps).
Proof. intros H. apply arr_sound. rewrite Forall_map. eapply Forall_impl; [|exact H]. apply posns_sound. Qed.
Lemma polys_sound n ps : Forall (Forall (Forall (Forall readable))) ps -> sound (S (S (S (S (S n))))) (c_polys ps).
Proof. intros H. apply arr_sound. rewrite Forall_map. eapply Forall_impl; [|exact H]. apply rings_sound. Qed.

(** the parts of such texts *)
Lemma arr_read {A} n j (f : A -> list Z) l : den j (arr (map f l)) -> Forall (fun a => sound n (f a)) l ->
  (exists js, json_items j = Ok js /\ Forall2 den js (map f l)) /\
  json_exists (json_first j) = match l with [] => false | _ => true end.
Proof.
  intros D H. assert (V : Forall (jvalue n) (map f l)) by (rewrite Forall_map; eapply Forall_impl; [|exact H]; intros a Ha; apply Ha).
  split; [now apply (arr_items n)|]. rewrite (arr_first n j _ D V). now destruct l.
Qed.

Lemma read_posn j p msg : den j (c_posn p) -> Forall readable p ->
  exists its, json_items j = Ok its /\ posn_nums msg its = Ok (firstn 4 (map rd p)).
Proof.
  intros D H. destruct (arr_read 1 j num p D) as [(its & I & F) _].
  { eapply Forall_impl; [|exact H]. intros x Hx. now apply num_sound. }
  exists its. split; [assumption|]. unfold posn_nums. clear D I. revert p H F.
  assert (G : forall its p, Forall readable p -> Forall2 den its (map num p) ->
    forallb (fun v => json_type v =? JSON_NUMBER) its = true /\ map json_double its = map rd p).
  { clear its. induction its as [|v its IH]; intros [|x p] H F; inversion F; subst; [now split|].
    inversion H as [|? ? [N P] H']; subst. destruct (IH p H' ltac:(assumption)) as [A B]. cbn [forallb map].
    assert (T : json_type v = 2).
    { pose proof (den_type 1 v (num x) ltac:(assumption) ltac:(now apply v_num)) as T.
      apply (type_once 1 (num x)); [now apply v_num|assumption|now constructor]. }
    rewrite A, B, T. split; [reflexivity|]. f_equal. unfold json_double.
    change (firstn (json_raw_length v) (json_raw v)) with (raw_text v). now rewrite (den_raw v (num x)). }
  intros p H F. destruct (G its p H F) as [A B]. now rewrite A, B.
Qed.

Local Notation rd1 := (map rd).
Local Notation rd2 := (map (map rd)).
Local Notation rd3 := (map (map (map rd))).

Definition ready (k : nat) (p : posn) : Prop := Forall readable p /\ length p = k.

Lemma arr_type j l : den j (arr l) -> json_type j = JSON_ARRAY.
Proof. intros D. now rewrite (den_head _ _ _ D). Qed.

Lemma posns_loop_ok k : (2 <= k <= 4)%nat -> forall ps items dims depth,
  Forall2 den items (map c_posn ps) -> Forall (ready k) ps -> dims = 0%nat \/ dims = k ->
  posns_loop dims depth items = Ok (match ps with [] => dims | _ => k end, rd2 ps).
Proof.
  intros K. induction ps as [|p ps IH]; intros items dims depth F H HD; inversion F; subst; [reflexivity|].
  inversion H as [|? ? [G L] H']; subst. cbn [posns_loop].
  match goal with D : den ?v (c_posn p) |- _ =>
    rewrite (arr_type v _ D); destruct (read_posn v p (str "each element in a position must be a number") D G) as (its & I & P) end.
  change (negb (JSON_ARRAY =? JSON_ARRAY)) with false. cbv iota. rewrite I. cbn [obind]. rewrite P. cbn [obind].
  rewrite firstn_all2 by (rewrite map_length; lia). rewrite map_length.
  replace (length p <? 2)%nat with false by lia.
  assert (E : (if (dims =? 0)%nat then length p else dims) = length p) by (destruct HD as [->| ->]; [reflexivity|destruct (Nat.eqb_spec (length p) 0); lia]).
  rewrite E, Nat.eqb_refl. cbn [negb]. rewrite (IH _ (length p)) by (auto; lia). cbn [obind fst snd map].
  destruct ps; reflexivity.
Qed.

Lemma parse_posns_ok base k ps dims depth j : (2 <= k <= 4)%nat -> den j (c_posns ps) -> Forall (ready k) ps ->
  dims = 0%nat \/ dims = k ->
  match base with
  | WBPoint => True
  | WBLine => exists d, line_ok d (rd2 ps)
  | WBRing => exists d, ring_ok d (rd2 ps)
  end ->
  parse_geojson_posns base dims depth j
  = Ok (match ps with [] => dims | _ => k end, map posn_point (rd2 ps), extras (rd2 ps)).
Proof.
  intros K D H HD HB. destruct (arr_read 2 j c_posn ps D) as [(its & I & F) _].
  { eapply Forall_impl; [|exact H]. intros p [G _]. now apply posn_sound. }
  unfold parse_geojson_posns. rewrite I. cbn [obind]. rewrite (posns_loop_ok k K ps its dims depth F H HD).
  cbn [obind fst snd].
  change (map posn_pt (rd2 ps)) with (map posn_point (rd2 ps)).
  destruct base; [reflexivity|destruct HB as [d HB]; rewrite (check_ok false d _ HB); reflexivity|
                  destruct HB as [d HB]; rewrite (check_ok true d _ HB); reflexivity].
Qed.

Lemma line_nonempty d ps : line_ok d (rd2 ps) -> ps <> [].
Proof. intros (_ & L & _) ->. cbn in L. lia. Qed.
Lemma ring_nonempty d ps : ring_ok d (rd2 ps) -> ps <> [].
Proof. intros (_ & L & _) ->. cbn in L. lia. Qed.

Lemma line_read k d ps dims depth j : (2 <= k <= 4)%nat -> den j (c_posns ps) -> Forall (ready k) ps ->
  dims = 0%nat \/ dims = k -> line_ok d (rd2 ps) ->
  geojson_series e ix WBLine dims depth j = Ok (k, mk_series e ix false (rd2 ps), extras (rd2 ps)).
Proof.
  intros K D H HD HL. unfold geojson_series. rewrite (parse_posns_ok WBLine k ps) by eauto.
  cbn [obind]. rewrite mk_series_open. pose proof (line_nonempty d ps HL). destruct ps; [contradiction|reflexivity].
Qed.
Lemma ring_read k d ps dims depth j : (2 <= k <= 4)%nat -> den j (c_posns ps) -> Forall (ready k) ps ->
  dims = 0%nat \/ dims = k -> ring_ok d (rd2 ps) -> ring_builds e ix (rd2 ps) ->
  geojson_series e ix WBRing dims depth j = Ok (k, mk_series e ix true (rd2 ps), extras (rd2 ps)).
Proof.
  intros K D H HD HL HB. unfold geojson_series. rewrite (parse_posns_ok WBRing k ps) by eauto.
  cbn [obind]. rewrite mk_series_closed by exact HB. pose proof (ring_nonempty d ps HL). destruct ps; [contradiction|reflexivity].
Qed.

Lemma groups_read {A B} (f : nat -> json -> out (nat * B * list f64)) (text : A -> list (list Z)) build x msg k l :
  (forall a dims j, In a l -> den j (arr (text a)) -> dims = 0%nat \/ dims = k -> f dims j = Ok (k, build a, x a)) ->
  forall items dims, Forall2 den items (map (fun a => arr (text a)) l) -> dims = 0%nat \/ dims = k ->
  groups_loop f msg dims items = Ok (match l with [] => dims | _ => k end, map build l, concat (map x l)).
Proof.
  induction l as [|a l IH]; intros H items dims F HD; inversion F; subst; [reflexivity|].
  cbn [groups_loop].
  match goal with D : den ?v (arr (text a)) |- _ =>
    rewrite (arr_type v _ D), (H a dims v) by (auto; now left) end.
  change (negb (JSON_ARRAY =? JSON_ARRAY)) with false. cbv iota. cbn [obind].
  rewrite IH; [|intros; apply H; [now right|assumption|assumption]|assumption|now right]. cbn [obind map concat].
  destruct l; reflexivity.
Qed.

Definition poly_of (rs : list (list posn)) : poly := mk_poly (map (mk_series e ix true) (rd3 rs)).
Lemma poly_read k d rs dims depth j : (2 <= k <= 4)%nat -> den j (c_rings rs) -> Forall (Forall (ready k)) rs ->
  dims = 0%nat \/ dims = k -> rs <> [] -> Forall (ring_ok d) (rd3 rs) -> Forall (ring_builds e ix) (rd3 rs) ->
  parse_geojson_multi_posns e ix depth dims j = Ok (k, poly_of rs, ring_extras (rd3 rs)).
Proof.
  intros K D H HD NE HR HB. destruct (arr_read 3 j c_posns rs D) as [(its & I & F) _].
  { eapply Forall_impl; [|exact H]. intros ps G. apply posns_sound. eapply Forall_impl; [|exact G]. now intros p [X _]. }
  unfold parse_geojson_multi_posns. rewrite I. cbn [obind].
  rewrite Forall_map in HR, HB. rewrite Forall_forall in H, HR, HB.
  rewrite (groups_read _ (map c_posn) (fun ps => mk_series e ix true (rd2 ps)) (fun ps => extras (rd2 ps)) _ k rs); auto.
  - cbn [obind]. unfold poly_of, ring_extras. rewrite !map_map. destruct rs as [|r rs]; [contradiction|]. cbn [map].
    rewrite tg_poly_new_mk. reflexivity.
  - intros a dd v Ha Dv Hd. apply (ring_read k d a); auto.
Qed.

(** ** The geometries *)

Lemma gj_ndim d : ndim (gj_dim d) = ndim d.
Proof. destruct d as [[] []]; reflexivity. Qed.
Lemma gj_posn d p : posn_ok d p -> posn_ok (gj_dim d) p.
Proof. unfold posn_ok. now rewrite gj_ndim. Qed.
Lemma gj_posns d ps : Forall (posn_ok d) ps -> Forall (posn_ok (gj_dim d)) ps.
Proof. apply Forall_impl. apply gj_posn. Qed.
Lemma gj_line d ps : line_ok d ps -> line_ok (gj_dim d) ps.
Proof. intros (A & B). split; [now apply gj_posns|assumption]. Qed.
Lemma gj_ring d ps : ring_ok d ps -> ring_ok (gj_dim d) ps.
Proof. intros (A & B). split; [now apply gj_posns|assumption]. Qed.

Definition lev (s : shape) : nat :=
  match s with
  | ShPoint _ _ => 3 | ShLine _ _ | ShPoints _ _ => 4 | ShPoly _ _ | ShLines _ _ => 5
  | ShPolys _ _ => 6 | ShGeoms _ => 2
  end.
Definition base_geom (g : geom) : Prop :=
  match g with GPoint _ _ | GLine _ _ | GPoly _ _ => False | _ => True end.
Definition collection (g : geom) : Prop := match g with GGMulti MGeoms _ _ _ _ => True | _ => False end.
Definition no_flags (f : flags) : Prop :=
  is_error f = false /\ is_feature f = false /\ is_feature_col f = false /\ has_null_props f = false /\
  is_unlocated f = false.
(** no children when marked as empty *)
Definition empty_ok (g : geom) : Prop :=
  match g with
  | GGMulti _ f gs _ _ => is_empty f = true -> match gs with Some (_ :: _) => False | _ => True end
  | _ => True
  end.
(** what is read of a geometry other than a collection *)
Definition built (s : shape) (own : list pair) (req : bool) (g : geom) : Prop :=
  shape_of g = Some s /\ xjson_of g = extra_of own /\ (req = true -> base_geom g) /\ no_flags (geom_flags g) /\
  empty_ok g /\ levels g = lev s /\ ~ collection g.

Definition pre_built (s : shape) (req : bool) (g : geom) : Prop :=
  shape_of g = Some s /\ xjson_of g = None /\ (req = true -> base_geom g) /\ no_flags (geom_flags g) /\
  empty_ok g /\ levels g = lev s /\ ~ collection g.
Lemma tail_built s own req jc b g : pre_built s req g -> (own <> [] -> base_geom g) ->
  (b = true -> is_empty (geom_flags g) = true) ->
  exists g', basic_tail (Taken jc b false false (extra_of own)) g = Ok g' /\ built s own req g'.
Proof.
  intros (S0 & X & R & (F1 & F2 & F3 & F4 & F5) & M & L & C) B E. unfold basic_tail. cbn [t_extra t_empty t_null t_unlocated].
  assert (FE : add_flags b false false (geom_flags g) = geom_flags g).
  { unfold add_flags. rewrite !orb_false_r. destruct (geom_flags g) as [z m er em fe fc nu un] eqn:EF. cbn in *.
    destruct b; [rewrite E by reflexivity|rewrite orb_false_r]; reflexivity. }
  rewrite FE. assert (WF : with_flags g (geom_flags g) = g) by (destruct g; reflexivity). rewrite WF.
  destruct own as [|p own].
  - exists g. split; [reflexivity|]. repeat split; try assumption.
  - specialize (B ltac:(discriminate)). cbn [extra_of set_xjson].
    destruct g; try contradiction; eexists; (split; [reflexivity|]); cbn [xjson_of] in X; subst;
      repeat split; try assumption; reflexivity.
Qed.

Lemma plain_false req own jc b d : plain_geom req (Taken jc b false false (extra_of own)) d = true ->
  req = false /\ own = [] /\ d = 2%nat.
Proof.
  unfold plain_geom. cbn [t_extra]. destruct req, own; cbn; intros H; try discriminate. repeat split.
  now apply Nat.eqb_eq.
Qed.

Lemma read_point j own req d p : (p = [] \/ posn_ok d (rd1 p)) -> Forall readable p ->
  (exists jc, den jc (c_posn p) /\ take_basic_geojson j (str "coordinates")
     = Ok (Taken jc (negb (json_exists (json_first jc))) false false (extra_of own))) ->
  exists g, parse_geojson_point j req = Ok g /\ built (gj_back (ShPoint d (rd1 p))) own req g.
Proof.
  intros HP G (jc & D & T). unfold parse_geojson_point. rewrite T. cbn [obind t_empty t_target].
  destruct (arr_read 1 jc num p D) as [_ EX].
  { eapply Forall_impl; [|exact G]. intros x Hx. now apply num_sound. }
  rewrite EX. destruct p as [|x p].
  - cbn [negb]. apply tail_built; [|intros _; exact I|reflexivity]. repeat split; try reflexivity; try exact I; tauto.
  - destruct HP as [HP|[HL HW]]; [discriminate|]. rewrite map_length in HL. pose proof (ndim_range d) as K.
    cbn [negb]. destruct (read_posn jc (x :: p) (str "'coordinates' must only contain numbers") D G) as (its & II & P).
    rewrite II. cbn [obind]. rewrite P. cbn [obind]. rewrite firstn_all2 by (rewrite map_length; lia).
    rewrite map_length, HL. replace (ndim d <? 2)%nat with false by lia.
    apply tail_built; [|
      |intros; discriminate].
    + destruct (plain_geom req _ (ndim d)) eqn:PG.
      * apply plain_false in PG as (-> & -> & N2).
        destruct p as [|y [|z p]]; cbn [length] in HL; try lia. 
        destruct d as [[] []]; try discriminate N2. repeat split; try reflexivity; try discriminate; try exact I; tauto.
      * destruct d as [[] []]; cbn [ndim xdim dz dm Nat.add] in *;
          destruct p as [|y [|z [|w [|v p]]]]; cbn [length] in HL; try lia;
          repeat split; try reflexivity; try exact I; tauto.
    + intros N. destruct (plain_geom req _ (ndim d)) eqn:PG; [apply plain_false in PG as (_ & PG & _); contradiction|].
      destruct (ndim d) as [|[|[|[|]]]]; exact I.
Qed.

Lemma line_x_shape d ps : Forall (posn_ok d) ps ->
  shape_of (GGLine (fl_zm (dz d) (dm d)) (Some (mk_series e ix false ps)) (extras ps) None) = Some (ShLine d ps).
Proof.
  intros H. cbn [shape_of is_empty fl_zm obind2]. rewrite (proj1 (mk_open_pts e ix ps)), dim_zm, posns_round by assumption.
  reflexivity.
Qed.
Lemma poly_x_shape d rs : rs <> [] -> Forall (Forall (posn_ok d)) rs -> Forall (ring_builds e ix) rs ->
  shape_of (GGPoly (fl_zm (dz d) (dm d)) (Some (mk_poly (map (mk_series e ix true) rs))) (ring_extras rs) None)
  = Some (ShPoly d rs).
Proof.
  intros N H B. cbn [shape_of is_empty fl_zm obind2]. rewrite (proj1 (mk_poly_pts e ix rs N B)). cbn [obind2].
  rewrite dim_zm, posns_list_round by assumption. reflexivity.
Qed.

Lemma ready_of d ps : Forall (posn_ok d) (rd2 ps) -> Forall (Forall readable) ps -> Forall (ready (ndim d)) ps.
Proof.
  intros H G. rewrite Forall_map in H. rewrite Forall_forall in *. intros p Hp. split; [now apply G|].
  destruct (H p Hp) as [L _]. now rewrite map_length in L.
Qed.

Lemma dims_cases d (P : nat -> Prop) :
  (gj_dim d = xy -> P 2%nat) -> (gj_dim d = Dim true false -> P 3%nat) -> (gj_dim d = Dim true true -> P 4%nat) ->
  P (ndim d).
Proof. destruct d as [[] []]; intros A B C; [now apply C|now apply B|now apply B|now apply A]. Qed.

Lemma read_line j own req d ps : (ps = [] \/ line_ok d (rd2 ps)) -> Forall (Forall readable) ps ->
  (exists jc, den jc (c_posns ps) /\ take_basic_geojson j (str "coordinates")
     = Ok (Taken jc (negb (json_exists (json_first jc))) false false (extra_of own))) ->
  exists g, parse_geojson_linestring e ix j req = Ok g /\ built (gj_back (ShLine d (rd2 ps))) own req g.
Proof.
  intros HP G (jc & D & T). unfold parse_geojson_linestring. rewrite T. cbn [obind t_empty t_target].
  destruct (arr_read 2 jc c_posn ps D) as [_ EX].
  { eapply Forall_impl; [|exact G]. intros x Hx. now apply posn_sound. }
  rewrite EX. destruct ps as [|x ps].
  - cbn [negb]. apply tail_built; [|intros _; exact I|reflexivity]. repeat split; try reflexivity; try exact I; tauto.
  - destruct HP as [HP|HP]; [discriminate|]. cbn [negb].
    rewrite (line_read (ndim d) d (x :: ps)); auto; [|apply ndim_range|apply ready_of; [apply HP|assumption]].
    cbn [obind]. pose proof (gj_posns d _ (proj1 HP)) as HG.
    set (qs := rd2 (x :: ps)) in *.
    assert (SX := line_x_shape (gj_dim d) qs HG).
    assert (SB : gj_back (ShLine d qs) = ShLine (gj_dim d) qs) by reflexivity.
    rewrite SB.
    apply tail_built; [| |discriminate].
    + destruct (plain_geom req _ (ndim d)) eqn:PG.
      * apply plain_false in PG as (-> & -> & N2). rewrite (ndim_xy _ N2) in *.
        split; [|repeat split; try discriminate; auto]. apply (build_line_shape e ix) in HP. exact (proj1 HP).
      * clear PG. revert SX HG. apply (dims_cases d); intros ->; cbn [dz dm]; intros SX HG.
        -- rewrite extras_xy in SX by assumption. repeat split; auto.
        -- repeat split; auto.
        -- repeat split; auto.
    + intros N. destruct (plain_geom req _ (ndim d)) eqn:PG; [apply plain_false in PG as (_ & PG & _); contradiction|].
      destruct (ndim d) as [|[|[|[|]]]]; exact I.
Qed.

Lemma ring_extras_xy rs : Forall (Forall (posn_ok xy)) rs -> ring_extras rs = [].
Proof.
  intros H. rewrite <- (ring_extras_sel xy rs H). reflexivity.
Qed.
Lemma ready_rings d rs : Forall (ring_ok d) (rd3 rs) -> Forall (Forall (Forall readable)) rs -> Forall (Forall (ready (ndim d))) rs.
Proof.
  intros H G. rewrite Forall_map in H. rewrite Forall_forall in *. intros r Hr. apply ready_of; [apply (H r Hr)|now apply G].
Qed.
Lemma ready_lines d rs : Forall (line_ok d) (rd3 rs) -> Forall (Forall (Forall readable)) rs -> Forall (Forall (ready (ndim d))) rs.
Proof.
  intros H G. rewrite Forall_map in H. rewrite Forall_forall in *. intros r Hr. apply ready_of; [apply (H r Hr)|now apply G].
Qed.

Lemma read_poly j own req d rs : Forall (ring_ok d) (rd3 rs) -> Forall (Forall (Forall readable)) rs ->
  Forall (ring_builds e ix) (rd3 rs) ->
  (exists jc, den jc (c_rings rs) /\ take_basic_geojson j (str "coordinates")
     = Ok (Taken jc (negb (json_exists (json_first jc))) false false (extra_of own))) ->
  exists g, parse_geojson_polygon e ix j req = Ok g /\ built (gj_back (ShPoly d (rd3 rs))) own req g.
Proof.
  intros HP G HB (jc & D & T). unfold parse_geojson_polygon. rewrite T. cbn [obind t_empty t_target].
  destruct (arr_read 3 jc c_posns rs D) as [_ EX].
  { eapply Forall_impl; [|exact G]. intros x Hx. now apply posns_sound. }
  rewrite EX. destruct rs as [|x rs].
  - cbn [negb]. apply tail_built; [|intros _; exact I|reflexivity]. repeat split; try reflexivity; try exact I; tauto.
  - cbn [negb].
    rewrite (poly_read (ndim d) d (x :: rs)); auto; [|apply ndim_range|now apply ready_rings|discriminate].
    cbn [obind]. 
    assert (HG : Forall (ring_ok (gj_dim d)) (rd3 (x :: rs))) by (eapply Forall_impl; [|exact HP]; apply gj_ring).
    unfold poly_of. set (qs := rd3 (x :: rs)) in *.
    assert (HQ : Forall (Forall (posn_ok (gj_dim d))) qs) by (eapply Forall_impl; [|exact HG]; intros a Ha; apply Ha).
    assert (NE : qs <> []) by discriminate.
    assert (SX := poly_x_shape (gj_dim d) qs NE HQ HB).
    assert (SB : gj_back (ShPoly d qs) = ShPoly (gj_dim d) qs) by reflexivity.
    rewrite SB.
    apply tail_built; [| |discriminate].
    + destruct (plain_geom req _ (ndim d)) eqn:PG.
      * apply plain_false in PG as (-> & -> & N2). rewrite (ndim_xy _ N2) in *.
        split; [|repeat split; try discriminate; auto].
        exact (poly_shape e ix xy qs NE HG HB).
      * clear PG. revert SX HG HQ. apply (dims_cases d); intros ->; cbn [dz dm]; intros SX HG HQ.
        -- rewrite ring_extras_xy in SX by assumption. repeat split; auto.
        -- repeat split; auto.
        -- repeat split; auto.
    + intros N. destruct (plain_geom req _ (ndim d)) eqn:PG; [apply plain_false in PG as (_ & PG & _); contradiction|].
      destruct (ndim d) as [|[|[|[|]]]]; exact I.
Qed.

(** multi geometries *)
Lemma multi_dims_gj d x g : multi_dims (ndim d) x g
  = if dz (gj_dim d) || dm (gj_dim d) then fill_multi_coords (dz (gj_dim d)) (dm (gj_dim d)) x g else g.
Proof. destruct d as [[] []]; reflexivity. Qed.

(** the same mark IS_EMPTY for none *)
Lemma tail_empty own req jc t : t <> MGeoms ->
  exists g', basic_tail (Taken jc true false false (extra_of own)) (GGMulti t (fl_zm true true) (Some []) [] None) = Ok g' /\
    built (match t with MPoints => ShPoints (Dim true true) [] | MLines => ShLines (Dim true true) []
           | _ => ShPolys (Dim true true) [] end) own req g'.
Proof.
  intros N. unfold basic_tail. cbn [t_extra t_empty t_null t_unlocated].
  destruct own as [|p own]; cbn [extra_of set_xjson]; eexists; (split; [reflexivity|]);
    destruct t; try contradiction; repeat split; try reflexivity; try exact I; try (intros []); tauto.
Qed.

Lemma multi_pre t d cs gs s req : t <> MGeoms ->
  shape_of (GGMulti t (fl_zm (dz d) (dm d)) gs cs None) = Some s -> lev s = levels (GGMulti t fl0 None [] None) ->
  pre_built s req (GGMulti t (fl_zm (dz d) (dm d)) gs cs None).
Proof.
  intros N S0 L. split; [exact S0|]. split; [reflexivity|]. split; [intros _; exact I|].
  split; [repeat split|]. split; [discriminate|]. split; [now rewrite L; destruct t|].
  destruct t; cbn; tauto.
Qed.

Lemma read_points j own req d ps : Forall (posn_ok d) (rd2 ps) -> Forall (Forall readable) ps ->
  (exists jc, den jc (c_posns ps) /\ take_basic_geojson j (str "coordinates")
     = Ok (Taken jc (negb (json_exists (json_first jc))) false false (extra_of own))) ->
  exists g, parse_geojson_multipoint j = Ok g /\ built (gj_back (ShPoints d (rd2 ps))) own req g.
Proof.
  intros HP G (jc & D & T). unfold parse_geojson_multipoint. rewrite T. cbn [obind t_target].
  destruct (arr_read 2 jc c_posn ps D) as [_ EX].
  { eapply Forall_impl; [|exact G]. intros x Hx. now apply posn_sound. }
  rewrite EX. rewrite (parse_posns_ok WBPoint (ndim d) ps); auto; [|apply ndim_range|now apply ready_of].
  cbn [obind]. destruct ps as [|x ps].
  - apply (tail_empty own req jc MPoints). discriminate.
  - cbn [negb]. set (qs := rd2 (x :: ps)) in *.
    rewrite multi_dims_gj.
    pose proof (multipoint_shape (gj_dim d) qs ltac:(discriminate) (gj_posns d qs HP)) as SH.
    change (gj_back (ShPoints d qs)) with (ShPoints (gj_dim d) qs).
    unfold tg_geom_new_multipoint in *. rewrite multi_flags in *.
    apply tail_built; [|intros _; exact I|discriminate]. now apply multi_pre.
Qed.
Lemma lines_map l : map (option_map tg_geom_new_linestring) (map Some (map (mk_series e ix false) (rd3 l)))
  = map (fun x => option_map tg_geom_new_linestring (Some (mk_series e ix false (rd2 x)))) l.
Proof. induction l as [|a l IH]; [reflexivity|]. cbn [map option_map]. f_equal. exact IH. Qed.
Lemma polys_map l : map (option_map tg_geom_new_polygon) (map Some (map (fun rs => mk_poly (map (mk_series e ix true) rs)) (map rd3 l)))
  = map (fun x => option_map tg_geom_new_polygon (Some (poly_of x))) l.
Proof. induction l as [|a l IH]; [reflexivity|]. cbn [map option_map]. f_equal. exact IH. Qed.
Lemma read_lines j own req d ls : Forall (line_ok d) (rd3 ls) -> Forall (Forall (Forall readable)) ls ->
  (exists jc, den jc (c_rings ls) /\ take_basic_geojson j (str "coordinates")
     = Ok (Taken jc (negb (json_exists (json_first jc))) false false (extra_of own))) ->
  exists g, parse_geojson_multilinestring e ix j = Ok g /\ built (gj_back (ShLines d (rd3 ls))) own req g.
Proof.
  intros HP G (jc & D & T). unfold parse_geojson_multilinestring. rewrite T. cbn [obind t_target].
  destruct (arr_read 3 jc c_posns ls D) as [(its & II & F) EX].
  { eapply Forall_impl; [|exact G]. intros x Hx. now apply posns_sound. }
  rewrite EX, II. cbn [obind]. pose proof (ready_lines d ls HP G) as RL.
  assert (HP' := HP). rewrite Forall_map in HP'. rewrite Forall_forall in HP', RL.
  rewrite (groups_read _ (map c_posn) (fun ps => mk_series e ix false (rd2 ps)) (fun ps => extras (rd2 ps)) _ (ndim d) ls); auto.
  2: { intros a dd v Ha Dv Hd. apply (line_read (ndim d) d a); auto. apply ndim_range. }
  cbn [obind]. destruct ls as [|x ls].
  - apply (tail_empty own req jc MLines). discriminate.
  - cbn [negb]. set (qs := x :: ls) in *.
    rewrite multi_dims_gj.
    assert (HG : Forall (line_ok (gj_dim d)) (rd3 qs)) by (eapply Forall_impl; [|exact HP]; apply gj_line).
    pose proof (multiline_shape e ix (gj_dim d) (rd3 qs) HG) as SH. cbv zeta in SH.
    change (gj_back (ShLines d (rd3 qs))) with (ShLines (gj_dim d) (rd3 qs)).
    unfold ring_extras in SH. rewrite !map_map in SH |- *.
    unfold tg_geom_new_multilinestring in *. rewrite multi_flags in *. 
    rewrite lines_map in SH. unfold posn in *. rewrite map_map.
    apply tail_built; [|intros _; exact I|discriminate]. apply multi_pre; [discriminate|exact SH|reflexivity].
Qed.
Lemma read_polys j own req d ps : Forall (fun rs => rs <> [] /\ Forall (ring_ok d) rs) (map rd3 ps) ->
  Forall (Forall (Forall (Forall readable))) ps ->
  Forall (Forall (ring_builds e ix)) (map rd3 ps) ->
  (exists jc, den jc (c_polys ps) /\ take_basic_geojson j (str "coordinates")
     = Ok (Taken jc (negb (json_exists (json_first jc))) false false (extra_of own))) ->
  exists g, parse_geojson_multipolygon e ix j = Ok g /\ built (gj_back (ShPolys d (map rd3 ps))) own req g.
Proof.
  intros HP G HB (jc & D & T). unfold parse_geojson_multipolygon. rewrite T. cbn [obind t_target].
  destruct (arr_read 4 jc c_rings ps D) as [(its & II & F) EX].
  { eapply Forall_impl; [|exact G]. intros x Hx. now apply rings_sound. }
  rewrite EX, II. cbn [obind].
  assert (HP' := HP). rewrite Forall_map in HP'. assert (HB' := HB). rewrite Forall_map in HB'. rewrite Forall_forall in HP', G, HB'.
  rewrite (groups_read _ (map c_posns) poly_of (fun rs => ring_extras (rd3 rs)) _ (ndim d) ps); auto.
  2: { intros a dd v Ha Dv Hd. destruct (HP' a Ha) as [NE HR]. apply (poly_read (ndim d) d a); auto.
       - apply ndim_range.
       - apply ready_rings; [assumption|now apply G].
       - intros ->. now apply NE. }
  cbn [obind]. destruct ps as [|x ps].
  - apply (tail_empty own req jc MPolys). discriminate.
  - cbn [negb]. set (qs := x :: ps) in *.
    rewrite multi_dims_gj.
    assert (HG : Forall (fun rs => rs <> [] /\ Forall (ring_ok (gj_dim d)) rs) (map rd3 qs)).
    { eapply Forall_impl; [|exact HP]. intros rs [A B]. split; [assumption|]. eapply Forall_impl; [|exact B]. apply gj_ring. }
    pose proof (multipoly_shape e ix (gj_dim d) (map rd3 qs) HG HB) as SH. cbv zeta in SH.
    change (gj_back (ShPolys d (map rd3 qs))) with (ShPolys (gj_dim d) (map rd3 qs)).
    unfold poly_extras in SH. rewrite !map_map in SH |- *.
    unfold tg_geom_new_multipolygon in *. rewrite multi_flags in *.
    rewrite polys_map in SH. unfold posn in *. rewrite map_map.
    apply tail_built; [|intros _; exact I|discriminate]. apply multi_pre; [discriminate|exact SH|reflexivity].
Qed.
End Parse.
