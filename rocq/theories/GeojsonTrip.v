(** * Writing GeoJSON and reading it back *)

From Coq Require Import ZArith Bool String List Lia ZifyBool Arith Permutation.
From Verif Require Import F64 Geo Series RingApi Bytes Geom Writer WriterFacts WkbWrite Num WktWrite Json SpecJson JsonTok
  JsonStrFacts SpecTree JsonTree Thm_Tree GeomFacts JsonFacts SpecWkb WkbParse WkbParseFacts WkbWriteFacts WkbRoundFacts TextFacts
  SpecWkt NumFacts NumRound NumPrint RyuGood SpecText WktParse WktText WktRound WktTypes WktTrip GeojsonParse GeojsonWrite SpecNotes GeojsonText GeojsonRead GeojsonTypes
  GeojsonFeature.
Import ListNotations.
Local Open Scope Z_scope.

(** the children of a collection *)
Definition kids_carry (k : nat) (fc : bool) :=
  fix all (l : list (option geom)) (kids : list notes) : Prop :=
    match l, kids with
    | [], [] => True
    | Some g :: l, N :: kids =>
        carries k g N /\ kind_of N = (if fc then Feature else Geometry) /\ all l kids
    | _, _ => False
    end.
Definition kind_flags (f : flags) : kind :=
  if is_feature f then Feature else if is_feature_col f then Features else Geometry.
Lemma carries_kind n g N : carries n g N -> is_error (geom_flags g) = false /\ kind_of N = kind_flags (geom_flags g).
Proof.
  intros C. destruct N as [k null un own inner kids].
  destruct g; cbn [carries] in C; destruct C as (E & K & _); now split.
Qed.
Lemma rewritten_kind N : kind_of (rewritten N) = kind_of N.
Proof. destruct N as [k null un own inner kids]. reflexivity. Qed.

(** what [carries] says of every geometry *)
Definition carries_all (n : nat) (g : geom) (N : notes) : Prop :=
  let f := geom_flags g in
  let m := if is_feature f then (n - 1)%nat else n in
  let 'Notes k null un own inner kids := N in
  is_error f = false /\ k = kind_flags f /\
  null = is_feature f && has_null_props f /\ un = is_feature f && is_unlocated f /\
  (un = true -> inner = [] /\ match g with GGPoint f _ _ _ _ => is_empty f = true | _ => False end) /\
  extra_is n (is_feature f) (xjson_of g) own inner /\
  (if is_feature f then
     feature_ok (n - 1) own /\ others [str "type"; target g] inner /\
     (null = true -> filter (key_is (str "properties")) own = [])
   else others [str "type"; target g] own) /\
  (levels g <= m)%nat.
(** and of its children *)
Definition carries_kids (m : nat) (g : geom) (kids : list notes) : Prop :=
  match g with
  | GGMulti MGeoms f gs _ _ =>
      (is_feature f = true -> is_feature_col f = false) /\
      (is_empty f = true -> match gs with Some (_ :: _) => False | _ => True end) /\
      match gs with
      | None => kids = []
      | Some l => kids_carry (m - 2) (is_feature_col f) l kids
      end
  | GGMulti _ f gs _ _ =>
      is_feature_col f = false /\ kids = [] /\
      (is_empty f = true -> match gs with Some (_ :: _) => False | _ => True end)
  | _ => is_feature_col (geom_flags g) = false /\ kids = []
  end.
Lemma carries_split n g k null un own inner kids :
  carries n g (Notes k null un own inner kids) <->
  carries_all n g (Notes k null un own inner kids) /\
  carries_kids (if is_feature (geom_flags g) then n - 1 else n)%nat g kids.
Proof.
  unfold carries_all, kind_flags.
  destruct g as [f p|f l|f p|f p z m x|f l c x|f p c x|t f gs c x]; cbn [carries geom_flags carries_kids]; try (cbv zeta; tauto).
Qed.

Lemma carries_empty m g kids : carries_kids m g kids -> empty_ok g.
Proof. destruct g as [| | | | | |t f gs c x]; try (intros; exact I). destruct t; cbn; tauto. Qed.
Lemma carries_nocol m g kids : carries_kids m g kids -> is_feature (geom_flags g) = true -> is_feature_col (geom_flags g) = false.
Proof. destruct g as [| | | | | |t f gs c x]; cbn; try tauto. destruct t; cbn; tauto. Qed.

(** flags and members do not matter to the shape *)
Lemma shape_flags g f : has_z f = has_z (geom_flags g) -> has_m f = has_m (geom_flags g) ->
  is_empty f = is_empty (geom_flags g) -> shape_of (with_flags g f) = shape_of g.
Proof.
  intros Z M E. destruct g as [f' p|f' l|f' p|f' p z m x|f' l c x|f' p c x|t f' gs c x];
    cbn [geom_flags with_flags] in *; cbn [shape_of]; unfold is_xy, dim_of; rewrite ?Z, ?M, ?E; reflexivity.
Qed.
Lemma shape_xjson g g' x : set_xjson x g = Ok g' -> shape_of g' = shape_of g /\ geom_flags g' = geom_flags g /\
  levels g' = levels g /\ target g' = target g /\ xjson_of g' = match x with None => xjson_of g | _ => x end /\
  (forall m kids, carries_kids m g' kids <-> carries_kids m g kids) /\ (~ base_geom g -> ~ base_geom g').
Proof.
  destruct x as [x|]; cbn [set_xjson]; [|intros [= <-]; tauto].
  destruct g as [f p|f l|f p|f p z m y|f l c y|f p c y|t f gs c y]; try discriminate; intros [= <-];
    (do 5 (split; [reflexivity|]); split; [|auto]); intros; reflexivity.
Qed.
Lemma set_xjson_base g x : base_geom g -> exists g', set_xjson x g = Ok g'.
Proof. intros B. destruct x as [x|]; cbn [set_xjson]; [destruct g; try contradiction|]; eexists; reflexivity. Qed.
Lemma flags_kept g f : levels (with_flags g f) = levels g /\ xjson_of (with_flags g f) = xjson_of g /\
  geom_flags (with_flags g f) = f /\ (base_geom (with_flags g f) <-> base_geom g).
Proof. destruct g; repeat split; auto. Qed.
Lemma target_kept g f : is_feature_col f = is_feature_col (geom_flags g) -> target (with_flags g f) = target g.
Proof. intros E. destruct g as [| | | | | |t f' gs c x]; try reflexivity. destruct t; try reflexivity. cbn in *. now rewrite E. Qed.
Lemma kids_kept g f m kids : is_feature_col f = false -> is_feature_col (geom_flags g) = false ->
  is_empty f = is_empty (geom_flags g) ->
  carries_kids m g kids -> carries_kids m (with_flags g f) kids.
Proof.
  intros E1 E2 E3. destruct g as [f' p|f' l|f' p|f' p z m' x|f' l c x|f' p c x|t f' gs c x]; cbn [carries_kids with_flags geom_flags] in *;
    try (now rewrite E1). destruct t; cbn in *; rewrite E1, E3; rewrite E2; tauto.
Qed.

Lemma extra_members n own : Forall (pair_ok n) own -> members_of n (extra_of own) own.
Proof. intros H. destruct own as [|p own]; [reflexivity|]. now apply obj_members. Qed.
Lemma others_lax n names L : others names L -> Forall (pair_ok n) L -> Forall (pair_lax n) L.
Proof.
  unfold others. rewrite !Forall_forall. intros O P p Hp. destruct (O p Hp) as (_ & K & V). destruct (P p Hp) as [PK PV].
  split; [now apply chars_lax|]. now apply (value_lax n).
Qed.
Lemma pair_mono n m p : pair_ok n p -> (n <= m)%nat -> pair_ok m p.
Proof. intros [K V] L. split; [assumption|]. now apply (jvalue_mono n). Qed.
Lemma plain_lax n k : plain k -> (0 < n)%nat -> pair_lax n (k, qt k) /\ pair_ok n (k, qt k).
Proof.
  intros P N. destruct n; [lia|]. split; split; cbn [fst snd]; try (now apply plain_chars); apply v_str; constructor; now apply plain_chars.
Qed.
Lemma plain_pair n k v : plain k -> sound n v -> pair_lax n (k, v) /\ pair_ok n (k, v).
Proof. intros P [J V]. split; split; cbn [fst snd]; try (now apply plain_chars); assumption. Qed.
Lemma qt_sound n T : plain T -> (0 < n)%nat -> sound n (qt T).
Proof. intros P N. destruct n; [lia|]. split; apply v_str; constructor; now apply plain_chars. Qed.

Section Trip.
Variable e : env.
Variable ix : Z.
Variable fixed : bool.
Variable num : f64 -> list Z.
Variable rd : f64 -> f64.
Local Notation coord x := (types (write_string_double fixed x) (num x) /\ readable num rd x).

(** the text of the geometry is read, with any other members *)
Definition reads_body (m : nat) (g : geom) (s : shape) (kids : list notes) (T C : list Z) : Prop :=
  forall fuel j t own req, den j t ->
    members_of (m - 1) (Some t) ((str "type", qt T) :: (target g, C) :: own) ->
    others [str "type"; target g] own -> (length C <= fuel)%nat ->
    exists g', parse_geojson e ix (S fuel) j req = Ok g' /\
      shape_of g' = Some (gj_back (shape_map rd s)) /\ (req = true -> base_geom g') /\
      xjson_of g' = extra_of own /\ is_feature (geom_flags g') = false /\
      is_feature_col (geom_flags g') = is_feature_col (geom_flags g) /\
      has_null_props (geom_flags g') = false /\ is_unlocated (geom_flags g') = false /\
      target g' = target g /\
      carries m g' (Notes (if is_feature_col (geom_flags g) then Features else Geometry) false false own []
                      (map rewritten kids)).

Definition body_good (m : nat) (g : geom) (s : shape) (kids : list notes) : Prop :=
  exists T C, In T type_names /\ types (gbody fixed g) (core T (target g) C) /\ (exists u, C = 91 :: u) /\
    sound (m - 1) C /\ reads_body m g s kids T C.

Definition good (n : nat) (g : geom) (s : shape) (N : notes) : Prop :=
  exists t, types (write_geom_geojson fixed g) t /\ sound n t /\ (exists u, t = 123 :: u) /\
    forall fuel j, den j t -> (length t <= fuel)%nat ->
      exists g', parse_geojson e ix (S fuel) j false = Ok g' /\
        shape_of g' = Some (gj_back (shape_map rd s)) /\ carries n g' (rewritten N).

(** ** Geometries that are no collections *)

Lemma level_shape g s : ~ collection g -> shape_of g = Some s -> lev s = levels g /\ target g = str "coordinates".
Proof.
  intros NC S. split.
  - destruct g as [f p|f l|f p|f p z m x|f l c x|f p c x|t f gs c x]; cbn [shape_of] in S.
    1-6: repeat match type of S with
         | (if ?b then _ else _) = _ => destruct b
         | obind2 ?o _ = _ => destruct o; cbn [obind2] in S
         | option_map _ ?o = _ => destruct o; cbn [option_map] in S
         end; try discriminate; injection S as <-; reflexivity.
    destruct t; try (now destruct NC);
      repeat match type of S with
         | obind2 ?o _ = _ => destruct o; cbn [obind2] in S
         | option_map _ ?o = _ => destruct o; cbn [option_map] in S
         end; try discriminate; injection S as <-; reflexivity.
  - destruct g as [| | | | | |t f gs c x]; try reflexivity. destruct t; try reflexivity. now destruct NC.
Qed.

Lemma readable_sound s k : Forall (fun x => coord x) (coords_of s) -> (match s with ShGeoms _ => False | _ => True end) ->
  (lev s <= k)%nat -> sound (k - 1) (ctext num s).
Proof.
  intros H NG L. assert (R : Forall (readable num rd) (coords_of s)) by (eapply Forall_impl; [|exact H]; intros ? []; assumption).
  destruct s as [d p|d ps|d rs|d ps|d ls|d ps|gs]; cbn [coords_of ctext lev] in *; try contradiction.
  - apply (sound_mono 2); [now apply (posn_sound num rd 0)|lia].
  - apply (sound_mono 3); [apply (posns_sound num rd 0); now apply Forall_concat|lia].
  - apply (sound_mono 4); [apply (rings_sound num rd 0); now apply Forall_concat, Forall_concat|lia].
  - apply (sound_mono 3); [apply (posns_sound num rd 0); now apply Forall_concat|lia].
  - apply (sound_mono 4); [apply (rings_sound num rd 0); now apply Forall_concat, Forall_concat|lia].
  - apply (sound_mono 5); [apply (polys_sound num rd 0); now apply Forall_concat, Forall_concat, Forall_concat|lia].
Qed.

Lemma lev_map s : lev (gj_back (shape_map rd s)) = lev s.
Proof. destruct s; reflexivity. Qed.

Lemma shape_not_geoms g s : ~ collection g -> shape_of g = Some s -> match s with ShGeoms _ => False | _ => True end.
Proof.
  intros NC S. destruct (level_shape g s NC S) as [L _]. destruct s; try exact I.
  destruct g as [| | | | | |t f gs' c x]; try discriminate L. destruct t; try discriminate L. now apply NC.
Qed.

(** the parser of the type, as parse_geojson calls it *)
Lemma simple_reads s fuel j t own req n : match s with ShGeoms _ => False | _ => True end ->
  den j t -> members_of n (Some t) ((str "type", qt (tname s)) :: (str "coordinates", ctext num s) :: own) ->
  others [str "type"; str "coordinates"] own ->
  Forall (readable num rd) (coords_of s) -> gj_fits (shape_map rd s) -> buildable e ix (shape_map rd s) ->
  exists g, parse_geojson e ix (S fuel) j req = Ok g /\ built (gj_back (shape_map rd s)) own req g.
Proof.
  intros NG D M O R F B.
  assert (TK : exists jc, den jc (ctext num s) /\ take_basic_geojson j (str "coordinates")
     = Ok (Taken jc (negb (json_exists (json_first jc))) false false (extra_of own))).
  { apply (take_core n j t (str "coordinates") (tname s)); try assumption.
    - now left.
    - destruct s; try contradiction; eexists; reflexivity. }
  assert (IT : In (tname s) type_names) by (destruct s; cbn; tauto).
  rewrite (parse_typed e ix n fuel j t (tname s) _ req D IT M).
  destruct s as [d p|d ps|d rs|d ps|d ls|d ps|gs]; cbn [coords_of ctext shape_map gj_fits] in *; try contradiction.
  - apply (read_point num rd j own req d p); auto. destruct F as [F|F]; [left; now apply map_nil_iff in F|now right].
  - apply (read_line e ix num rd j own req d ps); auto; [|now apply Forall_concat].
    destruct F as [F|F]; [left; now apply map_nil_iff in F|now right].
  - apply (read_poly e ix num rd j own req d rs); auto; [now apply Forall_concat, Forall_concat|].
    apply Forall_forall. intros r Hr. apply B. cbn [rings_of]. now apply in_map.
  - apply (read_points ix num rd j own req d ps); auto. now apply Forall_concat.
  - apply (read_lines e ix num rd j own req d ls); auto. now apply Forall_concat, Forall_concat.
  - apply (read_polys e ix num rd j own req d ps); auto; [now apply Forall_concat, Forall_concat, Forall_concat|].
    apply Forall_forall. intros rs Hrs. apply Forall_forall. intros r Hr. apply B. cbn [rings_of].
    apply in_concat. exists (map (map posn_point) rs). split; [now apply in_map|now apply in_map].
Qed.

Lemma simple_carries m s own req g : built s own req g -> Forall (pair_ok (m - 1)) own ->
  others [str "type"; str "coordinates"] own -> (lev s <= m)%nat ->
  carries m g (Notes Geometry false false own [] []).
Proof.
  intros (SH & X & _ & (F1 & F2 & F3 & F4 & F5) & E & L & NC) PO O LE. apply carries_split.
  unfold carries_all, kind_flags. cbv zeta. rewrite F1, F2, F3, X, L.
  destruct (level_shape g s NC SH) as [_ TG]. rewrite TG. split.
  - repeat split; try assumption; try discriminate. now apply extra_members.
  - destruct g as [| | | | | |t f gs c x]; cbn in *; try tauto. destruct t; cbn in *; tauto.
Qed.

Lemma simple_body m g s kids : ~ collection g -> geom_made g -> shape_of g = Some s ->
  Forall (fun x => coord x) (coords_of s) -> gj_fits (shape_map rd s) -> buildable e ix (shape_map rd s) ->
  carries_kids m g kids -> (levels g <= m)%nat -> body_good m g s kids.
Proof.
  intros NC HM HS HC HF HB HK HL. destruct (level_shape g s NC HS) as [LV TG].
  pose proof (shape_not_geoms g s NC HS) as NG. pose proof (carries_empty _ _ _ HK) as EO.
  assert (R : Forall (readable num rd) (coords_of s)) by (eapply Forall_impl; [|exact HC]; intros ? []; assumption).
  assert (KE : kids = [] /\ is_feature_col (geom_flags g) = false).
  { destruct g as [| | | | | |t f gs c x]; cbn in HK |- *; try tauto. destruct t; cbn in HK; try tauto. now destruct NC. }
  destruct KE as [-> FC].
  exists (tname s), (ctext num s). rewrite TG. split; [destruct s; cbn; tauto|]. split; [|split; [|split]].
  - apply gtypes_body; auto. eapply Forall_impl; [|exact HC]; intros ? []; assumption.
  - destruct s; try contradiction; eexists; reflexivity.
  - apply readable_sound; auto. lia.
  - intros fuel j t own req D M O _. rewrite TG in *.
    destruct (simple_reads s fuel j t own req (m - 1) NG D M O R HF HB) as (g' & P & BU).
    exists g'. split; [assumption|]. pose proof BU as (SH & X & RQ & (F1 & F2 & F3 & F4 & F5) & E & L & NC').
    pose proof (members_of_ok _ _ _ M) as PO. inversion_clear PO as [|? ? _ PO']. inversion_clear PO' as [|? ? _ PO].
    destruct (level_shape g' _ NC' SH) as [_ TG']. rewrite FC.
    repeat (split; [assumption|]).
    apply (simple_carries m (gj_back (shape_map rd s)) own req); auto. rewrite lev_map. lia.
Qed.

(** ** Collections *)

Lemma kids_good (fc : bool) k (l : list (option geom)) (okf : flags -> bool) (msg : list Z) :
  (forall g N, carries k g N -> kind_of N = (if fc then Feature else Geometry) -> okf (geom_flags g) = true) ->
  Forall (opt_all (fun g => forall s N, shape_of g = Some s -> geom_made g ->
    Forall (fun x => coord x) (coords_of s) -> gj_fits (shape_map rd s) -> buildable e ix (shape_map rd s) ->
    carries k g N -> good k g s N)) l ->
  forall ss kids, Forall2 (fun (o : option geom) s => match o with Some g => shape_of g | None => None end = Some s) l ss ->
  Forall (opt_all geom_made) l -> Forall (fun s => Forall (fun x => coord x) (coords_of s)) ss ->
  Forall (fun s => gj_fits (shape_map rd s)) ss -> Forall (fun s => buildable e ix (shape_map rd s)) ss ->
  kids_carry k fc l kids ->
  exists ts, Forall2 types (map (fun o => match o with Some g => write_geom_geojson fixed g | None => wundef end) l) ts /\
    Forall (sound k) ts /\
    forall fuel js, Forall2 den js ts -> Forall (fun t => (length t < fuel)%nat) ts ->
      exists gs, geoms_loop (fun v => parse_geojson e ix fuel v false) okf msg js = Ok gs /\
        all_some (map (fun o => match o with Some g => shape_of g | None => None end) (map Some gs))
        = Some (map (fun s => gj_back (shape_map rd s)) ss) /\
        kids_carry k fc (map Some gs) (map rewritten kids).
Proof.
  intros OK. induction 1 as [|o l HO HL IH]; intros ss kids HS HM HC HF HB HK.
  - inversion HS; subst. destruct kids; [|contradiction]. exists []. split; [constructor|]. split; [constructor|].
    intros fuel js DJ _. inversion DJ; subst. exists []. repeat split.
  - inversion HS as [|? s ? ss' Hs HS']; subst. destruct o as [g|]; [|discriminate].
    destruct kids as [|N kids]; [contradiction|]. cbn [kids_carry] in HK. destruct HK as (CK & KN & HK).
    fold (kids_carry k fc) in HK.
    inversion_clear HM as [|? ? Hm HM']. inversion_clear HC as [|? ? Hc HC']. inversion_clear HF as [|? ? Hf HF'].
    inversion_clear HB as [|? ? Hb HB'].
    destruct (IH ss' kids HS' HM' HC' HF' HB' HK) as (ts & T & SD & RD).
    destruct (HO s N Hs Hm Hc Hf Hb CK) as (t & T0 & S0 & _ & R0).
    exists (t :: ts). split; [now constructor|]. split; [now constructor|].
    intros fuel js DJ LT. inversion DJ as [|j ? js' ? D0 DJ']; subst. inversion_clear LT as [|? ? L0 LT'].
    destruct (RD fuel js' DJ' LT') as (gs & P & SH & KC).
    destruct fuel as [|fuel]; [lia|]. destruct (R0 fuel j D0 ltac:(lia)) as (g' & P0 & SH0 & C0).
    exists (g' :: gs). cbn [geoms_loop]. rewrite P0. cbn [obind].
    rewrite (OK g' (rewritten N) C0) by (now rewrite rewritten_kind). rewrite P. cbn [obind]. split; [reflexivity|].
    cbn [map all_some]. rewrite SH0, SH. split; [reflexivity|].
    cbn [kids_carry]. split; [assumption|]. split; [now rewrite rewritten_kind|exact KC].
Qed.

Lemma gj_geoms gs : gj_fits (ShGeoms gs) <-> Forall gj_fits gs.
Proof.
  induction gs as [|s gs IH]; [split; [constructor|easy]|]. rewrite Forall_cons_iff. split.
  - intros [F R]. split; [assumption|now apply IH].
  - intros [F R]. split; [assumption|now apply IH].
Qed.
Lemma arr_longer l : Forall (fun t : list Z => (length t < length (arr l))%nat) l.
Proof.
  unfold arr. apply Forall_forall. intros t Ht. cbn [length]. rewrite app_length. cbn [length].
  enough (length t <= length (join 44 l))%nat by lia.
  induction l as [|a l IH]; [contradiction|]. destruct l as [|b l].
  - destruct Ht as [<-|[]]. cbn. lia.
  - change (join 44 (a :: b :: l)) with (a ++ 44 :: join 44 (b :: l)). rewrite app_length. cbn [length].
    destruct Ht as [<-|Ht]; [lia|]. specialize (IH Ht). lia.
Qed.

Lemma collection_body m f gs c x s kids :
  let g := GGMulti MGeoms f gs c x in
  Forall (opt_all (fun g => forall s N, shape_of g = Some s -> geom_made g ->
    Forall (fun x => coord x) (coords_of s) -> gj_fits (shape_map rd s) -> buildable e ix (shape_map rd s) ->
    carries (m - 2) g N -> good (m - 2) g s N)) (match gs with Some l => l | None => [] end) ->
  geom_made g -> shape_of g = Some s ->
  Forall (fun x => coord x) (coords_of s) -> gj_fits (shape_map rd s) -> buildable e ix (shape_map rd s) ->
  carries_kids m g kids -> (levels g <= m)%nat -> body_good m g s kids.
Proof.
  intros g IH HM HS HC HF HB HK HL. set (l := match gs with Some l => l | None => [] end) in *.
  set (fc := is_feature_col f).
  assert (HS' : exists ss, s = ShGeoms ss /\ Forall2 (fun (o : option geom) s => match o with Some g => shape_of g | None => None end = Some s) l ss).
  { unfold g in HS. cbn [shape_of] in HS. destruct (is_xy f); [|discriminate].
    destruct HK as (_ & KE & _). unfold l. destruct gs as [gs|].
    - destruct (is_empty f).
      + specialize (KE eq_refl). destruct gs; [|contradiction]. injection HS as <-. exists []. split; [reflexivity|constructor].
      + destruct (all_some _) as [ss|] eqn:Ea; [|discriminate]. injection HS as <-. exists ss. split; [reflexivity|].
        now apply all_some_map in Ea.
    - injection HS as <-. exists []. split; [reflexivity|constructor]. }
  destruct HS' as (ss & -> & HS').
  assert (KC : kids_carry (m - 2) fc l kids).
  { destruct HK as (_ & _ & HK). unfold l. destruct gs; [exact HK|]. subst kids. exact I. }
  assert (HMl : Forall (opt_all geom_made) l).
  { unfold l. destruct gs as [gs|]; [|constructor]. now apply made_multi in HM. }
  cbn [coords_of] in HC. apply Forall_concat in HC. rewrite Forall_map in HC.
  cbn [shape_map] in HF. apply gj_geoms in HF. rewrite Forall_map in HF.
  assert (HBl : Forall (fun s => buildable e ix (shape_map rd s)) ss).
  { apply Forall_forall. intros s Hs r Hr. apply HB. cbn [shape_map rings_of]. apply in_concat.
    exists (rings_of (shape_map rd s)). split; [|assumption]. apply in_map. now apply in_map. }
  set (okf := if fc then is_feature else not_feature).
  set (msg := if fc then str "'features' must only contain objects with the 'type' of Feature"
              else str "'geometries' must only contain objects with the 'type' of Point, LineString, Polygon, MultiPoint, MultiLineString, MultiPolygon, or GeometryCollection").
  assert (OK : forall g N, carries (m - 2) g N -> kind_of N = (if fc then Feature else Geometry) -> okf (geom_flags g) = true).
  { intros g0 N C K. destruct (carries_kind _ _ _ C) as [_ K']. rewrite K' in K. unfold kind_flags in K. unfold okf, not_feature.
    destruct fc, (is_feature (geom_flags g0)), (is_feature_col (geom_flags g0)); cbn; congruence. }
  destruct (kids_good fc (m - 2) l okf msg OK IH ss kids HS' HMl HC HF HBl KC) as (ts & TY & SD & RD).
  cbn [levels g] in HL.
  assert (TG : target g = if fc then str "features" else str "geometries") by reflexivity.
  exists (if fc then str "FeatureCollection" else str "GeometryCollection"), (arr ts).
  split; [destruct fc; cbn; tauto|]. split; [|split; [|split]].
  - cbn [gbody g]. rewrite TG.
    replace (match gs with None => wskip | Some l => _ end)
      with (wsep wcomma (map (fun o : option geom => match o with Some g => write_geom_geojson fixed g | None => wundef end) l))
      by (unfold l; destruct gs; reflexivity).
    unfold geojson_multi_head. fold fc.
    destruct fc; (apply types_multi; [reflexivity|reflexivity|]; apply types_sep; [lia|assumption]).
  - eexists; reflexivity.
  - apply (sound_mono (S (m - 2))); [now apply arr_sound|lia].
  - intros fuel j t own req D M O LF. rewrite TG in *.
    destruct (take_core (m - 1) j t (if fc then str "features" else str "geometries")
       (if fc then str "FeatureCollection" else str "GeometryCollection") (arr ts) own D
       ltac:(destruct fc; cbn; tauto) M O ltac:(eexists; reflexivity)) as (jc & DC & TK).
    assert (SJ : Forall (jvalue (m - 2)) ts) by (eapply Forall_impl; [|exact SD]; intros ? []; assumption).
    destruct (arr_items _ _ _ DC SJ) as (js & IT & DJ). pose proof (arr_first _ _ _ DC SJ) as EF.
    assert (LT : Forall (fun t => (length t < fuel)%nat) ts).
    { eapply Forall_impl; [|apply arr_longer]. cbv beta. intros. lia. }
    destruct (RD fuel js DJ LT) as (gs' & P & SH & KC').
    set (em := match ts with [] => true | _ => false end).
    set (f' := Flags false false false em false fc false false).
    assert (EM : em = true -> gs' = []).
    { intros E. unfold em in E. destruct ts; [|discriminate]. inversion DJ; subst. injection P as <-. reflexivity. }
    exists (GGMulti MGeoms f' (Some (map Some gs')) [] (extra_of own)).
    split; [|split; [|split; [intros; exact I|]; do 6 (split; [reflexivity|])]].
    + rewrite (parse_typed e ix (m - 1) fuel j t (if fc then str "FeatureCollection" else str "GeometryCollection") _ req D
        ltac:(destruct fc; cbn; tauto) M).
      transitivity (if fc then parse_geojson_featurecollection (fun v => parse_geojson e ix fuel v false) j
        else parse_geojson_geometrycollection (fun v => parse_geojson e ix fuel v false) j).
      { destruct fc; reflexivity. }
      unfold parse_geojson_featurecollection, parse_geojson_geometrycollection.
      assert (BT : forall F, F = (if fc then set_feature_col fl0 else fl0) ->
        basic_tail (Taken jc (negb (json_exists (json_first jc))) false false (extra_of own)) (GGMulti MGeoms F (Some (map Some gs')) [] None)
        = Ok (GGMulti MGeoms f' (Some (map Some gs')) [] (extra_of own))).
      { intros F ->. unfold basic_tail. cbn [t_extra t_empty t_null t_unlocated]. rewrite EF. unfold f', em.
        destruct (extra_of own), fc, ts; reflexivity. }
      unfold okf, msg in P. destruct fc; rewrite TK; cbn [obind t_target]; rewrite IT; cbn [obind]; rewrite P; cbn [obind];
        now apply BT.
    + cbn [shape_of f' is_xy has_z has_m is_empty orb negb]. change (is_xy f') with true. cbv iota.
      destruct em eqn:Ee.
      * rewrite EM in SH by reflexivity. injection SH as SH. cbn [option_map]. cbn [shape_map gj_back]. rewrite map_map.
        now rewrite <- SH.
      * rewrite SH. cbn [option_map shape_map gj_back]. now rewrite map_map.
    + apply (proj2 (carries_split _ _ _ _ _ _ _ _)). split.
      * unfold carries_all, kind_flags. cbv zeta. cbn [geom_flags f' is_feature is_feature_col is_error xjson_of levels].
        split; [reflexivity|]. split; [reflexivity|]. do 2 (split; [reflexivity|]). split; [discriminate|].
        split; [|split; [exact O|lia]]. split; [|reflexivity]. apply extra_members.
        pose proof (members_of_ok _ _ _ M) as PO. inversion_clear PO as [|? ? _ PO']. inversion_clear PO' as [|? ? _ PO]. exact PO.
      * cbn [carries_kids f' is_feature is_feature_col is_empty geom_flags]. split; [discriminate|]. split; [|exact KC'].
        intros E. now rewrite (EM E).
Qed.

(** ** The members around the geometry *)

Lemma names_are_plain T : In T type_names -> plain T.
Proof. intros H. apply names_plain. do 3 right. apply in_or_app. now left. Qed.
Lemma target_plain g : plain (target g).
Proof.
  destruct g as [| | | | | |t f gs c x]; try (now apply plainly). destruct t; try (now apply plainly).
  cbn [target]. destruct (is_feature_col f); now apply plainly.
Qed.
Lemma merged_length T tn C own x : (length C <= length (merged T tn C own x))%nat.
Proof.
  unfold merged, core, pair_text.
  destruct own, x; cbn [length fst snd app]; repeat (rewrite ?app_length; cbn [length]); lia.
Qed.
Lemma merged_brace T tn C own x : exists u, merged T tn C own x = 123 :: u.
Proof. unfold merged, core. destruct own, x; eexists; reflexivity. Qed.

Lemma merged_sound n T tn C own x names : (0 < n)%nat -> members_of n x own -> others names own -> plain T -> plain tn ->
  sound n C -> sound (S n) (merged T tn C own x).
Proof.
  intros N M O PT PN SC. pose proof (merged_members n T tn C own x M PT PN (proj1 SC) N) as MM.
  apply (object_sound n _ _ MM). constructor; [|constructor].
  - apply plain_pair; [now apply plainly|now apply qt_sound].
  - now apply plain_pair.
  - apply (others_lax n names); [assumption|]. now apply (members_of_ok n x).
Qed.

Lemma no_plain_extra g : ~ base_geom g -> xjson_of g = None.
Proof. destruct g; cbn; tauto. Qed.
Definition based (g : geom) : bool := match g with GPoint _ _ | GLine _ _ | GPoly _ _ => false | _ => true end.
Lemma write_geom_based g : write_geom_geojson fixed g =
  if based g then write_base_geom_geojson (geom_flags g) (xjson_of g) (gbody fixed g)
  else write_plain_feature (geom_flags g) (gbody fixed g).
Proof. rewrite write_geom_body. destruct g; reflexivity. Qed.
Lemma based_not g : based g = false -> xjson_of g = None.
Proof. destruct g; cbn; congruence. Qed.

Lemma types_around a b c t : types (a ;; b) t -> types c [] -> types (a ;; b ;; c) t.
Proof.
  intros H K. apply types_assoc. eapply types_eq; [apply types_seq; eassumption|]. apply app_nil_r.
Qed.

Lemma wrap_geometry n g s kids null un own inner k : is_feature (geom_flags g) = false ->
  carries n g (Notes k null un own inner kids) -> body_good n g s kids ->
  good n g s (Notes k null un own inner kids).
Proof.
  intros NF C (T & CT & IT & TY & CB & SC & RB). apply carries_split in C. destruct C as [C _].
  unfold carries_all, kind_flags in C. cbv zeta in C. rewrite NF in C. cbn [andb] in C.
  destruct C as (ER & -> & -> & -> & _ & [MX ->] & OT & LV).
  assert (L2 : (2 <= n)%nat) by (destruct g as [| | | | | |[]]; cbn [levels] in LV; lia).
  set (t := merged T (target g) CT own (xjson_of g)).
  pose proof (merged_members (n - 1) T (target g) CT own (xjson_of g) MX (names_are_plain _ IT) (target_plain g) (proj1 SC)
    ltac:(lia)) as MM.
  exists t. split; [|split; [|split]].
  - rewrite write_geom_based. unfold t. destruct (based g) eqn:Eb.
    + unfold write_base_geom_geojson. rewrite ER, NF. cbn [andb].
      destruct (extra_tokens false (xjson_of g)) as [fj gj] eqn:EX.
      apply (types_seq _ _ []); [apply types_skip|]. apply types_around; [|apply types_skip].
      apply (types_extra num _ (n - 1)); [assumption|assumption|].
      unfold extra_tokens in EX. destruct (xjson_of g) as [x|]; [|now injection EX as _ <-].
      injection EX as _ <-. apply den_ensure. apply (root_den n).
      replace n with (S (n - 1))%nat by lia. now apply (object_jvalue _ _ own).
    + pose proof (based_not g Eb) as EX. rewrite EX in *. cbn in MX. subst own.
      unfold write_plain_feature. rewrite NF. exact TY.
  - replace n with (S (n - 1))%nat by lia.
    apply (merged_sound _ _ _ _ _ _ [str "type"; target g]); auto using names_are_plain, target_plain. lia.
  - apply merged_brace.
  - intros fuel j D LF. pose proof (merged_length T (target g) CT own (xjson_of g)) as ML. fold t in ML.
    destruct (RB fuel j t own false D MM OT ltac:(lia)) as (g' & P & SH & _ & _ & _ & _ & _ & _ & _ & CA).
    exists g'. split; [assumption|]. split; [assumption|].
    cbn [rewritten]. destruct (is_feature_col (geom_flags g)); exact CA.
Qed.

(** a feature made of a geometry *)
Lemma wrap_read n g1 own null inner kids x :
  carries (n - 1) g1 (Notes Geometry false false inner [] kids) -> is_feature (geom_flags g1) = false ->
  is_feature_col (geom_flags g1) = false -> is_unlocated (geom_flags g1) = false -> has_null_props (geom_flags g1) = false ->
  xjson_of g1 = extra_of inner -> (own <> [] -> base_geom g1) ->
  Forall (pair_ok (n - 1)) own -> feature_ok (n - 1) own -> (null = true -> filter (key_is (str "properties")) own = []) ->
  x = combine_extra (extra_of own) (geom_xjson g1) -> (2 < n)%nat ->
  exists g', set_xjson x (with_flags (with_flags g1 (set_feature (geom_flags g1)))
      (add_flags false null false (geom_flags (with_flags g1 (set_feature (geom_flags g1)))))) = Ok g' /\
    shape_of g' = shape_of g1 /\ carries n g' (Notes Feature null false own inner kids).
Proof.
  intros C NF NC NU NN XI BG PO FO NP EX N2. change (geom_xjson g1) with (xjson_of g1) in EX. rewrite XI in EX.
  apply carries_split in C. destruct C as [C CK]. unfold carries_all, kind_flags in C. cbv zeta in C. rewrite NF in *.
  destruct C as (ER & _ & _ & _ & _ & [MI _] & OI & LV).
  assert (PI : Forall (pair_ok (n - 2)) inner).
  { replace (n - 2)%nat with (n - 1 - 1)%nat by lia. now apply (members_of_ok _ _ _ MI). }
  assert (X2 : x = None \/ base_geom g1).
  { destruct own as [|p own]; [|right; apply BG; discriminate]. destruct inner as [|p inner]; [now left|right].
    destruct g1; cbn in XI; try discriminate; exact I. }
  set (F := add_flags false null false (set_feature (geom_flags g1))).
  assert (GG : with_flags (with_flags g1 (set_feature (geom_flags g1)))
      (add_flags false null false (geom_flags (with_flags g1 (set_feature (geom_flags g1))))) = with_flags g1 F).
  { destruct g1; reflexivity. }
  rewrite GG. destruct (flags_kept g1 F) as (LK & XK & FK & BK).
  assert (EQ : exists g', set_xjson x (with_flags g1 F) = Ok g').
  { destruct X2 as [->|B]; [eexists; reflexivity|]. now apply set_xjson_base, BK. }
  destruct EQ as [g' SX]. exists g'. split; [assumption|].
  destruct (shape_xjson _ _ _ SX) as (SH & GF & LG & TG & XG & KG & _).
  rewrite FK in GF. rewrite XK in XG.
  assert (TF : target (with_flags g1 F) = target g1) by (apply target_kept; reflexivity).
  split; [rewrite SH; apply shape_flags; cbn; rewrite ?orb_false_r; reflexivity|].
  apply carries_split. rewrite GF. cbn [F is_feature add_flags set_feature]. split.
  - unfold carries_all, kind_flags. cbv zeta. rewrite GF. unfold F.
    cbn [is_error is_feature is_feature_col has_null_props is_unlocated add_flags set_feature].
    rewrite ER, NN, NU. cbn [orb andb]. split; [reflexivity|]. split; [reflexivity|]. do 2 (split; [reflexivity|]).
    split; [discriminate|]. rewrite LG, LK, TG, TF. split; [|split; [|lia]].
    + rewrite XG. unfold extra_is. subst x. destruct inner as [|p inner].
      * left. split; [|reflexivity]. cbn [extra_of combine_extra]. rewrite XI.
        destruct own; [reflexivity|]. now apply obj_members.
      * right. set (x1 := obj (p :: inner)). set (x0 := obj own).
        assert (M0 : members_of (n - 1) (Some x0) own) by now apply obj_members.
        assert (M1 : members_of (n - 2) (Some x1) (p :: inner)) by now apply obj_members.
        destruct (arr_parts n [x0; x1]) as (ps & AI & PS).
        { constructor; [|constructor; [|constructor]].
          - replace n with (S (n - 1))%nat by lia. now apply (object_jvalue _ _ own).
          - apply (jvalue_mono (S (n - 2))); [now apply (object_jvalue _ _ (p :: inner))|lia]. }
        destruct ps as [|[a r1] [|[b r2] [|? ?]]]; try discriminate. injection PS as -> ->.
        exists n, (arr [x0; x1]), x0, x1, r1, r2. split; [|split; [assumption|now split]].
        unfold combine_extra. cbn [extra_of]. f_equal. fold x1. unfold arr. cbn [join]. unfold x0.
        destruct own as [|q own]; [cbn; reflexivity|]. cbn [extra_of]. unfold obj. cbn [app]. rewrite <- ?app_assoc. reflexivity.
    + split; [assumption|]. split; [assumption|]. exact NP.
  - apply KG. apply kids_kept; [assumption|assumption| |assumption]. cbn. now rewrite orb_false_r.
Qed.

Lemma fpairs_Forall (P : pair -> Prop) G own null : P (str "type", qt (str "Feature")) -> P (str "geometry", G) ->
  P (props_pair null) -> Forall P own -> Forall P (fpairs G own null).
Proof.
  intros A B C F. unfold fpairs. constructor; [exact A|]. apply Forall_app. split; [now apply Forall_filter|].
  constructor; [exact B|]. apply Forall_app. split; [now apply Forall_filter|]. unfold last_pair.
  destruct (has_props own); [constructor|]. constructor; [exact C|constructor].
Qed.
Lemma lit_sound n l : In l [str "null"; str "{}"] -> (1 < n)%nat -> sound n l.
Proof.
  intros H N. destruct n as [|[|n]]; try lia. destruct H as [<-|[<-|[]]].
  - split; apply v_lit; cbn; tauto.
  - apply (object_sound (S n) _ []); [|constructor]. exact (obj_members (S n) [] (Forall_nil _)).
Qed.
Lemma no_props own : filter (key_is (str "properties")) own = [] -> has_props own = false.
Proof.
  unfold has_props. induction own as [|p own IH]; [reflexivity|]. cbn [filter existsb].
  destruct (key_is (str "properties") p); [discriminate|]. exact IH.
Qed.
Lemma no_props_perm a b : Permutation a b -> filter (key_is (str "properties")) a = [] -> filter (key_is (str "properties")) b = [].
Proof. intros P E. apply filter_perm with (f := key_is (str "properties")) in P. rewrite E in P. now apply Permutation_nil in P. Qed.

Section Wrap.
Variable n : nat.
Variable g : geom.
Variable s : shape.
Variable kids : list notes.
Variables null un : bool.
Variables own inner : list pair.
Variable k : kind.
Hypothesis IF : is_feature (geom_flags g) = true.
Hypothesis CA : carries n g (Notes k null un own inner kids).
Variable G : list Z.

Lemma feature_sound : (2 < n)%nat -> sound (n - 1) G ->
  sound n (obj (fpairs G own null)) /\ members_of (n - 1) (Some (obj (fpairs G own null))) (fpairs G own null).
Proof.
  intros N2 SG. apply carries_split in CA. destruct CA as [C _].
  unfold carries_all, kind_flags in C. cbv zeta in C. rewrite IF in C. cbn [andb] in C.
  destruct C as (ER & K & E1 & E2 & _ & EX & (FO & OI & NP) & LV).
  destruct (tokens_of n (xjson_of g) own inner EX) as (gx & FT & _).
  assert (PO : Forall (pair_ok (n - 1)) own).
  { destruct FT as [[_ ->]|(t & _ & M)]; [constructor|now apply members_of_ok in M]. }
  assert (PT : plain (str "type")) by now apply plainly.
  assert (PG : plain (str "geometry")) by now apply plainly.
  assert (PP : plain (str "properties")) by now apply plainly.
  assert (SP : sound (n - 1) (if null then str "null" else str "{}")).
  { apply lit_sound; [destruct null; cbn; tauto|lia]. }
  assert (ST : sound (n - 1) (qt (str "Feature"))) by (apply qt_sound; [now apply plainly|lia]).
  assert (M : members_of (n - 1) (Some (obj (fpairs G own null))) (fpairs G own null)).
  { apply obj_members. apply fpairs_Forall; try (apply plain_pair; assumption). exact PO. }
  split; [|exact M]. replace n with (S (n - 1))%nat at 1 by lia. apply (object_sound (n - 1) _ _ M).
  apply fpairs_Forall; try (apply plain_pair; assumption).
  apply (others_lax _ [str "type"; str "geometry"]); [exact (proj1 FO)|exact PO].
Qed.

Lemma feature_types : types ((if un then write_string (str "null") else gbody fixed g) ;;
    write_geometry_extra (snd (extra_tokens true (xjson_of g)))) G ->
  (based g = false -> types (gbody fixed g) G) ->
  types (write_geom_geojson fixed g) (obj (fpairs G own null)).
Proof.
  intros HB HP. apply carries_split in CA. destruct CA as [C _].
  unfold carries_all, kind_flags in C. cbv zeta in C. rewrite IF in C. cbn [andb] in C.
  destruct C as (ER & K & E1 & E2 & _ & EX & (FO & OI & NP) & LV).
  rewrite write_geom_based, feature_text. destruct (based g) eqn:Eb.
  - unfold write_base_geom_geojson. rewrite ER, IF. cbn [andb]. rewrite <- E2.
    destruct (tokens_of n (xjson_of g) own inner EX) as (gx & FT & MI & DI).
    destruct (extra_tokens true (xjson_of g)) as [fj gj]. cbn [fst snd] in *.
    apply types_seq.
    + apply (types_head (n - 1)); [assumption| |].
      * eapply Forall_impl; [apply member_spelt|]. now apply (feature_member (n - 1)).
      * exact (proj1 (proj2 FO)).
    + apply types_assoc. apply types_seq; [exact HB|].
      apply (types_tail (n - 1)); [assumption|]. intros _. exact E1.
  - pose proof (based_not g Eb) as EN. rewrite EN in EX.
    assert (EO : own = []) by (destruct EX as [[M _]|(? & ? & ? & ? & ? & ? & D & _)]; [exact M|discriminate]).
    subst own. unfold write_plain_feature. rewrite IF.
    change (head_text []) with (qstr "{'type':'Feature','geometry':"). apply types_seq; [now apply types_lit|].
    apply types_seq; [now apply HP|]. rewrite E1.
    destruct (has_null_props (geom_flags g)); (eapply types_eq; [apply types_seq; now apply types_lit|reflexivity]).
Qed.

Lemma feature_read fuel j : members_of (n - 1) (Some (obj (fpairs G own null))) (fpairs G own null) ->
  den j (obj (fpairs G own null)) -> (exists u, G = 123 :: u) \/ G = str "null" ->
  exists jg, den jg G /\ parse_geojson e ix (S fuel) j false =
    let u := match G with 110 :: _ => true | _ => false end in
    let x := extra_of (id_first own) in
    obind (if u then Ok tg_geom_new_point_empty
           else parse_geojson e ix fuel jg (match x with Some _ => true | None => false end)) (fun g =>
    if not_feature (geom_flags g) then
      let g := with_flags g (set_feature (geom_flags g)) in
      basic_tail (Taken jg u null u (combine_extra x (geom_xjson g))) g
    else Err (str "'geometry' must only contain an object with the 'type' of Point, LineString, Polygon, MultiPoint, MultiLineString, MultiPolygon, or GeometryCollection")).
Proof.
  intros M D HG. apply carries_split in CA. destruct CA as [C _].
  unfold carries_all, kind_flags in C. cbv zeta in C. rewrite IF in C. cbn [andb] in C.
  destruct C as (ER & K & E1 & E2 & _ & EX & (FO & OI & NP) & LV).
  destruct (take_feature (n - 1) _ own null G j M D FO (fun H => no_props _ (NP H)) HG) as (jg & DG & TK).
  exists jg. split; [assumption|].
  rewrite (parse_typed e ix (n - 1) fuel j _ (str "Feature") _ false D ltac:(cbn; tauto) M).
  change (dispatch e ix fuel (str "Feature") j false)
    with (parse_geojson_feature (fun v req => parse_geojson e ix fuel v req) j).
  unfold parse_geojson_feature. rewrite TK. reflexivity.
Qed.
End Wrap.

Lemma wrap_feature n g s kids null un own inner k : is_feature (geom_flags g) = true ->
  carries n g (Notes k null un own inner kids) -> shape_of g = Some s -> (un = false -> body_good (n - 1) g s kids) ->
  good n g s (Notes k null un own inner kids).
Proof.
  intros IF CA HS HB. pose proof CA as C. apply carries_split in C. destruct C as [C CK].
  unfold carries_all, kind_flags in C. cbv zeta in C. rewrite IF in C, CK. cbn [andb] in C.
  destruct C as (ER & -> & E1 & E2 & EU & EX & (FO & OI & NP) & LV).
  assert (N2 : (2 < n)%nat) by (destruct g as [| | | | | |[]]; cbn [levels] in LV; lia).
  pose proof (tokens_of n (xjson_of g) own inner EX) as (gx & FT & MI & DI).
  assert (PO : Forall (pair_ok (n - 1)) (id_first own)).
  { apply (Permutation_Forall (Permutation_sym (id_first_perm own))).
    destruct FT as [[_ ->]|(t & _ & M)]; [constructor|now apply members_of_ok in M]. }
  assert (FO' : feature_ok (n - 1) (id_first own)).
  { apply (feature_ok_perm _ own); [|assumption]. apply Permutation_sym, id_first_perm. }
  assert (NP' : null = true -> filter (key_is (str "properties")) (id_first own) = []).
  { intros H. apply (no_props_perm own); [|now apply NP]. apply Permutation_sym, id_first_perm. }
  destruct un eqn:EUN.
  - destruct (EU eq_refl) as [-> GE]. destruct g as [| | |f p z m x| | |]; try contradiction.
    cbn [geom_flags] in *. cbn [shape_of] in HS. rewrite GE in HS. injection HS as <-.
    destruct (feature_sound n (GGPoint f p z m x) kids null true own [] Feature IF CA (str "null") N2) as [SD MM].
    { apply lit_sound; [cbn; tauto|lia]. }
    exists (obj (fpairs (str "null") own null)). split; [|split; [assumption|split]].
    + apply (feature_types n (GGPoint f p z m x) kids null true own [] Feature IF CA); [|discriminate].
      eapply types_eq; [apply types_seq; [now apply types_lit|]|apply app_nil_r].
      revert DI. generalize (snd (extra_tokens true (xjson_of (GGPoint f p z m x)))). intros gj DI.
      assert (WX : write_geometry_extra gj = wskip); [|rewrite WX; apply types_skip].
      unfold write_geometry_extra. destruct gx as [y|]; [|now subst gj].
      rewrite (object_first _ _ _ _ MI DI). now rewrite andb_false_r.
    + rewrite feature_text. eexists; reflexivity.
    + intros fuel j D LF.
      destruct (feature_read n (GGPoint f p z m x) kids null true own [] Feature IF CA (str "null") fuel j MM D (or_intror eq_refl))
        as (jg & DG & ->). cbv zeta.
      exists (GGPoint (Flags false false false true true false null true) pt0 f_zero f_zero (extra_of (id_first own))).
      split; [|split; [reflexivity|]].
      * change (match str "null" with 110 :: _ => true | _ => false end) with true. cbv iota. cbn [obind].
        change (not_feature (geom_flags tg_geom_new_point_empty)) with true. cbv iota. unfold basic_tail.
        cbn [t_extra t_empty t_null t_unlocated]. cbn [geom_xjson with_flags tg_geom_new_point_empty combine_extra].
        destruct (extra_of (id_first own)); reflexivity.
      * apply (proj2 (carries_split _ _ _ _ _ _ _ _)). destruct CK as [CF KN]. subst kids. split; [|split; reflexivity].
        unfold carries_all, kind_flags. cbv zeta. cbn [geom_flags is_feature is_feature_col is_error has_null_props is_unlocated xjson_of levels andb target].
        do 4 (split; [reflexivity|]). split; [intros _; split; reflexivity|]. split; [|split; [|exact LV]].
        -- left. split; [|reflexivity]. now apply extra_members.
        -- split; [assumption|]. split; [constructor|assumption].
  - destruct (HB eq_refl) as (T & CT & IT & TY & CB & SC & RB).
    assert (FC : is_feature_col (geom_flags g) = false) by (apply (carries_nocol (n - 1) g kids); assumption).
    set (GT := merged T (target g) CT inner gx).
    replace (n - 1 - 1)%nat with (n - 2)%nat in SC by lia.
    assert (SG : sound (n - 1) GT).
    { replace (n - 1)%nat with (S (n - 2)) by lia.
      apply (merged_sound _ _ _ _ _ _ [str "type"; target g]); auto using names_are_plain, target_plain. lia. }
    destruct (feature_sound n g kids null false own inner Feature IF CA GT N2 SG) as [SD MM].
    destruct (merged_brace T (target g) CT inner gx) as [u EG]. fold GT in EG.
    exists (obj (fpairs GT own null)). split; [|split; [assumption|split]].
    + apply (feature_types n g kids null false own inner Feature IF CA).
      * apply (types_extra num _ (n - 2)); assumption.
      * intros Eb. rewrite (based_not g Eb) in EX.
        assert (EI : inner = []) by (destruct EX as [[_ M]|(? & ? & ? & ? & ? & ? & D & _)]; [exact M|discriminate]).
        unfold GT. rewrite EI. exact TY.
    + rewrite feature_text. eexists; reflexivity.
    + intros fuel j D LF.
      destruct (feature_read n g kids null false own inner Feature IF CA GT fuel j MM D (or_introl (ex_intro _ _ EG)))
        as (jg & DG & ->). cbv zeta.
      replace (match GT with 110 :: _ => true | _ => false end) with false by (rewrite EG; reflexivity). cbv iota.
      assert (LG : (length GT < length (obj (fpairs GT own null)))%nat).
      { rewrite feature_text, !app_length. unfold head_text. cbn [length]. lia. }
      destruct fuel as [|fuel]; [lia|].
      pose proof (merged_length T (target g) CT inner gx) as ML. fold GT in ML.
      pose proof (merged_members (n - 2) T (target g) CT inner gx MI (names_are_plain _ IT) (target_plain g) (proj1 SC)
        ltac:(lia)) as MG. fold GT in MG. replace (n - 2)%nat with (n - 1 - 1)%nat in MG by lia.
      destruct (RB fuel jg GT inner (match extra_of (id_first own) with Some _ => true | None => false end) DG MG OI ltac:(lia))
        as (g1 & P & SH & RQ & XI & F1 & F2 & F3 & F4 & TG & C1).
      rewrite P. cbn [obind]. unfold not_feature. rewrite F1, F2, FC. cbn [negb andb]. rewrite FC in C1, F2.
      unfold basic_tail. cbn [t_extra t_empty t_null t_unlocated].
      destruct (wrap_read n g1 (id_first own) null inner (map rewritten kids)
        (combine_extra (extra_of (id_first own)) (geom_xjson (with_flags g1 (set_feature (geom_flags g1)))))) as (g' & SX & SH' & C');
        try assumption.
      { intros NE. apply RQ. now destruct (id_first own). }
      { f_equal. now destruct g1. }
      exists g'. split; [exact SX|]. split; [now rewrite SH'|]. exact C'.
Qed.

(** ** All geometries *)

Lemma all_good g : forall n s N, shape_of g = Some s -> geom_made g ->
  Forall (fun x => coord x) (coords_of s) -> gj_fits (shape_map rd s) -> buildable e ix (shape_map rd s) ->
  carries n g N -> good n g s N.
Proof.
  assert (W : forall g, (forall m s kids, shape_of g = Some s -> geom_made g ->
      Forall (fun x => coord x) (coords_of s) -> gj_fits (shape_map rd s) -> buildable e ix (shape_map rd s) ->
      carries_kids m g kids -> (levels g <= m)%nat -> body_good m g s kids) ->
    forall n s N, shape_of g = Some s -> geom_made g ->
      Forall (fun x => coord x) (coords_of s) -> gj_fits (shape_map rd s) -> buildable e ix (shape_map rd s) ->
      carries n g N -> good n g s N).
  { clear g. intros g B n s [k null un own inner kids] HS HM HC HF HB CA.
    pose proof CA as C. apply carries_split in C. destruct C as [C CK].
    destruct C as (_ & _ & _ & _ & _ & _ & _ & LV).
    destruct (is_feature (geom_flags g)) eqn:EF.
    - apply wrap_feature; auto.
    - apply wrap_geometry; auto. }
  induction g as [f p|f l|f p|f p z m x|f l c x|f p c x|t f c x|t f gs c x IH] using geom_ind_deep; apply W.
  1-6: intros; apply simple_body; auto; intros [].
  - intros m s kids HS HM HC HF HB CK LV. destruct t; try solve [apply simple_body; auto; intros []].
    apply collection_body; auto.
  - intros m s kids HS HM HC HF HB CK LV. destruct t; try solve [apply simple_body; auto; intros []].
    apply collection_body; auto. eapply Forall_impl; [|exact IH]. intros [g|]; cbn [opt_all]; [|auto]. auto.
Qed.
End Trip.

(** ** Numbers *)

Lemma number_of_form t : num_form t -> number t.
Proof.
  intros (neg & ip & fp & ex & -> & DI & NI & HI & DF & HE).
  assert (DG : forall l, NumFacts.digits l -> Forall (fun b => SpecJson.digit b = true) l).
  { intros l. apply Forall_impl. intros b. unfold NumFacts.digit, SpecJson.digit. lia. }
  assert (I : integer ip).
  { destruct HI as [->|HI]; [constructor|]. apply int_pos; [split; [assumption|now apply DG]|assumption]. }
  assert (F : fraction (frac_chars fp)).
  { unfold frac_chars. destruct fp as [|a fp]; [constructor|].
    change (str "." ++ a :: fp) with (46 :: a :: fp). constructor. split; [discriminate|now apply DG]. }
  assert (E : exponent ex).
  { destruct HE as [->|(v & V & ->)]; [constructor|]. unfold exp_chars.
    destruct (exp_digits_ok (Z.abs v) ltac:(lia)) as (A & _ & C).
    destruct (v <? 0); cbn [app].
    - change (str "-" ++ ?l) with (45 :: l). apply exp_sign; [now left|now right|]. split; [assumption|now apply DG].
    - apply exp_some; [now left|]. split; [assumption|now apply DG]. }
  destruct neg; cbn [sgn].
  - change (str "-" ++ ?l) with (45 :: l). now apply number_neg.
  - exact (number_pos ip (frac_chars fp) ex I F E).
Qed.

Lemma reads_readable num rd x : reads_as (num x) (rd x) -> readable num rd x.
Proof.
  intros (F & R & L). split; [now apply number_of_form|]. unfold parse_double.
  replace (512 <=? length (num x))%nat with false by lia.
  specialize (R [] I). rewrite app_nil_r in R. now rewrite R.
Qed.

Lemma flush_ok fixed x : f_wf x = true ->
  types (write_string_double fixed x) (num_text fixed x) /\ readable (num_text fixed) flushed x.
Proof.
  intros W. unfold flushed at 1.
  assert (H : types (write_string_double fixed x) (num_text fixed x) /\ reads_as (num_text fixed x) (flushed x)).
  { destruct (f_isnormal x) eqn:N.
    - assert (P : prints x) by (split; [assumption|]; split; [now left|]; intros _ _; now apply d2d_always_good).
      destruct (prints_ok fixed x P) as [T R]. split; [assumption|]. rewrite back_plain in R by now left.
      unfold flushed. rewrite N. unfold plus_zero in R. destruct (Z.eqb_spec x minus_zero) as [->|]; [discriminate|exact R].
    - unfold num_text, flushed. rewrite N. split; [now apply types_zero|apply reads_zero]. }
  destruct H as [T R]. split; [assumption|now apply reads_readable].
Qed.

Lemma flush_wf x : 0 <= x < 2 ^ 64 -> 0 <= flushed x < 2 ^ 64.
Proof. unfold flushed. destruct (f_isnormal x); lia. Qed.
Lemma flush_eq x y : 0 <= x < 2 ^ 64 -> 0 <= y < 2 ^ 64 -> feqb x y = true -> feqb (flushed x) (flushed y) = true.
Proof.
  intros X Y E. unfold flushed.
  assert (M : forall z, 0 <= z < 2 ^ 64 -> 0 <= f_mag z).
  { intros z Hz. unfold f_mag, f_sign. change p63 with 9223372036854775808. destruct (Z.leb_spec 9223372036854775808 z); lia. }
  assert (N : f_isnormal x = f_isnormal y).
  { specialize (M x X) as MX. specialize (M y Y) as MY. unfold feqb, f_key, f_isnormal in *.
    assert (K : (if f_sign x then - f_mag x else f_mag x) = (if f_sign y then - f_mag y else f_mag y)) by lia.
    assert (G : f_mag x = f_mag y) by (destruct (f_sign x), (f_sign y); lia). now rewrite G. }
  rewrite <- N. destruct (f_isnormal x); [exact E|reflexivity].
Qed.
Lemma flush_ring d ps : ring_ok d ps -> ring_ok d (map (map flushed) ps).
Proof.
  intros (A & B & C & D). split; [now apply fits_posns, A; apply flush_wf|]. rewrite map_length. split; [assumption|].
  split; [assumption|]. cbv zeta in *.
  replace (hd [] (map (map flushed) ps)) with (map flushed (hd [] ps)) by (destruct ps; reflexivity).
  change (last (map (map flushed) ps) []) with (last (map (map flushed) ps) (map flushed [])). rewrite last_map.
  change (@nth f64) with (@nth Z). 
  assert (NW : forall p k, In p ps \/ p = [] -> 0 <= nth k p 0 < 2 ^ 64).
  { intros p k [Hp| ->]; [|destruct k; cbn; lia]. rewrite Forall_forall in A. destruct (A p Hp) as [_ W].
    rewrite Forall_forall in W. destruct (nth_in_or_default k p 0) as [H| ->]; [now apply W|lia]. }
  assert (HH : In (hd [] ps) ps \/ hd [] ps = []) by (destruct ps; cbn; tauto).
  assert (HL : In (last ps []) ps \/ last ps [] = []).
  { destruct ps as [|p ps]; [now right|left]. destruct (exists_last (l := p :: ps)) as (l & a & E); [discriminate|].
    rewrite E, last_last. apply in_or_app. right. now left. }
  change 0 with (flushed 0). rewrite !map_nth. change (flushed 0) with 0. apply andb_true_iff in D. destruct D as [D1 D2].
  apply andb_true_iff. split; apply flush_eq; auto.
Qed.
Lemma flush_fits s : gj_fits s -> gj_fits (shape_map flushed s).
Proof.
  pose proof (fits_posn flushed flush_wf) as P1. pose proof (fits_posns flushed flush_wf) as P2.
  pose proof (fits_line flushed flush_wf) as P3. pose proof flush_ring as P4.
  induction s as [d p|d ps|d rs|d ps|d ls|d ps|gs IH] using shape_ind_deep; intros H; cbn [shape_map gj_fits] in *.
  - destruct H as [->|H]; [now left|right; auto].
  - destruct H as [->|H]; [now left|right; auto].
  - rewrite Forall_map. eapply Forall_impl; [|exact H]. apply P4.
  - now apply P2.
  - rewrite Forall_map. eapply Forall_impl; [|exact H]. apply P3.
  - rewrite Forall_map. eapply Forall_impl; [|exact H]. cbv beta. intros rs [A B]. rewrite map_nil_iff.
    split; [assumption|]. rewrite Forall_map. eapply Forall_impl; [|exact B]. apply P4.
  - apply gj_geoms in H. apply (proj2 (gj_geoms (map (shape_map flushed) gs))).
    rewrite Forall_map. rewrite Forall_forall in *. auto.
Qed.

Lemma gj_wf s : gj_fits s -> Forall (fun x => f_wf x = true) (coords_of s).
Proof.
  assert (P : forall d p, posn_ok d p -> Forall (fun x => f_wf x = true) p).
  { intros d p [_ H]. eapply Forall_impl; [|exact H]. cbv beta. intros a Ha. unfold f_wf. change p64 with (2 ^ 64).
    apply andb_true_iff. rewrite Z.leb_le, Z.ltb_lt. exact Ha. }
  assert (J : forall {A} (Q : A -> Prop) ls, Forall (Forall Q) ls -> Forall Q (concat ls))
    by (induction 1; cbn [concat]; [constructor|now apply Forall_app]).
  assert (PS : forall d ps, Forall (posn_ok d) ps -> Forall (fun x => f_wf x = true) (concat ps)).
  { intros d ps H. apply J. eapply Forall_impl; [|exact H]. apply P. }
  assert (R : forall d rs, Forall (ring_ok d) rs -> Forall (Forall (posn_ok d)) rs).
  { intros d rs H. eapply Forall_impl; [|exact H]. intros r Hr. apply Hr. }
  induction s as [d p|d ps|d rs|d ps|d ls|d ps|gs IH] using shape_ind_deep; cbn [gj_fits coords_of].
  - intros [->|H]; [constructor|now apply (P d)].
  - intros [->|H]; [constructor|apply (PS d), H].
  - intros H. now apply (PS d), J, R.
  - intros H. now apply (PS d).
  - intros H. apply (PS d), J. eapply Forall_impl; [|exact H]. intros r Hr. apply Hr.
  - intros H. apply (PS d), J, J. eapply Forall_impl; [|exact H]. intros rs [_ Hr]. now apply R.
  - intros H. apply J. rewrite Forall_map. change (gj_fits (ShGeoms gs)) in H. apply gj_geoms in H.
    rewrite Forall_forall in *. auto.
Qed.

(** ** The round trip *)

Theorem geojson_trip fixed e ix n g s N :
  geom_made g -> shape_of g = Some s -> gj_fits s -> buildable e ix (shape_map flushed s) ->
  (n <= 1024)%nat -> carries n g N ->
  exists t g', printed (write_geom_geojson fixed g ;; write_nullterm) t /\
    tg_parse_geojsonn_ix e ix t = Ok g' /\
    shape_of g' = Some (gj_back (shape_map flushed s)) /\ carries n g' (rewritten N).
Proof.
  intros HM HS HF HB HN HC.
  destruct (all_good e ix fixed (num_text fixed) flushed g n s N HS HM) as (t & T & [SJ SL] & _ & RD); auto using flush_fits.
  { eapply Forall_impl; [|now apply gj_wf]. intros x Hx. now apply flush_ok. }
  assert (DT : den (json_parsen t) t).
  { exists []. pose proof (C25_root n [] t [] (Forall_nil _) SJ (Forall_nil _)) as D. cbn [app] in D.
    now rewrite app_nil_r in D. }
  destruct (RD (length t) (json_parsen t) DT (le_n _)) as (g' & P & SH & CA).
  exists t, g'. split; [now apply printed_types|]. split; [|now split].
  unfold tg_parse_geojsonn_ix. rewrite json_valid_complete.
  - now rewrite P.
  - exists [], t, []. rewrite app_nil_r. split; [reflexivity|]. split; [constructor|]. split; [|constructor].
    assert (SN : sound JSON_MAXDEPTH t) by (apply (sound_mono n); [now split|exact HN]). exact (proj2 SN).
Qed.
