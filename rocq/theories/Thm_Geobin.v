(** * GeoBIN: round trip, arbitrary input, and the readers that do not parse *)

From Coq Require Import String ZArith Reals Bool List Lia.
From Flocq Require Import Core.Core.
From Verif Require Import F64 Geo Series RingApi Bytes Geom Writer WkbWrite WkbParse Json Geobin Hex.
From Verif Require Import F64Real.
From Verif Require Import SpecWkb SpecJson SpecBin WriterFacts HexFacts GeomFacts WkbWriteFacts WkbRoundFacts.
From Verif Require Import WkbSafe WkbMore GeobinFacts GeobinSafe GeobinRead SeriesExamples Thm_Wkb Thm_Json.
Import ListNotations.
Local Open Scope Z_scope.

(** the position of a point is finite and below half of the largest double *)
Definition center_in_range (g : geom) : Prop :=
  fin (px (tg_geom_point (Some g))) /\ fin (py (tg_geom_point (Some g))) /\
  (Rabs (RV (px (tg_geom_point (Some g)))) < bpow radix2 1023)%R /\
  (Rabs (RV (py (tg_geom_point (Some g)))) < bpow radix2 1023)%R.

(** ** C19 *)

(** Full statement: every geometry, feature and feature collection comes back from
    its GeoBIN bytes.  It is false of the code (C19_refuted).  Proved for every
    value that stands for an object (see [object_of]: a geometry or a feature with
    extra JSON, none of whose parts is a feature or has extra JSON of its own, or a
    collection of such objects): the bytes are a GeoBIN encoding of the object and
    parse to a value that stands for the same object. *)
Theorem C19_round_trip_partial :
  forall e ix g o,
    geom_made g -> object_of g = Some o -> obj_fits 0 o -> rings_build e ix (obj_shape o) ->
    exists w g', written (tg_geom_geobin (Some g)) w /\ geobin_enc o w /\
      tg_parse_geobin_ix e ix w = Ok g' /\ object_of g' = Some o.
Proof.
  intros e ix g o Hm Ho Hf Hb. destruct (emits_geobin g 0 o Hm Ho Hf) as (w & E & Hw & _).
  destruct (tg_parse_geobin_ok e ix o w [] Hf Hb Hw) as (g' & Hp & Ho' & _).
  rewrite app_nil_r in Hp. exists w, g'. split; [|now repeat split].
  intros dst. unfold tg_geom_geobin. rewrite E, emit_start. reflexivity.
Qed.
Print Assumptions C19_round_trip_partial.

(** ... and every value that tg_parse_geobin produces, from any bytes, is written
    as bytes that give the very same value, as long as it has no error and no
    missing (NULL) child, and is of the size that WKB can count *)
Theorem C19_parsed_round_trip_partial :
  forall e ix bs g,
    Forall is_byte bs -> tg_parse_geobin_ix e ix bs = Ok g ->
    no_error g -> no_null g -> geom_small g ->
    exists w, written (tg_geom_geobin (Some g)) w /\ tg_parse_geobin_ix e ix w = Ok g.
Proof. exact gb_parsed_round_trip. Qed.
Print Assumptions C19_parsed_round_trip_partial.

(** ... and every encoding of an object, not only the written one, is read as that
    object, even with bytes behind it *)
Theorem C19_reads_partial :
  forall e ix o bs rest,
    obj_fits 0 o -> rings_build e ix (obj_shape o) -> geobin_enc o bs ->
    exists g, tg_parse_geobin_ix e ix (bs ++ rest) = Ok g /\ object_of g = Some o.
Proof.
  intros e ix o bs rest Hf Hb He.
  destruct (tg_parse_geobin_ok e ix o bs rest Hf Hb He) as (g & H1 & H2 & _). eauto.
Qed.
Print Assumptions C19_reads_partial.

Definition pt_bytes : list Z := 1 :: 1 :: repeat 0 19.
Definition json_braces : list Z := [123; 125].

(** a geometry collection whose only child has the extra JSON "{}": the extra JSON
    is not written, and what comes back has none *)
Theorem C19_refuted :
  exists c g w g' c',
    tg_parse_geobin_ix env_init 0 (2 :: 0 :: json_braces ++ 0 :: pt_bytes) = Ok c /\
    tg_geom_extra_json (Some c) = Some json_braces /\
    g = tg_geom_new_geometrycollection [Some c] /\
    tg_geom_geobin (Some g) (repeat 0 100) = Some (length w, w ++ repeat 0 (100 - length w)) /\
    tg_parse_geobin_ix env_init 0 w = Ok g' /\
    tg_geom_geometry_at (Some g') 0 = Some (Some c') /\ tg_geom_extra_json (Some c') = None.
Proof.
  eexists. exists (tg_geom_new_geometrycollection [Some (GGPoint fl0 pt0 f_zero f_zero (Some json_braces))]).
  exists (2 :: 2 :: repeat 0 32 ++ 0 :: [1; 7; 0; 0; 0; 1; 0; 0; 0] ++ pt_bytes). do 2 eexists.
  vms.
Qed.
Print Assumptions C19_refuted.

(** example: a collection with extra JSON of a feature (a Z polygon) with its own
    extra JSON and of another collection *)
Definition ex_obj : obj :=
  OFeats (Some json_braces)
    [OGeom true (Some [91; 49; 93]) (ShPoly (Dim true false) [ex_tri]);
     OFeats None [OGeom false None (ShPoint xy [ex_one; ex_one])];
     OGeom false None ex_shape].
Lemma ex_poly_fits : forall d, (d <= 1000)%nat -> fits d (ShPoly (Dim true false) [ex_tri]).
Proof.
  intros d Hd. split; [lia|]. right. split; [discriminate|]. split; [cbn; lia|]. constructor; [|constructor].
  right. split; [unfold ex_tri; posns_ok|]. split; [cbn; lia|]. split; [cbn; lia|].
  vm_compute. reflexivity.
Qed.
Definition xj_okb (t : list Z) : bool :=
  negb (length t =? 0)%nat && forallb (fun b => (0 <? b) && (b <? 256)) t &&
  match json_validn t with Some b => b | None => false end.
Lemma xj_okb_ok t : xj_okb t = true -> xj_ok (Some t).
Proof.
  unfold xj_okb. intros H. apply andb_prop in H. destruct H as [H H3]. apply andb_prop in H.
  destruct H as [H1 H2]. rewrite forallb_forall in H2.
  assert (B : Forall (fun b => 0 < b < 256) t).
  { apply Forall_forall. intros b Hb. specialize (H2 b Hb). apply andb_prop in H2. lia. }
  split; [now destruct t|]. split; [exact B|].
  apply C23_accepted_texts_partial; [eapply Forall_impl; [|exact B]; unfold byte; cbn; lia|].
  destruct (json_validn t) as [[]|]; congruence.
Qed.
Lemma ex_obj_fits : obj_fits 0 ex_obj.
Proof.
  unfold ex_obj. split; [now apply xj_okb_ok|]. split; [lia|]. split; [cbn; lia|].
  split. { split; [now apply xj_okb_ok|]. apply ex_poly_fits. lia. }
  split.
  { split; [exact I|]. split; [lia|]. split; [cbn; lia|]. split; [|exact I]. split; [exact I|].
    split; [lia|]. right. split; [posns_ok|vm_compute; reflexivity]. }
  split; [|exact I]. split; [exact I|].
  split; [lia|]. split; [cbn; lia|]. split; [|split; [|split; [|exact I]]].
  - apply ex_poly_fits. lia.
  - split; [lia|]. right. split; [posns_ok|vm_compute; reflexivity].
  - split; [lia|]. split; [cbn; lia|]. split; [|lia]. constructor; [|constructor].
    split; [posns_ok|]. cbn. lia.
Qed.
Example C19_example :
  exists bs g, tg_parse_geobin_ix env_init 0 bs = Ok g /\ Forall is_byte bs /\
    no_error g /\ no_null g /\ geom_small g /\ geom_made g /\ object_of g = Some ex_obj /\
    obj_fits 0 ex_obj /\ rings_build env_init 0 (obj_shape ex_obj) /\
    tg_geom_geobin (Some g) bs = Some (length bs, bs).
Proof.
  assert (B : obj_builds env_init 0 ex_obj) by (intros r _; apply series_new_ix_total; discriminate).
  destruct (gb_build_object env_init 0 ex_obj 0 ex_obj_fits B) as [Ho Hm].
  exists (match tg_geom_geobin (Some (gb_build env_init 0 ex_obj)) (repeat 0 1000) with
          | Some (n, l) => firstn n l | None => [] end).
  exists (gb_build env_init 0 ex_obj).
  split; [vm_compute; reflexivity|]. split; [apply bytesb_ok; vm_compute; reflexivity|].
  split; [cbn; tauto|]. split; [cbn; tauto|].
  split. { vm_compute. repeat split; reflexivity. }
  split; [exact Hm|]. split; [exact Ho|]. split; [exact ex_obj_fits|]. split; [exact B|].
  vm_compute; reflexivity.
Qed.

(** ** C20 *)

(** Full statement: any bytes.  It is false of the code (next theorem, and C16 for
    the reads).  Proved: with no count that wraps around and no y-stripes, parsing
    is defined; the result is an error or free of errors, except that the features
    of a collection may be errors. *)
Theorem C20_in_bounds_partial :
  forall e ix bs,
    Forall is_byte bs -> no_wrapping_count bs -> resolve_kind e (Z.land ix 15) <> IxYstripes ->
    exists g, tg_parse_geobin_ix e ix bs = Ok g /\ (error_geom g \/ feats_clean g).
Proof.
  intros e ix bs HB HW HK.
  pose proof (safe_tg_parse_geobin e ix False bs (conj HB (or_intror HW))) as H.
  destruct (tg_parse_geobin_ix e ix bs) as [g|m| | |]; try contradiction.
  - exists g. split; [reflexivity|apply H].
  - destruct H as [[pts H]|[]]. now apply series_new_ix_total in H.
Qed.
Print Assumptions C20_in_bounds_partial.

(** ... in full when the bytes are not a collection of features *)
Theorem C20_plain_partial :
  forall e ix bs g, Forall is_byte bs -> tg_parse_geobin_ix e ix bs = Ok g -> hd 0 bs <> 4 ->
    error_geom g \/ no_error g.
Proof.
  intros e ix bs g HB H. pose proof (safe_tg_parse_geobin e ix True bs (conj HB (or_introl I))) as S.
  rewrite H in S. apply S.
Qed.
Print Assumptions C20_plain_partial.

(** A collection of one feature that is a geometry of an unknown WKB type: the
    collection is accepted and its feature is an error. *)
Theorem C20_refuted :
  exists bs g c, Forall is_byte bs /\ tg_parse_geobin_ix env_init 0 bs = Ok g /\
    tg_geom_error (Some g) = None /\ tg_geom_geometry_at (Some g) 0 = Some (Some c) /\
    tg_geom_error (Some c) <> None.
Proof.
  exists [4;0;0;1;0;0;0;  2;0;0;1;4;0;0;0]. do 2 eexists.
  split; [now apply bytesb_ok|]. split; [vm_compute; reflexivity|].
  split; [vm_compute; reflexivity|]. split; [vm_compute; reflexivity|]. vm_compute. discriminate.
Qed.
Print Assumptions C20_refuted.

Example C20_example :
  let bs := [3; 0; 91; 93; 0] ++ pt_bytes in
  Forall is_byte bs /\ hd 0 bs <> 4 /\
  (exists g, tg_parse_geobin_ix env_init 0 bs = Ok g /\ no_error g) /\
  (exists g, tg_parse_geobin_ix env_init 0 (firstn 20 bs) = Ok g /\ error_geom g).
Proof.
  split; [now apply bytesb_ok|]. split; [discriminate|]. split.
  - eexists. split; [vm_compute; reflexivity|]. now split.
  - eexists. split; [vm_compute; reflexivity|]. now split.
Qed.

(** ** C21 *)

(** Full statement: for the bytes written for a geometry the readers return what
    the accessors return for the parsed geometry, and for any bytes they store at
    most four values in each array.  It is false of the code (the three theorems
    below).  Proved for every geometry that stands for an object, its bounds being
    64-bit numbers and the geometry not a bare empty point; the center of a point
    that is a feature or has extra JSON only below 2^1023.  The array elements
    beyond the dimensions are left as they were. *)
Theorem C21_readers_partial :
  forall g o mn mx,
    geom_made g -> object_of g = Some o -> obj_fits 0 o ->
    bits_rect (fullrect g) -> (plain_point g -> is_empty (geom_flags g) = false) ->
    (4 <= length mn)%nat -> (4 <= length mx)%nat ->
    exists w, written (tg_geom_geobin (Some g)) w /\
      tg_geobin_rect w = Some (tg_geom_rect (Some g)) /\
      (exists a, tg_geobin_fullrect w mn mx = Some a /\
         same_bounds a (tg_geom_fullrect (Some g) mn mx) /\
         length (fr_min a) = length mn /\ length (fr_max a) = length mx /\
         skipn (fr_dims a) (fr_min a) = skipn (fr_dims a) mn /\
         skipn (fr_dims a) (fr_max a) = skipn (fr_dims a) mx) /\
      (plain_point g \/ head_type g <> TG_POINT \/ center_in_range g ->
       tg_geobin_point w = Some (tg_geom_point (Some g))).
Proof.
  intros g o mn mx Hm Ho Hf Hb Hp M1 M2.
  destruct (emits_geobin g 0 o Hm Ho Hf) as (w & E & _).
  exists w. split.
  { intros dst. unfold tg_geom_geobin. rewrite E, emit_start. reflexivity. }
  now apply (readers_agree g o w mn mx).
Qed.
Print Assumptions C21_readers_partial.

(** ... and for every value that tg_parse_geobin produces: the written bytes parse
    to the same value, and the readers agree with its accessors *)
Theorem C21_parsed_partial :
  forall e ix bs g mn mx,
    Forall is_byte bs -> tg_parse_geobin_ix e ix bs = Ok g ->
    no_error g -> no_null g -> geom_small g ->
    bits_rect (fullrect g) -> (plain_point g -> is_empty (geom_flags g) = false) ->
    (4 <= length mn)%nat -> (4 <= length mx)%nat ->
    exists w, written (tg_geom_geobin (Some g)) w /\ tg_parse_geobin_ix e ix w = Ok g /\
      tg_geobin_rect w = Some (tg_geom_rect (Some g)) /\
      (exists a, tg_geobin_fullrect w mn mx = Some a /\
         same_bounds a (tg_geom_fullrect (Some g) mn mx)) /\
      (plain_point g \/ head_type g <> TG_POINT \/ center_in_range g ->
       tg_geobin_point w = Some (tg_geom_point (Some g))).
Proof.
  intros e ix bs g mn mx HB H HE HN HS Hb Hp M1 M2.
  destruct (gb_parsed_reach e ix bs g HB H HE HN HS) as (o & Hf & Hbu & ->).
  destruct (gb_build_object e ix o 0 Hf Hbu) as [Ho Hm].
  destruct (gb_parsed_round_trip e ix bs _ HB H HE HN HS) as (w & Hw & Hpw).
  destruct (C21_readers_partial _ o mn mx Hm Ho Hf Hb Hp M1 M2) as (w' & Hw' & R1 & (a & R2 & R3 & _) & R4).
  assert (w = w') by (eapply written_unique; eauto). subst w'.
  exists w. repeat (split; [assumption|]). split; [now exists a|exact R4].
Qed.
Print Assumptions C21_parsed_partial.

(** For any bytes: nothing is read outside of them; and when the second byte is at
    most four, or the first is one (WKB), nothing is stored outside of two arrays of
    four. *)
Theorem C21_any_bytes_partial :
  forall bs, Forall is_byte bs ->
    tg_geobin_rect bs <> None /\ tg_geobin_point bs <> None /\
    (forall mn mx, (4 <= length mn)%nat -> (4 <= length mx)%nat ->
       nth 0 bs 0 = 1 \/ nth 1 bs 0 <= 4 ->
       exists a, tg_geobin_fullrect bs mn mx = Some a /\ (fr_dims a <= 4)%nat /\
         length (fr_min a) = length mn /\ length (fr_max a) = length mx /\
         skipn 4 (fr_min a) = skipn 4 mn /\ skipn 4 (fr_max a) = skipn 4 mx).
Proof. exact readers_in_bounds. Qed.
Print Assumptions C21_any_bytes_partial.

(** 82 bytes whose second byte is five: five values go into an array of four. *)
Theorem C21_overflow_refuted :
  exists bs, Forall is_byte bs /\
    tg_geobin_fullrect bs (repeat 0 4) (repeat 0 4) = None.
Proof. exists (2 :: 5 :: repeat 0 80). split; [now apply bytesb_ok|vm_compute; reflexivity]. Qed.
Print Assumptions C21_overflow_refuted.

(** POINT EMPTY: the reader returns NaN, the accessor zero. *)
Theorem C21_empty_refuted :
  exists w g, written (tg_geom_geobin (Some g)) w /\ tg_parse_geobin_ix env_init 0 w = Ok g /\
    tg_geom_error (Some g) = None /\ tg_geobin_rect w <> Some (tg_geom_rect (Some g)).
Proof.
  set (g := tg_geom_new_point_empty).
  assert (Ho : object_of g = Some (OGeom false None (ShPoint xy []))) by reflexivity.
  assert (Hf : obj_fits 0 (OGeom false None (ShPoint xy []))).
  { split; [exact I|]. split; [lia|]. now left. }
  destruct (emits_geobin g 0 _ I Ho Hf) as (w & E & _).
  assert (Hw : written (tg_geom_geobin (Some g)) w).
  { intros dst. unfold tg_geom_geobin. rewrite E, emit_start. reflexivity. }
  exists w, g. split; [exact Hw|].
  specialize (Hw (repeat 0 21)). rewrite repeat_length in Hw.
  assert (C : tg_geom_geobin (Some g) (repeat 0 21) =
    Some (21%nat, [1;1;0;0;0; 0;0;0;0;0;0;248;127; 0;0;0;0;0;0;248;127])) by (vm_compute; reflexivity).
  rewrite C in Hw.
  set (l := [1;1;0;0;0; 0;0;0;0;0;0;248;127; 0;0;0;0;0;0;248;127]) in *.
  assert (L : length w = 21%nat) by congruence.
  assert (W : l = firstn 21 w ++ skipn (length w) (repeat 0 21)) by congruence.
  rewrite L, firstn_all2 in W by lia. change (skipn 21 (repeat 0 21)) with (@nil Z) in W.
  rewrite app_nil_r in W. rewrite <- W. split; [vm_compute; reflexivity|].
  split; [reflexivity|]. vm_compute. discriminate.
Qed.
Print Assumptions C21_empty_refuted.

(** A feature that is the point (x, 0) with x the largest double: the reader returns
    infinity. *)
Definition f_max : f64 := 9218868437227405311.
Theorem C21_point_refuted :
  exists w g, tg_geom_geobin (Some g) (repeat 0 (length w)) = Some (length w, w) /\
    tg_parse_geobin_ix env_init 0 w = Ok g /\ tg_geom_error (Some g) = None /\
    tg_geom_point (Some g) = Pt f_max f_zero /\ tg_geobin_point w = Some (Pt f_pinf f_zero).
Proof.
  exists (3 :: 2 :: doubles [f_max; 0; f_max; 0] ++ [0; 1; 1; 0; 0; 0] ++ doubles [f_max; 0]).
  exists (GGPoint (set_feature fl0) (Pt f_max f_zero) 0 0 None). vms.
Qed.
Print Assumptions C21_point_refuted.

Example C21_example :
  exists g, tg_parse_geobin_ix env_init 0 ([3; 0; 91; 93; 0] ++ [1; 185; 11; 0; 0] ++
                doubles [f_of_Z 3; f_of_Z (-4); f_of_Z 5; f_of_Z 6]) = Ok g /\
    no_error g /\ no_null g /\ geom_small g /\ bits_rect (fullrect g) /\ ~ plain_point g /\
    center_in_range g /\ tg_geom_point (Some g) = P 3 (-4) /\ fr_dims (fullrect g) = 4%nat /\
    fr_max (fullrect g) = [f_of_Z 3; f_of_Z (-4); f_of_Z 5; f_of_Z 6].
Proof.
  eexists. split; [vm_compute; reflexivity|]. split; [cbn; tauto|]. split; [cbn; tauto|].
  split; [cbn; tauto|]. split.
  { split; repeat constructor; vm_compute; congruence. }
  split. { intros (H & _). discriminate H. }
  split; [|vms].
  assert (F : fin (f_of_Z 3) /\ fin (f_of_Z (-4))) by (repeat split; reflexivity).
  destruct F as [F1 F2].
  assert (B : forall x k, fin x -> RV x = IZR k -> (Z.abs k <= 4) ->
            (Rabs (RV x) < bpow radix2 1023)%R).
  { intros x k _ -> Hk. rewrite <- abs_IZR. change (bpow radix2 1023) with (IZR (2 ^ 1023)).
    apply IZR_lt. assert (4 < 2 ^ 1023) by reflexivity. lia. }
  repeat split; try reflexivity.
  - apply (B _ 3 F1); [|lia]. apply RV_f_of_Z. lia.
  - apply (B _ (-4) F2); [|lia]. apply RV_f_of_Z. lia.
Qed.

(** ** C22, the GeoBIN writer *)

Theorem C22_geobin :
  forall g, geom_made g ->
    (forall dst, tg_geom_geobin (Some g) dst = None) \/
    exists w, written (tg_geom_geobin (Some g)) w.
Proof.
  intros g Hm. destruct (settled_geobin g Hm) as [H|(w & H & _)].
  - left. intros dst. unfold tg_geom_geobin. now rewrite H.
  - right. exists w. intros dst. unfold tg_geom_geobin. rewrite H, emit_start. reflexivity.
Qed.
Print Assumptions C22_geobin.

(** ... and the hex writer *)
Theorem C22_hex :
  forall g, geom_made g ->
    (forall dst, tg_geom_hex (Some g) dst = None) \/
    exists t, written_text (tg_geom_hex (Some g)) t.
Proof.
  intros g Hm. destruct (settled_geom g Hm) as [H|(w & H & _)].
  - left. intros dst. unfold tg_geom_hex, tg_geom_wkb. now rewrite H.
  - right. eexists. apply hex_written.
    intros dst. unfold tg_geom_wkb. rewrite H, emit_start. reflexivity.
Qed.
Print Assumptions C22_hex.

Example C22_example_geobin :
  tg_geom_geobin (Some (GGPoint (set_feature fl0) (P 1 2) 0 0 None)) [9; 9; 9] = Some (56%nat, [3; 2; 0]) /\
  tg_geom_geobin (Some (tg_geom_new_point (P 1 2))) [] = Some (21%nat, []) /\
  tg_geom_hex (Some (tg_geom_new_point (P 1 2))) [9; 9; 9] = Some (42%nat, [48; 49; 0]).
Proof. vms. Qed.

(** ** C26, GeoBIN *)

(** More than 1024 nested collections of features are an error, whatever their
    bounds, extra JSON and number of features, and whatever follows. *)
Theorem C26_geobin_too_deep_partial :
  forall e ix hs rest, Forall feats_head_ok hs -> (1024 < length hs)%nat ->
    exists g, tg_parse_geobin_ix e ix (concat (map feats_head hs) ++ rest) = Ok g /\
      tg_geom_error (Some g) = Some (str "ParseError: invalid binary"%string).
Proof.
  intros e ix hs rest HF HL. exists (wrap_error (make_parse_error msg_invalid)). split; [|reflexivity].
  unfold tg_parse_geobin_ix. rewrite gb_parse_deep; [reflexivity|assumption|lia| |lia].
  unfold wkb_fuel, MAXDEPTH. lia.
Qed.
Print Assumptions C26_geobin_too_deep_partial.

Theorem C26_geobin_bounded_partial :
  forall e ix bs, Forall is_byte bs -> tg_parse_geobin_ix e ix bs <> NoFuel.
Proof.
  intros e ix bs HB. pose proof (safe_tg_parse_geobin e ix True bs (conj HB (or_introl I))) as H.
  revert H. generalize (tg_parse_geobin_ix e ix bs). intros x H. destruct x; cbn in H; try contradiction;
    discriminate.
Qed.
Print Assumptions C26_geobin_bounded_partial.

Example C26_example_geobin :
  let h := ([0], Some json_braces, 1) in
  (1024 < length (repeat h 1025))%nat /\ Forall feats_head_ok (repeat h 1025).
Proof.
  intros h. split; [rewrite repeat_length; lia|]. apply Forall_forall. intros x Hx.
  apply repeat_spec in Hx. subst x. cbn [feats_head_ok]. split; [now left|].
  split; [now apply xj_okb_ok|lia].
Qed.
