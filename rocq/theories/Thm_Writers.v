(** * Theorems about the text writers (C22) and about guessing the format of what any writer wrote (C27) *)

From Coq Require Import ZArith Bool String List Lia.
From Verif Require Import F64 Geo Series RingApi Bytes Geom Writer WriterFacts WkbWrite WkbParse Hex Geobin WktParse WktWrite
  GeojsonParse GeojsonWrite Parse GeomFacts SpecWkb SpecJson SpecBin SpecText WkbWriteFacts HexFacts GeobinRead TextFacts TextSettled.
Import ListNotations.
Local Open Scope Z_scope.

Lemma bits_dwf l : all_bits l -> dwf l.
Proof.
  apply Forall_impl. intros x H. unfold f_wf. apply andb_true_iff. rewrite Z.leb_le, Z.ltb_lt. exact H.
Qed.

(** ** C22, the text writers *)

(** For any geometry: there is one text of which every call, with or without fixed
    floats, stores what fits, with a zero byte behind it, and returns the length;
    unless a NULL would be followed, whatever the buffer. *)
Theorem C22_wkt :
  forall fixed g, all_bits (doubles_of g) ->
    (has_null g /\ forall dst, tg_geom_wkt fixed (Some g) dst = None) \/
    exists t, prints_text (tg_geom_wkt fixed (Some g)) t.
Proof.
  intros fixed g B. destruct (settles_wkt (has_null g) fixed g (fun x => x) (bits_dwf _ B)) as [[U H]|(t & H)].
  - left. split; [exact U|]. intros dst. unfold tg_geom_wkt, wseq. now rewrite H.
  - right. exists (wkt_first g ++ t). intros dst. destruct (printed_types _ _ H dst) as (w & E & C & L & X).
    exists (w_dst w). unfold tg_geom_wkt. rewrite E, C. auto.
Qed.
Print Assumptions C22_wkt.

Theorem C22_geojson :
  forall fixed g, all_bits (doubles_of g) ->
    (has_null g /\ forall dst, tg_geom_geojson fixed (Some g) dst = None) \/
    exists t, prints_text (tg_geom_geojson fixed (Some g)) t.
Proof.
  intros fixed g B. destruct (settles_geojson (has_null g) fixed g (fun x => x) (bits_dwf _ B)) as [[U H]|(t & H)].
  - left. split; [exact U|]. intros dst. unfold tg_geom_geojson, wseq. now rewrite H.
  - right. exists ([123] ++ t). intros dst. destruct (printed_types _ _ H dst) as (w & E & C & L & X).
    exists (w_dst w). unfold tg_geom_geojson. rewrite E, C. auto.
Qed.
Print Assumptions C22_geojson.

(** ** C27 *)

(** what tg_parse_ix gives when it behaves like a parser of its own *)
Definition as_parsed (r : out geom) : out (option geom) := obind r (fun g => Ok (Some g)).

Lemma parse_as e ix s f : guess s = f -> s <> [] ->
  tg_parse_ix e ix s = as_parsed (match f with
    | FGeojson => tg_parse_geojsonn_ix e ix s
    | FWkt => tg_parse_wktn_ix e ix s
    | FHex => tg_parse_hexn_ix e ix s
    | FWkb => tg_parse_wkb_ix e ix s
    | FGeobin => tg_parse_geobin_ix e ix s end).
Proof. intros <- N. unfold tg_parse_ix, as_parsed. destruct s; [easy|]. destruct (guess _); reflexivity. Qed.

(** the output of a call that returned [n], when the buffer was long enough *)
Lemma text_taken call t dst n buf : prints_text call t -> call dst = Some (n, buf) -> (n < length dst)%nat -> firstn n buf = t.
Proof.
  intros P E L. destruct (P dst) as (b & E' & LB & X). rewrite E in E'. injection E' as -> ->.
  destruct X as (tail & ->); [intros ->; cbn in L; lia|].
  rewrite (firstn_all2 t) by lia. rewrite firstn_app, Nat.sub_diag. cbn. now rewrite app_nil_r, firstn_all.
Qed.
Lemma bytes_taken call t dst n buf : written call t -> call dst = Some (n, buf) -> (n <= length dst)%nat -> firstn n buf = t.
Proof.
  intros P E L. rewrite P in E. injection E as <- <-. rewrite (firstn_all2 t) by lia.
  rewrite firstn_app, Nat.sub_diag. cbn. now rewrite app_nil_r, firstn_all.
Qed.

Theorem C27_wkt :
  forall fixed e ix g dst n buf, all_bits (doubles_of g) ->
    tg_geom_wkt fixed (Some g) dst = Some (n, buf) -> (n < length dst)%nat ->
    tg_parse_ix e ix (firstn n buf) = as_parsed (tg_parse_wktn_ix e ix (firstn n buf)).
Proof.
  intros fixed e ix g dst n buf B E L.
  destruct (settles_wkt (has_null g) fixed g (fun x => x) (bits_dwf _ B)) as [[U H]|(t & H)].
  { unfold tg_geom_wkt, wseq in E. rewrite H in E. discriminate E. }
  assert (P : prints_text (tg_geom_wkt fixed (Some g)) (wkt_first g ++ t)).
  { intros d. destruct (printed_types _ _ H d) as (w & E' & C & L' & X). exists (w_dst w). unfold tg_geom_wkt. rewrite E', C. auto. }
  rewrite (text_taken _ _ _ _ _ P E L).
  assert (G : guess (wkt_first g ++ t) = FWkt) by (destruct g as [| | | | | |[]]; reflexivity).
  rewrite (parse_as e ix _ _ G); [reflexivity|]. destruct g as [| | | | | |[]]; discriminate.
Qed.
Print Assumptions C27_wkt.

Theorem C27_geojson :
  forall fixed e ix g dst n buf, all_bits (doubles_of g) ->
    tg_geom_geojson fixed (Some g) dst = Some (n, buf) -> (n < length dst)%nat ->
    tg_parse_ix e ix (firstn n buf) = as_parsed (tg_parse_geojsonn_ix e ix (firstn n buf)).
Proof.
  intros fixed e ix g dst n buf B E L.
  destruct (settles_geojson (has_null g) fixed g (fun x => x) (bits_dwf _ B)) as [[U H]|(t & H)].
  { unfold tg_geom_geojson, wseq in E. rewrite H in E. discriminate E. }
  assert (P : prints_text (tg_geom_geojson fixed (Some g)) ([123] ++ t)).
  { intros d. destruct (printed_types _ _ H d) as (w & E' & C & L' & X). exists (w_dst w). unfold tg_geom_geojson. rewrite E', C. auto. }
  rewrite (text_taken _ _ _ _ _ P E L).
  rewrite (parse_as e ix ([123] ++ t) FGeojson eq_refl); [reflexivity|discriminate].
Qed.
Print Assumptions C27_geojson.

Theorem C27_wkb :
  forall e ix g dst n buf, geom_made g ->
    tg_geom_wkb (Some g) dst = Some (n, buf) -> (n <= length dst)%nat ->
    tg_parse_ix e ix (firstn n buf) = as_parsed (tg_parse_wkb_ix e ix (firstn n buf)).
Proof.
  intros e ix g dst n buf M E L. destruct (settled_geom g M) as [H|(w & H & _)].
  { unfold tg_geom_wkb in E. rewrite H in E. discriminate E. }
  assert (P : written (tg_geom_wkb (Some g)) w) by (intros d; unfold tg_geom_wkb; rewrite H, emit_start; reflexivity).
  rewrite (bytes_taken _ _ _ _ _ P E L). destruct (first_geom g w M H) as [r ->].
  rewrite (parse_as e ix (1 :: r) FWkb eq_refl); [reflexivity|discriminate].
Qed.
Print Assumptions C27_wkb.

Lemma hexc_digit p b : is_xdigit (hexc p b) = true.
Proof.
  assert (D : forall q, is_xdigit (hex_char (q mod 16)) = true).
  { intros q. pose proof (Z.mod_pos_bound q 16 ltac:(lia)) as H. set (r := q mod 16) in *. clearbody r.
    assert (r = 0 \/ r = 1 \/ r = 2 \/ r = 3 \/ r = 4 \/ r = 5 \/ r = 6 \/ r = 7 \/ r = 8 \/ r = 9 \/ r = 10 \/ r = 11 \/
      r = 12 \/ r = 13 \/ r = 14 \/ r = 15) by lia.
    repeat (destruct H0 as [->|H0]; [reflexivity|]). now subst. }
  unfold hexc. destruct (Nat.odd p); apply D.
Qed.
Lemma hex_guess bs : bs <> [] -> guess (hex_upper bs) = FHex /\ hex_upper bs <> [].
Proof.
  destruct bs as [|b bs]; [easy|]. intros _. split; [|discriminate].
  assert (X : forallb is_xdigit (firstn 16 (hex_upper (b :: bs))) = true).
  { apply forallb_forall. intros c C. assert (I : In c (hex_upper (b :: bs))).
    { rewrite <- (firstn_skipn 16 (hex_upper (b :: bs))). apply in_or_app. now left. }
    unfold hex_upper in I. apply in_concat in I. destruct I as (l & L & I). apply in_map_iff in L.
    destruct L as (d & <- & _). destruct I as [<-|[<-|[]]]; apply hexc_digit. }
  unfold guess. change (hex_upper (b :: bs)) with (hexc 0 b :: hexc 1 b :: hex_upper bs) in *. rewrite X.
  pose proof (hexc_digit 0 b) as H. rewrite H. rewrite orb_true_r.
  assert (N : hexc 0 b <> 123 /\ is_space (hexc 0 b) = false).
  { unfold is_xdigit in H. unfold is_space. split; lia. }
  destruct N as [N ->]. now destruct (Z.eqb_spec (hexc 0 b) 123).
Qed.

Theorem C27_hex :
  forall e ix g dst n buf, geom_made g ->
    tg_geom_hex (Some g) dst = Some (n, buf) -> (n < length dst)%nat ->
    tg_parse_ix e ix (firstn n buf) = as_parsed (tg_parse_hexn_ix e ix (firstn n buf)).
Proof.
  intros e ix g dst n buf M E L. destruct (settled_geom g M) as [H|(w & H & _)].
  { unfold tg_geom_hex, tg_geom_wkb in E. rewrite H in E. discriminate E. }
  assert (P : written (tg_geom_wkb (Some g)) w) by (intros d; unfold tg_geom_wkb; rewrite H, emit_start; reflexivity).
  apply hex_written in P. rewrite P in E. injection E as <- <-.
  unfold text_into. rewrite (proj2 (Nat.ltb_lt _ _) L).
  rewrite firstn_app, Nat.sub_diag, firstn_O, app_nil_r, firstn_all.
  destruct (first_geom g w M H) as [r ->]. destruct (hex_guess (1 :: r)) as [G N]; [discriminate|].
  rewrite (parse_as e ix _ _ G N). reflexivity.
Qed.
Print Assumptions C27_hex.

(** the first byte of GeoBIN *)
Lemma byte_first b k bs : 0 <= b < 256 -> settled k -> emits (write_byte b ;; k) bs -> exists r, bs = b :: r.
Proof.
  intros B [H|(c & H & _)] E.
  - pose proof (E (Wr [] 0)) as E0. unfold wseq in E0. cbn in E0. now rewrite H in E0.
  - pose proof (emits_seq _ _ _ _ (emits_byte b) H) as E'. rewrite Z.mod_small in E' by exact B. exists c. exact (emits_unique _ _ _ E E').
Qed.
Lemma base_first g feats bs : geom_made g -> settled feats -> emits (write_base_geom_geobin g feats) bs ->
  exists b r, bs = b :: r /\ 1 <= b <= 4.
Proof.
  intros M F. unfold write_base_geom_geobin.
  assert (B : settled (write_mbr (fullrect g) ;; write_xjson (Geobin.tg_geom_extra_json (Some g)) ;;
    (if is_feature_col (geom_flags g)
     then write_uint32le (tg_geom_num_geometries (Some g)) ;; feats else write_geom_wkb g))).
  { apply settled_seq; [apply settled_mbr|]. apply settled_seq; [apply settled_xjson|].
    destruct (is_feature_col (geom_flags g)); [|now apply settled_geom].
    apply settled_seq; [apply settled_u32|exact F]. }
  destruct (is_feature_col (geom_flags g)).
  { intros E. apply byte_first in E; [|lia|exact B]. destruct E as [r ->]. exists 4, r. split; [reflexivity|lia]. }
  destruct (is_feature (geom_flags g)).
  { intros E. apply byte_first in E; [|lia|exact B]. destruct E as [r ->]. exists 3, r. split; [reflexivity|lia]. }
  destruct (_ && _).
  - destruct g; try (intros E; discriminate (E (Wr [] 0))).
    intros E. destruct (first_geom _ _ M E) as [r ->]. exists 1, r. split; [reflexivity|lia].
  - intros E. apply byte_first in E; [|lia|exact B]. destruct E as [r ->]. exists 2, r. split; [reflexivity|lia].
Qed.
Lemma geobin_first g bs : geom_made g -> emits (write_geom_geobin g) bs -> exists b r, bs = b :: r /\ 1 <= b <= 4.
Proof.
  intros M. pose proof (settled_geom g M) as W.
  destruct g as [f p|f l|f p|f p z m x|f l c x|f p c x|t f gs c x]; cbn [write_geom_geobin].
  1-3: match goal with |- emits (if ?b then _ else _) _ -> _ => destruct b; [apply base_first; [exact M|apply settled_skip]|] end.
  - intros E. destruct (first_geom _ _ M E) as [r ->]. exists 1, r. split; [reflexivity|lia].
  - intros E. apply byte_first in E; [|lia|].
    + destruct E as [r ->]. exists 2, r. split; [reflexivity|lia].
    + apply settled_rect. apply settled_seq; [apply settled_byte|exact W].
  - intros E. apply byte_first in E; [|lia|].
    + destruct E as [r ->]. exists 2, r. split; [reflexivity|lia].
    + apply settled_rect. apply settled_seq; [apply settled_byte|exact W].
  - destruct (is_feature _); (apply base_first; [exact M|apply settled_skip]).
  - destruct (is_feature _); (apply base_first; [exact M|apply settled_skip]).
  - destruct (is_feature _); (apply base_first; [exact M|apply settled_skip]).
  - assert (S : settled (match t, gs with
      | MGeoms, Some l => wloop (map (fun o => match o with Some c => write_geom_geobin c | None => wundef end) l)
      | _, _ => wskip end)).
    { destruct t, gs as [gs|]; try apply settled_skip. apply settled_loop. intros [g|] G; [|apply settled_undef].
      apply settled_geobin. apply made_multi in M. rewrite Forall_forall in M. apply (M _ G). }
    replace (match t with MGeoms => match gs with Some l => wloop (map (fun o => match o with Some c => write_geom_geobin c | None => wundef end) l) | None => wskip end | _ => wskip end)
      with (match t, gs with
      | MGeoms, Some l => wloop (map (fun o => match o with Some c => write_geom_geobin c | None => wundef end) l)
      | _, _ => wskip end) by (destruct t, gs; reflexivity).
    destruct (is_feature _); (apply base_first; [exact M|exact S]).
Qed.

(** GeoBIN that starts as WKB is read as WKB *)
Lemma geobin_wkb e ix r : tg_parse_geobin_ix e ix (1 :: r) = tg_parse_wkb_ix e ix (1 :: r).
Proof.
  assert (F : forall fuel, parse_geobin e ix (S fuel) 0 (1 :: r) = parse_wkb e ix (wkb_fuel 0) 0 (1 :: r)).
  { intros fuel. cbn [parse_geobin]. replace (MAXDEPTH <? 0)%nat with false by reflexivity. reflexivity. }
  unfold tg_parse_geobin_ix, tg_parse_wkb_ix.
  replace (wkb_fuel 0) with (S (wkb_fuel 0 - 1)) at 1 by reflexivity. rewrite F.
  destruct (parse_wkb e ix (wkb_fuel 0) 0 (1 :: r)) as [[]| | | |]; reflexivity.
Qed.

Theorem C27_geobin :
  forall e ix g dst n buf, geom_made g ->
    tg_geom_geobin (Some g) dst = Some (n, buf) -> (n <= length dst)%nat ->
    tg_parse_ix e ix (firstn n buf) = as_parsed (tg_parse_geobin_ix e ix (firstn n buf)).
Proof.
  intros e ix g dst n buf M E L. destruct (settled_geobin g M) as [H|(w & H & _)].
  { unfold tg_geom_geobin in E. rewrite H in E. discriminate E. }
  assert (P : written (tg_geom_geobin (Some g)) w) by (intros d; unfold tg_geom_geobin; rewrite H, emit_start; reflexivity).
  rewrite (bytes_taken _ _ _ _ _ P E L). destruct (geobin_first g w M H) as (b & r & -> & B).
  assert (C : b = 1 \/ guess (b :: r) = FGeobin).
  { assert (b = 1 \/ b = 2 \/ b = 3 \/ b = 4) as [->|[->|[->| ->]]] by lia; auto. }
  destruct C as [->|G].
  - rewrite (parse_as e ix (1 :: r) FWkb eq_refl) by discriminate. rewrite geobin_wkb. reflexivity.
  - rewrite (parse_as e ix (b :: r) FGeobin G); [reflexivity|discriminate].
Qed.
Print Assumptions C27_geobin.

(** ** Examples *)

(** a collection of a line with Z and a point, and a feature with an id *)
Definition ex_line : option ring := series_new [Pt 0 0; Pt 4607182418800017408 4607182418800017408] false IxNone 0.
Definition ex_geom : geom :=
  GGMulti MGeoms fl0 (Some [Some (GGLine (fl_zm true false) ex_line [0; 4611686018427387904] None);
                            Some (GPoint fl0 (Pt 0 0))]) [] None.
Definition ex_feature : geom := GGPoint (set_feature fl0) (Pt 0 4607182418800017408) 0 0 (Some (qstr "{'id':7}")).

Lemma prints_as call t u : prints_text call t -> call (repeat 9 (S (length u))) = Some (length u, u ++ [0]) -> prints_text call u.
Proof.
  intros P E. pose proof (text_taken _ _ _ _ _ P E) as X. rewrite repeat_length in X. specialize (X ltac:(lia)).
  rewrite firstn_app, Nat.sub_diag, firstn_O, app_nil_r, firstn_all in X. now rewrite X.
Qed.

Example C22_example_text :
  all_bits (doubles_of ex_geom) /\ ~ has_null ex_geom /\ all_bits (doubles_of ex_feature) /\ ~ has_null ex_feature /\
  prints_text (tg_geom_wkt false (Some ex_geom)) (str "GEOMETRYCOLLECTION(LINESTRING(0 0 0,1 1 2),POINT(0 0))") /\
  prints_text (tg_geom_geojson false (Some ex_feature))
    (qstr "{'type':'Feature','id':7,'geometry':{'type':'Point','coordinates':[0,1]},'properties':{}}") /\
  tg_geom_wkt false (Some ex_geom) (repeat 9 12) = Some (54%nat, str "GEOMETRYCOL" ++ [0]) /\
  has_null (GGLine fl0 None [] None) /\ tg_geom_wkt false (Some (GGLine fl0 None [] None)) [] = None.
Proof.
  assert (W : all_bits (doubles_of ex_geom)) by (repeat (constructor; [vm_compute; split; [discriminate|reflexivity]|]); constructor).
  assert (F : all_bits (doubles_of ex_feature)) by (repeat (constructor; [vm_compute; split; [discriminate|reflexivity]|]); constructor).
  assert (NW : ~ has_null ex_geom) by (intros [[_ H]|[[]|[]]]; discriminate H).
  assert (NF : ~ has_null ex_feature) by (intros []).
  do 4 (split; [assumption|]). split; [|split].
  - destruct (C22_wkt false ex_geom W) as [[H _]|(t & H)]; [now destruct NW|].
    apply (prints_as _ _ _ H). vm_compute. reflexivity.
  - destruct (C22_geojson false ex_feature F) as [[H _]|(t & H)]; [now destruct NF|].
    apply (prints_as _ _ _ H). vm_compute. reflexivity.
  - split; [vm_compute; reflexivity|]. split; [now split|reflexivity].
Qed.

(** the outputs of all writers for these geometries, each recognised *)
Example C27_example :
  geom_made ex_geom /\ geom_made ex_feature /\
  (exists n buf, tg_geom_wkt false (Some ex_geom) (repeat 9 60) = Some (n, buf) /\ (n < 60)%nat /\ guess (firstn n buf) = FWkt) /\
  (exists n buf, tg_geom_geojson false (Some ex_feature) (repeat 9 90) = Some (n, buf) /\ (n < 90)%nat /\ guess (firstn n buf) = FGeojson) /\
  (exists n buf, tg_geom_wkb (Some ex_geom) (repeat 9 100) = Some (n, buf) /\ (n <= 100)%nat /\ guess (firstn n buf) = FWkb) /\
  (exists n buf, tg_geom_hex (Some ex_geom) (repeat 9 200) = Some (n, buf) /\ (n < 200)%nat /\ guess (firstn n buf) = FHex) /\
  (exists n buf, tg_geom_geobin (Some ex_feature) (repeat 9 100) = Some (n, buf) /\ (n <= 100)%nat /\ guess (firstn n buf) = FGeobin) /\
  exists g, tg_parse_ix env_init 0 (str " {""type"":""Point"",""coordinates"":[1,2]}") = Ok (Some g) /\ is_error (geom_flags g) = false.
Proof.
  assert (L : match ex_line with Some l => ring_made l | None => True end).
  { destruct ex_line as [r|] eqn:E; [|exact I].
    exists [Pt 0 0; Pt 4607182418800017408 4607182418800017408], false, IxNone, 0%nat. exact E. }
  split; [exact (conj L (conj I I))|].
  split; [exact I|].
  repeat (split; [eexists _, _; split; [vm_compute; reflexivity|]; split; [vm_compute; lia|vm_compute; reflexivity]|]).
  eexists. split; vm_compute; reflexivity.
Qed.
