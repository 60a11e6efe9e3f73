(** * Theorems about GeoJSON (C26, C43, C48) *)

From Coq Require Import ZArith Bool String List Lia.
From Verif Require Import F64 Geo Series RingApi Bytes Geom WkbParse Json JsonTok SpecJson.
From Verif Require Import GeojsonParse GeojsonWrite GeojsonDeep WriterFacts SpecWkb SpecGeojson GeomFacts JsonSafe WktSafe GeojsonSafe Thm_Json WkbMore.
Import ListNotations.
Local Open Scope Z_scope.

(** ** C26, GeoJSON *)

Lemma nest_depth n : collection_depth (nest n) = n.
Proof. induction n as [|n IH]; [reflexivity|]. cbn. cbn in IH. rewrite IH. lia. Qed.
Lemma nest_error n : tg_geom_error (Some (nest n)) = None.
Proof. destruct n; reflexivity. Qed.
Lemma trap_bytes n : Forall is_byte (trap n).
Proof.
  constructor; [unfold is_byte; lia|].
  assert (H : forall s, forallb (fun b => (0 <=? b) && (b <? 256)) s = true -> Forall is_byte s).
  { intros s H. rewrite forallb_forall in H. apply Forall_forall. intros x X. apply H in X.
    unfold is_byte. lia. }
  induction n as [|n IH]; cbn [inside]; [apply H; reflexivity|].
  apply Forall_app. split; [apply H; reflexivity|exact IH].
Qed.

(** No limit holds for GeoJSON: for every number of levels there is a text, accepted
    without an error, for which parse_geojson calls itself more often than that.
    The brackets of the text are not nested: the JSON check ends a string at a bad
    escape and the tokens do not, and a key with the unknown escape [\:] compares
    equal to the key without it. *)
Theorem C26_geojson_refuted :
  forall e ix limit, exists s g,
    Forall is_byte s /\
    parse_geojson e ix limit (json_parsen s) false = NoFuel /\
    tg_parse_geojsonn_ix e ix s = Ok g /\ tg_geom_error (Some g) = None /\
    (limit <= collection_depth g)%nat.
Proof.
  intros e ix limit. exists (trap limit), (nest limit). split; [apply trap_bytes|].
  split.
  - replace (json_parsen (trap limit)) with (J 0 (123 :: [] ++ inside limit) 0) by reflexivity.
    rewrite parse_inside by now left. now rewrite Nat.ltb_irrefl.
  - split; [apply trap_parse|]. split; [apply nest_error|]. now rewrite nest_depth.
Qed.
Print Assumptions C26_geojson_refuted.

Example C26_geojson_example :
  trap 1 = qstr "{'type':'GeometryCollection','geometries\:'[{\,'type':'Point','coordinates':[1,2]}" /\
  json_validn (trap 1) = Some true.
Proof. split; vm_compute; reflexivity. Qed.

(** For the texts of RFC 8259 there is a limit: parse_geojson is nested in itself at
    most as often as the text is deep, and a text deeper than 1024 is an error. *)
Theorem C26_geojson_bounded_partial :
  forall e ix n text, rfc_json n text -> n <> O -> parse_geojson e ix n (json_parsen text) false <> NoFuel.
Proof.
  intros e ix n text R N E.
  pose proof (parse_safe e ix n (json_parsen text) false (parsen_inside text)) as H.
  rewrite E in H. apply H. right. split; [now apply root_deep|exact N].
Qed.
Print Assumptions C26_geojson_bounded_partial.
Theorem C26_geojson_too_deep_partial :
  forall e ix n text, Forall is_byte text -> rfc_json n text -> ~ rfc_json 1024 text ->
    exists g, tg_parse_geojsonn_ix e ix text = Ok g /\
      tg_geom_error (Some g) = Some (str "ParseError: invalid json"%string).
Proof.
  intros e ix n text B R D. exists (make_parse_error (str "ParseError: invalid json"%string)).
  split; [|reflexivity].
  unfold tg_parse_geojsonn_ix. now rewrite (C26_json_too_deep_partial n text B R D).
Qed.
Print Assumptions C26_geojson_too_deep_partial.

(** ** C48 *)

Lemma suffix_skip (A : Type) n (r pre : list A) : pre ++ r = (pre ++ firstn n r) ++ skipn n r.
Proof. now rewrite <- app_assoc, firstn_skipn. Qed.
Lemma peek_suffix pre raw : exists p, peek_any raw = JNone \/ pre ++ raw = p ++ json_raw (peek_any raw).
Proof.
  destruct (peek_in_text raw) as [_ [p [E|E]]]; [|exists []; now left].
  exists (pre ++ p). right. now rewrite <- app_assoc, <- E.
Qed.
(** Every token that json_first and json_next reach lies inside the text, whatever
    the bytes are, JSON or not. *)
Theorem C48_tokens : forall s j, token_of s j ->
  j = JNone \/
  exists pre, s = pre ++ json_raw j /\ (1 <= json_raw_length j <= length (json_raw j))%nat.
Proof.
  intros s j H. assert (A : in_text j /\ (j = JNone \/ exists pre, s = pre ++ json_raw j)).
  { induction H as [|j H [IH1 IH2]|j H [IH1 IH2]|j H [IH1 IH2]].
    - split; [apply parsen_inside|]. destruct s as [|b r]; [now left|]. cbn [json_parsen].
      destruct ((b =? 91) || (b =? 123)); [right; now exists []|].
      destruct (peek_suffix [] (b :: r)) as [p [E|E]]; [now left|right]. now exists p.
    - split; [apply first_inside|]. destruct IH2 as [->|[pre ->]]; [now left|].
      destruct j as [|i [|b r] l]; [now left..|]. cbn [json_first json_raw].
      destruct (negb (b =? 123) && negb (b =? 91)); [now left|].
      destruct (peek_suffix (pre ++ [b]) r) as [p [E|E]]; [now left|right].
      rewrite <- app_assoc in E. now exists p.
    - split; [apply next_inside|]. destruct IH2 as [->|[pre ->]]; [now left|].
      destruct j as [|i [|b r] l]; [now left..|]. cbn [json_next json_raw].
      set (n := if (l =? 0)%nat then _ else _).
      destruct (peek_suffix (pre ++ firstn n (b :: r)) (skipn n (b :: r))) as [p [E|E]]; [now left|right].
      rewrite <- suffix_skip in E. now exists p.
    - split; [now apply ensure_inside|]. destruct IH2 as [->|[pre ->]]; [now left|right].
      exists pre. now rewrite ensure_raw. }
  destruct A as [A1 A2]. destruct (inside_length j A1) as [->|L]; [now left|].
  destruct A2 as [->|[pre E]]; [now left|]. right. now exists pre.
Qed.
Print Assumptions C48_tokens.

Lemma geojson_safe e ix s : Forall is_byte s ->
  safe e ix (fun g => error_geom g \/ no_error g) (tg_parse_geojsonn_ix e ix s) /\
  forall m, tg_parse_geojsonn_ix e ix s <> Err m.
Proof.
  intros B. unfold tg_parse_geojsonn_ix. pose proof (C23_in_bounds s B) as V.
  destruct (json_validn s) as [b|]; [|congruence].
  destruct b; [|split; [left; split; [reflexivity|cbn; discriminate]|discriminate]].
  pose proof (parse_safe e ix (S (length s)) (json_parsen s) false (parsen_inside s)) as H.
  pose proof (parsen_le s). specialize (H ltac:(left; lia)).
  destruct (parse_geojson e ix _ _ false); (split; [|discriminate]); try exact H; [right; apply H|].
  left. split; [reflexivity|cbn; discriminate].
Qed.

(** Every byte string: the parser ends and gives a geometry, possibly an error
    geometry; for every index option other than y-stripes.  The recursion of the
    model is bounded by the length of the text. *)
Theorem C48_geojson_total_partial :
  forall e ix text, Forall is_byte text ->
    resolve_kind e (Z.land ix 15) <> IxYstripes ->
    exists g, tg_parse_geojsonn_ix e ix text = Ok g.
Proof.
  intros e ix text B HK. destruct (geojson_safe e ix text B) as [H N].
  destruct (tg_parse_geojsonn_ix e ix text) as [g|m| | |]; try contradiction; eauto.
  - now elim (N m).
  - destruct H as [pts H]. now apply series_new_ix_total in H.
Qed.
Print Assumptions C48_geojson_total_partial.

(** ... with y-stripes too the parser ends, but building the stripes of a ring may
    be undefined *)
Theorem C48_geojson_ystripes_partial :
  forall e ix text, Forall is_byte text ->
    (exists g, tg_parse_geojsonn_ix e ix text = Ok g) \/
    (tg_parse_geojsonn_ix e ix text = Ub /\ exists pts, series_new_ix e pts true ix = None).
Proof.
  intros e ix text B. destruct (geojson_safe e ix text B) as [H N].
  destruct (tg_parse_geojsonn_ix e ix text) as [g|m| | |]; try contradiction; eauto.
  now elim (N m).
Qed.
Print Assumptions C48_geojson_ystripes_partial.

Theorem C48_refuted :
  exists text, Forall is_byte text /\
    tg_parse_geojsonn_ix env_init (tg_index_with_spread TG_YSTRIPES 2) text = Ub.
Proof.
  exists (qstr "{'type':'Polygon','coordinates':[[[0,5],[1,5],[2,5],[0,5]]]}").
  split; [|vm_compute; reflexivity]. vm_compute. repeat (constructor; [split; congruence|]). constructor.
Qed.
Print Assumptions C48_refuted.

(** texts that end inside a string, a number or a literal, and bytes that are no JSON *)
Example C48_example :
  resolve_kind env_init (Z.land 0 15) <> IxYstripes /\
  (exists g, tg_parse_geojsonn_ix env_init 0 (qstr "{'type':'Point','coordinates':[1,2]}") = Ok g /\
     tg_geom_error (Some g) = None) /\
  (exists g, tg_parse_geojsonn_ix env_init 0 (qstr "{'type':'Point\:'Poi") = Ok g /\
     tg_geom_error (Some g) <> None) /\
  token_of (qstr "['a") (json_first (json_parsen (qstr "['a"))) /\
  json_raw_length (json_first (json_parsen (qstr "['a"))) = 2%nat.
Proof.
  split; [discriminate|]. split; [eexists; split; vm_compute; reflexivity|].
  split; [eexists; split; [vm_compute; reflexivity|vm_compute; discriminate]|].
  split; [repeat constructor|vm_compute; reflexivity].
Qed.

(** ** C43, GeoJSON *)

(** What the parser gives is an error geometry with a message, or there is no error
    anywhere in it. *)
Theorem C43_geojson_partial :
  forall e ix text g, Forall is_byte text -> tg_parse_geojsonn_ix e ix text = Ok g ->
    error_geom g \/ no_error g.
Proof.
  intros e ix text g B H. destruct (geojson_safe e ix text B) as [S _]. now rewrite H in S.
Qed.
Print Assumptions C43_geojson_partial.

Example C43_example_geojson :
  (exists g, tg_parse_geojsonn_ix env_init 0 (qstr "{'type':'Feature','geometry':{'type':'Point','coordinates':[1,2]},'id':7}") = Ok g /\ no_error g) /\
  (exists g, tg_parse_geojsonn_ix env_init 0 (qstr "{'type':'Feature','geometry':{'type':'Point','coordinates':[1]},'id':7}") = Ok g /\ error_geom g).
Proof.
  split; eexists; (split; [vm_compute; reflexivity|]).
  - repeat split.
  - split; [reflexivity|vm_compute; discriminate].
Qed.
