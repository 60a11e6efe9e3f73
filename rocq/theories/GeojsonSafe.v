(** * The GeoJSON parser stays inside its text and terminates *)

From Coq Require Import ZArith Bool String List Lia ZifyBool.
From Verif Require Import F64 Geo Series RingApi Bytes Geom WkbParse Num WktParse GeomFacts Json JsonTok.
From Verif Require Import SpecJson SpecTree JsonTree Thm_Tree JsonSafe GeojsonParse SpecWkb WkbSafe WktSafe.
Import ListNotations.
Local Open Scope Z_scope.

(** ** Depth of RFC texts *)

(** nothing, or the token of a value nested at most [n] deep *)
Definition deep (n : nat) (j : json) : Prop :=
  j = JNone \/ exists v r, jvalue n v /\ denotes j v r.

Lemma value_deeper :
  (forall n v, value rfc_char false n v -> value rfc_char false (S n) v) /\
  (forall n es, elements rfc_char false n es -> elements rfc_char false (S n) es) /\
  (forall n ms, members rfc_char false n ms -> members rfc_char false (S n) ms).
Proof.
  apply (value_mutind rfc_char false); intros.
  - now constructor.
  - now apply v_num.
  - now apply v_str.
  - now apply v_arr0.
  - now apply v_arr.
  - now apply v_obj0.
  - now apply v_obj.
  - now constructor.
  - now constructor.
  - now constructor.
  - now constructor.
Qed.
Lemma deep_S n j : deep n j -> deep (S n) j.
Proof. intros [->|(v & r & V & D)]; [now left|right]. exists v, r. split; [now apply value_deeper|exact D]. Qed.
Lemma deep_ensure n j : deep n j -> deep n (json_ensure j).
Proof.
  intros [->|(v & r & V & D)]; [now left|right]. exists v, r. split; [exact V|].
  destruct D as (D1 & D2 & D3). destruct j as [|i raw l]; [discriminate|].
  split; [reflexivity|]. split; [exact D2|]. cbn [json_ensure]. rewrite D3.
  apply value_nonempty in V. cbn [json_raw_length]. destruct v; [congruence|reflexivity].
Qed.

(** the tokens from j on, along json_next, while values *)
Fixpoint run_deep (n : nat) (k : nat) (j : json) : Prop :=
  match k with O => True | S k => deep n j /\ run_deep n k (json_next j) end.
Lemma run_none n k : run_deep n k JNone.
Proof. induction k; [exact I|]. split; [now left|exact IHk]. Qed.
Lemma run_walk n l rest : (forall v r, In (v, r) l -> jvalue n v) -> forall k j, walk l rest j -> run_deep n k j.
Proof.
  induction l as [|[v r] l IH]; intros H k j W; cbn [walk] in W; [subst j; apply run_none|].
  destruct W as (N & D & W). destruct k as [|k]; [exact I|]. split.
  - right. exists v, (r ++ rest). split; [apply (H v r); now left|exact D].
  - apply IH; [intros v' r' I; apply (H v' r'); now right|exact W].
Qed.
Lemma array_parts_deep n a l : array_is n a l -> forall v r, In (v, r) l -> jvalue n v.
Proof.
  intros [w W|es l' E] v r H; [contradiction|]. apply in_map_iff in H. destruct H as ([v' r'] & [= <- <-] & H).
  revert H. induction E as [w1 v w2 W1 V W2|w1 v w2 es l0 W1 V W2 E IH]; intros [[= <- <-]|H]; auto. contradiction.
Qed.
Lemma key_value n v k : jvalue n v -> chars rfc_char k -> jvalue n (34 :: k ++ [34]).
Proof. intros V C. destruct n; [inversion V|]. apply v_str. now constructor. Qed.
Lemma object_parts_deep n a l : object_is n a l -> forall v r, In (v, r) (parts_of l) -> jvalue n v.
Proof.
  intros [w W|ms l' E] v r H; [contradiction|].
  rewrite parts_behind in H. apply in_map_iff in H. destruct H as ([v' r'] & [= <- <-] & H).
  revert H. induction E as [w1 k w2 w3 v w4 W1 C W2 W3 V W4|w1 k w2 w3 v w4 ms l0 W1 C W2 W3 V W4 M IH];
    cbn [parts_of flat_map app fst snd]; intros [[= <- <-]|[[= <- <-]|H]]; auto;
    try (now apply (key_value n v)). contradiction.
Qed.
Lemma first_deep n j : deep (S n) j -> forall k, run_deep n k (json_first j).
Proof.
  intros [->|(v & r & V & D)] k; [apply run_none|].
  destruct v as [|b s]; [now apply value_nonempty in V|].
  destruct (C25_parts_exist (S n) s) as [PA PO].
  destruct (Z.eq_dec b 91) as [->|N1].
  { destruct (PA V) as (m & l & [= <-] & A). eapply run_walk; [apply (array_parts_deep _ _ _ A)|].
    eapply walk_array; eassumption. }
  destruct (Z.eq_dec b 123) as [->|N2].
  { destruct (PO V) as (m & l & [= <-] & A). eapply run_walk; [apply (object_parts_deep _ _ _ A)|].
    eapply walk_parts, walk_object; eassumption. }
  replace (json_first j) with JNone; [apply run_none|].
  destruct D as (D1 & D2 & _). destruct j as [|i raw len]; [discriminate|]. cbn [json_raw] in D2. subst raw.
  cbn [json_first app]. replace (negb (b =? 123) && negb (b =? 91)) with true by lia. reflexivity.
Qed.
Lemma run_next n k j : run_deep n (S k) j -> deep n j /\ run_deep n k (json_next j).
Proof. intros H. exact H. Qed.
Lemma children_deep n fuel : forall j l, (forall k, run_deep n k j) -> children fuel j = Some l -> Forall (deep n) l.
Proof.
  induction fuel as [|fuel IH]; intros j l R H; [discriminate|]. cbn [children] in H.
  destruct (json_exists j); [|injection H as <-; constructor].
  destruct (children fuel (json_next j)) as [l'|] eqn:E; [|discriminate]. injection H as <-.
  constructor; [apply (R 1%nat)|]. eapply IH; [|exact E]. intros k. apply (R (S k)).
Qed.
Lemma deep_pos n j : deep n j -> json_exists j = true -> n <> O.
Proof. intros [->|(v & r & V & D)] E; [discriminate|]. intros ->. inversion V. Qed.
Lemma root_deep n s : rfc_json n s -> deep n (json_parsen s).
Proof.
  intros (w1 & v & w2 & -> & W1 & V & W2). right. exists v, w2. split; [exact V|].
  eapply C25_root; eassumption.
Qed.

Section S.
Variable e : env.
Variable ix : Z.
Notation safe := (safe e ix).

Definition shorter (n : nat) (v : json) : Prop :=
  in_text v /\ json_exists v = true /\ (length (json_raw v) < n)%nat.

Lemma items_safe j : in_text j ->
  safe (fun l => Forall (shorter (length (json_raw j))) l /\ forall n, deep (S n) j -> Forall (deep n) l) (json_items j).
Proof.
  intros _. unfold json_items.
  pose proof (fun n D l => children_deep n (S (length (json_raw j))) (json_first j) l (first_deep n j D)) as DP.
  destruct (children_total (S (length (json_raw j))) (json_first j) (first_inside j)) as (l & EC & F).
  { pose proof (first_le j). lia. }
  rewrite EC. cbn. split; [|intros n D; eapply DP; eassumption]. eapply Forall_impl; [|exact F]. cbv beta. intros v (V1 & V2 & V3). split; [exact V1|]. split; [exact V2|].
  pose proof (first_shorter j). destruct (json_first j) eqn:E.
  - pose proof (exists_raw v V1 V2). cbn [json_raw length] in V3. lia.
  - specialize (H eq_refl). lia.
Qed.

Definition target_ok (n : nat) (dp : nat -> Prop) (b : basic) : Prop :=
  in_text (b_target b) /\ (json_exists (b_target b) = true -> (length (json_raw (b_target b)) < n)%nat) /\
  forall m, dp m -> deep m (b_target b).
Lemma member_safe is_feat name b key v n (dp : nat -> Prop) : in_text v -> (length (json_raw v) < n)%nat -> (forall m, dp m -> deep m v) ->
  target_ok n dp b ->
  safe (target_ok n dp)
    (basic_member is_feat name b key v).
Proof.
  intros V1 V2 V3 B. unfold basic_member.
  destruct (json_string_compare_eq key (str "type")); [exact B|].
  destruct (json_string_compare_eq key name).
  { unfold target_ok. cbn. rewrite ensure_raw. split; [now apply ensure_inside|]. split; [auto|]. intros. apply deep_ensure. auto. }
  destruct (is_feat && _).
  { destruct (b_props b); [exact B|]. destruct (json_type v =? JSON_NULL); [exact B|].
    destruct (json_type v =? JSON_OBJECT); [|exact I]. destruct (json_exists (json_first v)); exact B. }
  destruct (is_feat && _); [|exact B].
  destruct (b_id b); [exact B|]. destruct (_ && _); [exact I|exact B].
Qed.
Lemma basic_loop_safe is_feat name n (dp : nat -> Prop) fuel : forall key b, in_text key -> (forall m k, dp m -> run_deep m k key) ->
  (length (json_raw key) < n)%nat -> (length (json_raw key) < fuel)%nat ->
  target_ok n dp b ->
  safe (target_ok n dp)
    (basic_loop is_feat name fuel key b).
Proof.
  induction fuel as [|fuel IH]; intros key b K1 KD K2 K3 B; [lia|]. cbn [basic_loop].
  destruct (json_exists key) eqn:E; [|exact B].
  pose proof (next_le key). pose proof (next_le (json_next key)). pose proof (exists_raw key K1 E).
  eapply safe_bind; [apply (member_safe is_feat name b key (json_next key) n dp); [apply next_inside|lia| |exact B]; intros m DM; apply (KD m 2%nat DM)|].
  intros b' B'. apply IH; auto using next_inside; [intros m k DM; apply (KD m (S (S k)) DM)|lia|].
  pose proof (next_shorter key) as N4.
  destruct (json_next key) eqn:E3; [cbn; lia|]. specialize (N4 eq_refl). rewrite <- E3 in *. lia.
Qed.
Lemma take_safe j name : in_text j -> json_type j = JSON_OBJECT ->
  safe (fun t => shorter (length (json_raw j)) (t_target t) /\ forall n, deep (S n) j -> deep n (t_target t))
    (take_basic_geojson j name).
Proof.
  intros J0 T. unfold take_basic_geojson.
  eapply safe_bind.
  - apply (basic_loop_safe _ _ (length (json_raw j)) (fun n => deep (S n) j)); [apply first_inside| | | |].
    + intros m k DM. now apply first_deep.
    + pose proof (first_shorter j). destruct (json_first j) eqn:E; [|now apply H].
      cbn [json_raw length]. unfold json_type in T. destruct (json_raw j); [discriminate T|cbn; lia].
    + pose proof (first_le j). lia.
    + split; [exact I|]. split; [discriminate|]. now left.
  - intros b (B1 & B2 & B3). destruct (json_exists (b_target b)) eqn:E; cbn [negb]; [|exact I]. cbv zeta.
    assert (R : shorter (length (json_raw j)) (b_target b) /\ forall n, deep (S n) j -> deep n (b_target b)) by (repeat split; auto).
    destruct (zlist_eqb _ _).
    + destruct (_ =? JSON_OBJECT); [exact R|]. destruct (_ =? JSON_NULL); [exact R|exact I].
    + destruct (negb _); [exact I|exact R].
Qed.

(** what a parser gives: no error inside, and a place for the extra JSON when the
    caller will store one *)
Definition holds_extra (g : geom) : Prop :=
  match g with GPoint _ _ | GLine _ _ | GPoly _ _ => False | _ => True end.
Definition good (req : bool) (g : geom) : Prop :=
  no_error g /\ (req = true -> not_feature (geom_flags g) = true -> holds_extra g).

Lemma no_error_flags g f : no_error g -> is_error f = false -> no_error (with_flags g f).
Proof.
  destruct g as [| | | | | |t f0 [l|] c x]; cbn; intros; try (split; [assumption|exact I]).
  split; [assumption|apply H].
Qed.
Lemma no_error_is g : no_error g -> is_error (geom_flags g) = false.
Proof. destruct g; cbn; intros H; apply H. Qed.
Lemma add_flags_error a b c f : is_error (add_flags a b c f) = is_error f.
Proof. reflexivity. Qed.
Lemma tail_safe t g req : no_error g -> (t_extra t <> None -> holds_extra g) ->
  (req = true -> not_feature (geom_flags g) = true -> holds_extra g) ->
  safe (good req) (basic_tail t g).
Proof.
  intros H1 H2 H3. unfold basic_tail.
  set (g' := with_flags g _).
  assert (N : no_error g') by (apply no_error_flags; [assumption|cbn; now apply no_error_is]).
  assert (X : holds_extra g' <-> holds_extra g) by now destruct g.
  assert (F : not_feature (geom_flags g') = not_feature (geom_flags g)) by now destruct g.
  destruct (t_extra t) as [x|] eqn:E; cbn [set_xjson].
  - assert (HX : holds_extra g') by (apply X, H2; congruence).
    destruct g' as [| | | | | |ty f [l|] c x0]; try contradiction HX; cbn; (split; [exact N|auto]).
  - cbn. split; [exact N|]. intros R Q. rewrite F in Q. apply X. auto.
Qed.
Lemma extended_safe t g req : no_error g -> holds_extra g -> safe (good req) (basic_tail t g).
Proof. intros H1 H2. apply tail_safe; auto. Qed.
Lemma plain_safe t g req n : no_error g -> plain_geom req t n = true -> safe (good req) (basic_tail t g).
Proof.
  intros H1 H2. unfold plain_geom in H2. destruct req; [discriminate H2|].
  destruct (t_extra t) eqn:E; [discriminate H2|]. apply tail_safe; [assumption|congruence|discriminate].
Qed.

Lemma point_safe j req : in_text j -> json_type j = JSON_OBJECT -> safe (good req) (parse_geojson_point j req).
Proof.
  intros J0 T. unfold parse_geojson_point. eapply safe_bind; [now apply take_safe|]. intros t [(T1 & TE & T2) TD].
  destruct (t_empty t); [apply extended_safe; [now split|exact I]|].
  eapply safe_bind; [now apply items_safe|]. intros items _. unfold posn_nums.
  destruct (forallb _ items); [|exact I]. cbn [obind]. cbv zeta.
  generalize (firstn 4 (map json_double items)). intros posn.
  destruct (length posn <? 2)%nat; [exact I|].
  destruct (plain_geom req t _) eqn:E.
  - eapply plain_safe; [now split|exact E].
  - destruct (length posn) as [|[|[|[|n]]]]; (apply extended_safe; [now split|exact I]).
Qed.

Lemma posns_safe depth items : forall dims n, Forall (shorter n) items ->
  safe (fun _ => True) (posns_loop dims depth items).
Proof.
  induction items as [|v items IH]; intros dims n F; [exact I|]. cbn [posns_loop]. inversion_clear F.
  destruct (negb _); [exact I|]. eapply safe_bind; [apply items_safe, H|]. intros its _.
  unfold posn_nums. destruct (forallb _ its); [|exact I]. cbn [obind]. cbv zeta.
  destruct (_ <? 2)%nat; [exact I|]. destruct (negb _); [exact I|].
  eapply safe_bind; [eapply IH; eassumption|]. intros r _. exact I.
Qed.
Lemma parse_posns_safe base dims depth coords : in_text coords ->
  safe (fun _ => True) (parse_geojson_posns base dims depth coords).
Proof.
  intros C. unfold parse_geojson_posns. eapply safe_bind; [now apply items_safe|]. intros items [F FD].
  eapply safe_bind; [eapply posns_safe; exact F|]. intros r _. cbv zeta.
  destruct (match base with WBPoint => _ | _ => _ end); exact I.
Qed.
Lemma series_safe base dims depth coords : in_text coords ->
  (base = WBRing \/ base = WBLine) ->
  safe (fun _ => True) (geojson_series e ix base dims depth coords).
Proof.
  intros C B. unfold geojson_series. eapply safe_bind; [now apply parse_posns_safe|].
  intros [[d pts] x] _. destruct (series_new_ix e pts _ ix) eqn:E; [exact I|].
  cbn. destruct B as [->| ->]; [now exists pts|].
  destruct (series_new_ix_open e pts ix). congruence.
Qed.
Lemma groups_safe {A} (f : nat -> json -> out (nat * A * list f64)) msg items n :
  (forall d v, in_text v -> safe (fun _ => True) (f d v)) -> forall dims,
  Forall (shorter n) items -> safe (fun _ => True) (groups_loop f msg dims items).
Proof.
  intros HF. induction items as [|v items IH]; intros dims F; [exact I|]. cbn [groups_loop]. inversion_clear F.
  destruct (negb _); [exact I|]. eapply safe_bind; [apply HF, H|]. intros [[d a] x] _.
  eapply safe_bind; [now apply IH|]. intros [[d2 al] xs] _. exact I.
Qed.
Lemma multi_posns_safe depth dims coords : in_text coords ->
  safe (fun _ => True) (parse_geojson_multi_posns e ix depth dims coords).
Proof.
  intros C. unfold parse_geojson_multi_posns. eapply safe_bind; [now apply items_safe|]. intros items [F FD].
  eapply safe_bind; [eapply groups_safe; [|exact F]; intros; apply series_safe; auto|].
  intros [[d rs] x] _. destruct rs as [|r0 holes]; [exact I|].
  unfold tg_poly_new. rewrite map_length.
  destruct (Z.of_nat (length holes) =? 0); [exact I|]. destruct (0 <? Z.of_nat (length holes)) eqn:E; [|exact I].
  now rewrite Z.ltb_irrefl.
Qed.

Lemma linestring_safe j req : in_text j -> json_type j = JSON_OBJECT -> safe (good req) (parse_geojson_linestring e ix j req).
Proof.
  intros J0 T. unfold parse_geojson_linestring. eapply safe_bind; [now apply take_safe|]. intros t [(T1 & TE & T2) TD].
  destruct (t_empty t); [apply extended_safe; [now split|exact I]|].
  eapply safe_bind; [apply series_safe; auto|]. intros [[dims line] x] _.
  destruct (plain_geom req t _) eqn:E.
  - eapply plain_safe; [now split|exact E].
  - destruct dims as [|[|[|[|n]]]]; (apply extended_safe; [now split|exact I]).
Qed.
Lemma polygon_safe j req : in_text j -> json_type j = JSON_OBJECT -> safe (good req) (parse_geojson_polygon e ix j req).
Proof.
  intros J0 T. unfold parse_geojson_polygon. eapply safe_bind; [now apply take_safe|]. intros t [(T1 & TE & T2) TD].
  destruct (t_empty t); [apply extended_safe; [now split|exact I]|].
  eapply safe_bind; [apply multi_posns_safe; auto|]. intros [[dims line] x] _.
  destruct (plain_geom req t _) eqn:E.
  - eapply plain_safe; [now split|exact E].
  - destruct dims as [|[|[|[|n]]]]; (apply extended_safe; [now split|exact I]).
Qed.
Lemma multi_safe t dims x ty l req : Forall (opt_all no_error) l ->
  safe (good req) (basic_tail t (multi_dims dims x (GGMulti ty fl0 (Some l) [] None))).
Proof.
  intros F. destruct dims as [|[|[|[|n]]]]; (apply extended_safe; [now apply no_error_multi|exact I]).
Qed.
Lemma multipoint_safe j req : in_text j -> json_type j = JSON_OBJECT -> safe (good req) (parse_geojson_multipoint j).
Proof.
  intros J0 T. unfold parse_geojson_multipoint. eapply safe_bind; [now apply take_safe|]. intros t [(T1 & TE & T2) TD].
  eapply safe_bind; [now apply parse_posns_safe|]. intros [[dims pts] x] _. apply multi_safe.
  apply Forall_map, Forall_forall. intros p _. cbn. auto.
Qed.
Lemma multilinestring_safe j req : in_text j -> json_type j = JSON_OBJECT -> safe (good req) (parse_geojson_multilinestring e ix j).
Proof.
  intros J0 T. unfold parse_geojson_multilinestring. eapply safe_bind; [now apply take_safe|]. intros t [(T1 & TE & T2) TD].
  eapply safe_bind; [now apply items_safe|]. intros items [F FD].
  eapply safe_bind; [eapply groups_safe; [|exact F]; intros; apply series_safe; auto|].
  intros [[dims ls] x] _. apply multi_safe.
  apply Forall_map, Forall_map, Forall_forall. intros p _. cbn. auto.
Qed.
Lemma multipolygon_safe j req : in_text j -> json_type j = JSON_OBJECT -> safe (good req) (parse_geojson_multipolygon e ix j).
Proof.
  intros J0 T. unfold parse_geojson_multipolygon. eapply safe_bind; [now apply take_safe|]. intros t [(T1 & TE & T2) TD].
  eapply safe_bind; [now apply items_safe|]. intros items [F FD].
  eapply safe_bind; [eapply groups_safe; [|exact F]; intros; apply multi_posns_safe; auto|].
  intros [[dims ps] x] _. apply multi_safe.
  apply Forall_map, Forall_map, Forall_forall. intros p _. cbn. auto.
Qed.

Lemma geoms_safe child ok msg (P : json -> Prop) items :
  (forall v, P v -> safe (good false) (child v)) -> Forall P items ->
  safe (fun gs => Forall no_error gs) (geoms_loop child ok msg items).
Proof.
  intros HC. induction items as [|v items IH]; intros F; [constructor|]. cbn [geoms_loop]. inversion_clear F.
  eapply safe_bind; [now apply HC|]. intros g [G _]. destruct (ok (geom_flags g)); [|exact I].
  eapply safe_bind; [now apply IH|]. intros gs GS. cbn. auto.
Qed.
Lemma collection_no_error gs : Forall no_error gs -> no_error (tg_geom_new_geometrycollection (map Some gs)).
Proof. intros H. apply no_error_multi. split; [reflexivity|]. now apply Forall_map. Qed.

(** enough levels of recursion: more than the text is long, or, for an RFC text, as
    many as it is deep *)
Definition levels (d : nat) (j : json) : Prop := (length (json_raw j) < d)%nat \/ deep d j /\ d <> O.
Lemma parse_safe d : forall j req, in_text j -> levels d j ->
  safe (good req) (parse_geojson e ix d j req).
Proof.
  induction d as [|d IH]; intros j req J0 L; [destruct L as [L|[_ L]]; [lia|congruence]|]. cbn [parse_geojson].
  destruct (json_type j =? JSON_OBJECT) eqn:T; cbn [negb]; [|exact I]. apply Z.eqb_eq in T.
  unfold json_object_get. rewrite T. change (JSON_OBJECT =? JSON_OBJECT) with true. cbn [andb].
  destruct (object_get_total (S (length (json_raw j))) (str "type") (json_first j) (first_inside j))
    as (v & -> & V1 & V2); [pose proof (first_le j); lia|].
  destruct (negb (json_exists v)); [exact I|].
  unfold geojson_type. destruct (string_copy_total v (repeat 0 24)) as (n & body & ->). cbn [obind].
  set (type := cstr _). cbv zeta.
  assert (CH : forall w, shorter (length (json_raw j)) w -> (deep (S d) j -> deep d w) ->
    forall req, safe (good req) (parse_geojson e ix d w req)).
  { intros w (W1 & W2 & W3) W4 r. apply IH; [exact W1|]. destruct L as [L|[L _]]; [left; lia|right].
    split; [auto|]. eapply deep_pos; [now apply W4|exact W2]. }
  assert (CI : forall t items, shorter (length (json_raw j)) t -> (forall n, deep (S n) j -> deep n t) ->
    Forall (shorter (length (json_raw t))) items -> (forall n, deep (S n) t -> Forall (deep n) items) ->
    Forall (fun w => shorter (length (json_raw j)) w /\ (deep (S d) j -> deep d w)) items).
  { intros t items (S1 & S2 & S3) S4 F FD. apply Forall_forall. intros w W.
    pose proof (proj1 (Forall_forall _ _) F w W) as (W1 & W2 & W3).
    split; [split; [exact W1|split; [exact W2|lia]]|]. intros D. apply S4 in D.
    pose proof (deep_pos _ _ D S2). destruct d as [|d']; [congruence|]. apply deep_S.
    apply FD in D. now apply (proj1 (Forall_forall _ _) D). }
  repeat (match goal with |- context [if zlist_eqb type ?s then _ else _] => destruct (zlist_eqb type s) end).
  - now apply point_safe.
  - now apply linestring_safe.
  - now apply polygon_safe.
  - now apply multipoint_safe.
  - now apply multilinestring_safe.
  - now apply multipolygon_safe.
  - unfold parse_geojson_geometrycollection. eapply safe_bind; [now apply take_safe|]. intros t [(T1 & TE & T2) TD].
    eapply safe_bind; [now apply items_safe|]. intros items [F FD].
    eapply safe_bind; [eapply geoms_safe; [|apply (CI (t_target t)); [repeat split; assumption|assumption..]]|].
    { intros w [W1 W2]. now apply CH. }
    intros gs G. apply extended_safe; [now apply collection_no_error|exact I].
  - unfold parse_geojson_feature. eapply safe_bind; [now apply take_safe|]. intros t [(T1 & TE & T2) TD].
    eapply (safe_bind _ _ (good (match t_extra t with Some _ => true | None => false end))).
    { destruct (t_empty t); [cbn; split; cbn; auto|]. apply CH; [repeat split; assumption|apply TD]. }
    intros g [G1 G2]. destruct (not_feature (geom_flags g)) eqn:NF; [|exact I]. cbv zeta.
    set (g' := with_flags g _).
    assert (N : no_error g') by (apply no_error_flags; [assumption|cbn; now apply no_error_is]).
    assert (X : holds_extra g' <-> holds_extra g) by now destruct g.
    apply tail_safe; [exact N| |intros _ Q; exfalso].
    + cbn [t_extra]. intros Q. apply X. destruct (t_extra t); [now apply G2|].
      destruct g; try exact I; now contradiction Q.
    + revert Q. unfold g'. destruct g; cbn; discriminate.
  - unfold parse_geojson_featurecollection. eapply safe_bind; [now apply take_safe|]. intros t [(T1 & TE & T2) TD].
    eapply safe_bind; [now apply items_safe|]. intros items [F FD].
    eapply safe_bind; [eapply geoms_safe; [|apply (CI (t_target t)); [repeat split; assumption|assumption..]]|].
    { intros w [W1 W2]. now apply CH. }
    intros gs G. apply extended_safe; [|exact I]. apply no_error_flags; [now apply collection_no_error|reflexivity].
  - exact I.
Qed.
End S.
