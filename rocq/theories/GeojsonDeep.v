(** * A flat JSON text that parse_geojson reads as deeply nested *)

From Coq Require Import ZArith Bool String List Lia ZifyBool.
From Verif Require Import F64 Geo Series RingApi Bytes Geom WkbParse Num WktParse Json JsonTok
  SpecJson JsonFacts GeojsonParse GeojsonWrite.
Import ListNotations.
Local Open Scope Z_scope.

(** The members type and geometries.  The backslash before the colon breaks the
    first string off for the check, while the tokens see a string up to the next
    quote; so [ and { are part of a string for the check only. *)
Definition level : list Z := qstr "'type':'GeometryCollection','geometries\:'[{\,".
Definition innermost : list Z := qstr "'type':'Point','coordinates':[1,2]}".
Fixpoint inside (n : nat) : list Z := match n with O => innermost | S n => level ++ inside n end.
Definition trap (n : nat) : list Z := 123 :: inside n.

(** ** The check takes it *)
Lemma chars_of s : forallb (fun b => (32 <=? b) && (b <=? 127) && negb (b =? 34) && negb (b =? 92)) s = true ->
  chars lax_char s.
Proof.
  induction s as [|b s IH]; [constructor|]. cbn [forallb]. rewrite !andb_true_iff.
  intros [[[[H1 H2] H3] H4] H]. apply chars_plain; [lia|lia|lia|auto].
Qed.
Ltac plain := apply chars_of; vm_compute; reflexivity.

Lemma str_ok s : forallb (fun b => (32 <=? b) && (b <=? 127) && negb (b =? 34) && negb (b =? 92)) s = true ->
  str_tail lax_char true (s ++ [34]).
Proof. intros H. constructor. now apply chars_of. Qed.
Lemma broken_ok s : forallb (fun b => (32 <=? b) && (b <=? 127) && negb (b =? 34) && negb (b =? 92)) s = true ->
  str_tail lax_char true (s ++ [92]).
Proof. intros H. apply tail_esc; [reflexivity|]. now apply chars_of. Qed.
Lemma digit_num k d : 49 <= d <= 57 -> value lax_char true (S k) [d].
Proof.
  intros H. apply v_num. apply (number_pos [d] [] []); try constructor.
  - split; [discriminate|]. constructor; [|constructor]. unfold digit, between. lia.
  - cbn. lia.
Qed.
Lemma inside_members k n :
  exists ms, inside n = ms ++ [125] /\ members lax_char true (S (S k)) ms.
Proof.
  induction n as [|n (ms & E & IH)].
  - exists (qstr "'type':'Point','coordinates':[1,2]"). split; [reflexivity|].
    apply (m_more _ _ _ [] (str "type" ++ [34]) [] [] (34 :: str "Point" ++ [34]) []
             (34 :: (str "coordinates" ++ [34]) ++ [] ++ 58 :: [] ++ (91 :: (str "1,2") ++ [93]) ++ [])).
    1,3,4,6: constructor.
    + now apply str_ok.
    + apply v_str. now apply str_ok.
    + apply (m_one _ _ _ [] (str "coordinates" ++ [34]) [] []). 1,3,4,6: constructor.
      * now apply str_ok.
      * apply v_arr. apply (e_more _ _ _ [] [49] [] [50]). 1,3: constructor.
        { apply digit_num. lia. }
        apply (e_one _ _ _ [] [50] []); [constructor|apply digit_num; lia|constructor].
  - exists (level ++ ms). split; [cbn [inside]; now rewrite E, app_assoc|].
    apply (m_more _ _ _ [] (str "type" ++ [34]) [] [] (34 :: str "GeometryCollection" ++ [34]) []
             (34 :: (str "geometries" ++ [92]) ++ [] ++ 58 :: [] ++ (34 :: str "[{" ++ [92]) ++ [] ++ 44 :: ms)).
    1,3,4,6: constructor.
    + now apply str_ok.
    + apply v_str. now apply str_ok.
    + apply (m_more _ _ _ [] (str "geometries" ++ [92]) [] []). 1,3,4,6: constructor.
      * now apply broken_ok.
      * apply v_str. now apply broken_ok.
      * exact IH.
Qed.

Lemma trap_valid n : json_validn (trap n) = Some true.
Proof.
  apply json_valid_complete. destruct (inside_members 1021 n) as (ms & E & H).
  exists [], (trap n), []. rewrite app_nil_r. split; [reflexivity|]. split; [constructor|].
  split; [|constructor]. unfold trap. rewrite E. now constructor.
Qed.

(** ** count_nested runs to the end *)
Definition runs (k : Z) (r : list Z) : Prop :=
  forall fuel pre d, k <= d -> (length r < fuel)%nat ->
    nested_loop fuel pre r d = Some (length pre + length r)%nat.

Lemma runs_nil : runs 0 [].
Proof.
  intros [|fuel] pre d H L; [cbn in L; lia|]. cbn [nested_loop length].
  rewrite Nat.add_0_r. now destruct (d =? 0).
Qed.
Lemma runs_plain k b r : tok nesttoks b = 0 -> 0 < k -> runs k r -> runs k (b :: r).
Proof.
  intros T K H [|fuel] pre d Hd L; [cbn in L; lia|]. cbn [nested_loop].
  replace (d =? 0) with false by lia. cbn [length] in *. rewrite T. cbn [Z.eqb].
  rewrite H by lia. cbn [length]. f_equal. lia.
Qed.
Lemma runs_up k b r : tok nesttoks b = 4 -> 0 < k -> runs (k + 1) r -> runs k (b :: r).
Proof.
  intros T K H [|fuel] pre d Hd L; [cbn in L; lia|]. cbn [nested_loop].
  replace (d =? 0) with false by lia. cbn [length] in *. rewrite T. cbn [Z.eqb Z.sub Z.opp Z.add Z.pos_sub Pos.add negb].
  rewrite H by lia. cbn [length]. f_equal. lia.
Qed.
Lemma runs_down k b r : tok nesttoks b = 2 -> 0 < k -> runs (k - 1) r -> runs k (b :: r).
Proof.
  intros T K H [|fuel] pre d Hd L; [cbn in L; lia|]. cbn [nested_loop].
  replace (d =? 0) with false by lia. cbn [length] in *. rewrite T. cbn [Z.eqb Z.sub Z.opp Z.add Z.pos_sub Pos.add Pos.pred_double Pos.eqb negb].
  rewrite H by lia. cbn [length]. f_equal. lia.
Qed.
Lemma nested_string_app s r : forall pre c, ~ In 34 (c :: s) -> last (c :: s) 0 <> 92 ->
  nested_string pre (c :: s ++ 34 :: r) = (34 :: rev s ++ c :: pre, r).
Proof.
  induction s as [|a s IH]; intros pre c N L.
  - cbn [app nested_string rev]. replace (c =? 34) with false by (cbn in N; lia).
    cbn [last] in L. change (34 =? 34) with true. cbv iota.
    destruct c as [|p|p]; try reflexivity. do 7 (destruct p as [p|p|]; try reflexivity). now contradiction L.
  - cbn [app] in *. cbn [nested_string]. replace (c =? 34) with false by (cbn in N; lia).
    change (if a =? 34 then _ else nested_string (a :: c :: pre) (s ++ 34 :: r))
      with (nested_string (c :: pre) (a :: s ++ 34 :: r)).
    rewrite IH; [|intros X; apply N; now right|exact L]. cbn [rev]. now rewrite <- app_assoc.
Qed.
Lemma runs_str k c s r : ~ In 34 (c :: s) -> last (c :: s) 0 <> 92 -> 0 < k -> runs k r ->
  runs k (34 :: (c :: s) ++ 34 :: r).
Proof.
  intros N La K H [|fuel] pre d Hd L; [cbn in L; lia|]. cbn [nested_loop].
  replace (d =? 0) with false by lia. change (tok nesttoks 34) with 1.
  cbn [Z.eqb Z.sub Z.opp Z.add Z.pos_sub negb].
  change ((c :: s) ++ 34 :: r) with (c :: s ++ 34 :: r) in *.
  rewrite nested_string_app by assumption.
  cbn [length] in *. rewrite app_length in *. cbn [length] in *. rewrite H by lia.
  cbn [length]. rewrite app_length, rev_length. cbn [length]. f_equal. lia.
Qed.
Ltac rstr t := apply (runs_str _ (hd 0 (str t)) (tl (str t))); [vm_compute; lia|discriminate|lia|].
Ltac rp := apply runs_plain; [reflexivity|lia|].
Lemma runs_more k k' r : k <= k' -> runs k r -> runs k' r.
Proof. intros L H fuel pre d D. apply H. lia. Qed.

Lemma runs_inside n : forall k, 0 < k -> runs k (inside n).
Proof.
  induction n as [|n IH]; intros k K.
  - apply (runs_more 1); [lia|]. cbn [inside]. unfold innermost.
    rstr "type"%string. rp. rstr "Point"%string. rp. rstr "coordinates"%string. rp.
    apply runs_up; [reflexivity|lia|]. rp. rp. rp. apply runs_down; [reflexivity|lia|].
    apply runs_down; [reflexivity|lia|]. exact runs_nil.
  - cbn [inside].
    change (level ++ inside n) with
      (34 :: str "type" ++ 34 :: 58 :: 34 :: str "GeometryCollection" ++ 34 :: 44
       :: 34 :: (str "geometries" ++ [92;58]) ++ 34 :: 91 :: 123 :: 92 :: 44 :: inside n).
    rstr "type"%string. rp. rstr "GeometryCollection"%string. rp. rstr "geometries\:"%string.
    apply runs_up; [reflexivity|lia|]. apply runs_up; [reflexivity|lia|]. rp. rp. apply IH. lia.
Qed.

Lemma next_none i b r : (forall k, 0 < k -> runs k r) -> json_next (J i (b :: r) 0) = JNone.
Proof.
  intros H. cbn [json_next Nat.eqb].
  rewrite skipn_all2; [reflexivity|]. unfold count_nested. rewrite (H 1) by lia. cbn [length]. lia.
Qed.

(** ** What the parser makes of it *)
Fixpoint nest (n : nat) : geom :=
  match n with
  | O => tg_geom_new_point (Pt f_one f_two)
  | S n => tg_geom_new_geometrycollection [Some (nest n)]
  end.

Section Level.
Variable r : list Z.
Hypothesis R : forall k, 0 < k -> runs k r.
Let l2 := skipn 7 level ++ r.
Let l3 := skipn 28 level ++ r.
Let arr := 91 :: 123 :: 92 :: 44 :: r.
Let obj := 123 :: 92 :: 44 :: r.

Lemma f2 : json_next (J 0 (level ++ r) 6) = J 0 l2 20.
Proof. vm_compute. reflexivity. Qed.
Lemma f3 : json_next (J 0 l2 20) = J 1 l3 14.
Proof. vm_compute. reflexivity. Qed.
Lemma f4 : json_next (J 1 l3 14) = J 0 arr 0.
Proof. vm_compute. reflexivity. Qed.
Lemma f5 i : json_next (J i obj 0) = JNone.
Proof.
  apply next_none. intros k K. rp. rp. auto.
Qed.
Lemma arr_len : count_nested arr = length arr.
Proof.
  unfold count_nested, arr. rewrite (runs_up 1); [cbn [length]; lia|reflexivity|lia| |lia|lia].
  rp. rp. apply R. lia.
Qed.
Lemma f6 i k : k = 0%nat \/ k = length arr -> json_next (J i arr k) = JNone.
Proof.
  intros [->| ->]; cbn [json_next]; [cbn [Nat.eqb]; rewrite arr_len|
    replace (length arr =? 0)%nat with false by reflexivity]; now rewrite skipn_all.
Qed.

Lemma level_first i l sp : sp = [] \/ sp = [92; 44] ->
  json_first (J i (123 :: sp ++ level ++ r) l) = J 0 (level ++ r) 6.
Proof. intros [->| ->]; vm_compute; reflexivity. Qed.

Lemma level_type i l sp : sp = [] \/ sp = [92; 44] ->
  json_object_get (J i (123 :: sp ++ level ++ r) l) (str "type") = Some (J 0 l2 20).
Proof. intros [->| ->]; vm_compute; reflexivity. Qed.

Lemma level_basic i l sp : sp = [] \/ sp = [92; 44] ->
  take_basic_geojson (J i (123 :: sp ++ level ++ r) l) (str "geometries") =
  Ok (Taken (J 0 arr (length arr)) false false false None).
Proof.
  intros H. unfold take_basic_geojson. rewrite (level_first i l sp H).
  change (zlist_eqb (str "geometries") (str "geometry")) with false.
  cbn [json_raw].
  assert (L : exists k, S (length (123 :: sp ++ level ++ r)) = S (S (S k))).
  { exists (length (sp ++ level ++ r) - 1)%nat. cbn [length]. rewrite !app_length.
    change (length level) with 46%nat. lia. }
  destruct L as [k ->].
  assert (B1 : forall b, basic_member false (str "geometries") b (J 0 (level ++ r) 6) (J 0 l2 20) = Ok b).
  { intros b. unfold basic_member.
    replace (json_string_compare_eq (J 0 (level ++ r) 6) (str "type")) with true by (vm_compute; reflexivity).
    reflexivity. }
  assert (B2 : forall b, basic_member false (str "geometries") b (J 1 l3 14) (J 0 arr 0)
      = Ok (Basic (json_ensure (J 0 arr 0)) (b_null b) (b_props b) (b_id b) (b_extra b))).
  { intros b. unfold basic_member.
    replace (json_string_compare_eq (J 1 l3 14) (str "type")) with false by (vm_compute; reflexivity).
    replace (json_string_compare_eq (J 1 l3 14) (str "geometries")) with true by (vm_compute; reflexivity).
    reflexivity. }
  cbn [basic_loop json_exists]. rewrite f2, B1. cbn [obind]. rewrite f3, f4, B2. cbn [obind].
  rewrite f6 by now left. cbn [json_exists obind b_target b_extra b_null].
  unfold json_ensure at 1 2 3 4. cbn [json_exists].
  replace (json_raw_length (J 0 arr 0)) with (length arr) by (cbn [json_raw_length Nat.eqb negb]; now rewrite <- arr_len).
  reflexivity.
Qed.

Lemma level_items : json_items (J 0 arr (length arr)) = Ok [J 0 obj 0].
Proof.
  unfold json_items. cbn [json_raw length children].
  change (json_first (J 0 arr (length arr))) with (J 0 obj 0). cbn [json_exists]. rewrite f5. reflexivity.
Qed.

Lemma parse_level e ix d i l sp req : sp = [] \/ sp = [92; 44] ->
  parse_geojson e ix (S d) (J i (123 :: sp ++ level ++ r) l) req =
  obind (parse_geojson e ix d (J 0 obj 0) false) (fun g =>
    if not_feature (geom_flags g) then Ok (tg_geom_new_geometrycollection [Some g])
    else Err (str "'geometries' must only contain objects with the 'type' of Point, LineString, Polygon, MultiPoint, MultiLineString, MultiPolygon, or GeometryCollection")).
Proof.
  intros H. cbn [parse_geojson]. change (json_type (J i (123 :: sp ++ level ++ r) l)) with JSON_OBJECT.
  rewrite (level_type i l sp H). cbn [json_exists negb Z.eqb JSON_OBJECT Pos.eqb].
  replace (geojson_type (J 0 l2 20)) with (Ok (str "GeometryCollection")) by (vm_compute; reflexivity).
  cbn [obind].
  change (zlist_eqb (str "GeometryCollection") (str "Point")) with false.
  change (zlist_eqb (str "GeometryCollection") (str "LineString")) with false.
  change (zlist_eqb (str "GeometryCollection") (str "Polygon")) with false.
  change (zlist_eqb (str "GeometryCollection") (str "MultiPoint")) with false.
  change (zlist_eqb (str "GeometryCollection") (str "MultiLineString")) with false.
  change (zlist_eqb (str "GeometryCollection") (str "MultiPolygon")) with false.
  change (zlist_eqb (str "GeometryCollection") (str "GeometryCollection")) with true. cbv iota.
  unfold parse_geojson_geometrycollection. rewrite (level_basic i l sp H). cbn [obind t_target].
  rewrite level_items. cbn [obind geoms_loop].
  destruct (parse_geojson e ix d (J 0 obj 0) false) as [g|m| | |]; try reflexivity. cbn [obind].
  destruct (not_feature (geom_flags g)); reflexivity.
Qed.
End Level.

Lemma parse_point e ix d i l sp : sp = [] \/ sp = [92; 44] ->
  parse_geojson e ix (S d) (J i (123 :: sp ++ innermost) l) false = Ok (nest 0).
Proof. intros [->| ->]; vm_compute; reflexivity. Qed.

Lemma parse_inside e ix n : forall d i l sp, sp = [] \/ sp = [92; 44] -> 
  parse_geojson e ix d (J i (123 :: sp ++ inside n) l) false = if (n <? d)%nat then Ok (nest n) else NoFuel.
Proof.
  induction n as [|n IH]; intros [|d] i l sp H; try reflexivity.
  - now apply parse_point.
  - cbn [inside]. rewrite parse_level by auto using runs_inside.
    change (123 :: 92 :: 44 :: inside n) with (123 :: [92; 44] ++ inside n).
    rewrite IH by now right. change (S n <? S d)%nat with (n <? d)%nat.
    destruct (n <? d)%nat; [|reflexivity]. cbn [obind nest].
    replace (not_feature (geom_flags (nest n))) with true by now destruct n. reflexivity.
Qed.

Lemma trap_parse e ix n : tg_parse_geojsonn_ix e ix (trap n) = Ok (nest n).
Proof.
  unfold tg_parse_geojsonn_ix. rewrite trap_valid. change (json_parsen (trap n)) with (J 0 (123 :: [] ++ inside n) 0).
  rewrite parse_inside by now left.
  assert (L : (n < length (inside n))%nat).
  { induction n as [|n IH]; [cbn; lia|]. cbn [inside]. rewrite app_length. change (length level) with 46%nat. lia. }
  replace (n <? S (length (trap n)))%nat with true by (cbn [trap length]; lia). reflexivity.
Qed.
