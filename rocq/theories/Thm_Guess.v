(** * What any of the parsers accepts, tg_parse accepts too, with the same result (C27) *)

From Coq Require Import ZArith Bool String List Lia ZifyBool.
From Verif Require Import F64 Geo Series RingApi Bytes Geom WkbParse Hex Geobin Json JsonTok WktParse GeojsonParse Parse
  WriterFacts GeojsonWrite SpecWkb HexFacts Thm_Writers.
Import ListNotations.
Local Open Scope Z_scope.

Lemma wrap_failed m : tg_geom_error (Some (wrap_error (make_parse_error m))) <> None.
Proof. discriminate. Qed.

(** ** WKB *)

(** the parser fails at once unless the first byte is 0 or 1 *)
Lemma wkb_order e ix k d b r : is_byte b -> b <> 0 -> b <> 1 ->
  parse_wkb e ix (S k) d (b :: r) = fail_invalid.
Proof.
  intros B N0 N1. unfold is_byte in B. cbn [parse_wkb].
  destruct (Z.eqb_spec (Z.shiftr b 1) 0) as [E|E]; [|reflexivity].
  rewrite Z.shiftr_div_pow2 in E by lia. change (2 ^ 1) with 2 in E. Z.to_euclidean_division_equations; lia.
Qed.
Lemma wkb_nothing e ix k d : parse_wkb e ix (S k) d [] = fail_invalid.
Proof. reflexivity. Qed.

Lemma fuel_S : exists k, wkb_fuel 0 = S k.
Proof. unfold wkb_fuel. eexists. reflexivity. Qed.

Lemma wkb_failed e ix s : parse_wkb e ix (wkb_fuel 0) 0 s = fail_invalid ->
  tg_parse_wkb_ix e ix s = Ok (wrap_error (make_parse_error msg_invalid)).
Proof. unfold tg_parse_wkb_ix. intros ->. reflexivity. Qed.
Lemma wkb_first_byte e ix s g : Forall is_byte s -> tg_parse_wkb_ix e ix s = Ok g -> tg_geom_error (Some g) = None ->
  exists b r, s = b :: r /\ (b = 0 \/ b = 1).
Proof.
  intros B H N. destruct fuel_S as (k & K).
  assert (F : parse_wkb e ix (wkb_fuel 0) 0 s <> fail_invalid).
  { intros F. rewrite (wkb_failed e ix s F) in H. assert (W : g = wrap_error (make_parse_error msg_invalid)) by congruence.
    rewrite W in N. now apply wrap_failed in N. }
  rewrite K in F. destruct s as [|b r]; [now rewrite wkb_nothing in F|].
  inversion B as [|? ? B1 _]; subst.
  destruct (Z.eq_dec b 0) as [->|N0]; [eauto|]. destruct (Z.eq_dec b 1) as [->|N1]; [eauto|].
  now rewrite (wkb_order e ix k 0 b r B1 N0 N1) in F.
Qed.

Theorem C27_accepts_wkb :
  forall e ix s g, Forall is_byte s ->
    tg_parse_wkb_ix e ix s = Ok g -> tg_geom_error (Some g) = None -> tg_parse_ix e ix s = Ok (Some g).
Proof.
  intros e ix s g B H N. destruct (wkb_first_byte e ix s g B H N) as (b & r & -> & C).
  assert (G : guess (b :: r) = FWkb) by (destruct C as [->| ->]; reflexivity).
  rewrite (parse_as e ix _ FWkb G) by discriminate. cbv iota. rewrite H. reflexivity.
Qed.
Print Assumptions C27_accepts_wkb.

(** ** GeoBIN *)

Lemma geobin_head e ix k b r : b <> 1 -> b < 2 \/ 4 < b -> parse_geobin e ix (S k) 0 (b :: r) = fail_invalid.
Proof.
  intros N L. cbn [parse_geobin]. replace (MAXDEPTH <? 0)%nat with false by reflexivity.
  replace (b =? 1) with false by lia. now replace ((b <? 2) || (4 <? b)) with true by lia.
Qed.

Lemma geobin_failed e ix s : parse_geobin e ix (wkb_fuel 0) 0 s = fail_invalid ->
  tg_parse_geobin_ix e ix s = Ok (wrap_error (make_parse_error msg_invalid)).
Proof. unfold tg_parse_geobin_ix. intros ->. reflexivity. Qed.
Lemma geobin_nothing e ix k d : parse_geobin e ix (S k) d [] = fail_invalid.
Proof. reflexivity. Qed.
Lemma geobin_first_byte e ix s g : tg_parse_geobin_ix e ix s = Ok g -> tg_geom_error (Some g) = None ->
  exists b r, s = b :: r /\ (b = 1 \/ 2 <= b <= 4).
Proof.
  intros H N. destruct fuel_S as (k & K).
  assert (F : parse_geobin e ix (wkb_fuel 0) 0 s <> fail_invalid).
  { intros F. rewrite (geobin_failed e ix s F) in H. assert (W : g = wrap_error (make_parse_error msg_invalid)) by congruence.
    rewrite W in N. now apply wrap_failed in N. }
  rewrite K in F. destruct s as [|b r]; [now rewrite geobin_nothing in F|].
  destruct (Z.eq_dec b 1) as [->|N1]; [eauto|].
  assert (2 <= b <= 4 \/ (b < 2 \/ 4 < b)) as [L|L] by lia; [eauto|].
  now rewrite (geobin_head e ix k b r N1 L) in F.
Qed.

Theorem C27_accepts_geobin :
  forall e ix s g,
    tg_parse_geobin_ix e ix s = Ok g -> tg_geom_error (Some g) = None -> tg_parse_ix e ix s = Ok (Some g).
Proof.
  intros e ix s g H N. destruct (geobin_first_byte e ix s g H N) as (b & r & -> & [->|C]).
  - rewrite (parse_as e ix (1 :: r) FWkb eq_refl) by discriminate. cbv iota. rewrite <- geobin_wkb, H. reflexivity.
  - assert (G : guess (b :: r) = FGeobin) by (assert (b = 2 \/ b = 3 \/ b = 4) as [->|[->| ->]] by lia; reflexivity).
    rewrite (parse_as e ix _ FGeobin G) by discriminate. cbv iota. rewrite H. reflexivity.
Qed.
Print Assumptions C27_accepts_geobin.

(** ** Hex *)

Lemma hextok_xdigit c : is_byte c -> hextok c <> 0 -> is_xdigit c = true.
Proof.
  intros B. rewrite hextok_val by exact B. unfold is_xdigit. intros H.
  destruct ((48 <=? c) && (c <=? 57)); [reflexivity|]. destruct ((65 <=? c) && (c <=? 70)); [reflexivity|].
  destruct ((97 <=? c) && (c <=? 102)); [reflexivity|congruence].
Qed.
Lemma decoded_xdigits : forall n t, (length t <= n)%nat -> Forall is_byte t -> Nat.odd (length t) = false ->
  hex_decode t <> None -> forallb is_xdigit t = true.
Proof.
  induction n as [|n IH]; intros [|a [|b r]] L B O D; try reflexivity; try discriminate O; cbn [length] in L; try lia.
  inversion B as [|? ? Ba B']; subst. inversion B' as [|? ? Bb B'']; subst. cbn [hex_decode] in D.
  destruct (Z.eqb_spec (hextok a) 0); [now destruct D|]. destruct (Z.eqb_spec (hextok b) 0); [now destruct D|].
  cbn [forallb]. rewrite !hextok_xdigit by assumption. cbn [andb]. apply IH; try assumption; [lia|].
  cbn [orb] in D. destruct (hex_decode r); [discriminate|now destruct D].
Qed.
Lemma xdigits_guess t : t <> [] -> forallb is_xdigit t = true -> guess t = FHex.
Proof.
  intros N D. destruct t as [|c r]; [easy|]. unfold guess.
  assert (X : forallb is_xdigit (firstn 16 (c :: r)) = true).
  { rewrite forallb_forall in *. intros x I. apply D. rewrite <- (firstn_skipn 16 (c :: r)). apply in_or_app. now left. }
  rewrite X. cbn [forallb] in D. apply andb_true_iff in D as [D _]. rewrite D, orb_true_r.
  unfold is_xdigit in D. unfold is_space. replace (c =? 123) with false by lia.
  now replace (((9 <=? c) && (c <=? 13)) || (c =? 32)) with false by lia.
Qed.

Theorem C27_accepts_hex :
  forall e ix s g, Forall is_byte s ->
    tg_parse_hexn_ix e ix s = Ok g -> tg_geom_error (Some g) = None -> tg_parse_ix e ix s = Ok (Some g).
Proof.
  intros e ix s g B H N.
  assert (X : s <> [] /\ forallb is_xdigit s = true).
  { unfold tg_parse_hexn_ix, parse_hex in H. destruct (Nat.eqb_spec (length s) 0) as [L|L].
    { cbn [orb obind] in H. injection H as <-. discriminate N. }
    cbn [orb] in H. destruct (Nat.odd (length s)) eqn:O.
    { cbn [obind] in H. injection H as <-. discriminate N. }
    destruct (hex_decode s) eqn:D; [|cbn [obind] in H; injection H as <-; discriminate N].
    split; [intros ->; now apply L|]. apply (decoded_xdigits (length s)); auto. congruence. }
  destruct X as [X D]. rewrite (parse_as e ix s _ (xdigits_guess s X D) X), H. reflexivity.
Qed.
Print Assumptions C27_accepts_hex.

(** ** GeoJSON *)

Lemma spaces_geojson s r : skip_ws s = 123 :: r -> guess s = FGeojson.
Proof.
  assert (A : skip_ws s = 123 :: r -> after_space s = FGeojson).
  { induction s as [|b s IH]; cbn [skip_ws after_space]; [discriminate|]. unfold is_ws. intros H. unfold is_space.
    destruct ((b =? 32) || (b =? 9) || (b =? 10) || (b =? 13)) eqn:W.
    - replace (((9 <=? b) && (b <=? 13)) || (b =? 32)) with true by lia. now apply IH.
    - injection H as -> _. reflexivity. }
  destruct s as [|b s]; cbn [skip_ws]; [discriminate|]. intros H. cbn [guess].
  destruct (Z.eqb_spec b 123) as [->|N]; [reflexivity|]. unfold is_ws in H. unfold is_space at 1.
  destruct ((b =? 32) || (b =? 9) || (b =? 10) || (b =? 13)) eqn:W; [|congruence].
  replace (((9 <=? b) && (b <=? 13)) || (b =? 32)) with true by lia.
  cbn [skip_ws] in A. unfold is_ws in A. rewrite W in A. specialize (A H). cbn [after_space] in A. unfold is_space at 1 in A.
  replace (((9 <=? b) && (b <=? 13)) || (b =? 32)) with true in A by lia. exact A.
Qed.

Lemma type_object b : tok typetoks b = JSON_OBJECT -> b = 123.
Proof.
  unfold tok. intros H.
  assert (T : forallb (fun n => implb (nth n typetoks 0 =? 6) (n =? 123)%nat) (seq 0 256) = true) by (vm_compute; reflexivity).
  rewrite forallb_forall in T. destruct (Nat.lt_ge_cases (Z.to_nat b) 256) as [L|L].
  - specialize (T (Z.to_nat b) (proj2 (in_seq _ _ _) (conj (Nat.le_0_l _) L))). rewrite H in T. cbn [Z.eqb JSON_OBJECT Pos.eqb implb] in T. lia.
  - rewrite nth_overflow in H by exact L. discriminate H.
Qed.

(** the bytes a JSON value can start with *)
Definition value_start (b : Z) : bool :=
  (b =? 123) || (b =? 91) || (b =? 34) || (b =? 116) || (b =? 102) || (b =? 110) || (b =? 45) || is_digit b.
Lemma vany_start k d b r : is_ws b = false -> value_start b = false -> vany (S k) d (b :: r) = VBad (b :: r).
Proof.
  intros W X. cbn [vany skip_ws]. rewrite W. destruct (JSON_MAXDEPTH <? d)%nat; [reflexivity|].
  unfold value_start in X. unfold is_digit in *.
  replace (b =? 123) with false by lia. replace (b =? 91) with false by lia. replace (b =? 34) with false by lia.
  replace (b =? 116) with false by lia. replace (b =? 102) with false by lia. replace (b =? 110) with false by lia.
  now replace ((b =? 45) || ((48 <=? b) && (b <=? 57))) with false by lia.
Qed.
Lemma peek_start b r : value_start b = true -> exists info len, peek_any (b :: r) = J info (b :: r) len.
Proof.
  intros X. cbn [peek_any]. unfold value_start in X.
  destruct ((b =? 125) || (b =? 93)) eqn:A1; [unfold is_digit in X; lia|].
  destruct ((b =? 123) || (b =? 91)) eqn:A2; [eauto|].
  destruct (b =? 34) eqn:A3; [unfold take_string; destruct (count_string _); eauto|].
  destruct (b =? 110) eqn:A4; [unfold take_literal; eauto|]. destruct (b =? 116) eqn:A5; [unfold take_literal; eauto|].
  destruct (b =? 102) eqn:A6; [unfold take_literal; eauto|].
  destruct ((b =? 45) || is_digit b) eqn:A7; [|unfold is_digit in *; lia]. unfold take_number. destruct (take_number_loop _ _ _). eauto.
Qed.
Lemma depth_S : exists k, (JSON_MAXDEPTH + 1)%nat = S k.
Proof. exists JSON_MAXDEPTH. apply Nat.add_1_r. Qed.

Lemma valid_object s : json_validn s = Some true -> json_type (json_parsen s) = JSON_OBJECT ->
  exists r, skip_ws s = 123 :: r.
Proof.
  intros V T. unfold json_validn, vpayload in V. destruct (skip_ws s) as [|b r] eqn:K; [discriminate|].
  assert (P : exists info len, json_parsen s = J info (b :: r) len).
  { assert (SB : is_ws b = false).
    { clear -K. induction s as [|c s IH]; cbn [skip_ws] in K; [discriminate|]. destruct (is_ws c) eqn:W; [auto|]. congruence. }
    assert (U : exists info len, peek_any (b :: r) = J info (b :: r) len).
    { apply peek_start. destruct (value_start b) eqn:X; [reflexivity|]. exfalso. revert V. destruct depth_S as (k & ->).
      rewrite (vany_start k 1 b r SB X). cbn [vbind]. discriminate. }
    assert (Q : forall s, skip_ws s = b :: r -> peek_any s = peek_any (b :: r)).
    { clear -SB. induction s as [|c s IH]; intros K; [discriminate K|]. cbn [skip_ws] in K. destruct (is_ws c) eqn:W.
      - rewrite <- (IH K). cbn [peek_any]. unfold is_ws in W. unfold is_digit.
        replace ((c =? 125) || (c =? 93)) with false by lia. replace ((c =? 123) || (c =? 91)) with false by lia.
        replace (c =? 34) with false by lia. replace (c =? 110) with false by lia. replace (c =? 116) with false by lia.
        replace (c =? 102) with false by lia. now replace ((c =? 45) || ((48 <=? c) && (c <=? 57))) with false by lia.
      - now rewrite K. }
    destruct U as (i & n & U). destruct s as [|c s]; [discriminate K|]. cbn [json_parsen].
    destruct ((c =? 91) || (c =? 123)) eqn:C.
    - cbn [skip_ws] in K. unfold is_ws in K. replace ((c =? 32) || (c =? 9) || (c =? 10) || (c =? 13)) with false in K by lia.
      injection K as -> ->. eauto.
    - rewrite (Q _ K), U. eauto. }
  destruct P as (info & len & P). rewrite P in T. unfold json_type, json_raw in T.
  rewrite (type_object b T). eauto.
Qed.

Lemma geojson_failed e ix s m : json_validn s = Some false \/
    (json_validn s = Some true /\ parse_geojson e ix (S (length s)) (json_parsen s) false = Err m) ->
  exists m', tg_parse_geojsonn_ix e ix s = Ok (make_parse_error m').
Proof. unfold tg_parse_geojsonn_ix. intros [->|[-> ->]]; eauto. Qed.

Lemma geojson_object e ix s g : tg_parse_geojsonn_ix e ix s = Ok g -> tg_geom_error (Some g) = None ->
  json_validn s = Some true /\ json_type (json_parsen s) = JSON_OBJECT.
Proof.
  intros H N. destruct (json_validn s) as [[]|] eqn:V.
  - split; [reflexivity|]. destruct (Z.eqb_spec (json_type (json_parsen s)) JSON_OBJECT) as [E|E]; [exact E|].
    destruct (geojson_failed e ix s (str "expected an object")) as (m & F).
    { right. split; [exact V|]. cbn [parse_geojson]. now rewrite (proj2 (Z.eqb_neq _ _) E). }
    rewrite F in H. assert (W : g = make_parse_error m) by congruence. rewrite W in N. discriminate N.
  - destruct (geojson_failed e ix s [] (or_introl V)) as (m & F).
    rewrite F in H. assert (W : g = make_parse_error m) by congruence. rewrite W in N. discriminate N.
  - unfold tg_parse_geojsonn_ix in H. rewrite V in H. discriminate H.
Qed.

Theorem C27_accepts_geojson :
  forall e ix s g,
    tg_parse_geojsonn_ix e ix s = Ok g -> tg_geom_error (Some g) = None -> tg_parse_ix e ix s = Ok (Some g).
Proof.
  intros e ix s g H N. destruct (geojson_object e ix s g H N) as (V & T). destruct (valid_object s V T) as (r & K).
  rewrite (parse_as e ix s FGeojson (spaces_geojson s r K)) by (intros ->; discriminate K). cbv iota. rewrite H. reflexivity.
Qed.
Print Assumptions C27_accepts_geojson.

(** ** WKT *)

(** the first letter of a type name *)
Definition initial (c : Z) : Prop := In c [71; 76; 77; 80; 103; 108; 109; 112].

Lemma name_prefix l : forall name nws n, wkt_name l name nws = NName n -> exists t, n = name ++ t.
Proof.
  induction l as [|c r IH]; intros name nws n; cbn [wkt_name]; (destruct (NAME_SIZE <=? length name)%nat; [discriminate|]).
  - intros [= <-]. exists []. now rewrite app_nil_r.
  - destruct (length name =? 31)%nat; [discriminate|]. destruct (isws c).
    + destruct ((0 <? length name)%nat && (last name 0 =? 32)); [apply IH|].
      destruct (2 <? S nws)%nat; [discriminate|]. intros H. apply IH in H as (t & ->). rewrite <- app_assoc. eauto.
    + intros H. apply IH in H as (t & ->). rewrite <- app_assoc. eauto.
Qed.
Definition starts (c : Z) (l : list Z) : Prop := match l with [] => True | d :: _ => d = c end.
Lemma starts_firstn c k l : starts c l -> starts c (firstn k l).
Proof. destruct k, l; cbn; auto. Qed.
Lemma empty_starts c l : starts c l -> starts c (fst (wkt_empty l)).
Proof. unfold wkt_empty. destruct (_ && _); [apply starts_firstn|auto]. Qed.
Lemma zm_starts c l : starts c l -> starts c (fst (fst (wkt_zm l))).
Proof.
  intros S. unfold wkt_zm. destruct (3 <? length l)%nat; [|exact S].
  destruct ((_ =? 90) && (_ =? 77)); [|destruct (_ =? 90); [|destruct (_ =? 77)]]; cbn [fst];
    destruct (_ =? 32); unfold dropn; repeat apply starts_firstn; exact S.
Qed.
Lemma zlist_eqb_eq a : forall b, zlist_eqb a b = true -> a = b.
Proof.
  induction a as [|x a IH]; intros [|y b]; cbn [zlist_eqb]; try discriminate; [reflexivity|].
  rewrite andb_true_iff, Z.eqb_eq. intros [-> H]. f_equal. auto.
Qed.
Lemma type_initial c r t z m em : isws c = false -> wkt2type (c :: r) = WType t z m em -> initial c.
Proof.
  intros W. unfold wkt2type. destruct (wkt_name (c :: r) [] 0) as [n| | |] eqn:E; try discriminate.
  2:{ unfold wkt_bad_type. destruct (bad_type_len _); discriminate. }
  set (u := if (97 <=? c) && (c <=? 122) then c - 32 else c).
  assert (S : starts u n).
  { cbn [wkt_name length NAME_SIZE Nat.leb Nat.eqb] in E. rewrite W in E. cbn [app] in E. apply name_prefix in E as (x & ->). reflexivity. }
  pose proof (empty_starts u n S) as S1. destruct (wkt_empty n) as [n1 e1]. cbn [fst] in S1.
  pose proof (zm_starts u n1 S1) as S2. destruct (wkt_zm n1) as [[n2 z2] m2]. cbn [fst] in S2.
  destruct n2 as [|d n2]; [discriminate|]. cbn [starts] in S2. subst d.
  destruct (find _ _) as [[nm ty]|] eqn:F.
  - intros _. apply find_some in F as [I Q]. apply zlist_eqb_eq in Q. cbn [fst] in Q.
    assert (HC : forall k ks, nm = k :: ks -> u = k).
    { intros k ks ->. cbn [cstr] in Q. destruct (u =? 0); congruence. }
    unfold initial. cbn [In].
    assert (U : u = 71 \/ u = 76 \/ u = 77 \/ u = 80).
    { cbn [In wkt_type_names] in I. repeat destruct I as [I|I]; try contradiction; apply (f_equal fst) in I; cbn [fst] in I; symmetry in I; vm_compute in I;
        specialize (HC _ _ I); lia. }
    unfold u in U. destruct ((97 <=? c) && (c <=? 122)) eqn:L; lia.
  - destruct (existsb _ _); [discriminate|]. unfold wkt_bad_type. destruct (bad_type_len _); discriminate.
Qed.

Lemma wkt_failed e ix s m : parse_wkt e ix (S (length s)) s [] = Err m ->
  tg_parse_wktn_ix e ix s = Ok (make_parse_error (str "ParseError: " ++ m)).
Proof. unfold tg_parse_wktn_ix. now intros ->. Qed.

Lemma wkt_first e ix k s t : (exists c r, wkt_trim_ws s = c :: r /\ initial c) \/
  parse_wkt e ix (S k) s t = Oob \/ exists m, parse_wkt e ix (S k) s t = Err m.
Proof.
  cbn [parse_wkt]. destruct s as [|b0 r0]; [eauto|]. set (s := b0 :: r0). clearbody s. clear b0 r0.
  destruct (wkt_trim_ws s) as [|c r] eqn:T; [right; right; eexists; reflexivity|]. cbn [split_paren].
  assert (W : isws c = false).
  { clear -T. induction s as [|d s IH]; cbn [wkt_trim_ws] in T; [discriminate|]. destruct (isws d) eqn:W; [auto|congruence]. }
  destruct (Z.eqb_spec c 40) as [->|N]; [right; right; eexists; reflexivity|].
  destruct (split_paren r) as [a rest]. cbn [trim_end].
  destruct (wkt2type _) as [ty z m em| | | |] eqn:Q; eauto.
  apply type_initial in Q; [|exact W]. left. eauto.
Qed.

Lemma spaces_wkt s c r : wkt_trim_ws s = c :: r -> initial c -> guess s = FWkt.
Proof.
  assert (A : forall s, wkt_trim_ws s = c :: r -> initial c -> after_space s = FWkt).
  { clear s. intros s T I. unfold initial in I. cbn [In] in I. induction s as [|b s IH]; cbn [wkt_trim_ws after_space] in *; [discriminate|].
    unfold isws in T. unfold is_space. destruct ((b =? 32) || (b =? 9) || (b =? 10) || (b =? 13)) eqn:W.
    - replace (((9 <=? b) && (b <=? 13)) || (b =? 32)) with true by lia. auto.
    - injection T as -> _. replace (((9 <=? c) && (c <=? 13)) || (c =? 32)) with false by lia.
      now replace (c =? 123) with false by lia. }
  intros T I. destruct s as [|b s]; [discriminate T|]. cbn [wkt_trim_ws] in T.
  destruct (isws b) eqn:W.
  - specialize (A s T I). unfold guess, is_space. unfold isws in W. replace (b =? 123) with false by lia.
    replace (((9 <=? b) && (b <=? 13)) || (b =? 32)) with true by lia. exact A.
  - injection T as -> ->. unfold initial in I. cbn [In] in I. unfold guess. cbn [firstn forallb].
    unfold is_space, is_alpha, is_xdigit. replace (c =? 123) with false by lia.
    replace (((9 <=? c) && (c <=? 13)) || (c =? 32)) with false by lia.
    replace (((48 <=? c) && (c <=? 57)) || ((65 <=? c) && (c <=? 70)) || ((97 <=? c) && (c <=? 102))) with false by lia.
    now replace (((65 <=? c) && (c <=? 90)) || ((97 <=? c) && (c <=? 122))) with true by lia.
Qed.

Theorem C27_accepts_wkt :
  forall e ix s g,
    tg_parse_wktn_ix e ix s = Ok g -> tg_geom_error (Some g) = None -> tg_parse_ix e ix s = Ok (Some g).
Proof.
  intros e ix s g H N. destruct (wkt_first e ix (length s) s []) as [(c & r & T & I)|[F|(m & F)]].
  - rewrite (parse_as e ix s FWkt (spaces_wkt s c r T I)) by (intros ->; discriminate T). cbv iota. rewrite H. reflexivity.
  - unfold tg_parse_wktn_ix in H. rewrite F in H. discriminate H.
  - apply wkt_failed in F. rewrite F in H.
    assert (W : g = make_parse_error (str "ParseError: " ++ m)) by congruence. rewrite W in N. discriminate N.
Qed.
Print Assumptions C27_accepts_wkt.

(** a big-endian WKB point, its hex form, GeoBIN of it as a feature, WKT and GeoJSON behind spaces *)
Example C27_example_accepts :
  let be := [0; 0;0;0;1; 63;240;0;0;0;0;0;0; 64;0;0;0;0;0;0;0] in
  let hex := str "00000000013FF00000000000004000000000000000" in
  let p := Pt 4607182418800017408 4611686018427387904 in
  let accepts (f : env -> Z -> list Z -> out geom) s :=
    f env_init 0 s = Ok (GPoint fl0 p) /\ tg_parse_ix env_init 0 s = Ok (Some (GPoint fl0 p)) in
  Forall is_byte be /\ Forall is_byte hex /\
  accepts tg_parse_wkb_ix be /\ accepts tg_parse_hexn_ix hex /\
  accepts tg_parse_wktn_ix (str " point (1 2)") /\
  accepts tg_parse_geojsonn_ix (10 :: qstr "{'type':'Point','coordinates':[1,2]}") /\
  (exists g, tg_parse_geobin_ix env_init 0 ([3; 0; 0] ++ be) = Ok g /\ tg_geom_error (Some g) = None /\
     tg_parse_ix env_init 0 ([3; 0; 0] ++ be) = Ok (Some g)).
Proof.
  assert (B : forall l, forallb (fun b => (0 <=? b) && (b <? 256)) l = true -> Forall is_byte l).
  { intros l H. apply Forall_forall. intros x I. rewrite forallb_forall in H. specialize (H x I). unfold is_byte. lia. }
  cbv zeta. split; [now apply B|]. split; [now apply B|].
  split; [|split; [|split; [|split]]]; [split; vm_compute; reflexivity..|].
  eexists. repeat split; vm_compute; reflexivity.
Qed.
