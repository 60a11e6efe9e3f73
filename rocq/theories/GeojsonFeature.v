(** * Features: their text, and what the parser takes from it *)

From Coq Require Import ZArith Bool String List Lia ZifyBool Arith Permutation.
From Verif Require Import F64 Geo Series RingApi Bytes Geom Writer WriterFacts Json SpecJson JsonTok
  JsonStrFacts SpecTree JsonTree Thm_Tree GeomFacts SpecWkb TextFacts WktParse WktText WktTypes
  GeojsonParse GeojsonWrite SpecNotes GeojsonText GeojsonRead GeojsonTypes.
Import ListNotations.
Local Open Scope Z_scope.

Definition ids (L : list pair) : list pair := filter (key_is (str "id")) L.
Definition rest_of (L : list pair) : list pair := filter (fun p => negb (key_is (str "id") p)) L.
Definition has_props (L : list pair) : bool := existsb (key_is (str "properties")) L.
Definition has_id (L : list pair) : bool := existsb (key_is (str "id")) L.
Definition props_pair (null : bool) : pair := (str "properties", if null then str "null" else str "{}").
Definition last_pair (own : list pair) (null : bool) : list pair := if has_props own then [] else [props_pair null].
Definition fpairs (G : list Z) (own : list pair) (null : bool) : list pair :=
  (str "type", qt (str "Feature")) :: ids own ++ (str "geometry", G) :: rest_of own ++ last_pair own null.

Lemma more_concat c l : more c l = concat (map (cons c) l).
Proof.
  induction l as [|a l IH]; [reflexivity|]. cbn [map concat]. rewrite <- IH. unfold more at 1. now rewrite join_cons.
Qed.
Lemma more_app c a b : more c (a ++ b) = more c a ++ more c b.
Proof. rewrite !more_concat, map_app. apply concat_app. Qed.

Definition head_text (own : list pair) : list Z :=
  123 :: pair_text (str "type", qt (str "Feature")) ++ more 44 (map pair_text (ids own)) ++ 44 :: qt (str "geometry") ++ [58].
Definition tail_text (own : list pair) (null : bool) : list Z :=
  more 44 (map pair_text (rest_of own ++ last_pair own null)) ++ [125].
Lemma feature_text G own null : obj (fpairs G own null) = head_text own ++ G ++ tail_text own null.
Proof.
  unfold obj, fpairs, head_text, tail_text. cbn [map]. rewrite join_cons, map_app, more_app. cbn [map].
  rewrite (more_concat 44 (pair_text (str "geometry", G) :: _)). cbn [map concat]. rewrite <- more_concat.
  unfold pair_text at 3. unfold qt. cbn [fst snd]. repeat (cbn [app]; rewrite <- ?app_assoc). reflexivity.
Qed.

(** ** Writing *)

Lemma key_raw name k r v : Forall (fun x => x <> 0) name ->
  json_raw_comparen_eq (string_token k r) (34 :: name ++ [34]) = key_is name (k, v).
Proof.
  intros NZ. unfold json_raw_comparen_eq, key_is. cbn [fst].
  destruct (string_token_facts k r) as (_ & L & _). rewrite L. cbn [json_raw string_token].
  unfold strcmpn_eq. cbn [length]. rewrite app_length. cbn [length].
  destruct (list_eq_dec Z.eq_dec k name) as [->|N].
  - replace (length name + 2 =? S (length name + 1))%nat with true by lia. rewrite andb_true_r.
    replace (length name + 2 <? S (length name + 1))%nat with false by lia.
    replace (34 :: name ++ 34 :: r) with ((34 :: name ++ [34]) ++ r) by (cbn [app]; rewrite <- app_assoc; reflexivity).
    apply strncmp_same; cbn [length]; try rewrite app_length; cbn [length]; try lia; [|reflexivity].
    constructor; [discriminate|]. apply Forall_app. split; [assumption|]. constructor; [discriminate|constructor].
  - destruct (Nat.eqb_spec (length k + 2) (S (length name + 1))) as [E|]; [|apply andb_false_r].
    rewrite andb_true_r. replace (length k + 2 <? S (length name + 1))%nat with false by lia.
    destruct (strncmp_eq _ _ _) eqn:S; [|reflexivity]. exfalso. apply N.
    replace (34 :: k ++ 34 :: r) with ((34 :: k ++ [34]) ++ r) in S by (cbn [app]; rewrite <- app_assoc; reflexivity).
    apply strncmp_same in S; cbn [length]; try rewrite app_length; cbn [length]; try lia.
    + rewrite !firstn_all2 in S by (cbn [length]; rewrite app_length; cbn [length]; lia).
      injection S as S. now apply app_inj_tail in S.
    + constructor; [discriminate|]. apply Forall_app. split; [assumption|]. constructor; [discriminate|constructor].
Qed.

Lemma nz_id : Forall (fun x => x <> 0) (str "id").
Proof. apply plain_nonzero. now apply plainly. Qed.
Lemma nz_props : Forall (fun x => x <> 0) (str "properties").
Proof. apply plain_nonzero. now apply plainly. Qed.

Lemma key_is_true name p : key_is name p = true <-> fst p = name.
Proof. unfold key_is. destruct (list_eq_dec Z.eq_dec (fst p) name); split; congruence. Qed.

Lemma members_text L : forall j fuel wrote, meets L j -> (length L < fuel)%nat ->
  feature_members fuel j wrote = Some (more 44 (map pair_text (rest_of L)), wrote || has_props L).
Proof.
  induction L as [|[k v] L IH]; intros j [|fuel] wrote; cbn [meets length]; try lia.
  - intros -> _. cbn. now rewrite orb_false_r.
  - intros (C & N & (r & ->) & DV & M) LL. cbn [feature_members].
    change (json_exists (string_token k r)) with true. cbv iota.
    change (qstr "'id'") with (34 :: str "id" ++ [34]).
    change (qstr "'properties'") with (34 :: str "properties" ++ [34]).
    rewrite (key_raw (str "id") k r v nz_id), (key_raw (str "properties") k r v nz_props).
    unfold rest_of, has_props. cbn [filter existsb]. destruct (key_is (str "id") (k, v)) eqn:KI; cbn [negb].
    + rewrite (IH _ fuel wrote M) by lia. apply key_is_true in KI. cbn [fst] in KI. subst k. reflexivity.
    + rewrite (IH _ fuel _ M) by lia. cbn [map]. rewrite (more_concat 44 (pair_text (k, v) :: _)). cbn [map concat].
      rewrite <- more_concat, (den_raw _ _ DV), (den_raw (string_token k r) (34 :: k ++ [34])) by (eexists; apply denotes_string).
      rewrite <- orb_assoc. f_equal. f_equal. unfold pair_text at 2. cbn [fst snd].
      repeat (cbn [app]; rewrite <- ?app_assoc). reflexivity.
Qed.

(** a key that stands for the name is the name *)
Definition spelt (name : list Z) (p : pair) : Prop :=
  exists t, decodes right_pair (fst p) t /\ (t = name -> fst p = name).
Lemma get_id L : forall j fuel, meets L j -> Forall (spelt (str "id")) L -> (length L < fuel)%nat ->
  exists jv, object_get_loop fuel j (str "id") = Some jv /\
    match ids L with [] => jv = JNone | p :: _ => den jv (snd p) end.
Proof.
  induction L as [|[k v] L IH]; intros j [|fuel] M F LL; cbn [length] in LL; try lia.
  - cbn [meets] in M. subst j. exists JNone. now split.
  - inversion_clear F as [|? ? (t & D & T) F']. cbn [fst] in D, T.
    unfold ids. cbn [filter]. destruct (key_is (str "id") (k, v)) eqn:KI.
    + apply key_is_true in KI. cbn [fst] in KI. subst k.
      apply (meets_get_here (S fuel) (str "id") v L); [assumption| |apply nz_id|lia].
      apply plain_decodes. now apply plainly.
    + rewrite (meets_get_next fuel k v L j (str "id") t M D); [| |apply nz_id].
      2: { intros ->. assert (key_is (str "id") (k, v) = true) by (apply key_is_true; now apply T). congruence. }
      apply IH; [apply M|assumption|lia].
Qed.

Lemma pair_bytes n p : pair_ok n p -> Forall (fun b => 0 <= b < 256) (pair_text p).
Proof.
  intros [K V]. apply rchars_bytes in K. apply jvalue_bytes in V. unfold pair_text.
  constructor; [lia|]. apply Forall_app. split; [exact K|]. constructor; [lia|]. constructor; [lia|exact V].
Qed.
Lemma more_bytes n L : Forall (pair_ok n) L -> Forall (fun b => 0 <= b < 256) (more 44 (map pair_text L)).
Proof.
  intros H. rewrite more_concat. induction H as [|p L P _ IH]; cbn [map concat]; [constructor|].
  apply Forall_app. split; [|assumption]. constructor; [lia|now apply (pair_bytes n)].
Qed.
Lemma Forall_filter {A} (P : A -> Prop) f l : Forall P l -> Forall P (filter f l).
Proof. rewrite !Forall_forall. intros H x Hx. apply H. now apply filter_In in Hx. Qed.

(** the token for the members of the feature *)
Definition feature_token (n : nat) (j : json) (own : list pair) : Prop :=
  (j = JNone /\ own = []) \/ exists t, den j t /\ members_of n (Some t) own.

Lemma types_head n j own : feature_token n j own -> Forall (spelt (str "id")) own -> (length (ids own) <= 1)%nat ->
  types (write_feature_head j) (head_text own).
Proof.
  intros FT SP L1. unfold write_feature_head, head_text.
  apply (types_eq _ ((123 :: pair_text (str "type", qt (str "Feature")) ++ [44]) ++
    (match ids own with [] => [] | p :: _ => pair_text p ++ [44] end) ++ qt (str "geometry") ++ [58])).
  2: { destruct (ids own) as [|p [|q l]]; [reflexivity| |cbn [length] in L1; lia].
       cbn [more map join]. rewrite <- !app_assoc. reflexivity. }
  apply types_seq; [now apply types_lit|]. apply types_seq; [|now apply types_lit].
  destruct FT as [[-> ->]|(t & D & M)]; [apply types_skip|].
  destruct (object_meets n t own j M D) as (MM & LL & TY). unfold json_object_get. rewrite TY.
  change (JSON_OBJECT =? JSON_OBJECT) with true. cbv iota.
  destruct (get_id own _ (S (length (json_raw j))) MM SP) as (jv & G & E); [lia|]. rewrite G.
  destruct (ids own) as [|p l] eqn:EI; [subst jv; apply types_skip|].
  rewrite (den_exists _ _ E), (den_raw _ _ E).
  assert (I : In p own /\ key_is (str "id") p = true) by (apply filter_In; fold (ids own); rewrite EI; now left).
  destruct I as [Ip Kp]. apply key_is_true in Kp. destruct p as [k v]. cbn [fst snd] in *. subst k.
  apply (types_eq _ (qstr "'id':" ++ v ++ [44])); [|unfold pair_text; cbn [fst snd]; repeat (cbn [app]; rewrite <- ?app_assoc); reflexivity].
  apply types_seq; [now apply types_lit|]. apply types_seq; [|apply types_byte; lia]. apply types_string.
  pose proof (proj1 (Forall_forall _ _) (members_of_ok n _ _ M) _ Ip) as [_ V]. exact (jvalue_bytes n v V).
Qed.

Lemma types_props f own null : null = has_null_props f -> has_props own = false ->
  types (write_properties f) (more 44 (map pair_text (last_pair own null))).
Proof.
  intros -> H. unfold last_pair. rewrite H. unfold write_properties. destruct (has_null_props f);
    (eapply types_eq; [apply types_seq; now apply types_lit|reflexivity]).
Qed.
Lemma types_tail n j own f null : feature_token n j own -> (has_props own = false -> null = has_null_props f) ->
  types (write_feature_tail f j) (tail_text own null).
Proof.
  intros FT HN. unfold write_feature_tail, tail_text. apply types_seq; [|apply types_byte; lia].
  rewrite map_app, more_app. destruct FT as [[-> ->]|(t & D & M)].
  - change (json_type JNone =? JSON_OBJECT) with false. cbv iota. apply types_props; [now apply HN|reflexivity].
  - destruct (object_meets n t own j M D) as (MM & LL & TY). rewrite TY.
    change (JSON_OBJECT =? JSON_OBJECT) with true. cbv iota.
    rewrite (members_text own _ (S (length (json_raw j))) false MM) by lia. cbn [orb].
    apply types_seq.
    + apply types_string. apply (more_bytes n). apply Forall_filter. now apply (members_of_ok n (Some t)).
    + destruct (has_props own) eqn:HP; [|apply types_props; auto].
      unfold last_pair. rewrite HP. apply types_skip.
Qed.


(** the tokens of the two objects *)
Lemma elements_grammar n es l : elements_are n es l -> elements rfc_char false n es.
Proof. induction 1; [now apply e_one|now apply e_more]. Qed.
Lemma array_jvalue n a l : array_is n a l -> jvalue (S n) a.
Proof.
  intros A. destruct A as [w W|es l E]; [now apply v_arr0|]. apply v_arr. now apply (elements_grammar n es l).
Qed.
Lemma tokens_of n x own inner : extra_is n true x own inner ->
  exists gx, feature_token (n - 1) (fst (extra_tokens true x)) own /\ members_of (n - 2) gx inner /\
    match gx with Some y => den (snd (extra_tokens true x)) y | None => snd (extra_tokens true x) = JNone end.
Proof.
  intros [[M ->]|(k & a & fx & gx & r1 & r2 & -> & A & M1 & M2)].
  - exists None. destruct x as [x|].
    + pose proof (root_den _ _ (object_jvalue _ _ _ M)) as D. unfold extra_tokens.
      destruct (object_meets _ x own _ M D) as (_ & _ & TY). rewrite TY.
      change (JSON_OBJECT =? JSON_ARRAY) with false. change (JSON_OBJECT =? JSON_OBJECT) with true. cbn [fst snd].
      split; [|split; reflexivity]. right. exists x. split; [now apply den_ensure|assumption].
    + split; [|split; reflexivity]. left. now split.
  - exists (Some gx). pose proof (root_den _ _ (array_jvalue _ _ _ A)) as D. unfold extra_tokens.
    assert (TY : json_type (json_parse a) = JSON_ARRAY).
    { destruct A; rewrite (den_head _ _ _ D); reflexivity. }
    rewrite TY. change (JSON_ARRAY =? JSON_ARRAY) with true. cbv iota. cbn [fst snd].
    destruct D as (r & D). pose proof (walk_array _ _ _ A _ _ D) as (N1 & D1 & N2 & D2 & _).
    assert (E : json_next (json_ensure (json_first (json_parse a))) = json_next (json_first (json_parse a))).
    { rewrite (next_denotes _ _ _ D1 N1). apply (next_denotes _ fx); [|assumption].
      destruct (den_ensure _ fx (ex_intro _ _ D1)) as (r' & E' & R' & L'). split; [exact E'|]. split; [|exact L'].
      destruct D1 as (_ & R1 & _). destruct (json_first (json_parse a)); [discriminate E'|]. exact R1. }
    rewrite E. split; [|split].
    + right. exists fx. split; [apply den_ensure; eexists; exact D1|assumption].
    + exact M2.
    + apply den_ensure. eexists; exact D2.
Qed.

(** ** Reading *)

Definition member_ok (p : pair) : Prop :=
  (exists t, decodes right_pair (fst p) t /\ ~ In t [str "type"; str "geometry"]) /\
  (decodes right_pair (fst p) (str "id") -> fst p = str "id" /\ (type_is (snd p) 2 \/ type_is (snd p) 3)) /\
  (decodes right_pair (fst p) (str "properties") ->
     fst p = str "properties" /\ exists m l, l <> [] /\ object_is m (snd p) l).
Lemma feature_member n L : feature_ok n L -> Forall member_ok L.
Proof.
  intros (O & _ & _ & F). unfold others in O. rewrite Forall_forall in *. intros p Hp.
  destruct (O p Hp) as (T & _). destruct (F p Hp) as (A & B). split; [exact T|split; assumption].
Qed.
Lemma member_spelt p : member_ok p -> spelt (str "id") p.
Proof. intros ((t & D & _) & I & _). exists t. split; [assumption|]. intros ->. now apply I. Qed.

Lemma dec_same k name t : decodes right_pair k t -> k = name -> plain name -> t = name.
Proof.
  intros D -> P. apply (decodes_once right_pair name t name D); [now apply plain_decodes|auto].
Qed.

Lemma loop_pairs n L : Forall member_ok L -> Forall (pair_ok n) L -> forall L2 j b fuel,
  meets (L ++ L2) j ->
  (length (ids L) <= if b_id b then 0 else 1)%nat ->
  (length (filter (key_is (str "properties")) L) <= if b_props b then 0 else 1)%nat ->
  exists j', meets L2 j' /\
    basic_loop true (str "geometry") (length L + fuel) j b
    = basic_loop true (str "geometry") fuel j'
        (Basic (b_target b) (b_null b) (b_props b || has_props L) (b_id b || has_id L) (fold_left add_pair L (b_extra b))).
Proof.
  intros F PO. induction L as [|[k v] L IH]; intros L2 j b fuel M CI CP.
  - exists j. split; [assumption|]. cbn. rewrite !orb_false_r. now destruct b.
  - destruct (Forall_inv F) as ((t & D & NI) & HI & HP). pose proof (Forall_inv_tail F) as F'.
    destruct (Forall_inv PO) as [_ V]. pose proof (Forall_inv_tail PO) as PO'.
    cbn [fst snd In] in *.
    assert (NZ : Forall (fun x => x <> 0) (str "geometry")) by (apply plain_nonzero; now apply plainly).
    cbn [app] in M. cbn [length Nat.add].
    destruct (loop_step true (str "geometry") (length L + fuel) k v (L ++ L2) j b t M D NZ) as (DV & M' & ->).
    unfold member_step. rewrite (is_false t (str "type")), (is_false t (str "geometry")) by (intros ->; tauto).
    cbn [andb]. unfold ids, has_props, has_id in *. cbn [filter existsb] in *.
    destruct (list_eq_dec Z.eq_dec t (str "properties")) as [->|NP].
    + rewrite is_true. destruct (HP D) as (-> & m & l & NE & O).
      change (key_is (str "properties") (str "properties", v)) with true in *. cbv iota in *.
      change (key_is (str "id") (str "properties", v)) with false in *. cbv iota in *. cbn [length orb] in *.
      destruct (b_props b) eqn:BP; [lia|].
      assert (MV : members_of m (Some v) (pairs l)) by (exists l; now split).
      destruct (object_meets m v _ _ MV DV) as (_ & _ & TY). rewrite TY, (object_first m v _ _ MV DV).
      change (JSON_OBJECT =? JSON_NULL) with false. change (JSON_OBJECT =? JSON_OBJECT) with true. cbv iota.
      destruct l as [|m0 l]; [contradiction|]. cbn [pairs map obind].
      destruct (IH F' PO' L2 _ (Basic (b_target b) (b_null b || false) true (b_id b) (add_pair (b_extra b) (str "properties", v))) fuel M')
        as (j' & M2 & ->); [assumption|cbn [b_props]; lia|].
      exists j'. split; [assumption|]. cbn [b_target b_null b_props b_id b_extra orb fold_left]. now rewrite orb_false_r.
    + rewrite (is_false t _ NP).
      assert (KP : key_is (str "properties") (k, v) = false).
      { destruct (key_is (str "properties") (k, v)) eqn:K; [|reflexivity]. apply key_is_true in K. exfalso. apply NP.
        apply (dec_same k); [assumption|exact K|now apply plainly]. }
      rewrite KP in *. destruct (list_eq_dec Z.eq_dec t (str "id")) as [->|NID].
      * rewrite is_true. destruct (HI D) as (-> & TV).
        change (key_is (str "id") (str "id", v)) with true in *. cbv iota in *. cbn [length orb] in *.
        destruct (b_id b) eqn:BI; [lia|].
        assert (TY : negb (json_type (json_next j) =? JSON_STRING) && negb (json_type (json_next j) =? JSON_NUMBER) = false).
        { pose proof (den_type n _ _ DV V) as T1.
          destruct TV as [T2|T2]; rewrite (type_once n v _ _ V T1 T2); reflexivity. }
        rewrite TY. cbn [obind].
        destruct (IH F' PO' L2 _ (Basic (b_target b) (b_null b) (b_props b) true (add_pair (b_extra b) (str "id", v))) fuel M')
          as (j' & M2 & ->); [cbn [b_id]; lia|assumption|].
        exists j'. split; [assumption|]. reflexivity.
      * rewrite (is_false t _ NID).
        assert (KI : key_is (str "id") (k, v) = false).
        { destruct (key_is (str "id") (k, v)) eqn:K; [|reflexivity]. apply key_is_true in K. exfalso. apply NID.
          apply (dec_same k); [assumption|exact K|now apply plainly]. }
        rewrite KI in *. cbn [obind orb].
        destruct (IH F' PO' L2 _ (Basic (b_target b) (b_null b) (b_props b) (b_id b) (add_pair (b_extra b) (k, v))) fuel M')
          as (j' & M2 & ->); [assumption|assumption|].
        exists j'. split; [assumption|]. reflexivity.
Qed.

Lemma ids_of_ids L : ids (ids L) = ids L.
Proof.
  unfold ids. induction L as [|p L IH]; [reflexivity|]. cbn [filter]. destruct (key_is _ p) eqn:K; [|assumption].
  cbn [filter]. now rewrite K, IH.
Qed.
Lemma ids_of_rest L : ids (rest_of L) = [].
Proof.
  unfold ids, rest_of. induction L as [|p L IH]; [reflexivity|]. cbn [filter]. destruct (key_is _ p) eqn:K; cbn [negb]; [assumption|].
  cbn [filter]. now rewrite K, IH.
Qed.
Lemma props_of_ids L : filter (key_is (str "properties")) (ids L) = [].
Proof.
  unfold ids. induction L as [|p L IH]; [reflexivity|]. cbn [filter]. destruct (key_is (str "id") p) eqn:K; [|assumption].
  cbn [filter]. apply key_is_true in K. destruct p as [k v]. cbn [fst] in K. subst k. exact IH.
Qed.
Lemma props_of_rest L : filter (key_is (str "properties")) (rest_of L) = filter (key_is (str "properties")) L.
Proof.
  unfold rest_of. induction L as [|[k v] L IH]; [reflexivity|]. cbn [filter]. destruct (key_is (str "id") (k, v)) eqn:K; cbn [negb].
  - apply key_is_true in K. cbn [fst] in K. subst k. exact IH.
  - cbn [filter]. now rewrite IH.
Qed.
Lemma existsb_filter {A} (f : A -> bool) l : existsb f l = match filter f l with [] => false | _ => true end.
Proof. induction l as [|a l IH]; [reflexivity|]. cbn [existsb filter]. destruct (f a); [reflexivity|exact IH]. Qed.

Lemma take_feature n t own null G j : members_of n (Some t) (fpairs G own null) -> den j t -> feature_ok n own ->
  (null = true -> has_props own = false) -> (exists u, G = 123 :: u) \/ G = str "null" ->
  exists jg, den jg G /\
    take_basic_geojson j (str "geometry")
    = Ok (let un := match G with 110 :: _ => true | _ => false end in Taken jg un null un (extra_of (id_first own))).
Proof.
  intros M D FO HN HG. destruct (object_meets n t _ j M D) as (MM & LL & TY).
  pose proof (feature_member n own FO) as FM.
  assert (PO : Forall (pair_ok n) (fpairs G own null)) by now apply (members_of_ok n (Some t)).
  assert (PO1 : Forall (pair_ok n) (ids own)) by (inversion_clear PO as [|? ? _ X]; now apply Forall_app in X).
  assert (PO2 : Forall (pair_ok n) (rest_of own)).
  { inversion_clear PO as [|? ? _ X]; apply Forall_app in X; destruct X as [_ X]; inversion_clear X as [|? ? _ Y].
    now apply Forall_app in Y. }
  destruct FO as (_ & C1 & C2 & _).
  assert (NZ : Forall (fun x => x <> 0) (str "geometry")) by (apply plain_nonzero; now apply plainly).
  unfold take_basic_geojson. change (zlist_eqb (str "geometry") (str "geometry")) with true. cbv zeta.
  unfold fpairs in MM, LL. cbn [length] in LL. rewrite app_length in LL. cbn [length] in LL. rewrite app_length in LL.
  set (len := length (json_raw j)) in *.
  assert (EF : exists f, S len = S (length (ids own) + S (length (rest_of own) + (length (last_pair own null) + S f)))).
  { exists (len - (length (ids own) + (length (rest_of own) + length (last_pair own null)) + 2))%nat. lia. }
  destruct EF as [f ->].
  destruct (loop_step true (str "geometry") (length (ids own) + S (length (rest_of own) + (length (last_pair own null) + S f)))
    _ _ _ _ (Basic JNone false false false []) (str "type") MM ltac:(apply plain_decodes; now apply plainly) NZ) as (D1 & M1 & ->).
  unfold member_step at 1. rewrite is_true. cbn [obind].
  destruct (loop_pairs n (ids own) ltac:(now apply Forall_filter) PO1 _ _ (Basic JNone false false false [])
    (S (length (rest_of own) + (length (last_pair own null) + S f))) M1) as (j2 & M2 & ->).
  { cbn [b_id]. rewrite ids_of_ids. exact C1. }
  { cbn [b_props]. rewrite props_of_ids. cbn. lia. }
  cbn [b_target b_null b_props b_id b_extra orb].
  match goal with |- context [basic_loop _ _ _ j2 ?b] => set (b2 := b) end.
  destruct (loop_step true (str "geometry") (length (rest_of own) + (length (last_pair own null) + S f))
    _ _ _ _ b2 (str "geometry") M2 ltac:(apply plain_decodes; now apply plainly) NZ) as (D3 & M3 & ->).
  unfold member_step at 1. rewrite (is_false (str "geometry") (str "type")) by discriminate. rewrite is_true. cbn [obind].
  set (jg := json_ensure (json_next j2)). assert (DG : den jg G) by now apply den_ensure.
  match goal with |- context [basic_loop _ _ _ _ ?b] => set (b3 := b) end.
  assert (P0 : has_props (ids own) = false) by (unfold has_props; now rewrite existsb_filter, props_of_ids).
  destruct (loop_pairs n (rest_of own) ltac:(now apply Forall_filter) PO2 _ _ b3
    (length (last_pair own null) + S f) M3) as (j4 & M4 & ->).
  { rewrite ids_of_rest. cbn. lia. }
  { rewrite props_of_rest. unfold b3, b2. cbn [b_props]. rewrite P0. exact C2. }
  assert (PR : has_props (rest_of own) = has_props own) by (unfold has_props; now rewrite !existsb_filter, props_of_rest).
  assert (EX : fold_left add_pair (rest_of own) (fold_left add_pair (ids own) []) = extra_text (id_first own)).
  { unfold extra_text, id_first. now rewrite fold_left_app. }
  assert (EL : exists pb ib, basic_loop true (str "geometry") (length (last_pair own null) + S f) j4
      (Basic (b_target b3) (b_null b3) (b_props b3 || has_props (rest_of own)) (b_id b3 || has_id (rest_of own))
         (fold_left add_pair (rest_of own) (b_extra b3)))
    = Ok (Basic jg null pb ib (extra_text (id_first own)))).
  { unfold b3, b2. cbn [b_target b_null b_props b_id b_extra]. rewrite P0, PR, EX. cbn [orb]. fold jg. unfold last_pair in *.
    destruct (has_props own) eqn:HP.
    - cbn [length Nat.add meets] in *. subst j4. do 2 eexists. cbn [basic_loop json_exists].
      replace null with false; [reflexivity|]. destruct null; [|reflexivity]. now discriminate HN.
    - cbn [length Nat.add] in *.
      destruct (loop_step true (str "geometry") (S f) _ _ _ _
        (Basic jg false false (has_id (ids own) || has_id (rest_of own)) (extra_text (id_first own)))
        (str "properties") M4 ltac:(apply plain_decodes; now apply plainly) NZ) as (D5 & M5 & ->).
      cbn [meets] in M5. rewrite M5. exists true, (has_id (ids own) || has_id (rest_of own)).
      unfold member_step. rewrite (is_false (str "properties") (str "type")), (is_false (str "properties") (str "geometry")) by discriminate.
      rewrite is_true. cbn [andb b_props b_null b_extra b_target b_id orb].
      destruct null; cbn [props_pair snd] in D5.
      + rewrite (den_head _ _ _ D5). cbn [tok]. reflexivity.
      + assert (MV : members_of 0 (Some (str "{}")) []) by (exists []; split; [apply (obj_none 0 []); constructor|reflexivity]).
        rewrite (den_head _ _ _ D5), (object_first 0 _ _ _ MV D5). reflexivity. }
  destruct EL as (pb & ib & ->). cbn [obind b_target b_null b_extra].
  exists jg. split; [assumption|]. rewrite (den_exists _ _ DG). cbn [negb]. rewrite extra_opt.
  destruct HG as [(u & ->)| ->]; rewrite (den_head _ _ _ DG); reflexivity.
Qed.

(** ** The id first *)
Lemma id_first_perm L : Permutation (id_first L) L.
Proof.
  unfold id_first. induction L as [|p L IH]; [constructor|]. cbn [filter]. destruct (key_is _ p); cbn [negb].
  - cbn [app]. now constructor.
  - symmetry. apply Permutation_cons_app. now symmetry.
Qed.
Lemma filter_perm {A} (f : A -> bool) a b : Permutation a b -> Permutation (filter f a) (filter f b).
Proof.
  induction 1 as [|x a b P IH|x y a|a b c _ IH1 _ IH2]; cbn [filter]; [constructor| | |now transitivity (filter f b)].
  - destruct (f x); [now constructor|assumption].
  - destruct (f x), (f y); try reflexivity. constructor.
Qed.
Lemma feature_ok_perm n a b : Permutation a b -> feature_ok n a -> feature_ok n b.
Proof.
  intros P (O & C1 & C2 & F). split; [|split; [|split]].
  - unfold others in *. now rewrite <- P.
  - now rewrite <- (Permutation_length (filter_perm _ _ _ P)).
  - now rewrite <- (Permutation_length (filter_perm _ _ _ P)).
  - now rewrite <- P.
Qed.
