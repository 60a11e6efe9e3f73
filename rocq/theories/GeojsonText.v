(** * JSON texts of arrays and objects, and reading them *)

From Coq Require Import ZArith Bool String List Lia ZifyBool Arith.
From Verif Require Import Bytes Json SpecJson JsonFacts JsonRfc JsonTok JsonStrFacts SpecTree JsonTree Thm_Tree
  WktText GeojsonParse SpecNotes.
Import ListNotations.
Local Open Scope Z_scope.

(** ** Texts of both grammars *)

Definition sound (n : nat) (v : list Z) : Prop := jvalue n v /\ value lax_char true n v.

Lemma value_mono_all ch br :
  (forall n v, value ch br n v -> forall m, (n <= m)%nat -> value ch br m v) /\
  (forall n v, elements ch br n v -> forall m, (n <= m)%nat -> elements ch br m v) /\
  (forall n v, members ch br n v -> forall m, (n <= m)%nat -> members ch br m v).
Proof.
  apply value_mutind.
  - intros n l I [|k] L; [lia|]. now apply v_lit.
  - intros n s N [|k] L; [lia|]. now apply v_num.
  - intros n s T [|k] L; [lia|]. now apply v_str.
  - intros n w W [|k] L; [lia|]. now apply v_arr0.
  - intros n es E IH [|k] L; [lia|]. apply v_arr, IH. lia.
  - intros n w W [|k] L; [lia|]. now apply v_obj0.
  - intros n ms M IH [|k] L; [lia|]. apply v_obj, IH. lia.
  - intros. apply e_one; auto.
  - intros. apply e_more; auto.
  - intros. apply m_one; auto.
  - intros. apply m_more; auto.
Qed.
Lemma sound_mono n m v : sound n v -> (n <= m)%nat -> sound m v.
Proof. intros [A B] L. split; (eapply (proj1 (value_mono_all _ _)); [eassumption|assumption]). Qed.
Lemma jvalue_mono n m v : jvalue n v -> (n <= m)%nat -> jvalue m v.
Proof. intros A L. eapply (proj1 (value_mono_all _ _)); [eassumption|assumption]. Qed.

Lemma utf8_bytes s : utf8_text s -> Forall byte s.
Proof.
  induction 1 as [|b s B _ IH|m s M _ IH]; [constructor|constructor; [unfold byte; lia|assumption]|].
  apply Forall_app. split; [|assumption]. unfold rfc_char, between, trail, between in M.
  destruct m as [|a [|b [|c [|d [|]]]]]; try discriminate; repeat constructor; unfold byte; lia.
Qed.
Lemma jvalue_bytes n v : jvalue n v -> Forall byte v.
Proof. intros H. apply utf8_bytes. destruct grammar_utf8 as [G _]. exact (G n v H). Qed.
Lemma rchars_bytes k : chars rfc_char k -> Forall byte k.
Proof. intros H. now apply utf8_bytes, chars_utf8. Qed.

Lemma plain_chars ch k : Forall (fun b => 32 <= b <= 127 /\ b <> 34 /\ b <> 92) k -> chars ch k.
Proof. induction 1 as [|b k (A & B & C)]; now constructor. Qed.
Lemma plain_decodes ok k : Forall (fun b => 32 <= b <= 127 /\ b <> 34 /\ b <> 92) k -> decodes ok k k.
Proof. induction 1 as [|b k (A & B & C)]; now constructor. Qed.

(** no U+10FFFF: a text of RFC 8259 is taken *)
Lemma value_lax n v : jvalue n v -> no_10FFFF v -> sound n v.
Proof.
  intros H N. split; [assumption|]. destruct (grammar_change rfc_char lax_char false true ltac:(auto)) as [G _].
  apply G; [assumption|]. intros m M (a & b & E). apply rfc_lax; [assumption|]. intros ->. now apply (N a b).
Qed.
Lemma chars_lax k : chars rfc_char k -> no_10FFFF k -> chars lax_char k.
Proof.
  intros H N. apply (chars_change rfc_char lax_char); [assumption|].
  intros m M (a & b & E). apply rfc_lax; [assumption|]. intros ->. now apply (N a b).
Qed.

(** ** Arrays *)

Definition arr (l : list (list Z)) : list Z := 91 :: join 44 l ++ [93].

Lemma arr_elements ch br n l : l <> [] -> Forall (value ch br n) l -> elements ch br n (join 44 l).
Proof.
  intros N H. induction H as [|v l V H IH]; [contradiction|]. destruct l as [|v' l].
  - cbn [join]. replace v with ([] ++ v ++ []) by apply app_nil_r. apply e_one; now (constructor || assumption).
  - rewrite join_cons. unfold more.
    apply (e_more ch br n [] v []); try (now constructor); [assumption|]. apply IH. discriminate.
Qed.
Lemma arr_value ch br n l : Forall (value ch br n) l -> value ch br (S n) (arr l).
Proof.
  intros H. unfold arr. destruct l as [|v l].
  - apply (v_arr0 ch br n []). constructor.
  - apply v_arr. now apply arr_elements.
Qed.
Lemma arr_sound n l : Forall (sound n) l -> sound (S n) (arr l).
Proof.
  intros H. split; apply arr_value; (eapply Forall_impl; [|exact H]); intros a Ha; apply Ha.
Qed.
Lemma arr_parts n l : Forall (jvalue n) l -> exists ps, array_is n (arr l) ps /\ map fst ps = l.
Proof.
  intros H.
  assert (E : l <> [] -> exists ps, elements_are n (join 44 l) ps /\ map fst ps = l).
  { induction H as [|v l V H IH]; [contradiction|]. intros _. destruct l as [|v' l].
    - exists [(v, [])]. split; [|reflexivity]. cbn [join].
      pose proof (els_one n [] v [] ltac:(constructor) V ltac:(constructor)) as X. now rewrite app_nil_r in X.
    - destruct (IH ltac:(discriminate)) as (ps & P & M). eexists. split.
      + rewrite join_cons. unfold more.
        apply (els_more n [] v []); [constructor|assumption|constructor|exact P].
      + cbn [map fst]. now rewrite M. }
  unfold arr. destruct l as [|v l].
  - exists []. split; [|reflexivity]. apply (arr_none n []). constructor.
  - destruct (E ltac:(discriminate)) as (ps & P & M). exists (map (behind [93]) ps). split; [now constructor|].
    rewrite map_map. exact M.
Qed.

Definition den (j : json) (v : list Z) : Prop := exists r, denotes j v r.
Lemma den_raw j v : den j v -> raw_text j = v.
Proof.
  intros (r & _ & R & L). unfold raw_text. rewrite R, L, firstn_app, firstn_all, Nat.sub_diag. cbn [firstn].
  apply app_nil_r.
Qed.
Lemma den_ensure j v : den j v -> den (json_ensure j) v.
Proof.
  intros (r & E & R & L). exists r. destruct j as [|info raw len]; [discriminate|].
  cbn [json_ensure]. split; [reflexivity|]. split; [exact R|]. unfold json_raw_length in *.
  destruct (Nat.eqb_spec len 0) as [->|N]; cbn [negb] in *.
  - rewrite L. destruct (Nat.eqb_spec (length v) 0) as [Z0|NZ]; cbn [negb]; reflexivity.
  - rewrite L. destruct (Nat.eqb_spec (length v) 0) as [Z0|NZ]; cbn [negb]; [lia|reflexivity].
Qed.
Lemma den_exists j v : den j v -> json_exists j = true.
Proof. intros (r & E & _). exact E. Qed.
Lemma den_head j b v : den j (b :: v) -> json_type j = tok typetoks b.
Proof. intros (r & E & R & _). unfold json_type. rewrite R. reflexivity. Qed.
Lemma den_type n j v : den j v -> jvalue n v -> type_is v (json_type j).
Proof. intros (r & D) V. now apply (C25_type n j v r). Qed.

Lemma walk_items l rest : forall j fuel, walk l rest j -> (length l < fuel)%nat ->
  exists js, children fuel j = Some js /\ Forall2 den js (map fst l).
Proof.
  induction l as [|[v r] l IH]; intros j [|fuel]; cbn [walk length]; try lia.
  - intros -> _. exists []. split; [reflexivity|constructor].
  - intros (N & D & W) L. destruct (IH _ fuel W) as (js & C & CL); [lia|].
    exists (j :: js). pose proof D as (E & _). cbn [children]. rewrite E, C. split; [reflexivity|].
    cbn [map fst]. constructor; [now exists (r ++ rest)|assumption].
Qed.
Lemma arr_items n j l : den j (arr l) -> Forall (jvalue n) l ->
  exists js, json_items j = Ok js /\ Forall2 den js l.
Proof.
  intros (r & D) H. destruct (arr_parts n l H) as (ps & P & M).
  destruct (walk_items ps r (json_first j) (S (length (json_raw j))) (walk_array n _ _ P j r D)) as (js & C & F).
  - destruct D as (_ & -> & _). apply array_long in P. rewrite app_length. lia.
  - exists js. unfold json_items. rewrite C, <- M. now split.
Qed.
Lemma arr_first n j l : den j (arr l) -> Forall (jvalue n) l ->
  json_exists (json_first j) = match l with [] => false | _ => true end.
Proof.
  intros (r & D) H. destruct (arr_parts n l H) as (ps & P & M).
  pose proof (walk_array n _ _ P j r D) as W. destruct ps as [|[v r'] ps]; cbn [walk map fst] in *.
  - subst l. now rewrite W.
  - subst l. now destruct W as (_ & (E & _) & _).
Qed.

(** ** Objects *)

Definition pair_text (p : pair) : list Z := 34 :: fst p ++ 34 :: 58 :: snd p.
Definition obj (L : list pair) : list Z := 123 :: join 44 (map pair_text L) ++ [125].
Definition membs (n : nat) (ms : list Z) (L : list pair) : Prop :=
  exists l, members_are n ms l /\ pairs l = L.

Lemma membs_one n k v : chars rfc_char k -> jvalue n v -> membs n (pair_text (k, v)) [(k, v)].
Proof.
  intros K V.
  pose proof (mem_one n [] k [] [] v [] ltac:(constructor) K ltac:(constructor) ltac:(constructor) V ltac:(constructor)) as X.
  cbn [app] in X. rewrite app_nil_r in X. eexists. split; [exact X|reflexivity].
Qed.
Lemma membs_more n k v ms L : chars rfc_char k -> jvalue n v -> membs n ms L ->
  membs n (pair_text (k, v) ++ 44 :: ms) ((k, v) :: L).
Proof.
  intros K V (l & M & <-).
  pose proof (mem_more n [] k [] [] v [] ms l ltac:(constructor) K ltac:(constructor) ltac:(constructor) V ltac:(constructor) M) as X.
  eexists. split.
  - unfold pair_text. cbn [fst snd]. cbn [app] in X |- *. rewrite <- app_assoc. cbn [app].
    exact X.
  - reflexivity.
Qed.
Definition pair_ok (n : nat) (p : pair) : Prop := chars rfc_char (fst p) /\ jvalue n (snd p).
Lemma membs_join n L : L <> [] -> Forall (pair_ok n) L -> membs n (join 44 (map pair_text L)) L.
Proof.
  intros N H. induction H as [|[k v] L [K V] H IH]; [contradiction|]. destruct L as [|p L].
  - now apply membs_one.
  - cbn [map]. rewrite join_cons. unfold more. apply membs_more; try assumption. apply IH. discriminate.
Qed.
Lemma pairs_behind e l : pairs (map (mbehind e) l) = pairs l.
Proof. unfold pairs. rewrite map_map. reflexivity. Qed.
Lemma membs_object n ms L : membs n ms L -> members_of n (Some (123 :: ms ++ [125])) L.
Proof.
  intros (l & M & <-). eexists. split; [constructor; exact M|]. symmetry. apply pairs_behind.
Qed.
Lemma obj_members n L : Forall (pair_ok n) L -> members_of n (Some (obj L)) L.
Proof.
  intros H. destruct L as [|p L].
  - exists []. split; [|reflexivity]. apply (obj_none n []). constructor.
  - apply membs_object. now apply membs_join.
Qed.
Lemma members_pairs n ms l : members_are n ms l -> Forall (pair_ok n) (pairs l).
Proof. induction 1; repeat constructor; cbn [fst snd]; assumption. Qed.
Lemma members_of_ok n x L : members_of n x L -> Forall (pair_ok n) L.
Proof.
  destruct x as [x|]; cbn [members_of]; [|intros ->; constructor]. intros (l & O & ->).
  destruct O as [w W|ms l M]; [constructor|]. rewrite pairs_behind. now apply (members_pairs n ms).
Qed.
Lemma membs_ok n ms L : membs n ms L -> Forall (pair_ok n) L.
Proof. intros (l & M & <-). now apply (members_pairs n ms). Qed.

(** the value of an object from its members *)
Definition pair_lax (n : nat) (p : pair) : Prop := chars lax_char (fst p) /\ value lax_char true n (snd p).
Lemma members_grammar n ms l : members_are n ms l -> members rfc_char false n ms.
Proof.
  induction 1 as [w1 k w2 w3 v w4|w1 k w2 w3 v w4 ms l].
  - replace (w1 ++ 34 :: k ++ 34 :: w2 ++ 58 :: w3 ++ v ++ w4) with (w1 ++ 34 :: (k ++ [34]) ++ w2 ++ 58 :: w3 ++ v ++ w4)
      by (now rewrite <- app_assoc). apply m_one; try assumption. now constructor.
  - replace (w1 ++ 34 :: k ++ 34 :: w2 ++ 58 :: w3 ++ v ++ w4 ++ 44 :: ms)
      with (w1 ++ 34 :: (k ++ [34]) ++ w2 ++ 58 :: w3 ++ v ++ w4 ++ 44 :: ms)
      by (now rewrite <- app_assoc). apply m_more; try assumption. now constructor.
Qed.
Lemma members_grammar_lax n ms l : members_are n ms l -> Forall (pair_lax n) (pairs l) -> members lax_char true n ms.
Proof.
  induction 1 as [w1 k w2 w3 v w4|w1 k w2 w3 v w4 ms l]; intros F; inversion_clear F as [|? ? [K V] F'];
    cbn [fst snd] in K, V.
  - replace (w1 ++ 34 :: k ++ 34 :: w2 ++ 58 :: w3 ++ v ++ w4) with (w1 ++ 34 :: (k ++ [34]) ++ w2 ++ 58 :: w3 ++ v ++ w4)
      by (now rewrite <- app_assoc). apply m_one; try assumption. now constructor.
  - replace (w1 ++ 34 :: k ++ 34 :: w2 ++ 58 :: w3 ++ v ++ w4 ++ 44 :: ms)
      with (w1 ++ 34 :: (k ++ [34]) ++ w2 ++ 58 :: w3 ++ v ++ w4 ++ 44 :: ms)
      by (now rewrite <- app_assoc). apply m_more; try assumption; [now constructor|now apply IHmembers_are].
Qed.
Lemma object_sound n t L : members_of n (Some t) L -> Forall (pair_lax n) L -> sound (S n) t.
Proof.
  intros (l & O & ->) F. destruct O as [w W|ms l M].
  - split; now apply v_obj0.
  - rewrite pairs_behind in F. split; apply v_obj; [now apply (members_grammar n ms l)|now apply (members_grammar_lax n ms l)].
Qed.

(** what the loops over members meet *)
Fixpoint meets (L : list pair) (j : json) : Prop :=
  match L with
  | [] => j = JNone
  | (k, v) :: L =>
      chars rfc_char k /\ v <> [] /\ (exists r, j = string_token k r) /\ den (json_next j) v /\
      meets L (json_next (json_next j))
  end.
Lemma walk_meets l rest : forall j, walk_members l rest j -> meets (pairs l) j.
Proof.
  induction l as [|[[k r1] [v r2]] l IH]; intros j; cbn [walk_members pairs map meets fst snd]; [auto|].
  intros (C & N & E & D & W). split; [assumption|]. split; [assumption|]. split; [eexists; exact E|].
  split; [now exists (r2 ++ rest)|]. now apply IH.
Qed.
Lemma object_meets n t L j : members_of n (Some t) L -> den j t ->
  meets L (json_first j) /\ (length L < length (json_raw j))%nat /\ json_type j = JSON_OBJECT.
Proof.
  intros (l & O & ->) (r & D). split; [|split].
  - apply (walk_meets l r). now apply (walk_object n t).
  - destruct D as (_ & -> & _). apply object_long in O. unfold pairs. rewrite app_length, map_length. unfold member in *. lia.
  - destruct D as (_ & R & _). unfold json_type. rewrite R. destruct O; reflexivity.
Qed.

Lemma meets_key k r name t : decodes right_pair k t -> Forall (fun x => x <> 0) name ->
  json_string_compare_eq (string_token k r) name = (if list_eq_dec Z.eq_dec t name then true else false).
Proof.
  intros D N. pose proof (key_compare k t r name D N) as K.
  destruct (list_eq_dec Z.eq_dec t name) as [E|E]; [now apply K|].
  destruct (json_string_compare_eq _ _); [|reflexivity]. exfalso. now apply E, K.
Qed.

Definition qt (T : list Z) : list Z := 34 :: T ++ [34].
Lemma meets_get_here fuel k v L j name : meets ((k, v) :: L) j -> decodes right_pair k name ->
  Forall (fun x => x <> 0) name -> (0 < fuel)%nat ->
  exists jv, object_get_loop fuel j name = Some jv /\ den jv v.
Proof.
  intros (C & N & (r & ->) & DV & M) D NZ F. destruct fuel as [|fuel]; [lia|]. exists (json_next (string_token k r)).
  split; [|assumption]. cbn [object_get_loop]. change (json_exists (string_token k r)) with true. cbv iota.
  rewrite (meets_key k r name name D NZ). destruct (list_eq_dec Z.eq_dec name name); [reflexivity|contradiction].
Qed.
Lemma meets_get_next fuel k v L j name t : meets ((k, v) :: L) j -> decodes right_pair k t -> t <> name ->
  Forall (fun x => x <> 0) name ->
  object_get_loop (S fuel) j name = object_get_loop fuel (json_next (json_next j)) name.
Proof.
  intros (C & N & (r & ->) & DV & M) D NE NZ. cbn [object_get_loop].
  change (json_exists (string_token k r)) with true. cbv iota.
  rewrite (meets_key k r name t D NZ). destruct (list_eq_dec Z.eq_dec t name); [contradiction|reflexivity].
Qed.

(** ** The loop of take_basic_geojson *)

Definition add_pair (x : list Z) (p : pair) : list Z :=
  x ++ (match x with [] => [123] | _ => [44] end) ++ pair_text p.
Definition extra_text (L : list pair) : list Z := fold_left add_pair L [].
Lemma add_pairs_more L : forall x, x <> [] -> fold_left add_pair L x = x ++ more 44 (map pair_text L).
Proof.
  induction L as [|p L IH]; intros x N; [symmetry; apply app_nil_r|].
  cbn [fold_left]. rewrite IH by (unfold add_pair; destruct x; [contradiction|discriminate]).
  unfold add_pair. destruct x as [|b x]; [contradiction|]. rewrite <- !app_assoc. f_equal. cbn [more map app].
  now rewrite join_cons.
Qed.
Lemma extra_obj L : L <> [] -> extra_text L ++ [125] = obj L.
Proof.
  destruct L as [|p L]; [contradiction|]. intros _. unfold extra_text, obj. cbn [fold_left].
  rewrite add_pairs_more by discriminate. unfold add_pair. cbn [app map]. now rewrite join_cons.
Qed.
Lemma extra_nil L : extra_text L = [] <-> L = [].
Proof.
  split; [|now intros ->]. destruct L as [|p L]; [reflexivity|]. unfold extra_text. cbn [fold_left].
  rewrite add_pairs_more by discriminate. discriminate.
Qed.
Definition extra_of (L : list pair) : option (list Z) :=
  match L with [] => None | _ => Some (obj L) end.
Lemma extra_opt L : match extra_text L with [] => None | x => Some (x ++ [125]) end = extra_of L.
Proof.
  destruct L as [|p L]; [reflexivity|]. unfold extra_of. rewrite <- extra_obj by discriminate.
  destruct (extra_text (p :: L)) eqn:E; [|reflexivity]. now apply extra_nil in E.
Qed.

Lemma append_add b key val k v r : key = string_token k r -> den val v ->
  append_pair b key val = Basic (b_target b) (b_null b) (b_props b) (b_id b) (add_pair (b_extra b) (k, v)).
Proof.
  intros -> D. unfold append_pair, add_pair, pair_text. cbn [fst snd].
  rewrite (den_raw _ _ D), (den_raw (string_token k r) (34 :: k ++ [34])) by (eexists; apply denotes_string).
  do 2 f_equal. cbn [app]. rewrite <- app_assoc. reflexivity.
Qed.

(** one round, in terms of the name [t] of the key *)
Definition is (t name : list Z) : bool := if list_eq_dec Z.eq_dec t name then true else false.
Definition member_step (isf : bool) (tn : list Z) (b : basic) (k v t : list Z) (val : json) : out basic :=
  if is t (str "type") then Ok b
  else if is t tn then Ok (Basic (json_ensure val) (b_null b) (b_props b) (b_id b) (b_extra b))
  else if isf && is t (str "properties") then
    if b_props b then Ok b
    else
      let b' null x := Basic (b_target b) (b_null b || null) true (b_id b) x in
      if json_type val =? JSON_NULL then Ok (b' true (b_extra b))
      else if json_type val =? JSON_OBJECT then
        Ok (if json_exists (json_first val) then b' false (add_pair (b_extra b) (k, v)) else b' false (b_extra b))
      else Err (str "'properties' must be an object or null")
  else if isf && is t (str "id") then
    if b_id b then Ok b
    else if negb (json_type val =? JSON_STRING) && negb (json_type val =? JSON_NUMBER)
    then Err (str "'id' must be a string or number")
    else Ok (Basic (b_target b) (b_null b) (b_props b) true (add_pair (b_extra b) (k, v)))
  else Ok (Basic (b_target b) (b_null b) (b_props b) (b_id b) (add_pair (b_extra b) (k, v))).

Lemma loop_step isf tn fuel k v L j b t : meets ((k, v) :: L) j -> decodes right_pair k t ->
  Forall (fun x => x <> 0) tn ->
  den (json_next j) v /\ meets L (json_next (json_next j)) /\
  basic_loop isf tn (S fuel) j b
  = obind (member_step isf tn b k v t (json_next j)) (basic_loop isf tn fuel (json_next (json_next j))).
Proof.
  intros (C & N & (r & ->) & DV & M) D NZ. split; [assumption|]. split; [assumption|].
  cbn [basic_loop]. change (json_exists (string_token k r)) with true. cbv iota. f_equal.
  unfold basic_member, member_step, is.
  assert (Z4 : forall s, In s [str "type"; str "properties"; str "id"] -> Forall (fun x => x <> 0) s).
  { intros s H. cbn in H. repeat (destruct H as [<-|H]; [repeat (constructor; [discriminate|]); constructor|]). destruct H. }
  rewrite (meets_key k r _ t D (Z4 (str "type") ltac:(cbn; tauto))), (meets_key k r tn t D NZ),
    (meets_key k r _ t D (Z4 (str "properties") ltac:(cbn; tauto))),
    (meets_key k r _ t D (Z4 (str "id") ltac:(cbn; tauto))).
  destruct (list_eq_dec Z.eq_dec t (str "type")); [reflexivity|].
  destruct (list_eq_dec Z.eq_dec t tn); [reflexivity|].
  rewrite !(append_add _ _ _ k v r eq_refl DV). cbn [b_target b_null b_props b_id b_extra].
  reflexivity.
Qed.

Lemma decodes_once ok k t u : decodes ok k t -> decodes ok k u -> (forall cp, ok cp -> right_pair cp) -> t = u.
Proof.
  intros A B R.
  assert (W : forall s x, decodes ok s x -> decodes right_pair s x).
  { clear - R. intros s x H. induction H; try (now constructor); [econstructor; eauto]. }
  apply W in A. apply W in B.
  pose proof (unescape_decodes k t A (S (length k)) ltac:(lia)) as H1.
  rewrite (unescape_decodes k u B (S (length k)) ltac:(lia)) in H1. now injection H1.
Qed.
