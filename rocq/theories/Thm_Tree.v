(** * C25: the parts of JSON texts *)

From Coq Require Import ZArith Bool String List Lia ZifyBool Arith.
From Verif Require Import Json SpecJson JsonFacts JsonTok JsonStrFacts SpecTree JsonTree Thm_Json.
Import ListNotations.
Local Open Scope Z_scope.

(** ** The root *)

(** Every text of RFC 8259, of any depth: the token of the text stands for its value. *)
Theorem C25_root : forall n w1 v w2, ws w1 -> jvalue n v -> ws w2 ->
  denotes (json_parsen (w1 ++ v ++ w2)) v w2.
Proof.
  intros n w1 v w2 W1 V W2.
  assert (F : follow w2) by (rewrite <- (app_nil_r w2); apply follow_ws; [assumption|exact I]).
  pose proof (peek_value n v w2 V F) as P. rewrite <- (peek_ws w1) in P by assumption.
  unfold json_parsen. destruct (w1 ++ v ++ w2) as [|b t] eqn:E.
  { apply app_eq_nil in E as [_ E]. apply app_eq_nil in E as [E _]. now apply value_nonempty in V. }
  destruct ((b =? 91) || (b =? 123)) eqn:B; [|exact P].
  cbn [peek_any] in P. replace ((b =? 125) || (b =? 93)) with false in P by lia.
  replace ((b =? 123) || (b =? 91)) with true in P by lia. exact P.
Qed.
Print Assumptions C25_root.

(** ** Types *)

Theorem C25_type : forall n j v r, jvalue n v -> denotes j v r -> type_is v (json_type j).
Proof.
  intros n j v r V (E & R & _). destruct j as [|info raw len]; [discriminate|]. cbn [json_raw] in R. subst raw.
  unfold json_type. cbn [json_raw].
  inversion V as [m l I E1 E2|m s N E1 E2|m s T E1 E2|m w W E1 E2|m es El E1 E2|m w W E1 E2|m ms M E1 E2];
    subst; try (now constructor).
  - destruct I as [<-|[<-|[<-|[]]]]; constructor.
  - destruct (number_head v N) as (b & t & -> & B). cbn [app].
    assert (BB : byte b) by (unfold byte, digit in *; lia).
    assert (H : forallb (fun n => negb ((Z.of_nat n =? 45) || digit (Z.of_nat n)) || (tok typetoks (Z.of_nat n) =? 2)) (seq 0 256) = true) by (vm_compute; reflexivity).
    pose proof (all_bytes (fun b => negb ((b =? 45) || digit b) || (tok typetoks b =? 2)) H b BB) as H2. cbv beta in H2.
    rewrite B in H2. cbn [negb orb] in H2. apply Z.eqb_eq in H2. rewrite H2. now constructor.
Qed.
Print Assumptions C25_type.

(** a value has one type only, so this is the right one *)
Lemma type_once n v a b : jvalue n v -> type_is v a -> type_is v b -> a = b.
Proof.
  intros _ A B.
  assert (NH : forall t, number t -> exists c s, t = c :: s /\ (c =? 45) || digit c = true) by apply number_head.
  destruct A as [| |s N| | | |]; inversion B as [| |s' N'| | | |]; subst; try reflexivity;
    try (match goal with N : number _ |- _ => destruct (NH _ N) as (? & ? & E & D); try discriminate E;
         unfold lit_null, lit_true, lit_false in E; injection E as <- _; unfold digit in D; lia end).
Qed.

(** ** Arrays *)

(** Every array and object text has its list of parts. *)
Lemma elements_parts n es : elements rfc_char false n es -> exists l, elements_are n es l.
Proof.
  induction 1 as [n w1 v w2 W1 V W2|n w1 v w2 es W1 V W2 E [l IH]]; eexists; [now constructor|].
  constructor; eassumption.
Qed.
Lemma members_parts n ms : members rfc_char false n ms -> exists l, members_are n ms l.
Proof.
  induction 1 as [n w1 k w2 w3 v w4 W1 K W2 W3 V W4|n w1 k w2 w3 v w4 ms W1 K W2 W3 V W4 M [l IH]];
    (inversion K as [k' C E|k' B|k' h B]; [subst k|discriminate|discriminate]);
    rewrite <- app_assoc; eexists; [now constructor|constructor; eassumption].
Qed.
Theorem C25_parts_exist : forall n s,
  (jvalue n (91 :: s) -> exists m l, n = S m /\ array_is m (91 :: s) l) /\
  (jvalue n (123 :: s) -> exists m l, n = S m /\ object_is m (123 :: s) l).
Proof.
  intros n s. split; intros V;
  (inversion V as [m l I E1 E2|m t N E1 E2|m t T E1 E2|m w W E1 E2|m es El E1 E2|m w W E1 E2|m ms M E1 E2]; subst;
    [now destruct I as [I|[I|[I|[]]]]
    |destruct (number_head _ N) as (b & t & E & B); injection E as <- _; discriminate B|..]).
  - exists m, []. split; [reflexivity|]. now constructor.
  - destruct (elements_parts m es El) as [l L]. exists m, (map (behind [93]) l). split; [reflexivity|]. now constructor.
  - exists m, []. split; [reflexivity|]. now constructor.
  - destruct (members_parts m ms M) as [l L]. exists m, (map (mbehind [125]) l). split; [reflexivity|]. now constructor.
Qed.
Print Assumptions C25_parts_exist.

Lemma walk_get l rest : forall j k, walk l rest j ->
  match nth_error l k with
  | Some (v, r) => denotes (array_get_loop j k) v (r ++ rest)
  | None => array_get_loop j k = JNone
  end.
Proof.
  induction l as [|[v r] l IH]; intros j k; cbn [walk].
  - intros ->. destruct k; reflexivity.
  - intros (N & D & W). pose proof D as (E & _). destruct k as [|k]; cbn [nth_error array_get_loop]; rewrite E.
    + assumption.
    + now apply IH.
Qed.
Lemma walk_children l rest : forall j fuel, walk l rest j -> (length l < fuel)%nat ->
  exists js, children fuel j = Some js /\ length js = length l.
Proof.
  induction l as [|[v r] l IH]; intros j [|fuel]; cbn [walk length]; try lia.
  - intros -> _. exists []. now split.
  - intros (N & (E & _) & W) L. destruct (IH _ fuel W) as (js & C & CL); [lia|].
    exists (j :: js). cbn [children]. rewrite E, C. cbn. now rewrite CL.
Qed.
Lemma elements_long n es l : elements_are n es l -> (length l <= length es)%nat.
Proof.
  induction 1 as [w1 v w2 _ V _|w1 v w2 es l _ V _ _ IH]; apply value_nonempty in V;
    destruct v; try contradiction; rewrite !app_length; cbn [length]; rewrite ?app_length; cbn [length]; lia.
Qed.
Lemma array_long n a l : array_is n a l -> (length l < length a)%nat.
Proof.
  intros [w W|es l' E]; cbn [length]; rewrite ?map_length, app_length; cbn [length]; [lia|].
  apply elements_long in E. lia.
Qed.
Lemma array_type n a l j rest : array_is n a l -> denotes j a rest -> json_type j = JSON_ARRAY.
Proof.
  intros A (E & R & _). unfold json_type. rewrite R. destruct A; reflexivity.
Qed.

(** The k-th element, from 0: the token stands for exactly its text, at its place;
    there is none from the number of elements on. *)
Theorem C25_array_get : forall n a l j rest, array_is n a l -> denotes j a rest ->
  forall k, match nth_error l k with
            | Some (v, r) => denotes (json_array_get j k) v (r ++ rest)
            | None => json_exists (json_array_get j k) = false
            end.
Proof.
  intros n a l j rest A D k. unfold json_array_get. rewrite (array_type n a l j rest A D).
  change (JSON_ARRAY =? JSON_ARRAY) with true. cbv iota.
  pose proof (walk_get l rest (json_first j) k (walk_array n a l A j rest D)) as H.
  destruct (nth_error l k) as [[v r]|]; [assumption|]. now rewrite H.
Qed.
Print Assumptions C25_array_get.

Theorem C25_array_count : forall n a l j rest, array_is n a l -> denotes j a rest ->
  json_array_count j = Some (length l).
Proof.
  intros n a l j rest A D. unfold json_array_count. rewrite (array_type n a l j rest A D).
  change (JSON_ARRAY =? JSON_ARRAY) with true. cbv iota.
  destruct (walk_children l rest (json_first j) (S (length (json_raw j))) (walk_array n a l A j rest D)) as (js & -> & L).
  - destruct D as (_ & -> & _). apply array_long in A. rewrite app_length. lia.
  - cbn. now rewrite L.
Qed.
Print Assumptions C25_array_count.

(** ** Walking with json_first and json_next *)

(** [j], json_next j, ... stand for the texts of l one after the other; the token
    after them does not exist *)
Fixpoint iterates (l : list (list Z * list Z)) (rest : list Z) (j : json) : Prop :=
  match l with
  | [] => json_exists j = false
  | (v, r) :: l => denotes j v (r ++ rest) /\ iterates l rest (json_next j)
  end.
Lemma walk_iterates l rest : forall j, walk l rest j -> iterates l rest j.
Proof.
  induction l as [|[v r] l IH]; intros j; cbn [walk iterates]; [now intros ->|].
  intros (_ & D & W). auto.
Qed.
Theorem C25_iterate : forall n j v rest, denotes j v rest ->
  (forall l, array_is n v l -> iterates l rest (json_first j)) /\
  (forall l, object_is n v l -> iterates (parts_of l) rest (json_first j)).
Proof.
  intros n j v rest D. split; intros l A; apply walk_iterates.
  - now apply (walk_array n v).
  - apply walk_parts. now apply (walk_object n v).
Qed.
Print Assumptions C25_iterate.

(** ** Objects *)

Lemma strncmp_same a b n r : (n <= length a)%nat -> (n <= length b)%nat -> Forall (fun x => x <> 0) b ->
  strncmp_eq (a ++ r) b n = true <-> firstn n a = firstn n b.
Proof.
  revert a b. induction n as [|n IH]; intros a b La Lb N; [destruct (a ++ r); split; reflexivity|].
  destruct a as [|x a], b as [|y b]; cbn [length] in *; try lia.
  inversion_clear N as [|? ? Y N']. cbn [app strncmp_eq firstn].
  rewrite andb_true_iff, orb_true_iff, Z.eqb_eq, Z.eqb_eq, IH by (assumption || lia).
  split.
  - intros [-> [->|E]]; [contradiction|]. now rewrite E.
  - intros E. injection E as -> E. auto.
Qed.
Lemma cmp_same chs str : Forall (fun x => x <> 0) str -> cmp_loop chs str = true <-> chs = str.
Proof.
  revert str. induction chs as [|c chs IH]; intros [|x str] N; cbn [cmp_loop]; try now split.
  - inversion_clear N. split; [lia|discriminate].
  - inversion_clear N as [|? ? X N']. replace (x =? 0) with false by lia. cbn [orb].
    destruct (Z.eqb_spec c x) as [->|NE]; cbn [negb].
    + rewrite IH by assumption. split; [now intros ->|]. intros E. now injection E.
    + split; [discriminate|]. intros E. now injection E.
Qed.

Lemma key_compare k t r name : decodes right_pair k t -> Forall (fun x => x <> 0) name ->
  json_string_compare_eq (string_token k r) name = true <-> t = name.
Proof.
  intros D N. destruct (string_token_facts k r) as (T & L & I & E).
  unfold json_string_compare_eq. rewrite T, I, E.
  change (negb (JSON_STRING =? JSON_STRING)) with false. cbv iota.
  destruct (existsb (Z.eqb 92) k) eqn:X; cbn [negb].
  - rewrite (unescape_decodes k t D) by lia. now apply cmp_same.
  - rewrite (decodes_plain _ _ _ D X). cbn [json_raw string_token tl].
    unfold strcmpn_eq. rewrite andb_true_iff, Nat.eqb_eq. split.
    + intros [S LE]. rewrite LE, Nat.ltb_irrefl in S. rewrite strncmp_same in S by (assumption || lia).
      rewrite firstn_all in S. rewrite <- LE, firstn_all in S. exact S.
    + intros <-. split; [|reflexivity]. rewrite Nat.ltb_irrefl.
      apply strncmp_same; auto.
Qed.

Lemma walk_lookup rest name : Forall (fun x => x <> 0) name -> forall l names j fuel,
  walk_members l rest j -> Forall2 (fun m t => decodes right_pair (fst (fst m)) t) l names ->
  (length l < fuel)%nat ->
  exists j', object_get_loop fuel j name = Some j' /\
    match lookup name names l with
    | Some (v, r) => denotes j' v (r ++ rest)
    | None => json_exists j' = false
    end.
Proof.
  intros N. induction l as [|[[k r1] [v r2]] l IH]; intros names j [|fuel] W F L; cbn [length] in L; try lia.
  - inversion F; subst. cbn [walk_members] in W. subst j. exists JNone. now split.
  - inversion F as [|? t ? names' D F']; subst. cbn [fst snd] in D. cbn [walk_members] in W.
    destruct W as (C & NE & E & DV & W). subst j. cbn [object_get_loop lookup].
    change (json_exists (string_token k (r1 ++ rest))) with true. cbv iota. cbn [snd].
    pose proof (key_compare k t (r1 ++ rest) name D N) as K.
    destruct (json_string_compare_eq (string_token k (r1 ++ rest)) name) eqn:B.
    + destruct (list_eq_dec Z.eq_dec t name) as [_|NQ]; [|exfalso; apply NQ, K; reflexivity].
      eexists. split; [reflexivity|assumption].
    + destruct (list_eq_dec Z.eq_dec t name) as [EQ|_]; [exfalso; now apply K in EQ|].
      apply IH; [assumption|assumption|lia].
Qed.
Lemma members_long n ms l : members_are n ms l -> (length l <= length ms)%nat.
Proof.
  induction 1 as [w1 k w2 w3 v w4|w1 k w2 w3 v w4 ms l _ _ _ _ _ _ _ IH]; rewrite !app_length; cbn [length];
    [lia|]. rewrite !app_length. cbn [length]. rewrite !app_length. cbn [length]. rewrite !app_length. cbn [length]. lia.
Qed.
Lemma object_long n a l : object_is n a l -> (length l < length a)%nat.
Proof.
  intros [w W|es l' E]; cbn [length]; rewrite ?map_length, app_length; cbn [length]; [lia|].
  apply members_long in E. lia.
Qed.

(** A member by its name, a C string: the token stands for the value of the first
    member whose key, decoded, is that name; there is none if no key is.
    Full statement: for all keys.  Missing: keys with a surrogate pair that is
    decoded wrongly (C44); for those see C25_refuted. *)
Theorem C25_object_get_partial : forall n a l names j rest,
  object_is n a l -> Forall2 (fun m t => decodes right_pair (fst (fst m)) t) l names ->
  denotes j a rest ->
  forall name, Forall (fun x => x <> 0) name ->
  exists j', json_object_get j name = Some j' /\
    match lookup name names l with
    | Some (v, r) => denotes j' v (r ++ rest)
    | None => json_exists j' = false
    end.
Proof.
  intros n a l names j rest A F D name N. unfold json_object_get.
  assert (T : json_type j = JSON_OBJECT).
  { destruct D as (_ & R & _). unfold json_type. rewrite R. destruct A; reflexivity. }
  rewrite T. change (JSON_OBJECT =? JSON_OBJECT) with true. cbv iota.
  apply walk_lookup; try assumption.
  - now apply (walk_object n a).
  - destruct D as (_ & -> & _). apply object_long in A. rewrite app_length. lia.
Qed.
Print Assumptions C25_object_get_partial.

(** {"(U+20021 as a pair of escapes)":1}, which is valid; the member is not found
    under its name *)
Definition hard_key : list Z := bytes_of "\uD840\uDC21"%string.
Theorem C25_refuted :
  exists text v name, json_validn text = Some true /\
    (exists l, object_is 1 text l /\ map (fun m => fst (snd m)) l = [v] /\
       Forall (fun m => decodes (fun _ => True) (fst (fst m)) name) l) /\
    json_object_get (json_parsen text) name = Some JNone.
Proof.
  exists ([123; 34] ++ hard_key ++ [34; 58; 49; 125]), [49], (utf8 0x20021).
  split; [vm_compute; reflexivity|]. split; [|vm_compute; reflexivity].
  eexists. split; [|split].
  - apply (obj_some 1 (34 :: hard_key ++ 34 :: [] ++ 58 :: [] ++ [49] ++ [])).
    apply (mem_one 1 [] hard_key [] [] [49] []); try (now constructor); [|apply v_num].
    + unfold hard_key, bytes_of. cbn. repeat (apply chars_uni; try reflexivity). constructor.
    + apply (number_pos [49] [] []); [|constructor|constructor].
      apply int_pos; [|discriminate]. split; [discriminate|]. now repeat constructor.
  - reflexivity.
  - constructor; [|constructor]. cbn [fst]. rewrite <- (app_nil_r (utf8 0x20021)).
    unfold hard_key, bytes_of. cbn -[utf8]. apply dec_pair; try reflexivity.
    + unfold supplementary. lia.
    + constructor.
Qed.
Print Assumptions C25_refuted.

(** an object with escapes, nested brackets in strings, and spaces *)
Definition ex_key1 : list Z := bytes_of "a\u00e9\""]"%string.
Definition ex_obj : list Z :=
  [123; 32; 34] ++ ex_key1 ++ [34; 32; 58] ++ bytes_of " [1, [ 2e3 ] ,""]\\"", {}] , ""t"":true }"%string.
Definition ex_name1 : list Z := [97; 195; 169; 34; 93].
Definition ex_arr : list Z := bytes_of "[1, [ 2e3 ] ,""]\\"", {}]"%string.
Example C25_example :
  json_validn ex_obj = Some true /\
  decodes right_pair ex_key1 ex_name1 /\
  (exists j, json_object_get (json_parsen ex_obj) ex_name1 = Some j /\
     json_type j = JSON_ARRAY /\ firstn (json_raw_length j) (json_raw j) = ex_arr /\
     json_array_count j = Some 4%nat /\
     let e := json_array_get j 2 in
     json_type e = JSON_STRING /\ firstn (json_raw_length e) (json_raw e) = bytes_of """]\\"""%string /\
     json_exists (json_array_get j 4) = false) /\
  (exists j, json_object_get (json_parsen ex_obj) (bytes_of "t") = Some j /\ json_type j = JSON_TRUE).
Proof.
  split; [vm_compute; reflexivity|]. split.
  { unfold ex_key1, ex_name1, bytes_of. cbn. apply dec_plain; try lia.
    apply (dec_uni _ 48 48 101 57 [92; 34; 93] [34; 93]); try reflexivity.
    apply (dec_esc _ 34); [cbn; tauto|]. apply dec_plain; try lia. constructor. }
  split; eexists; repeat (split; [vm_compute; reflexivity|]); vm_compute; reflexivity.
Qed.
