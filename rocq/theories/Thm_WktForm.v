(** * C64: the form of the WKT texts that are accepted *)

From Coq Require Import ZArith Bool String List Lia ZifyBool.
From Verif Require Import F64 Geo Series RingApi Bytes Geom WkbParse WktParse WktSafe SeriesExamples.
Import ListNotations.
Local Open Scope Z_scope.

(** ** Words *)

(** blank, tab, line feed, carriage return *)
Definition space (c : Z) : Prop := c = 32 \/ c = 9 \/ c = 10 \/ c = 13.
(** a letter as a capital *)
Definition capital (c : Z) : Z := if (97 <=? c) && (c <=? 122) then c - 32 else c.
(** [w] is the word for the geometries of type [t] (tg.h:51-57) *)
Definition word_for (w : list Z) (t : Z) : Prop :=
  In (w, t) [(str "POINT", 1); (str "LINESTRING", 2); (str "POLYGON", 3); (str "MULTIPOINT", 4);
             (str "MULTILINESTRING", 5); (str "MULTIPOLYGON", 6); (str "GEOMETRYCOLLECTION", 7)].
(** [l] is a sequence in which every parenthesis has its partner *)
Inductive balanced : list Z -> Prop :=
  | bal_nil : balanced []
  | bal_char c l : c <> 40 -> c <> 41 -> balanced l -> balanced (c :: l)
  | bal_group a b : balanced a -> balanced b -> balanced (40 :: a ++ 41 :: b).

(** ** Facts *)

Lemma bal_balanced : forall n l, (length l <= n)%nat -> bal 0 l -> balanced l.
Proof.
  induction n as [|n IH]; intros [|c r] L B; try exact bal_nil; cbn [length] in L; [lia|].
  cbn [bal] in B. destruct (c =? 40) eqn:E1.
  - destruct (bal_split r 0 B) as (a & b & -> & Ba & Bb). rewrite app_length in L. cbn [length] in L.
    replace c with 40 by lia. constructor; apply IH; auto; lia.
  - destruct (c =? 41) eqn:E2; [contradiction|]. constructor; [lia|lia|]. apply IH; [lia|exact B].
Qed.

Lemma isws_space c : isws c = true <-> space c.
Proof. unfold isws, space. lia. Qed.

Lemma trim_split l : exists ws, l = ws ++ wkt_trim_ws l /\ Forall space ws.
Proof.
  induction l as [|c r (ws & E & F)]; [exists []; split; [reflexivity|constructor]|]. cbn [wkt_trim_ws].
  destruct (isws c) eqn:W; [|exists []; split; [reflexivity|constructor]].
  exists (c :: ws). split; [cbn [app]; congruence|]. constructor; [now apply isws_space|exact F].
Qed.

Lemma split_paren_free l : ~ In 40 (fst (split_paren l)).
Proof.
  induction l as [|c r IH]; [easy|]. cbn [split_paren]. destruct (c =? 40) eqn:E; [easy|].
  destruct (split_paren r) as [a b]. cbn [fst] in *. intros [H|H]; [lia|auto].
Qed.

Lemma trim_end_split l : exists ws, l = trim_end l ++ ws.
Proof.
  destruct l as [|c r]; [now exists []|]. cbn [trim_end]. destruct (trim_split (rev r)) as (ws & E & _).
  exists (rev ws). cbn [app]. f_equal. rewrite <- rev_app_distr, <- E. now rewrite rev_involutive.
Qed.

(** what is in name[] begins like the text as long as there is no blank *)
Lemma name_grows : forall l acc nws n, wkt_name l acc nws = NName n -> exists v, n = acc ++ v.
Proof.
  induction l as [|c r IH]; intros acc nws n H; cbn [wkt_name] in H; destruct (NAME_SIZE <=? length acc)%nat; try discriminate.
  - injection H as <-. exists []. now rewrite app_nil_r.
  - destruct (length acc =? 31)%nat; [discriminate|].
    destruct (isws c); [destruct ((0 <? length acc)%nat && _); [eapply IH, H|]; destruct (2 <? S nws)%nat; [discriminate|]|];
      destruct (IH _ _ _ H) as (v & ->); rewrite <- app_assoc; eexists; reflexivity.
Qed.

Lemma name_prefix w : ~ In 32 w -> forall l acc nws n v, ~ In 32 acc -> wkt_name l acc nws = NName n -> n = acc ++ w ++ v ->
  exists u, map capital l = w ++ u.
Proof.
  induction w as [|x w IH]; intros NI l acc nws n v NA H E; [now exists (map capital l)|].
  destruct l as [|c r]; cbn [wkt_name] in H; destruct (NAME_SIZE <=? length acc)%nat; try discriminate.
  - injection H as <-. apply (f_equal (@length Z)) in E. rewrite app_length in E. cbn in E. lia.
  - destruct (length acc =? 31)%nat; [discriminate|]. fold (capital c) in H.
    assert (K : forall d k, wkt_name r (acc ++ [d]) k = NName n -> d = x).
    { intros d k G. destruct (name_grows _ _ _ _ G) as (u & U). rewrite E, <- app_assoc in U.
      apply app_inv_head in U. cbn [app] in U. congruence. }
    destruct (isws c) eqn:W.
    + destruct ((0 <? length acc)%nat && (last acc 0 =? 32)) eqn:LA.
      * exfalso. apply NA. destruct acc as [|y acc] using rev_ind; [discriminate|]. rewrite last_last in LA.
        apply in_or_app. right. left. lia.
      * destruct (2 <? S nws)%nat; [discriminate|]. apply K in H. exfalso. apply NI. now left.
    + pose proof (K _ _ H) as X.
      destruct (IH (fun J => NI (or_intror J)) r (acc ++ [capital c]) nws n v) as (u & U); [|exact H| |].
      * intros J. apply in_app_or in J. destruct J as [J|[J|[]]]; [auto|]. apply NI. left. congruence.
      * rewrite <- app_assoc. cbn [app]. rewrite X. exact E.
      * exists u. cbn [map app]. congruence.
Qed.

Lemma dropn_prefix k n : exists v, n = dropn k n ++ v.
Proof. unfold dropn. exists (skipn (length n - k) n). symmetry. apply firstn_skipn. Qed.
Lemma empty_prefix n : exists v, n = fst (wkt_empty n) ++ v.
Proof.
  unfold wkt_empty. destruct (_ && _); cbn [fst]; [apply dropn_prefix|exists []; now rewrite app_nil_r].
Qed.
Lemma zm_prefix n : exists v, n = fst (fst (wkt_zm n)) ++ v.
Proof.
  assert (N : exists v, n = n ++ v) by (exists []; now rewrite app_nil_r).
  assert (D : forall m, (exists v, n = m ++ v) -> exists v, n = (if last m 0 =? 32 then dropn 1 m else m) ++ v).
  { intros m (v & E). destruct (last m 0 =? 32); [|now exists v]. destruct (dropn_prefix 1 m) as (u & U).
    exists (u ++ v). rewrite app_assoc. congruence. }
  unfold wkt_zm. destruct (3 <? length n)%nat; [|exact N]. cbv zeta.
  destruct (_ && _); [|destruct (_ =? 90); [|destruct (_ =? 77)]]; cbn [fst]; apply D; try exact N; apply dropn_prefix.
Qed.
Lemma cstr_prefix n : exists v, n = cstr n ++ v.
Proof.
  induction n as [|c r (v & E)]; [now exists []|]. cbn [cstr]. destruct (c =? 0); [now exists (c :: r)|].
  exists v. cbn [app]. congruence.
Qed.
Lemma zlist_eq a : forall b, zlist_eqb a b = true -> a = b.
Proof.
  induction a as [|x a IH]; intros [|y b] H; try discriminate; [reflexivity|]. cbn [zlist_eqb] in H.
  apply andb_true_iff in H. destruct H as [H1 H2]. f_equal; [lia|auto].
Qed.

Lemma type_word l t z m empty : wkt2type l = WType t z m empty ->
  exists w u, word_for w t /\ map capital l = w ++ u.
Proof.
  intros H. unfold wkt2type in H. destruct (wkt_name l [] 0) as [name| | |] eqn:N; try discriminate;
    try (unfold wkt_bad_type in H; destruct (bad_type_len l); discriminate).
  destruct (empty_prefix name) as (v1 & E1). destruct (wkt_empty name) as [n1 em]. cbn [fst] in E1.
  destruct (zm_prefix n1) as (v2 & E2). destruct (wkt_zm n1) as [[n2 z'] m']. cbn [fst] in E2.
  destruct n2 as [|x n2']; [discriminate|]. set (n2 := x :: n2') in *.
  destruct (find _ _) as [[w t']|] eqn:F; [|destruct (existsb _ _); [discriminate|]; unfold wkt_bad_type in H; destruct (bad_type_len l); discriminate].
  injection H as -> _ _ _. apply find_some in F. destruct F as [I EQ]. cbn [fst] in EQ. apply zlist_eq in EQ.
  assert (WF : word_for w t) by exact I.
  destruct (cstr_prefix n2) as (v3 & E3). rewrite EQ in E3.
  destruct (name_prefix w) with (l := l) (acc := @nil Z) (nws := 0%nat) (n := name) (v := v3 ++ v2 ++ v1) as (u & U); auto.
  - unfold word_for in WF. intros J. cbn [In] in WF.
    repeat (destruct WF as [WF|WF]; [injection WF as <- _; cbn in J; lia|]). contradiction.
  - cbn [app]. rewrite E1, E2, E3. now rewrite <- !app_assoc.
  - now exists w, u.
Qed.

(** ** Types of what is built *)

Ltac ok_in H := match type of H with obind ?x _ = Ok _ => let r := fresh "r" in destruct x as [r| | | |]; cbn [obind] in H; try discriminate H end.

Lemma point_type l tl z m g : parse_wkt_point l tl z m = Ok g -> tg_geom_typeof (Some g) = 1.
Proof.
  unfold parse_wkt_point. destruct (wkt_trim_ws l); [discriminate|]. intros H. ok_in H.
  cbv zeta in H. match type of H with (if ?b then _ else _) = _ => destruct b end; [discriminate|]. injection H as <-.
  destruct (length r) as [|[|[|[|]]]]; try reflexivity. destruct m; reflexivity.
Qed.
Lemma line_type e ix l tl z m g : parse_wkt_linestring e ix l tl z m = Ok g -> tg_geom_typeof (Some g) = 2.
Proof.
  unfold parse_wkt_linestring. intros H. ok_in H. destruct r as [[d p] x]. destruct (dims_zm d m) as [z' m'].
  injection H as <-. destruct (z' || m'); reflexivity.
Qed.
Lemma poly_type e ix l tl z m g : parse_wkt_polygon e ix l tl z m = Ok g -> tg_geom_typeof (Some g) = 3.
Proof.
  unfold parse_wkt_polygon. intros H. ok_in H. destruct r as [[d p] x]. destruct (dims_zm d m) as [z' m'].
  injection H as <-. destruct (z' || m'); reflexivity.
Qed.
Lemma mpoint_type l tl z m g : parse_wkt_multipoint l tl z m = Ok g -> tg_geom_typeof (Some g) = 4.
Proof.
  unfold parse_wkt_multipoint. intros H. ok_in H. destruct r as [[d p] x]. destruct (dims_zm d m) as [z' m'].
  injection H as <-. destruct (z' || m'); reflexivity.
Qed.
Lemma mline_type e ix l tl z m g : parse_wkt_multilinestring e ix l tl z m = Ok g -> tg_geom_typeof (Some g) = 5.
Proof.
  unfold parse_wkt_multilinestring. cbv zeta. intros H. ok_in H. destruct r as [[d p] x]. destruct (dims_zm d m) as [z' m'].
  injection H as <-. destruct (z' || m'); reflexivity.
Qed.
Lemma mpoly_type e ix l tl z m g : parse_wkt_multipolygon e ix l tl z m = Ok g -> tg_geom_typeof (Some g) = 6.
Proof.
  unfold parse_wkt_multipolygon. cbv zeta. intros H. ok_in H. destruct r as [[d p] x]. destruct (dims_zm d m) as [z' m'].
  injection H as <-. destruct (z' || m'); reflexivity.
Qed.
Lemma coll_type c l tl g : parse_wkt_geometrycollection c l tl = Ok g -> tg_geom_typeof (Some g) = 7.
Proof.
  unfold parse_wkt_geometrycollection. intros H. ok_in H. destruct (_ =? _)%nat; [|discriminate]. injection H as <-. reflexivity.
Qed.
Lemma empty_type w t : word_for w t -> tg_geom_typeof (Some (new_empty t)) = t /\ tg_geom_is_empty (Some (new_empty t)) = true.
Proof.
  unfold word_for. cbn [In]. intros H.
  repeat (destruct H as [H|H]; [injection H as _ <-; split; reflexivity|]). contradiction.
Qed.

(** ** The theorem *)

(** A text that is accepted starts, after white space, with the word for the type
    of the geometry it gives, in any mixture of capitals; then either the
    geometry is empty, or the rest up to white space at the end is one group in
    parentheses, inside which all parentheses have their partners. *)
Theorem C64_form_partial : forall e ix l g,
  tg_parse_wktn_ix e ix l = Ok g -> tg_geom_error (Some g) = None ->
  exists ws name rest w u, l = ws ++ name ++ rest /\ Forall space ws /\ ~ In 40 name /\
    word_for w (tg_geom_typeof (Some g)) /\ map capital name = w ++ u /\
    (tg_geom_is_empty (Some g) = true \/
     exists grp after, rest = 40 :: grp ++ 41 :: after /\ balanced grp /\ Forall space after).
Proof.
  intros e ix l g H NE. unfold tg_parse_wktn_ix in H. cbn [parse_wkt] in H.
  destruct l as [|c0 l0]. { injection H as <-. discriminate NE. }
  set (l := c0 :: l0) in *.
  destruct (trim_split l) as (ws & EL & WS).
  pose proof (split_paren_app (wkt_trim_ws l)) as EA. pose proof (split_paren_free (wkt_trim_ws l)) as EF.
  destruct (split_paren (wkt_trim_ws l)) as [a rest]. cbn [fst snd] in EA, EF.
  destruct (trim_end_split a) as (v & EV).
  destruct (wkt2type (trim_end a)) as [t z m empty| | | |] eqn:T; cbn [obind] in H;
    try (injection H as <-; discriminate NE); try discriminate H.
  destruct (type_word _ _ _ _ _ T) as (w & u & WF & U).
  exists ws, a, rest, w, (u ++ map capital v).
  split; [rewrite EA; exact EL|]. split; [exact WS|]. split; [exact EF|].
  assert (MU : map capital a = w ++ u ++ map capital v). { rewrite EV at 1. rewrite map_app, U. now rewrite <- app_assoc. }
  destruct empty.
  { injection H as <-. destruct (empty_type w t WF) as [E1 E2]. rewrite E1. split; [exact WF|]. split; [exact MU|]. now left. }
  destruct rest as [|p rest]; [injection H as <-; discriminate NE|].
  destruct (Z.eqb_spec p 40) as [->|NP].
  2: { exfalso. assert (X : Ok (make_parse_error (str "ParseError: " ++ msg_text)) = Ok g).
       { destruct p as [|p|p]; try exact H. repeat (destruct p as [p|p|]; try exact H). now destruct NP. }
       injection X as <-. discriminate NE. }
  destruct (wkt_balance_coords rest) as [[grp after]|] eqn:B; [|injection H as <-; discriminate NE].
  destruct (balance_coords_slice _ _ _ B) as (-> & SL & _).
  destruct (forallb isws after) eqn:FA; [|injection H as <-; discriminate NE]. cbv zeta in H.
  assert (TY : tg_geom_typeof (Some g) = t).
  { match type of H with match ?x with Ok _ => _ | _ => _ end = _ => assert (X : x = Ok g); [|clear H; rename X into H] end.
    { match type of H with match ?x with Ok _ => _ | _ => _ end = _ => destruct x end; try discriminate H; [exact H|].
      injection H as <-. discriminate NE. }
    unfold word_for in WF. cbn [In] in WF.
    repeat (destruct WF as [WF|WF]; [injection WF as _ <-|]); [..|contradiction];
      cbn [Z.eqb TG_POINT TG_LINESTRING TG_POLYGON TG_MULTIPOINT TG_MULTILINESTRING TG_MULTIPOLYGON Pos.eqb] in H.
    - eapply point_type, H.
    - eapply line_type, H.
    - eapply poly_type, H.
    - eapply mpoint_type, H.
    - eapply mline_type, H.
    - eapply mpoly_type, H.
    - eapply coll_type, H. }
  rewrite TY. split; [exact WF|]. split; [exact MU|]. right. exists grp, after. split; [reflexivity|]. split.
  - apply (bal_balanced (length grp)); [lia|exact SL].
  - rewrite Forall_forall. rewrite forallb_forall in FA. intros c I. apply isws_space. auto.
Qed.
Print Assumptions C64_form_partial.

(** The whole text need not be in order: behind the word EMPTY anything that
    starts with a parenthesis is ignored. *)
Theorem C64_rest_refuted : exists l g, tg_parse_wktn_ix env_init 0 l = Ok g /\ tg_geom_error (Some g) = None /\
  l = str "POINT EMPTY(((]".
Proof. do 2 eexists. split; [|split; [|reflexivity]]; [vm_compute; reflexivity|reflexivity]. Qed.
Print Assumptions C64_rest_refuted.

(** A number without digits before the point is taken in a point and refused in a
    line. *)
Theorem C64_number_refuted : exists g h,
  tg_parse_wktn_ix env_init 0 (str "POINT(.5 1)") = Ok g /\ tg_geom_error (Some g) = None /\
  tg_parse_wktn_ix env_init 0 (str "LINESTRING(.5 1,.5 1)") = Ok h /\ tg_geom_error (Some h) <> None.
Proof.
  do 2 eexists. split; [vm_compute; reflexivity|]. split; [reflexivity|]. split; [vm_compute; reflexivity|].
  vm_compute. discriminate.
Qed.
Print Assumptions C64_number_refuted.

(** Behind a zero byte the rest of the word does not count. *)
Theorem C64_zero_refuted : exists g,
  tg_parse_wktn_ix env_init 0 (str "POINT" ++ [0] ++ str "LESS(1 2)") = Ok g /\ tg_geom_error (Some g) = None /\
  tg_geom_typeof (Some g) = 1.
Proof. eexists. split; [vm_compute; reflexivity|]. split; reflexivity. Qed.
Print Assumptions C64_zero_refuted.

(** ** Capitals *)

Lemma cap_ws c d : capital c = capital d -> isws c = isws d.
Proof. unfold capital, isws. destruct ((97 <=? c) && _) eqn:A, ((97 <=? d) && _) eqn:B; lia. Qed.
Lemma cap_letter c d : capital c = capital d ->
  ((65 <=? c) && (c <=? 90)) || ((97 <=? c) && (c <=? 122)) = ((65 <=? d) && (d <=? 90)) || ((97 <=? d) && (d <=? 122)).
Proof. unfold capital. destruct ((97 <=? c) && _) eqn:A, ((97 <=? d) && _) eqn:B; lia. Qed.

Lemma trim_cap a : forall a', map capital a = map capital a' -> map capital (wkt_trim_ws a) = map capital (wkt_trim_ws a').
Proof.
  induction a as [|c a IH]; intros [|d a'] E; try discriminate E; [reflexivity|]. cbn [map] in E. injection E as E1 E2.
  cbn [wkt_trim_ws]. rewrite (cap_ws c d E1). destruct (isws d); [now apply IH|]. cbn [map]. congruence.
Qed.
Lemma trim_end_cap a a' : map capital a = map capital a' -> map capital (trim_end a) = map capital (trim_end a').
Proof.
  destruct a as [|c a], a' as [|d a']; intros E; try discriminate E; [reflexivity|]. cbn [map] in E. injection E as E1 E2.
  cbn [trim_end map]. f_equal; [exact E1|]. rewrite !map_rev. f_equal. apply trim_cap. rewrite !map_rev. now f_equal.
Qed.
Lemma name_cap a : forall a' acc nws, map capital a = map capital a' -> wkt_name a acc nws = wkt_name a' acc nws.
Proof.
  induction a as [|c a IH]; intros [|d a'] acc nws E; try discriminate E; [reflexivity|]. cbn [map] in E. injection E as E1 E2.
  cbn [wkt_name]. fold (capital c) (capital d). rewrite E1, (cap_ws c d E1).
  destruct (_ <=? _)%nat; [reflexivity|]. destruct (_ =? _)%nat; [reflexivity|]. rewrite !(IH a') by exact E2. reflexivity.
Qed.
Lemma bad_cap a : forall a', map capital a = map capital a' -> bad_type_len a = bad_type_len a'.
Proof.
  induction a as [|c a IH]; intros [|d a'] E; try discriminate E; [reflexivity|]. cbn [map] in E. injection E as E1 E2.
  cbn [bad_type_len]. rewrite (cap_letter c d E1), (IH a' E2). reflexivity.
Qed.
Lemma type_cap a a' : map capital a = map capital a' -> wkt2type a = wkt2type a'.
Proof.
  intros E. unfold wkt2type. rewrite (name_cap a a' _ _ E). unfold wkt_bad_type. rewrite (bad_cap a a' E). reflexivity.
Qed.

Definition opens_group (b : list Z) : Prop := b = [] \/ exists r, b = 40 :: r.
Lemma trim_front a b : opens_group b -> wkt_trim_ws (a ++ b) = wkt_trim_ws a ++ b.
Proof.
  intros B. induction a as [|c a IH].
  - cbn [app wkt_trim_ws]. destruct B as [->|(r & ->)]; reflexivity.
  - cbn [app wkt_trim_ws]. destruct (isws c); [exact IH|reflexivity].
Qed.
Lemma split_front a b : opens_group b -> ~ In 40 a -> split_paren (a ++ b) = (a, b).
Proof.
  intros B. induction a as [|c a IH]; intros N.
  - destruct B as [->|(r & ->)]; reflexivity.
  - cbn [app split_paren]. destruct (c =? 40) eqn:E; [destruct N; left; lia|].
    rewrite IH; [reflexivity|]. intros I. apply N. now right.
Qed.
Lemma trim_free a : ~ In 40 a -> ~ In 40 (wkt_trim_ws a).
Proof.
  intros N I. destruct (trim_split a) as (ws & E & _). apply N. rewrite E. apply in_or_app. now right.
Qed.

(** Whether the words before the first parenthesis are in capitals does not
    matter, except for the spelling of an unknown word in the message. *)
Theorem C64_case : forall e ix a a' b,
  ~ In 40 a -> ~ In 40 a' -> opens_group b -> map capital a = map capital a' ->
  tg_parse_wktn_ix e ix (a ++ b) = tg_parse_wktn_ix e ix (a' ++ b) \/
  (exists g g', tg_parse_wktn_ix e ix (a ++ b) = Ok g /\ tg_parse_wktn_ix e ix (a' ++ b) = Ok g' /\
     tg_geom_error (Some g) <> None /\ tg_geom_error (Some g') <> None).
Proof.
  intros e ix a a' b N N' B E. unfold tg_parse_wktn_ix.
  assert (L : length (a ++ b) = length (a' ++ b)).
  { rewrite !app_length. apply (f_equal (@length Z)) in E. rewrite !map_length in E. lia. }
  rewrite <- L. cbn [parse_wkt].
  rewrite !(trim_front _ b B), !(split_front _ b B) by now apply trim_free.
  rewrite (type_cap (trim_end (wkt_trim_ws a)) (trim_end (wkt_trim_ws a'))) by now apply trim_end_cap, trim_cap.
  destruct (a ++ b) as [|x r], (a' ++ b) as [|x' r']; try discriminate L; [now left|].
  destruct (wkt2type (trim_end (wkt_trim_ws a'))) as [t z m em| | |n|]; try (now left).
  right. do 2 eexists. split; [reflexivity|]. split; [reflexivity|]. split; discriminate.
Qed.
Print Assumptions C64_case.

(** ** The words behind the type *)

(** what is left without white space *)
Definition letters (l : list Z) : list Z := filter (fun c => negb (existsb (Z.eqb c) [32; 9; 10; 13])) l.

Lemma letters_app a b : letters (a ++ b) = letters a ++ letters b.
Proof. apply filter_app. Qed.
Lemma letters_cons c l : letters (c :: l) = if isws c then letters l else c :: letters l.
Proof. unfold letters. cbn [filter existsb]. unfold isws. rewrite orb_false_r, !orb_assoc. now destruct (_ || _). Qed.
Lemma letters_space l : Forall space l -> letters (map capital l) = [].
Proof.
  induction 1 as [|c l H F IH]; [reflexivity|]. cbn [map]. rewrite letters_cons.
  replace (isws (capital c)) with true; [exact IH|]. unfold space in H. unfold isws, capital.
  destruct ((97 <=? c) && _) eqn:E; lia.
Qed.

Lemma trim_end_space l : exists ws, l = trim_end l ++ ws /\ Forall space ws.
Proof.
  destruct l as [|c r]; [now exists []|]. cbn [trim_end]. destruct (trim_split (rev r)) as (ws & E & F).
  exists (rev ws). split; [|now apply Forall_rev]. cbn [app]. f_equal. rewrite <- rev_app_distr, <- E. now rewrite rev_involutive.
Qed.

Lemma name_letters : forall l acc nws n, wkt_name l acc nws = NName n -> ~ In 0 l -> ~ In 0 acc ->
  ~ In 0 n /\ letters n = letters acc ++ letters (map capital l).
Proof.
  induction l as [|c r IH]; intros acc nws n H NL NA; cbn [wkt_name] in H; destruct (NAME_SIZE <=? length acc)%nat; try discriminate.
  - injection H as <-. split; [exact NA|]. cbn. now rewrite app_nil_r.
  - destruct (length acc =? 31)%nat; [discriminate|]. fold (capital c) in H. cbn [map].
    assert (NR : ~ In 0 r) by (intros I; apply NL; now right).
    assert (C0 : c <> 0) by (intros ->; apply NL; now left).
    assert (ADD : forall d, d <> 0 -> ~ In 0 (acc ++ [d])).
    { intros d D I. apply in_app_or in I. destruct I as [I|[I|[]]]; [auto|]. now apply D. }
    rewrite letters_cons.
    assert (W' : isws (capital c) = isws c). { unfold isws, capital. destruct ((97 <=? c) && _) eqn:E; lia. }
    rewrite W'. destruct (isws c) eqn:W.
    + destruct ((0 <? length acc)%nat && _); [exact (IH _ _ _ H NR NA)|]. destruct (2 <? S nws)%nat; [discriminate|].
      destruct (IH _ _ _ H NR (ADD 32 ltac:(lia))) as [A B]. split; [exact A|]. rewrite B, letters_app.
      change (letters [32]) with (@nil Z). now rewrite app_nil_r.
    + assert (D : capital c <> 0) by (unfold capital; destruct ((97 <=? c) && _) eqn:E; lia).
      destruct (IH _ _ _ H NR (ADD _ D)) as [A B]. split; [exact A|]. rewrite B, letters_app, letters_cons, W'.
      change (letters []) with (@nil Z). now rewrite <- app_assoc.
Qed.

Lemma cstr_free n : ~ In 0 n -> cstr n = n.
Proof.
  induction n as [|c r IH]; intros N; [reflexivity|]. cbn [cstr]. destruct (c =? 0) eqn:E; [destruct N; left; lia|].
  f_equal. apply IH. intros I. apply N. now right.
Qed.
Lemma free_left (a b : list Z) : ~ In 0 (a ++ b) -> ~ In 0 a.
Proof. intros N I. apply N, in_or_app. now left. Qed.
Lemma free_right (a b : list Z) : ~ In 0 (a ++ b) -> ~ In 0 b.
Proof. intros N I. apply N, in_or_app. now right. Qed.

Lemma empty_letters n n1 em : wkt_empty n = (n1, em) -> ~ In 0 n ->
  n = n1 ++ (if em then str " EMPTY" else []).
Proof.
  unfold wkt_empty. intros H N. destruct (_ && _) eqn:E; injection H as <- <-; [|now rewrite app_nil_r].
  apply andb_true_iff in E. destruct E as [_ E]. apply zlist_eq in E.
  assert (S : n = dropn 6 n ++ lastn 6 n) by (symmetry; apply firstn_skipn).
  rewrite cstr_free in E by (rewrite S in N; now apply free_right in N). rewrite <- E. exact S.
Qed.

Lemma drop_last (n : list Z) : n <> [] -> n = dropn 1 n ++ [last n 0].
Proof.
  intros NE. destruct n as [|x n _] using rev_ind; [easy|]. unfold dropn. rewrite app_length, last_last. cbn [length].
  replace (length n + 1 - 1)%nat with (length n) by lia. now rewrite firstn_app, firstn_all, Nat.sub_diag, app_nil_r.
Qed.
Lemma drop_blank (n : list Z) : exists v, n = (if last n 0 =? 32 then dropn 1 n else n) ++ v /\ letters v = [].
Proof.
  destruct (last n 0 =? 32) eqn:E; [|exists []; now rewrite app_nil_r].
  destruct n as [|x r]; [discriminate|]. exists [last (x :: r) 0]. split; [now apply drop_last|].
  replace (last (x :: r) 0) with 32 by lia. reflexivity.
Qed.
Lemma zm_letters n n2 z m : wkt_zm n = (n2, z, m) ->
  exists v, n = n2 ++ v /\ letters v = (if z then str "Z" else []) ++ (if m then str "M" else []).
Proof.
  unfold wkt_zm. destruct (3 <? length n)%nat eqn:L.
  2: { intros H. injection H as <- <- <-. exists []. now rewrite app_nil_r. }
  assert (NE : n <> []) by (intros ->; discriminate).
  cbv zeta. pose proof (drop_last n NE) as D1.
  assert (NE1 : dropn 1 n <> []). { intros E. rewrite E in D1. rewrite D1 in L. discriminate. }
  pose proof (drop_last _ NE1) as D2.
  assert (DD : dropn 1 (dropn 1 n) = dropn 2 n).
  { unfold dropn. rewrite firstn_firstn, firstn_length. f_equal. lia. }
  rewrite DD in D2.
  destruct (_ && _) eqn:E1; [|destruct (last n 0 =? 90) eqn:E2; [|destruct (last n 0 =? 77) eqn:E3]];
    intros H; injection H as <- <- <-.
  - destruct (drop_blank (dropn 2 n)) as (v & V & LV). exists (v ++ [90; 77]). split.
    + rewrite app_assoc, <- V. rewrite D1 at 1. rewrite D2 at 1. rewrite <- app_assoc. cbn [app]. repeat f_equal; lia.
    + rewrite letters_app, LV. reflexivity.
  - destruct (drop_blank (dropn 1 n)) as (v & V & LV). exists (v ++ [90]). split.
    + rewrite app_assoc, <- V. rewrite D1 at 1. repeat f_equal; lia.
    + rewrite letters_app, LV. reflexivity.
  - destruct (drop_blank (dropn 1 n)) as (v & V & LV). exists (v ++ [77]). split.
    + rewrite app_assoc, <- V. rewrite D1 at 1. repeat f_equal; lia.
    + rewrite letters_app, LV. reflexivity.
  - destruct (drop_blank n) as (v & V & LV). exists v. split; [exact V|exact LV].
Qed.

Lemma type_letters l t z m empty : wkt2type l = WType t z m empty -> ~ In 0 l ->
  exists w, word_for w t /\ letters (map capital l) =
    w ++ ((if z then str "Z" else []) ++ (if m then str "M" else [])) ++ (if empty then str "EMPTY" else []).
Proof.
  intros H N0. unfold wkt2type in H. destruct (wkt_name l [] 0) as [name| | |] eqn:N; try discriminate;
    try (unfold wkt_bad_type in H; destruct (bad_type_len l); discriminate).
  destruct (name_letters _ _ _ _ N N0 (fun i => i)) as [NF NL]. cbn [app letters filter] in NL.
  destruct (wkt_empty name) as [n1 em] eqn:E1. pose proof (empty_letters _ _ _ E1 NF) as X1.
  destruct (wkt_zm n1) as [[n2 z'] m'] eqn:E2. destruct (zm_letters _ _ _ _ E2) as (v & X2 & LV).
  assert (F1 : ~ In 0 n1) by (rewrite X1 in NF; now apply free_left in NF).
  assert (F2 : ~ In 0 n2) by (rewrite X2 in F1; now apply free_left in F1).
  destruct n2 as [|x n2']; [discriminate|]. set (n2 := x :: n2') in *.
  destruct (find _ _) as [[w t']|] eqn:F; [|destruct (existsb _ _); [discriminate|]; unfold wkt_bad_type in H; destruct (bad_type_len l); discriminate].
  injection H as -> -> -> ->. apply find_some in F. destruct F as [I EQ]. cbn [fst] in EQ. apply zlist_eq in EQ.
  rewrite cstr_free in EQ by exact F2. assert (WF : word_for w t) by exact I.
  exists w. split; [exact WF|]. rewrite <- NL, X1, X2, !letters_app, LV, EQ.
  replace (letters w) with w.
  - rewrite <- app_assoc. now destruct empty.
  - unfold word_for in WF. cbn [In] in WF.
    repeat (destruct WF as [WF|WF]; [injection WF as <- _; reflexivity|]). contradiction.
Qed.

(** Without a zero byte before the first parenthesis, the letters there are the
    word of the type, then Z, M, ZM or nothing, then EMPTY or nothing. With EMPTY
    the geometry is empty. *)
Theorem C64_words : forall e ix a b g,
  ~ In 40 a -> ~ In 0 a -> (b = [] \/ exists r, b = 40 :: r) ->
  tg_parse_wktn_ix e ix (a ++ b) = Ok g -> tg_geom_error (Some g) = None ->
  exists w zm em, letters (map capital a) = w ++ zm ++ em /\ word_for w (tg_geom_typeof (Some g)) /\
    In zm [[]; str "Z"; str "M"; str "ZM"] /\
    (em = str "EMPTY" /\ tg_geom_is_empty (Some g) = true \/ em = [] /\ exists grp after, b = 40 :: grp ++ 41 :: after /\ balanced grp /\ Forall space after).
Proof.
  intros e ix a b g N N0 B H NE. unfold tg_parse_wktn_ix in H. cbn [parse_wkt] in H.
  destruct (a ++ b) as [|c0 l0] eqn:EL. { injection H as <-. discriminate NE. } rewrite <- EL in H.
  rewrite (trim_front _ b B), (split_front _ b B) in H by now apply trim_free.
  destruct (trim_split a) as (ws & EA & WS). destruct (trim_end_space (wkt_trim_ws a)) as (v & EV & VS).
  assert (LE : letters (map capital a) = letters (map capital (trim_end (wkt_trim_ws a)))).
  { rewrite EA at 1. rewrite EV at 1. rewrite !map_app, !letters_app, (letters_space ws WS), (letters_space v VS). now rewrite app_nil_r. }
  assert (NT : ~ In 0 (trim_end (wkt_trim_ws a))).
  { intros I. apply N0. rewrite EA, EV. apply in_or_app. right. apply in_or_app. now left. }
  destruct (wkt2type (trim_end (wkt_trim_ws a))) as [t z m empty| | | |] eqn:T; cbn [obind] in H;
    try (injection H as <-; discriminate NE); try discriminate H.
  destruct (type_letters _ _ _ _ _ T NT) as (w & WF & LW).
  exists w, ((if z then str "Z" else []) ++ (if m then str "M" else [])), (if empty then str "EMPTY" else []).
  split; [now rewrite LE|].
  assert (TY : t = tg_geom_typeof (Some g) /\ (empty = true -> tg_geom_is_empty (Some g) = true) /\ (empty = false -> exists grp after, b = 40 :: grp ++ 41 :: after /\ balanced grp /\ Forall space after)).
  { destruct empty.
    { injection H as <-. destruct (empty_type w t WF) as [E1 E2]. split; [now rewrite E1|]. split; [intros _; exact E2|discriminate]. }
  destruct b as [|p rest]; [injection H as <-; discriminate NE|].
  destruct (Z.eqb_spec p 40) as [->|NP].
  2: { exfalso. assert (X : Ok (make_parse_error (str "ParseError: " ++ msg_text)) = Ok g).
       { destruct p as [|p|p]; try exact H. repeat (destruct p as [p|p|]; try exact H). now destruct NP. }
       injection X as <-. discriminate NE. }
  destruct (wkt_balance_coords rest) as [[grp after]|] eqn:BC; [|injection H as <-; discriminate NE].
  destruct (balance_coords_slice _ _ _ BC) as (-> & SL & _).
  destruct (forallb isws after) eqn:FA; [|injection H as <-; discriminate NE]. cbv zeta in H.
  assert (TY : tg_geom_typeof (Some g) = t).
  { match type of H with match ?x with Ok _ => _ | _ => _ end = _ => assert (X : x = Ok g); [|clear H; rename X into H] end.
    { match type of H with match ?x with Ok _ => _ | _ => _ end = _ => destruct x end; try discriminate H; [exact H|].
      injection H as <-. discriminate NE. }
    unfold word_for in WF. cbn [In] in WF.
    repeat (destruct WF as [WF|WF]; [injection WF as _ <-|]); [..|contradiction];
      cbn [Z.eqb TG_POINT TG_LINESTRING TG_POLYGON TG_MULTIPOINT TG_MULTILINESTRING TG_MULTIPOLYGON Pos.eqb] in H.
    - eapply point_type, H.
    - eapply line_type, H.
    - eapply poly_type, H.
    - eapply mpoint_type, H.
    - eapply mline_type, H.
    - eapply mpoly_type, H.
    - eapply coll_type, H. }
    split; [now rewrite TY|]. split; [discriminate|]. intros _. exists grp, after. split; [reflexivity|]. split.
    - apply (bal_balanced (length grp)); [lia|exact SL].
    - rewrite Forall_forall. rewrite forallb_forall in FA. intros c I. apply isws_space. auto. }
  destruct TY as (<- & TE & TB). split; [exact WF|]. split; [destruct z, m; cbn [app In]; auto|].
  destruct empty; [left; auto|right; auto].
Qed.
Print Assumptions C64_words.

(** ** Examples *)

(** accepted with blanks and mixed letters; refused with text behind the group or
    a parenthesis too many *)
Example C64_example :
  (exists g, tg_parse_wktn_ix env_init 0 (str "  MultiPoint z ((1 2 3),(4 5 6))  ") = Ok g /\
     tg_geom_error (Some g) = None /\ tg_geom_typeof (Some g) = 4 /\ tg_geom_is_empty (Some g) = false) /\
  (exists g, tg_parse_wktn_ix env_init 0 (str "POINT(1 2)x") = Ok g /\ tg_geom_error (Some g) <> None) /\
  (exists g, tg_parse_wktn_ix env_init 0 (str "POINT(1 2))") = Ok g /\ tg_geom_error (Some g) <> None) /\
  map capital (str "Point") = map capital (str "pOINT") /\ opens_group (str "(1 2)") /\ ~ In 40 (str "Point").
Proof.
  split; [eexists; split; [vm_compute; reflexivity|]; repeat split|].
  split; [eexists; split; [vm_compute; reflexivity|]; discriminate|].
  split; [eexists; split; [vm_compute; reflexivity|]; discriminate|].
  split; [reflexivity|]. split; [right; eexists; reflexivity|]. cbn. lia.
Qed.

(** a text as in C64_words, and two refused ones: a word too many, and ZM in two
    words *)
Example C64_words_example :
  letters (map capital (str " Polygon  zm empty ")) = str "POLYGON" ++ str "ZM" ++ str "EMPTY" /\
  ~ In 40 (str " Polygon  zm empty ") /\ ~ In 0 (str " Polygon  zm empty ") /\
  (exists g, tg_parse_wktn_ix env_init 0 (str " Polygon  zm empty ") = Ok g /\ tg_geom_error (Some g) = None /\
     tg_geom_typeof (Some g) = 3 /\ tg_geom_is_empty (Some g) = true) /\
  (exists g, tg_parse_wktn_ix env_init 0 (str "POINT ZZ(1 2 3)") = Ok g /\ tg_geom_error (Some g) <> None) /\
  (exists g, tg_parse_wktn_ix env_init 0 (str "POINT Z M(1 2 3 4)") = Ok g /\ tg_geom_error (Some g) <> None).
Proof.
  split; [reflexivity|]. split; [cbn; lia|]. split; [cbn; lia|].
  split; [eexists; split; [vm_compute; reflexivity|]; repeat split|].
  split; eexists; (split; [vm_compute; reflexivity|]; discriminate).
Qed.
