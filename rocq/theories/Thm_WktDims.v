(** * C65: Z and M of geometries read from WKT *)

From Coq Require Import ZArith Bool String List Lia ZifyBool.
From Verif Require Import F64 Geo Series RingApi Bytes Geom WkbParse WktParse WktSafe SeriesExamples SpecWkb GeomFacts Thm_WktForm.
Import ListNotations.
Local Open Scope Z_scope.

(** ** Positions *)

(** how many positions the rings of a polygon have *)
Definition poly_posns (p : poly) : nat :=
  match p with
  | PRing r => length (ring_pts r)
  | PPoly r hs => length (ring_pts r) +
      list_sum (map (fun h => match h with Some h => length (ring_pts h) | None => 0%nat end) hs)
  end.
(** how many positions a geometry has *)
Fixpoint posns (g : geom) : nat :=
  match g with
  | GPoint _ _ => 1
  | GGPoint f _ _ _ _ => if is_empty f then 0 else 1
  | GLine _ l | GGLine _ (Some l) _ _ => length (ring_pts l)
  | GPoly _ p | GGPoly _ (Some p) _ _ => poly_posns p
  | GGMulti _ _ (Some gs) _ _ => list_sum (map (fun o => match o with Some g => posns g | None => 0%nat end) gs)
  | _ => 0
  end.

(** ** The readers *)

(** the dimensions [d] found when [dims] were asked for, 0 for any *)
Definition okd (dims d : nat) : Prop := (dims <> 0%nat -> d = dims) /\ (d = 0 \/ 2 <= d <= 4)%nat.
Definition okr (dims : nat) (d n k : nat) : Prop := okd dims d /\ k = ((d - 2) * n)%nat /\ (n <> 0%nat -> d <> 0%nat).

Ltac ok_eq H r E := match type of H with obind ?x _ = Ok _ => destruct x as [r| | | |] eqn:E; cbn [obind] in H; try discriminate H end.

Lemma nums_len : forall fuel dims acc l tl p r, wkt_nums fuel dims acc l tl = Ok (p, r) -> (length acc <= 4)%nat ->
  (length p <= 4)%nat /\ (length acc <= length p)%nat /\ (l <> [] -> length acc < length p)%nat.
Proof.
  induction fuel as [|fuel IH]; intros dims acc l tl p r H A; destruct l as [|c l]; cbn [wkt_nums] in H.
  - injection H as <- <-. repeat split; [lia|lia|easy].
  - discriminate.
  - injection H as <- <-. repeat split; [lia|lia|easy].
  - destruct (isnum c); [|discriminate]. ok_in H. destruct (length acc =? 4)%nat eqn:E4; [discriminate|].
    assert (LA : length (acc ++ [fst r0]) = S (length acc)) by (rewrite app_length; cbn [length]; lia).
    assert (K : forall q t, wkt_nums fuel dims (acc ++ [fst r0]) q tl = Ok (p, t) ->
      (length p <= 4)%nat /\ (length acc <= length p)%nat /\ (c :: l <> [] -> length acc < length p)%nat).
    { intros q t G. apply IH in G; [|lia]. destruct G as (G1 & G2 & _). lia. }
    destruct (snd r0) as [|d q]; [injection H as <- _; lia|]. destruct (isws d); [|injection H as <- _; lia].
    destruct (wkt_trim_ws q) as [|x q']; [injection H as <- _; lia|].
    destruct ((x =? 41) || (x =? 44)); [injection H as <- _; lia|]. eapply K, H.
Qed.

Lemma posns_len : forall fuel xp dims l tl d ps, wkt_posns fuel xp dims l tl = Ok (d, ps) -> (dims = 0 \/ 2 <= dims <= 4)%nat ->
  okd dims d /\ Forall (fun p => length p = d) ps /\ (ps <> [] -> d <> 0%nat).
Proof.
  induction fuel as [|fuel IH]; intros xp dims l tl d ps H D; destruct l as [|c l]; cbn [wkt_posns] in H.
  1,3: injection H as <- <-; split; [split; [auto|exact D]|split; [constructor|easy]].
  - discriminate.
  - ok_eq H l1 E1. ok_eq H r2 E2. destruct r2 as [p q]. cbn [fst snd] in H. ok_eq H l3 E3. ok_eq H l4 E4.
    ok_eq H d5 E5. ok_eq H r6 E6. destruct r6 as [d' ps']. cbn [fst snd] in H. injection H as <- <-.
    pose proof (nums_len _ _ _ _ _ _ _ E2 ltac:(cbn; lia)) as (P1 & _ & P2). cbn [length] in P2.
    assert (P0 : length p <> 0%nat).
    { destruct l1 as [|x l1]; [|specialize (P2 ltac:(easy)); lia]. exfalso. unfold wkt_xparen in E1, E3. destruct xp; [|discriminate E1].
      cbn [wkt_nums length] in E2. injection E2 as <- <-. discriminate E3. }
    assert (D5 : d5 = length p /\ (2 <= d5 <= 4)%nat /\ (dims <> 0%nat -> d5 = dims)).
    { destruct (dims =? length p)%nat eqn:X; [injection E5 as <-; lia|].
      destruct ((dims =? 0)%nat && (2 <=? length p)%nat) eqn:Y; [injection E5 as <-; lia|discriminate]. }
    apply IH in E6; [|lia]. destruct E6 as ((O1 & O2) & F & _). destruct D5 as (D1 & D2 & D3).
    assert (d' = d5) by (apply O1; lia). subst d'.
    split; [split; [exact D3|lia]|]. split; [|lia]. constructor; [lia|exact F].
Qed.

Lemma concat_len d (ps : list (list f64)) : Forall (fun p => length p = d) ps ->
  length (concat (map (skipn 2) ps)) = ((d - 2) * length ps)%nat.
Proof.
  induction 1 as [|p ps H F IH]; [cbn; lia|]. cbn [map concat length]. rewrite app_length, skipn_length, IH. nia.
Qed.

Lemma parse_posns_len base dims l tl d pts x : parse_wkt_posns base dims l tl = Ok (d, pts, x) -> (dims = 0 \/ 2 <= dims <= 4)%nat ->
  okr dims d (length pts) (length x).
Proof.
  unfold parse_wkt_posns. cbv zeta. intros H D. ok_eq H r E. destruct r as [d' ps]. cbn [fst snd] in H.
  apply posns_len in E; [|exact D]. destruct E as (O & F & N).
  assert (R : okr dims d' (length (map posn_pt ps)) (length (concat (map (skipn 2) ps)))).
  { split; [exact O|]. rewrite map_length. split; [now apply concat_len|]. intros Q. apply N. now intros ->. }
  destruct base; [|destruct (check_parse_posns false _); [discriminate|]|destruct (check_parse_posns true _); [discriminate|]];
    injection H as <- <- <-; exact R.
Qed.

Lemma ring_len e ix base dims l tl d r x : wkt_ring e ix base dims l tl = Ok (d, r, x) -> (dims = 0 \/ 2 <= dims <= 4)%nat ->
  okr dims d (length (ring_pts r)) (length x).
Proof.
  unfold wkt_ring. intros H D. ok_eq H r1 E. destruct r1 as [[d1 pts] x1]. destruct (series_new_ix _ _ _ _) as [rg|] eqn:S; [|discriminate].
  injection H as <- <- <-. apply series_new_ix_pts in S. destruct S as [S _]. 
  rewrite S. eapply parse_posns_len; eassumption.
Qed.

Lemma groups_len {A} (cnt : A -> nat) (f : nat -> list Z -> list Z -> out (nat * A * list f64)) :
  (forall dims l tl d a x, f dims l tl = Ok (d, a, x) -> (dims = 0 \/ 2 <= dims <= 4)%nat -> okr dims d (cnt a) (length x)) ->
  forall fuel dims l tl d al x, wkt_groups f fuel dims l tl = Ok (d, al, x) -> (dims = 0 \/ 2 <= dims <= 4)%nat ->
  okr dims d (list_sum (map cnt al)) (length x).
Proof.
  intros F. induction fuel as [|fuel IH]; intros dims l tl d al x H D; destruct l as [|c l]; cbn [wkt_groups] in H.
  1,3: injection H as <- <- <-; cbn; split; [split; [auto|exact D]|]; split; [lia|easy].
  - discriminate.
  - destruct (c =? 40); [|discriminate]. destruct (wkt_balance_coords l) as [[grp rest]|]; [|discriminate].
    ok_eq H r1 E1. destruct r1 as [[d1 a] x1]. apply F in E1; [|exact D]. destruct E1 as ((O1 & O2) & L1 & N1).
    destruct (wkt_trim_ws rest) as [|y q].
    + injection H as <- <- <-. cbn. rewrite Nat.add_0_r. split; [split; [exact O1|exact O2]|]. split; [exact L1|exact N1].
    + destruct (y =? 44); [|discriminate]. destruct (wkt_trim_ws q) as [|y2 q2]; [discriminate|].
      ok_eq H r2 E2. destruct r2 as [[d2 al2] x2]. injection H as <- <- <-. apply IH in E2; [|exact O2].
      destruct E2 as ((P1 & P2) & L2 & N2). cbn [map list_sum fold_right]. fold (list_sum (map cnt al2)). rewrite app_length.
      assert (DE : d1 = 0%nat \/ d2 = d1) by (destruct (Nat.eq_dec d1 0); auto).
      split; [split; [|exact P2]|].
      * intros Q. pose proof (O1 Q). destruct DE; lia.
      * destruct DE as [Z0|DE]; [|subst d2].
        -- assert (C0 : cnt a = 0%nat) by (destruct (Nat.eq_dec (cnt a) 0); [auto|exfalso; apply N1; auto]).
           rewrite C0 in *. split; [nia|intros Q; apply N2; lia].
        -- split; [nia|]. intros Q. destruct (Nat.eq_dec d1 0) as [Z0|]; [|auto]. exfalso.
           destruct (Nat.eq_dec (cnt a) 0); [apply N2; lia|now apply N1].
Qed.

Lemma multi_posns_len e ix dims l tl d p x : parse_wkt_multi_posns e ix dims l tl = Ok (d, p, x) -> (dims = 0 \/ 2 <= dims <= 4)%nat ->
  okr dims d (poly_posns p) (length x).
Proof.
  unfold parse_wkt_multi_posns. cbv zeta. intros H D. ok_eq H r1 E. destruct r1 as [[d1 rs] x1].
  apply (groups_len (fun r => length (ring_pts r))) in E; [|intros *; apply ring_len|exact D].
  destruct rs as [|r0 hs]; [discriminate|].
  destruct (tg_poly_new _ _ _) as [[q|]|] eqn:P; try discriminate. injection H as <- <- <-.
  replace (poly_posns q) with (list_sum (map (fun r => length (ring_pts r)) (r0 :: hs))); [exact E|].
  unfold tg_poly_new in P. rewrite map_length in P. cbn [map list_sum fold_right]. fold (list_sum (map (fun r => length (ring_pts r)) hs)).
  destruct (Z.of_nat (length hs) =? 0) eqn:E0.
  - injection P as <-. destruct hs; [cbn; lia|cbn [length] in E0; lia].
  - destruct (0 <? Z.of_nat (length hs)) eqn:E1; [|lia]. rewrite Z.ltb_irrefl in P. injection P as <-. cbn [poly_posns].
    rewrite Nat2Z.id, <- (map_length Some hs), firstn_all, map_map. reflexivity.
Qed.

(** ** Flags *)

Lemma wkt_dims_ok z m : (wkt_dims z m = 0 \/ 2 <= wkt_dims z m <= 4)%nat.
Proof. destruct z, m; cbn; lia. Qed.

(** what is said about a geometry read after the letters for [z] and [m] *)
Definition fits (z m : bool) (g : geom) : Prop :=
  (z || m = true -> tg_geom_has_z (Some g) = z /\ tg_geom_has_m (Some g) = m) /\
  (z || m = false -> tg_geom_has_m (Some g) = true -> tg_geom_has_z (Some g) = true) /\
  (posns g <> 0%nat -> tg_geom_typeof (Some g) <> 1 ->
   Z.of_nat (length (tg_geom_extra_coords (Some g))) = (tg_geom_dims (Some g) - 2) * Z.of_nat (posns g)).

Lemma fits_of z m d n k z' m' g : okr (wkt_dims z m) d n k -> dims_zm d m = (z', m') -> posns g = n ->
  geom_flags g = fl_zm z' m' -> length (tg_geom_extra_coords (Some g)) = (if z' || m' then k else 0%nat) -> fits z m g.
Proof.
  intros ((O1 & O2) & K & N) DZ P F X. unfold fits, tg_geom_has_z, tg_geom_has_m, tg_geom_dims, dims_of. rewrite F, X, P. cbn [has_z has_m fl_zm].
  split; [|split].
  - intros Q. rewrite O1 in DZ by (destruct z, m; try discriminate Q; discriminate). destruct z, m; try discriminate Q; cbn in DZ; injection DZ as <- <-; auto.
  - intros Q M. assert (m = false) by (destruct m; [rewrite orb_true_r in Q; discriminate|reflexivity]). subst m m'.
    destruct d as [|[|[|[|d]]]]; cbn in DZ; congruence.
  - intros Q _. specialize (N Q). subst k. destruct O2 as [O2|O2]; [easy|].
    destruct d as [|[|[|[|[|d]]]]]; try lia; cbn [dims_zm] in DZ; [|destruct m|]; injection DZ as <- <-; cbn [orb Nat.sub]; lia.
Qed.

Lemma sum_line ls : list_sum (map (fun o => match o with Some g => posns g | None => 0%nat end)
    (map (option_map tg_geom_new_linestring) (map Some ls))) = list_sum (map (fun r => length (ring_pts r)) ls).
Proof. rewrite !map_map. reflexivity. Qed.
Lemma sum_poly ps : list_sum (map (fun o => match o with Some g => posns g | None => 0%nat end)
    (map (option_map tg_geom_new_polygon) (map Some ps))) = list_sum (map poly_posns ps).
Proof. rewrite !map_map. reflexivity. Qed.
Lemma sum_point (ps : list pt) : list_sum (map (fun o => match o with Some g => posns g | None => 0%nat end)
    (map (fun p => Some (tg_geom_new_point p)) ps)) = length ps.
Proof. induction ps as [|p ps IH]; [reflexivity|]. cbn [map list_sum fold_right posns tg_geom_new_point length]. now rewrite <- IH. Qed.

Lemma point_nums_len : forall fuel dims acc l tl p, wkt_point_nums fuel dims acc l tl = Ok p -> (length p <= 4)%nat.
Proof.
  induction fuel as [|fuel IH]; intros dims acc l tl p H; cbn [wkt_point_nums] in H; [discriminate|]. ok_eq H r E.
  destruct (length acc <? 4)%nat eqn:L; [|discriminate]. cbv zeta in H.
  assert (LA : length (acc ++ [fst r]) = S (length acc)) by (rewrite app_length; cbn [length]; lia).
  destruct (snd r) as [|c q]; [injection H as <-; lia|]. destruct (isws c); [|discriminate].
  destruct (wkt_trim_ws (c :: q)); [injection H as <-; lia|]. eapply IH, H.
Qed.

Lemma point_fits l tl z m g : parse_wkt_point l tl z m = Ok g -> fits z m g.
Proof.
  unfold parse_wkt_point. destruct (wkt_trim_ws l); [discriminate|]. intros H. ok_eq H p E. cbv zeta in H.
  apply point_nums_len in E.
  destruct (if (wkt_dims z m =? 0)%nat then _ else _) eqn:C; [discriminate|]. injection H as <-.
  assert (D : (2 <= length p <= 4)%nat /\ (z || m = true -> length p = wkt_dims z m)).
  { destruct z, m; cbn in C |- *; lia. }
  destruct D as [D1 D2]. unfold fits.
  destruct (length p) as [|[|[|[|[|k]]]]]; try lia; destruct z, m; cbn in D2 |- *; try (specialize (D2 eq_refl); try discriminate D2);
    (split; [|split]); intros; try discriminate; try (split; reflexivity); try reflexivity; try (match goal with H : ?x <> 1 |- _ => exfalso; apply H; reflexivity end); try congruence.
Qed.

Ltac zm_cases := match goal with |- context [dims_zm ?d ?m] => destruct (dims_zm d m) as [z' m'] eqn:DZ end.

Lemma line_fits e ix l tl z m g : parse_wkt_linestring e ix l tl z m = Ok g -> fits z m g.
Proof.
  unfold parse_wkt_linestring. intros H. ok_eq H r E. destruct r as [[d p] x]. apply ring_len in E; [|apply wkt_dims_ok].
  destruct (dims_zm d m) as [z' m'] eqn:DZ. injection H as <-. eapply fits_of; [exact E|exact DZ|..]; destruct z', m'; reflexivity.
Qed.
Lemma poly_fits e ix l tl z m g : parse_wkt_polygon e ix l tl z m = Ok g -> fits z m g.
Proof.
  unfold parse_wkt_polygon. intros H. ok_eq H r E. destruct r as [[d p] x]. apply multi_posns_len in E; [|apply wkt_dims_ok].
  destruct (dims_zm d m) as [z' m'] eqn:DZ. injection H as <-. eapply fits_of; [exact E|exact DZ|..]; destruct z', m'; reflexivity.
Qed.
Lemma mpoint_fits l tl z m g : parse_wkt_multipoint l tl z m = Ok g -> fits z m g.
Proof.
  unfold parse_wkt_multipoint. intros H. ok_eq H r E. destruct r as [[d p] x]. apply parse_posns_len in E; [|apply wkt_dims_ok].
  destruct (dims_zm d m) as [z' m'] eqn:DZ. cbv zeta in H. injection H as <-.
  eapply fits_of; [exact E|exact DZ|..]; destruct z', m'; try reflexivity; apply sum_point.
Qed.
Lemma mline_fits e ix l tl z m g : parse_wkt_multilinestring e ix l tl z m = Ok g -> fits z m g.
Proof.
  unfold parse_wkt_multilinestring. cbv zeta. intros H. ok_eq H r E. destruct r as [[d p] x].
  apply (groups_len (fun r => length (ring_pts r))) in E; [|intros *; apply ring_len|apply wkt_dims_ok].
  destruct (dims_zm d m) as [z' m'] eqn:DZ. injection H as <-.
  eapply fits_of; [exact E|exact DZ|..]; destruct z', m'; try reflexivity; apply sum_line.
Qed.
Lemma mpoly_fits e ix l tl z m g : parse_wkt_multipolygon e ix l tl z m = Ok g -> fits z m g.
Proof.
  unfold parse_wkt_multipolygon. cbv zeta. intros H. ok_eq H r E. destruct r as [[d p] x].
  apply (groups_len poly_posns) in E; [|intros *; apply multi_posns_len|apply wkt_dims_ok].
  destruct (dims_zm d m) as [z' m'] eqn:DZ. injection H as <-.
  eapply fits_of; [exact E|exact DZ|..]; destruct z', m'; try reflexivity; apply sum_poly.
Qed.

Lemma accepted e ix l g : tg_parse_wktn_ix e ix l = Ok g -> tg_geom_error (Some g) = None ->
  exists z m empty, wkt2type (trim_end (fst (split_paren (wkt_trim_ws l)))) = WType (tg_geom_typeof (Some g)) z m empty /\
    (empty = true /\ g = new_empty (tg_geom_typeof (Some g)) \/
     empty = false /\ (tg_geom_typeof (Some g) = 7 \/ fits z m g)).
Proof.
  intros H NE. unfold tg_parse_wktn_ix in H. cbn [parse_wkt] in H.
  destruct l as [|c0 l0]. { injection H as <-. discriminate NE. }
  set (l := c0 :: l0) in *. destruct (split_paren (wkt_trim_ws l)) as [a rest]. cbn [fst].
  destruct (wkt2type (trim_end a)) as [t z m empty| | | |] eqn:T; cbn [obind] in H;
    try (injection H as <-; discriminate NE); try discriminate H.
  destruct (type_word _ _ _ _ _ T) as (w & u & WF & U).
  exists z, m, empty. destruct empty.
  { injection H as <-. destruct (empty_type w t WF) as [E1 E2]. rewrite E1. split; [reflexivity|]. now left. }
  destruct rest as [|p rest]; [injection H as <-; discriminate NE|].
  destruct (Z.eqb_spec p 40) as [->|NP].
  2: { exfalso. assert (X : Ok (make_parse_error (str "ParseError: " ++ msg_text)) = Ok g).
       { destruct p as [|p|p]; try exact H. repeat (destruct p as [p|p|]; try exact H). now destruct NP. }
       injection X as <-. discriminate NE. }
  destruct (wkt_balance_coords rest) as [[grp after]|]; [|injection H as <-; discriminate NE].
  destruct (forallb isws after); [|injection H as <-; discriminate NE]. cbv zeta in H.
  assert (TY : tg_geom_typeof (Some g) = t /\ (t = 7 \/ fits z m g)).
  { match type of H with match ?x with Ok _ => _ | _ => _ end = _ => assert (X : x = Ok g); [|clear H; rename X into H] end.
    { match type of H with match ?x with Ok _ => _ | _ => _ end = _ => destruct x end; try discriminate H; [exact H|].
      injection H as <-. discriminate NE. }
    unfold word_for in WF. cbn [In] in WF.
    repeat (destruct WF as [WF|WF]; [injection WF as _ <-|]); [..|contradiction];
      cbn [Z.eqb TG_POINT TG_LINESTRING TG_POLYGON TG_MULTIPOINT TG_MULTILINESTRING TG_MULTIPOLYGON Pos.eqb] in H.
    - split; [eapply point_type, H|right; eapply point_fits, H].
    - split; [eapply line_type, H|right; eapply line_fits, H].
    - split; [eapply poly_type, H|right; eapply poly_fits, H].
    - split; [eapply mpoint_type, H|right; eapply mpoint_fits, H].
    - split; [eapply mline_type, H|right; eapply mline_fits, H].
    - split; [eapply mpoly_type, H|right; eapply mpoly_fits, H].
    - split; [eapply coll_type, H|now left]. }
  destruct TY as [-> F]. split; [reflexivity|]. right. auto.
Qed.

(** the letters Z and M of a text *)
Definition zm_word (zm : list Z) (z m : bool) : Prop :=
  In (zm, z, m) [(str "Z", true, false); (str "M", false, true); (str "ZM", true, true)].

(** the words can be told apart *)
Lemma words_differ (w : list Z) t (zm : list Z) z m (w' : list Z) t' (z' m' empty : bool) : word_for w t -> zm = [] /\ z = false /\ m = false \/ zm_word zm z m -> word_for w' t' ->
  w ++ zm = w' ++ ((if z' then str "Z" else []) ++ (if m' then str "M" else [])) ++ (if empty then str "EMPTY" else []) ->
  z' = z /\ m' = m /\ empty = false.
Proof.
  intros W ZM W' E.
  assert (ZC : In (zm, z, m) [(@nil Z, false, false); (str "Z", true, false); (str "M", false, true); (str "ZM", true, true)]).
  { destruct ZM as [(-> & -> & ->)|ZM]; [now left|right; exact ZM]. }
  clear ZM. unfold word_for in W, W'. cbn [In] in W, W', ZC.
  repeat (destruct ZC as [ZC|ZC]; [injection ZC as <- <- <-|]); [..|contradiction];
  (repeat (destruct W as [W|W]; [injection W as <- _|]); [..|contradiction]);
  (repeat (destruct W' as [W'|W']; [injection W' as <- _|]); [..|contradiction]);
  destruct z', m', empty; try discriminate E; auto.
Qed.

Lemma front_type a r : ~ In 40 a -> fst (split_paren (wkt_trim_ws (a ++ 40 :: r))) = wkt_trim_ws a.
Proof.
  intros N. rewrite trim_front, split_front; [reflexivity|right; now exists r|now apply trim_free|right; now exists r].
Qed.
Lemma trim_letters a : letters (map capital a) = letters (map capital (trim_end (wkt_trim_ws a))).
Proof.
  destruct (trim_split a) as (ws & EA & WS). destruct (trim_end_space (wkt_trim_ws a)) as (v & EV & VS).
  rewrite EA at 1. rewrite EV at 1. rewrite !map_app, !letters_app, (letters_space ws WS), (letters_space v VS). now rewrite app_nil_r.
Qed.
Lemma trim_zero a : ~ In 0 a -> ~ In 0 (trim_end (wkt_trim_ws a)).
Proof.
  intros N0 I. apply N0. destruct (trim_split a) as (ws & EA & _). destruct (trim_end_space (wkt_trim_ws a)) as (v & EV & _).
  rewrite EA, EV. apply in_or_app. right. apply in_or_app. now left.
Qed.

(** ** Theorems *)

(** A text with Z, M or ZM behind the word of a type other than
    GEOMETRYCOLLECTION, and a group, gives a geometry that has just these. *)
Theorem C65_stated_partial : forall e ix a r g w zm z m,
  ~ In 40 a -> ~ In 0 a -> letters (map capital a) = w ++ zm ->
  (exists t, word_for w t /\ t <> 7) -> zm_word zm z m ->
  tg_parse_wktn_ix e ix (a ++ 40 :: r) = Ok g -> tg_geom_error (Some g) = None ->
  tg_geom_has_z (Some g) = z /\ tg_geom_has_m (Some g) = m.
Proof.
  intros e ix a r g w zm z m N N0 L (t & W & T7) ZM H NE.
  destruct (accepted _ _ _ _ H NE) as (z' & m' & em & T & R). rewrite front_type in T by exact N.
  destruct (type_letters _ _ _ _ _ T (trim_zero a N0)) as (w' & W' & L'). rewrite <- trim_letters, L in L'.
  destruct (words_differ _ _ _ _ _ _ _ _ _ _ W (or_intror ZM) W' L') as (-> & -> & ->).
  destruct R as [[R _]|[_ [R|F]]]; [discriminate| |].
  - exfalso. cbn [app] in L'. rewrite app_nil_r in L'.
    assert (w = w'). { destruct z, m; unfold zm_word in ZM; cbn [In] in ZM; intuition (try discriminate);
      match goal with X : (_, _, _) = (_, _, _) |- _ => injection X as <- end; cbn [app] in L'; now apply app_inv_tail in L'. }
    subst w'. rewrite R in W'. unfold word_for in W, W'. cbn [In] in W, W'.
    repeat (destruct W' as [W'|W']; [try discriminate W'|]); [|contradiction]. injection W' as <-.
    repeat (destruct W as [W|W]; [try discriminate W|]); [|contradiction]. injection W as <-. now apply T7.
  - destruct F as [F _]. apply F. unfold zm_word in ZM. cbn [In] in ZM. destruct z, m; intuition (try discriminate; auto).
Qed.
Print Assumptions C65_stated_partial.

(** Without these letters, M comes only with Z. *)
Theorem C65_unstated : forall e ix a r g w t,
  ~ In 40 a -> ~ In 0 a -> letters (map capital a) = w -> word_for w t ->
  tg_parse_wktn_ix e ix (a ++ 40 :: r) = Ok g -> tg_geom_error (Some g) = None -> tg_geom_typeof (Some g) <> 7 ->
  tg_geom_has_m (Some g) = true -> tg_geom_has_z (Some g) = true.
Proof.
  intros e ix a r g w t N N0 L W H NE T7 M.
  destruct (accepted _ _ _ _ H NE) as (z' & m' & em & T & R). rewrite front_type in T by exact N.
  destruct (type_letters _ _ _ _ _ T (trim_zero a N0)) as (w' & W' & L'). rewrite <- trim_letters, L, <- (app_nil_r w) in L'.
  destruct (words_differ w t [] false false _ _ _ _ _ W (or_introl (conj eq_refl (conj eq_refl eq_refl))) W' L') as (-> & -> & ->).
  destruct R as [[R _]|[_ [R|F]]]; [discriminate|easy|]. destruct F as (_ & F & _). now apply F.
Qed.
Print Assumptions C65_unstated.

(** Every position of an accepted text has as many numbers as tg_geom_dims says:
    so many extra coordinates are stored. *)
Theorem C65_counts_partial : forall e ix l g,
  tg_parse_wktn_ix e ix l = Ok g -> tg_geom_error (Some g) = None ->
  tg_geom_typeof (Some g) <> 1 -> tg_geom_typeof (Some g) <> 7 -> posns g <> 0%nat ->
  Z.of_nat (length (tg_geom_extra_coords (Some g))) = (tg_geom_dims (Some g) - 2) * Z.of_nat (posns g).
Proof.
  intros e ix l g H NE T1 T7 P. destruct (accepted _ _ _ _ H NE) as (z & m & em & T & [[_ E]|[_ [R|F]]]).
  - exfalso. apply P. rewrite E. unfold new_empty. repeat (match goal with |- context [if ?b then _ else _] => destruct b end; [reflexivity|]). reflexivity.
  - easy.
  - destruct F as (_ & _ & F). now apply F.
Qed.
Print Assumptions C65_counts_partial.

(** An empty point is said to have no Z although Z is written. *)
Theorem C65_empty_refuted : exists g, tg_parse_wktn_ix env_init 0 (str "POINT Z EMPTY") = Ok g /\
  tg_geom_error (Some g) = None /\ tg_geom_has_z (Some g) = false.
Proof. eexists. split; [vm_compute; reflexivity|]. split; reflexivity. Qed.
Print Assumptions C65_empty_refuted.

(** A group without positions has Z and M although neither is written. *)
Theorem C65_no_positions_refuted : exists g h k,
  tg_parse_wktn_ix env_init 0 (str "MULTIPOINT()") = Ok g /\ tg_geom_error (Some g) = None /\
  tg_geom_has_z (Some g) = true /\ tg_geom_has_m (Some g) = true /\ tg_geom_dims (Some g) = 4 /\
  tg_parse_wktn_ix env_init 0 (str "MULTILINESTRING()") = Ok h /\ tg_geom_error (Some h) = None /\ tg_geom_dims (Some h) = 4 /\
  tg_parse_wktn_ix env_init 0 (str "MULTIPOLYGON()") = Ok k /\ tg_geom_error (Some k) = None /\ tg_geom_dims (Some k) = 4.
Proof.
  do 3 eexists. split; [vm_compute; reflexivity|]. do 4 (split; [reflexivity|]).
  split; [vm_compute; reflexivity|]. do 2 (split; [reflexivity|]).
  split; [vm_compute; reflexivity|]. split; reflexivity.
Qed.
Print Assumptions C65_no_positions_refuted.

(** The letter behind GEOMETRYCOLLECTION is ignored. *)
Theorem C65_collection_refuted : exists g, tg_parse_wktn_ix env_init 0 (str "GEOMETRYCOLLECTION Z(POINT(1 2))") = Ok g /\
  tg_geom_error (Some g) = None /\ tg_geom_has_z (Some g) = false.
Proof. eexists. split; [vm_compute; reflexivity|]. split; reflexivity. Qed.
Print Assumptions C65_collection_refuted.

(** ** Example *)

(** a line with M, and a multi line of five positions with Z and M not written *)
Example C65_example :
  (letters (map capital (str "LineString m")) = str "LINESTRING" ++ str "M" /\ zm_word (str "M") false true /\
   exists g, tg_parse_wktn_ix env_init 0 (str "LineString m" ++ str "(1 2 3,4 5 6)") = Ok g /\ tg_geom_error (Some g) = None /\
     tg_geom_has_z (Some g) = false /\ tg_geom_has_m (Some g) = true) /\
  (exists g, tg_parse_wktn_ix env_init 0 (str "MULTILINESTRING((1 2 3 4,5 6 7 8),(1 2 3 4,5 6 7 8,9 8 7 6))") = Ok g /\
     tg_geom_error (Some g) = None /\ posns g = 5%nat /\ tg_geom_dims (Some g) = 4 /\
     length (tg_geom_extra_coords (Some g)) = 10%nat).
Proof.
  split.
  - split; [reflexivity|]. split; [right; now left|]. eexists. split; [vm_compute; reflexivity|]. repeat split.
  - eexists. split; [vm_compute; reflexivity|]. repeat split.
Qed.
