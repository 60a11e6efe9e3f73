(** * The WKT parser stays inside its text and terminates *)

From Coq Require Import ZArith Bool String List Lia ZifyBool.
From Verif Require Import F64 Geo Series RingApi Bytes Geom WkbParse Num WktParse GeomFacts SpecWkb WkbSafe.
Import ListNotations.
Local Open Scope Z_scope.

Section safe.
Variable e : env.
Variable ix : Z.

(** no read outside, no lack of fuel; undefined only where a ring index is built *)
Definition safe {A : Type} (P : A -> Prop) (x : out A) : Prop :=
  match x with
  | Ok a => P a
  | Err _ => True
  | Ub => exists pts, series_new_ix e pts true ix = None
  | Oob | NoFuel => False
  end.

Lemma safe_bind {A B} (P : A -> Prop) (Q : B -> Prop) x (f : A -> out B) :
  safe P x -> (forall a, P a -> safe Q (f a)) -> safe Q (obind x f).
Proof. destruct x; cbn; auto. Qed.
Lemma safe_weaken {A} (P Q : A -> Prop) x : safe P x -> (forall a, P a -> Q a) -> safe Q x.
Proof. destruct x; cbn; auto. Qed.

(** ** scanning *)

Lemma trim_len l : (length (wkt_trim_ws l) <= length l)%nat.
Proof. induction l as [|c r IH]; cbn; [lia|]. destruct (isws c); cbn; lia. Qed.

Lemma skip_digits_len l : (length (skip_digits l) <= length l)%nat.
Proof. induction l as [|c r IH]; cbn; [lia|]. destruct (isdig c); cbn; lia. Qed.

Lemma vexp_safe l : safe (fun r => (length r <= length l)%nat) (wkt_vexp l).
Proof.
  unfold wkt_vexp. destruct l as [|c r]; [cbn; lia|]. destruct (_ || _); [|cbn; lia].
  destruct r as [|s r1]; [exact I|].
  assert (L : (length (if ((s =? 43) || (s =? 45))%Z then r1 else s :: r1) <= length (s :: r1))%nat)
    by (destruct (_ || _); cbn; lia).
  destruct (if (s =? 43) || (s =? 45) then r1 else s :: r1) as [|d r2]; [exact I|].
  destruct (isdig d); [|exact I]. cbn in *. pose proof (skip_digits_len r2). lia.
Qed.

Lemma vnumber_safe l : l <> [] -> safe (fun r => (length r < length l)%nat) (wkt_vnumber l).
Proof.
  unfold wkt_vnumber. intros NE. destruct l as [|c r]; [easy|].
  assert (L : (length (if (c =? 45)%Z then r else c :: r) <= length (c :: r))%nat)
    by (destruct (c =? 45); cbn; lia).
  destruct (if c =? 45 then r else c :: r) as [|d r1]; [exact I|].
  destruct (negb (isdig d) && negb (d =? 46)) eqn:E; [exact I|].
  cbn [skip_digits]. destruct (isdig d) eqn:D.
  - pose proof (skip_digits_len r1). destruct (skip_digits r1) as [|x r2]; [cbn in *; lia|].
    destruct (x =? 46).
    + destruct r2 as [|y r3]; [exact I|]. destruct (isdig y); [|exact I].
      eapply safe_weaken; [apply vexp_safe|]. intros a Ha. pose proof (skip_digits_len r3).
      cbn [length] in *. lia.
    + eapply safe_weaken; [apply vexp_safe|]. cbn [length] in *. lia.
  - cbn in E. destruct (d =? 46) eqn:D2; [|discriminate].
    destruct r1 as [|y r3]; [exact I|]. destruct (isdig y); [|exact I].
    eapply safe_weaken; [apply vexp_safe|]. intros a Ha. pose proof (skip_digits_len r3).
    cbn [length] in *. lia.
Qed.

(** strtod stops at the latest at the ')' behind the slice *)
Lemma strtod_in_ok l t : exists r, strtod_in (l ++ 41 :: t) = Ok r.
Proof.
  induction l as [|c r [x IH]]; [exists []; reflexivity|]. cbn [app strtod_in].
  destruct (num_byte c); [|eauto]. rewrite IH. cbn. eauto.
Qed.

Lemma number_safe l t : l <> [] ->
  safe (fun r => (length (snd r) < length l)%nat) (wkt_number l (41 :: t)).
Proof.
  intros NE. unfold wkt_number. eapply safe_bind; [now apply vnumber_safe|].
  intros r Hr. destruct (strtod_in_ok l t) as [x ->]. exact Hr.
Qed.

Lemma point_nums_safe dims t : forall fuel posn l, l <> [] -> (length l < fuel)%nat ->
  safe (fun _ => True) (wkt_point_nums fuel dims posn l (41 :: t)).
Proof.
  induction fuel as [|k IH]; intros posn l NE L; [lia|]. cbn [wkt_point_nums].
  eapply safe_bind; [now apply number_safe|]. intros [x r] Hr. cbn [fst snd] in *.
  destruct (length posn <? 4)%nat; [|exact I]. destruct r as [|c r]; [exact I|].
  destruct (isws c); [|exact I]. pose proof (trim_len (c :: r)) as T.
  destruct (wkt_trim_ws (c :: r)) as [|y s] eqn:E; [exact I|].
  apply IH; [discriminate|]. lia.
Qed.

Lemma parse_point_safe l t z m : safe no_error (parse_wkt_point l (41 :: t) z m).
Proof.
  unfold parse_wkt_point. destruct (wkt_trim_ws l) as [|c r]; [exact I|].
  eapply safe_bind; [apply point_nums_safe; [discriminate|lia]|].
  intros posn _. match goal with |- context [if ?b then Err _ else _] => destruct b end; [exact I|].
  cbv zeta. destruct (length posn) as [|[|[|[|n]]]]; try destruct m; now split.
Qed.

Lemma nums_safe dims t : forall fuel posn l, (length l < fuel)%nat ->
  safe (fun r => (length (snd r) <= length l)%nat /\ (l <> [] -> (length (snd r) < length l)%nat))
       (wkt_nums fuel dims posn l (41 :: t)).
Proof.
  induction fuel as [|k IH]; intros posn l L; [lia|].
  destruct l as [|c r]; [cbn; split; [lia|easy]|]. cbn [wkt_nums].
  destruct (isnum c); [|exact I].
  eapply safe_bind; [apply number_safe; discriminate|]. intros [x s] Hs. cbn [fst snd] in *.
  destruct (length posn =? 4)%nat; [exact I|].
  destruct s as [|d s]; [cbn in *; split; intros; lia|].
  destruct (isws d); [|cbn [safe snd] in *; split; intros; lia].
  pose proof (trim_len s) as T. destruct (wkt_trim_ws s) as [|y u]; [cbn in *; split; intros; lia|].
  cbn [length] in *.
  destruct (_ || _); [cbn [safe snd length]; split; intros; lia|].
  eapply safe_weaken; [apply IH; cbn [length]; lia|]. intros [a b] [Hb _]. cbn [snd length] in *.
  split; intros; lia.
Qed.

Lemma xparen_safe b c l : safe (fun r => (length r <= length l)%nat /\ (b = true -> (length r < length l)%nat) /\
    (b = false -> r = l)) (wkt_xparen b c l).
Proof.
  unfold wkt_xparen. destruct b; [|cbn; repeat split; try easy; lia].
  destruct l as [|d r]; [exact I|]. destruct (d =? c); [|exact I].
  cbn. pose proof (trim_len r). repeat split; intros; try easy; lia.
Qed.

Lemma posns_safe xp t : forall fuel dims l, (length l < fuel)%nat ->
  safe (fun _ => True) (wkt_posns fuel xp dims l (41 :: t)).
Proof.
  induction fuel as [|k IH]; intros dims l L; [lia|].
  destruct l as [|c r]; [exact I|]. cbn [wkt_posns].
  set (l := c :: r) in *. assert (NE : l <> []) by discriminate. clearbody l.
  eapply safe_bind; [apply xparen_safe|]. intros l1 (H1 & H2 & H3).
  eapply safe_bind; [apply nums_safe; lia|]. intros [posn l2] [H4 H5]. cbn [fst snd] in *.
  assert (L2 : (length l2 < length l)%nat).
  { destruct xp; [specialize (H2 eq_refl); lia|]. specialize (H3 eq_refl). subst l1. now apply H5. }
  eapply safe_bind; [apply xparen_safe|]. intros l3 (H6 & _ & _).
  apply (safe_bind (fun r => (length r <= length l3)%nat)).
  { destruct l3 as [|d s]; [cbn; lia|]. destruct (d =? 44); [|exact I].
    pose proof (trim_len s). destruct (wkt_trim_ws s); [exact I|]. cbn in *. lia. }
  intros l4 H7. apply (safe_bind (fun _ => True)).
  { destruct (dims =? length posn)%nat; [exact I|]. destruct (_ && _); exact I. }
  intros dims' _. apply (safe_bind (fun _ => True)); [apply IH; lia|]. intros; exact I.
Qed.

Lemma parse_posns_safe base dims l t : safe (fun _ => True) (parse_wkt_posns base dims l (41 :: t)).
Proof.
  unfold parse_wkt_posns. apply (safe_bind (fun _ => True)); [apply posns_safe; lia|].
  intros r _. match goal with |- context [match ?b with Some m => Err m | None => _ end] => destruct b end; exact I.
Qed.

Lemma ring_safe base dims l t : (base = WBLine \/ base = WBRing) ->
  safe (fun _ => True) (wkt_ring e ix base dims l (41 :: t)).
Proof.
  intros HB. unfold wkt_ring. apply (safe_bind (fun _ => True)); [apply parse_posns_safe|].
  intros [[d pts] x] _.
  destruct (series_new_ix e pts _ ix) eqn:E; [exact I|]. cbn.
  destruct HB as [-> | ->]; [|exists pts; exact E].
  destruct (series_new_ix_open e pts ix) as [r Hr]. congruence.
Qed.

(** ** balanced slices *)

(** from depth d the parentheses of l never close more than d, and end at 0 *)
Fixpoint bal (d : nat) (l : list Z) : Prop :=
  match l with
  | [] => d = 0%nat
  | c :: r =>
      if c =? 40 then bal (S d) r
      else if c =? 41 then match d with O => False | S d => bal d r end
      else bal d r
  end.
Fixpoint opens (l : list Z) : nat :=
  match l with [] => 0 | c :: r => (if c =? 40 then 1 else 0) + opens r end.

Lemma opens_app a b : opens (a ++ b) = (opens a + opens b)%nat.
Proof. induction a as [|c r IH]; cbn; [reflexivity|]. lia. Qed.

Lemma balance_spec : forall l d m a b, wkt_balance (S d) m l = Some (a, b) ->
  l = a ++ 41 :: b /\ bal d a /\ (m + opens a <= 1024)%nat.
Proof.
  induction l as [|c r IH]; intros d m a b H; [discriminate|]. cbn [wkt_balance] in H.
  destruct (c =? 40) eqn:E1.
  - destruct (wkt_balance (S (S d)) (S m) r) as [[a' b']|] eqn:E; [|discriminate].
    injection H as <- <-. destruct (IH _ _ _ _ E) as (-> & H2 & H3).
    split; [reflexivity|]. cbn [bal opens]. rewrite E1. split; [exact H2|lia].
  - destruct (c =? 41) eqn:E2.
    + assert (c = 41) by lia. subst c.
      destruct d as [|d].
      * destruct (MAXDEPTH <? m)%nat eqn:E3; [discriminate|]. injection H as <- <-.
        split; [reflexivity|]. cbn. unfold MAXDEPTH in E3. split; [reflexivity|].
        apply Nat.ltb_ge in E3. rewrite Nat.add_0_r. exact E3.
      * cbn [Nat.sub] in H. destruct (wkt_balance (S d) m r) as [[a' b']|] eqn:E; [|discriminate].
        injection H as <- <-. destruct (IH _ _ _ _ E) as (-> & H2 & H3).
        split; [reflexivity|]. cbn [bal opens Z.eqb]. split; [exact H2|]. cbn. lia.
    + destruct (wkt_balance (S d) m r) as [[a' b']|] eqn:E; [|discriminate].
      injection H as <- <-. destruct (IH _ _ _ _ E) as (-> & H2 & H3).
      split; [reflexivity|]. cbn [bal opens]. rewrite E1, E2. split; [exact H2|]. cbn. lia.
Qed.

Lemma balance_ok : forall a d m b, bal d a -> (m + opens a <= 1024)%nat ->
  wkt_balance (S d) m (a ++ 41 :: b) = Some (a, b).
Proof.
  induction a as [|c r IH]; intros d m b H L.
  - cbn in H. subst d. cbn [app wkt_balance]. cbn [Z.eqb Pos.eqb].
    cbn [opens] in L.
    replace (MAXDEPTH <? m)%nat with false; [reflexivity|]. symmetry. apply Nat.ltb_ge.
    unfold MAXDEPTH. lia.
  - cbn [app wkt_balance]. cbn [bal opens] in H, L. destruct (c =? 40) eqn:E1.
    + rewrite IH; [reflexivity|exact H|lia].
    + destruct (c =? 41) eqn:E2.
      * destruct d as [|d]; [contradiction|]. cbn [Nat.sub]. rewrite IH; [reflexivity|exact H|lia].
      * rewrite IH; [reflexivity|exact H|lia].
Qed.

Lemma bal_split : forall r d, bal (S d) r -> exists a b, r = a ++ 41 :: b /\ bal 0 a /\ bal d b.
Proof.
  assert (G : forall r k d, bal (k + S d) r -> exists a b, r = a ++ 41 :: b /\ bal k a /\ bal d b).
  { induction r as [|c r IH]; intros k d H; [cbn in H; lia|]. cbn [bal] in H.
    destruct (c =? 40) eqn:E1.
    - destruct (IH (S k) d H) as (a & b & -> & H1 & H2). exists (c :: a), b.
      split; [reflexivity|]. cbn [bal]. rewrite E1. auto.
    - destruct (c =? 41) eqn:E2.
      + assert (c = 41) by lia. subst c. destruct k as [|k].
        * exists [], r. cbn in H. repeat split; auto.
        * cbn in H. destruct (IH k d H) as (a & b & -> & H1 & H2). exists (41 :: a), b.
          split; [reflexivity|]. cbn. auto.
      + destruct (IH k d H) as (a & b & -> & H1 & H2). exists (c :: a), b.
        split; [reflexivity|]. cbn [bal]. rewrite E1, E2. auto. }
  intros r d H. now apply (G r 0%nat d).
Qed.

Lemma bal_skip c r d : (c =? 40) = false -> (c =? 41) = false -> bal d (c :: r) -> bal d r.
Proof. intros E1 E2. cbn [bal]. now rewrite E1, E2. Qed.

Lemma bal_trim l d : bal d l -> bal d (wkt_trim_ws l).
Proof.
  induction l as [|c r IH]; intros H; [exact H|]. cbn [wkt_trim_ws].
  destruct (isws c) eqn:E; [|exact H]. apply IH. revert H. apply bal_skip; unfold isws in E; lia.
Qed.
Lemma opens_trim l : (opens (wkt_trim_ws l) <= opens l)%nat.
Proof. induction l as [|c r IH]; cbn; [lia|]. destruct (isws c); cbn; lia. Qed.

(** a slice whose groups the parser can find again *)
Definition slice (l : list Z) : Prop := bal 0 l /\ (opens l <= 1023)%nat.

Lemma slice_group r : slice (40 :: r) ->
  exists a b, r = a ++ 41 :: b /\ wkt_balance_coords r = Some (a, b) /\ slice a /\ slice b.
Proof.
  intros [H1 H2]. cbn in H1. destruct (bal_split r 0 H1) as (a & b & -> & Ha & Hb).
  exists a, b. cbn [opens Z.eqb Pos.eqb] in H2. rewrite opens_app in H2. cbn [opens Z.eqb Pos.eqb] in H2.
  split; [reflexivity|]. split; [apply balance_ok; [assumption|lia]|].
  split; split; auto; lia.
Qed.
Lemma slice_trim l : slice l -> slice (wkt_trim_ws l).
Proof. intros [H1 H2]. split; [now apply bal_trim|]. pose proof (opens_trim l). lia. Qed.
Lemma slice_comma r : slice (44 :: r) -> slice r.
Proof. intros [H1 H2]. split; [exact H1|]. cbn in H2. lia. Qed.

Lemma balance_coords_slice l a b : wkt_balance_coords l = Some (a, b) ->
  l = a ++ 41 :: b /\ slice a.
Proof.
  intros H. destruct (balance_spec _ _ _ _ _ H) as (-> & H1 & H2).
  split; [reflexivity|]. split; [assumption|]. lia.
Qed.

Lemma groups_safe {A} (f : nat -> list Z -> list Z -> out (nat * A * list f64)) t :
  (forall d l t, slice l -> safe (fun _ => True) (f d l (41 :: t))) ->
  forall fuel dims l, slice l -> (length l < fuel)%nat ->
  safe (fun _ => True) (wkt_groups f fuel dims l t).
Proof.
  intros HF. induction fuel as [|k IH]; intros dims l S L; [lia|].
  destruct l as [|c r]; [exact I|]. cbn [wkt_groups].
  destruct (c =? 40) eqn:E; [|exact I]. assert (c = 40) by lia. subst c.
  destruct (slice_group r S) as (a & b & Hr & -> & Sa & Sb).
  apply (safe_bind (fun _ => True)); [now apply HF|]. intros [[d x] xs] _.
  pose proof (slice_trim b Sb) as S1. pose proof (trim_len b) as T1.
  destruct (wkt_trim_ws b) as [|c s]; [exact I|].
  destruct (c =? 44) eqn:E2; [|exact I]. assert (c = 44) by lia. subst c.
  apply slice_comma in S1. pose proof (slice_trim s S1) as S2. pose proof (trim_len s) as T2.
  destruct (wkt_trim_ws s) as [|c' s']; [exact I|].
  apply (safe_bind (fun _ => True)).
  - apply IH; [assumption|]. subst r. cbn [length] in *. rewrite app_length in L. cbn [length] in L. lia.
  - intros [[? ?] ?] _. exact I.
Qed.

Lemma multi_posns_safe dims l t : slice l ->
  safe (fun _ => True) (parse_wkt_multi_posns e ix dims l t).
Proof.
  intros S. unfold parse_wkt_multi_posns. apply (safe_bind (fun _ => True)).
  - apply groups_safe; [|now apply slice_trim|lia]. intros. apply ring_safe. auto.
  - intros [[d rs] x] _. destruct rs as [|r0 holes]; [exact I|].
    unfold tg_poly_new. rewrite map_length. destruct holes as [|h hs]; [exact I|].
    replace (Z.of_nat (length (h :: hs)) =? 0) with false by (cbn [length]; lia).
    replace (0 <? Z.of_nat (length (h :: hs))) with true by (cbn [length]; lia).
    replace (Z.of_nat (length (h :: hs)) <? Z.of_nat (length (h :: hs))) with false by lia.
    exact I.
Qed.

Lemma next_geometry_slice : forall l, slice l ->
  exists a b, wkt_next_geometry l = Some (a, b) /\ l = a ++ b /\ slice b.
Proof.
  induction l as [|c r IH]; intros S; [exists [], []; auto|]. cbn [wkt_next_geometry].
  destruct (c =? 44) eqn:E1; [exists [], (c :: r); auto|].
  destruct (c =? 40) eqn:E2.
  - assert (c = 40) by lia. subst c. destruct (slice_group r S) as (a & b & -> & -> & Sa & Sb).
    exists (40 :: a ++ [41]), b. split; [reflexivity|]. split; [|assumption].
    cbn [app]. now rewrite <- app_assoc.
  - destruct (c =? 41) eqn:E3.
    { exfalso. destruct S as [S _]. cbn [bal] in S. rewrite E2, E3 in S. exact S. }
    destruct IH as (a & b & -> & -> & Sb).
    { destruct S as [S1 S2]. split; [now apply (bal_skip c)|]. cbn [opens] in S2. lia. }
    exists (c :: a), b. auto.
Qed.

Lemma opens_len l : (opens l <= length l)%nat.
Proof. induction l as [|c r IH]; cbn [opens length]; [lia|]. destruct (c =? 40); lia. Qed.
Lemma geoms_safe child t : forall fuel l, slice l -> (length l < fuel)%nat ->
  (forall a t', (opens a <= opens l)%nat -> safe no_error (child a t')) ->
  safe (fun x => Forall no_error (fst x)) (wkt_geoms child fuel l t).
Proof.
  induction fuel as [|k IH]; intros l S L HC; [lia|].
  destruct l as [|c r]; [constructor|]. cbn [wkt_geoms].
  destruct (next_geometry_slice (c :: r) S) as (a & b & -> & Hl & Sb).
  assert (La : (length a + length b = length (c :: r))%nat)
    by (rewrite Hl, app_length; lia).
  assert (Oa : (opens a + opens b = opens (c :: r))%nat)
    by (rewrite Hl, opens_app; lia).
  apply (safe_bind (fun gs => Forall no_error gs)).
  { destruct a as [|x a]; [constructor|]. apply (safe_bind no_error); [|intros; constructor; auto].
    apply HC. lia. }
  intros gs G. pose proof (slice_trim b Sb) as S1. pose proof (trim_len b) as T1. pose proof (opens_trim b) as T2.
  destruct (wkt_trim_ws b) as [|d s]; [exact G|].
  destruct (d =? 44) eqn:E2; [|exact I]. assert (d = 44) by lia. subst d.
  apply slice_comma in S1. cbn [length] in *.
  apply (safe_bind (fun x => Forall no_error (fst x))); [|intros x X; apply Forall_app; auto].
  apply IH; [assumption|lia|]. intros a' t' La'. apply HC. change (opens (44 :: s)) with (opens s) in T2. lia.
Qed.

Lemma collection_safe child l t : slice l ->
  (forall a t', (opens a <= opens l)%nat -> safe no_error (child a t')) ->
  safe no_error (parse_wkt_geometrycollection child l t).
Proof.
  intros S HC. unfold parse_wkt_geometrycollection.
  apply (safe_bind (fun x => Forall no_error (fst x))); [apply geoms_safe; auto; lia|].
  intros x X. destruct (_ =? _)%nat; [|exact I]. apply no_error_multi. split; [reflexivity|].
  now apply Forall_map.
Qed.

Lemma split_paren_app l : fst (split_paren l) ++ snd (split_paren l) = l.
Proof.
  induction l as [|c r IH]; [reflexivity|]. cbn [split_paren]. destruct (c =? 40); [reflexivity|].
  destruct (split_paren r) as [a b]. cbn in *. now rewrite IH.
Qed.

(** the name never runs out of its array *)
Lemma name_fits l : forall name nws, (length name <= 31)%nat -> wkt_name l name nws <> NOob.
Proof.
  induction l as [|c r IH]; intros name nws L; cbn [wkt_name]; replace (NAME_SIZE <=? length name)%nat with false
    by (symmetry; apply Nat.leb_gt; unfold NAME_SIZE; lia); [discriminate|].
  destruct (Nat.eqb_spec (length name) 31); [discriminate|].
  destruct (isws c); [destruct ((0 <? length name)%nat && (last name 0 =? 32)); [now apply IH|]; destruct (2 <? S nws)%nat; [discriminate|]|];
    apply IH; rewrite app_length; cbn [length]; lia.
Qed.
Lemma wkt2type_fits l : wkt2type l <> WOob.
Proof.
  unfold wkt2type. pose proof (name_fits l [] 0) as N. destruct (wkt_name l [] 0) as [name| | |]; try discriminate.
  - destruct (wkt_empty name) as [n e0]. destruct (wkt_zm n) as [[n' z] m]. destruct n'; [discriminate|].
    destruct (find _ _) as [[]|]; [discriminate|]. destruct (existsb _ _); [discriminate|].
    unfold wkt_bad_type. destruct (bad_type_len l); discriminate.
  - unfold wkt_bad_type. destruct (bad_type_len l); discriminate.
  - cbn in N. specialize (N ltac:(lia)). congruence.
Qed.

(** each level of recursion opens a parenthesis, and there are at most 1024 *)
Lemma parse_safe : forall fuel l t, (Nat.min (opens l) 1024 < fuel)%nat ->
  safe no_error (parse_wkt e ix fuel l t).
Proof.
  induction fuel as [|k IH]; intros l t L; [lia|]. cbn [parse_wkt].
  destruct l as [|c0 r0]; [exact I|]. set (l := c0 :: r0) in *. clearbody l. clear c0 r0.
  pose proof (split_paren_app (wkt_trim_ws l)) as HS. pose proof (opens_trim l) as HT.
  destruct (split_paren (wkt_trim_ws l)) as [a rest]. cbn [fst snd] in HS.
  pose proof (wkt2type_fits (trim_end a)) as HF.
  destruct (wkt2type (trim_end a)) as [type z m empty| | |n|]; try exact I; [|congruence].
  destruct empty.
  { unfold new_empty.
    repeat (match goal with |- context [if type =? ?s then _ else _] => destruct (type =? s) end); now split. }
  destruct rest as [|c r]; [exact I|].
  assert (HR : (opens (c :: r) <= opens l)%nat).
  { rewrite <- HS in HT. rewrite opens_app in HT. lia. }
  destruct (Z.eq_dec c 40) as [->|Nc].
  2:{ destruct c as [|p|p]; try exact I. do 6 (destruct p as [p|p|]; try exact I). now elim Nc. }
  destruct (wkt_balance_coords r) as [[grp after]|] eqn:EB; [|exact I].
  destruct (balance_coords_slice r grp after EB) as [Hr Sg].
  assert (HG : (opens grp < k)%nat).
  { subst r. change (opens (40 :: grp ++ 41 :: after)) with (S (opens (grp ++ 41 :: after))) in HR.
    rewrite opens_app in HR. destruct Sg as [_ Sg]. lia. }
  destruct (forallb isws after); [|exact I].
  destruct (type =? TG_POINT); [apply parse_point_safe|].
  assert (HM : forall ty z m x l0, Forall (opt_all no_error) l0 ->
    no_error (fill_multi_coords z m x (GGMulti ty fl0 (Some l0) [] None)) /\
    no_error (GGMulti ty fl0 (Some l0) [] None)).
  { intros. split; apply no_error_multi; auto. }
  destruct (type =? TG_LINESTRING).
  { apply (safe_bind (fun _ => True)); [apply ring_safe; auto|].
    intros [[d rg] x] _. destruct (dims_zm d m) as [z' m']. cbn. destruct (z' || m'); now split. }
  destruct (type =? TG_POLYGON).
  { apply (safe_bind (fun _ => True)); [now apply multi_posns_safe|].
    intros [[d p] x] _. destruct (dims_zm d m) as [z' m']. cbn. destruct (z' || m'); now split. }
  destruct (type =? TG_MULTIPOINT).
  { apply (safe_bind (fun _ => True)); [apply parse_posns_safe|].
    intros [[d p] x] _. destruct (dims_zm d m) as [z' m'].
    assert (F : Forall (opt_all no_error) (map (fun p => Some (tg_geom_new_point p)) p))
      by (apply Forall_map, Forall_forall; intros; now split).
    destruct (HM MPoints z' m' x _ F). unfold safe. destruct (z' || m'); assumption. }
  destruct (type =? TG_MULTILINESTRING).
  { unfold parse_wkt_multilinestring. apply (safe_bind (fun _ => True)).
    - apply groups_safe; [|now apply slice_trim|lia]. intros. apply ring_safe. auto.
    - intros [[d p] x] _. destruct (dims_zm d m) as [z' m'].
      assert (F : Forall (opt_all no_error) (map (option_map tg_geom_new_linestring) (map Some p)))
        by (apply Forall_map, Forall_map, Forall_forall; intros; now split).
      destruct (HM MLines z' m' x _ F). unfold safe. destruct (z' || m'); assumption. }
  destruct (type =? TG_MULTIPOLYGON).
  { unfold parse_wkt_multipolygon. apply (safe_bind (fun _ => True)).
    - apply groups_safe; [|now apply slice_trim|lia]. intros. now apply multi_posns_safe.
    - intros [[d p] x] _. destruct (dims_zm d m) as [z' m'].
      assert (F : Forall (opt_all no_error) (map (option_map tg_geom_new_polygon) (map Some p)))
        by (apply Forall_map, Forall_map, Forall_forall; intros; now split).
      destruct (HM MPolys z' m' x _ F). unfold safe. destruct (z' || m'); assumption. }
  apply collection_safe; [assumption|]. intros. apply IH. lia.
Qed.

Lemma tg_parse_wktn_safe l : safe (fun g => error_geom g \/ no_error g) (tg_parse_wktn_ix e ix l).
Proof.
  unfold tg_parse_wktn_ix. pose proof (parse_safe (S (length l)) l []) as H.
  pose proof (opens_len l). specialize (H ltac:(lia)).
  destruct (parse_wkt e ix (S (length l)) l []); try exact H; [right; exact H|].
  left. split; [reflexivity|]. cbn. discriminate.
Qed.
End safe.
