(** * C62: growing buffers and vectors *)

From Coq Require Import ZArith Bool List Lia ZifyBool.
From Verif Require Import Grow.
Import ListNotations.
Local Open Scope Z_scope.

(** ** What a buffer holds *)

(** [size] cells are owned, the first ones hold [xs], and what the fields say
    fits: writing up to [cap] stays inside *)
Definition holds {T} (d : list (option T)) (len cap : Z) (xs : list T) : Prop :=
  len = Z.of_nat (length xs) /\ len <= cap <= Z.of_nat (length d) /\ firstn (length xs) d = map Some xs.
(** the same of a buffer and of a vector *)
Definition buf_holds (b : tg_buf) (xs : list Z) : Prop := holds (b_data b) (b_len b) (b_cap b) xs.
Definition vec_holds {T} (v : vec T) (xs : list T) : Prop := holds (v_data v) (v_len v) (v_cap v) xs.

Lemma grow_more c i : 0 <= c <= 2 ^ 50 -> 1 <= i ->
  exists c', grow_cap c i = Some c' /\ c < c' /\ c' <= Z.max i (2 * c).
Proof.
  intros H I. unfold grow_cap. destruct (c =? 0) eqn:E; [exists i; split; [reflexivity|lia]|].
  destruct (c <? 1000) eqn:F; [exists (c * 2); split; [reflexivity|lia]|].
  replace (c <=? 2 ^ 50) with true by lia. exists (c * 5 / 4). split; [reflexivity|].
  clear H. Z.to_euclidean_division_equations. lia.
Qed.

Lemma loop_ok k : forall cap len need, 0 <= len <= cap -> cap - len < need -> len + need <= 2 ^ 50 ->
  need - (cap - len) <= Z.of_nat k ->
  exists c, ensure_loop k cap len need = Did true c /\ len + need <= c /\ c <= Z.max 16 (2 * (len + need)).
Proof.
  induction k as [|k IH]; intros cap len need H1 H2 H3 H4; [lia|]. cbn [ensure_loop].
  destruct (grow_more cap 16 ltac:(lia) ltac:(lia)) as (c' & -> & G1 & G2).
  destruct (c' - len <? need) eqn:E.
  - apply IH; lia.
  - exists c'. split; [reflexivity|]. lia.
Qed.

Lemma realloc_holds {T} (d : block T) len cap xs n : holds d len cap xs -> len <= n ->
  exists d', tg_realloc true d (Z.to_nat n) = Some d' /\ holds d' len n xs /\ length d' = Z.to_nat n.
Proof.
  intros (L & C & F) N. eexists. split; [reflexivity|].
  assert (E : length (firstn (Z.to_nat n) d ++ repeat None (Z.to_nat n - length d)) = Z.to_nat n).
  { rewrite app_length, firstn_length, repeat_length. lia. }
  split; [|exact E]. split; [exact L|]. split; [rewrite E; lia|].
  rewrite firstn_app, firstn_firstn, firstn_length.
  replace (Nat.min (length xs) (Z.to_nat n)) with (length xs) by lia.
  replace (length xs - _)%nat with 0%nat by lia. cbn [firstn]. now rewrite app_nil_r.
Qed.

Lemma put_holds {T} (d : block T) len cap xs vs : holds d len cap xs -> len + Z.of_nat (length vs) <= cap ->
  exists d', put d len vs = Some d' /\ holds d' (len + Z.of_nat (length vs)) cap (xs ++ vs) /\ length d' = length d.
Proof.
  intros (L & C & F) N. unfold put. replace (_ <=? _)%nat with true by lia. eexists. split; [reflexivity|].
  replace (Z.to_nat len) with (length xs) by lia. rewrite F.
  assert (E : length (map Some xs ++ map Some vs ++ skipn (length xs + length vs) d) = length d).
  { rewrite !app_length, !map_length, skipn_length. lia. }
  split; [|exact E]. split; [rewrite app_length; lia|]. split; [rewrite E; lia|].
  rewrite app_assoc, <- map_app, firstn_app, map_length, Nat.sub_diag. cbn [firstn].
  rewrite app_nil_r. apply firstn_all2. now rewrite map_length.
Qed.

(** a write behind the contents leaves them *)
Lemma put_behind {T} (d : block T) len cap xs i (v : T) : holds d len cap xs -> len <= i < Z.of_nat (length d) -> i <= cap ->
  exists d', put d i [v] = Some d' /\ holds d' len cap xs.
Proof.
  intros (L & C & F) N NC. unfold put. cbn [length]. replace (_ <=? _)%nat with true by lia. eexists. split; [reflexivity|].
  assert (E : length (firstn (Z.to_nat i) d ++ map Some [v] ++ skipn (Z.to_nat i + 1) d) = length d).
  { rewrite !app_length, firstn_length, skipn_length. cbn [map length]. lia. }
  split; [exact L|]. split; [rewrite E; lia|].
  rewrite firstn_app, firstn_firstn, firstn_length.
  replace (Nat.min (length xs) (Z.to_nat i)) with (length xs) by lia.
  replace (length xs - _)%nat with 0%nat by lia. cbn [firstn]. now rewrite app_nil_r.
Qed.

Lemma ensure_ok ok b xs need : buf_holds b xs -> 0 <= need -> b_len b + need <= 2 ^ 50 ->
  exists r b', tg_buf_ensure ok b need = Did r b' /\
    (r = true -> buf_holds b' xs /\ b_len b' = b_len b /\ b_len b + need <= b_cap b' /\
       b_cap b' <= Z.max (b_cap b) (Z.max 16 (2 * (b_len b + need)))) /\
    (r = false -> b' = b /\ ok = false).
Proof.
  intros H N1 N2. unfold tg_buf_ensure. pose proof H as (L & C & F).
  destruct (need <=? b_cap b - b_len b) eqn:E.
  - exists true, b. split; [reflexivity|]. split; [|discriminate]. intros _. repeat split; try apply H; lia.
  - destruct (loop_ok (S (Z.to_nat need)) (b_cap b) (b_len b) need ltac:(lia) ltac:(lia) N2 ltac:(lia)) as (c & -> & C1 & C2).
    destruct ok; [|exists false, b; split; [reflexivity|]; split; [discriminate|auto]].
    destruct (realloc_holds (b_data b) _ _ xs (c + 1) H ltac:(lia)) as (d & -> & H1 & LD).
    assert (H2 : holds d (b_len b) c xs). { destruct H1 as (A & B & D). split; [exact A|]. split; [lia|exact D]. }
    destruct (put_behind d _ _ xs c 0 H2 ltac:(lia) ltac:(lia)) as (d' & -> & H3).
    eexists true, _. split; [reflexivity|]. split; [|discriminate]. intros _. split; [exact H3|]. cbn [b_len b_cap]. lia.
Qed.

(** ** One append *)

(** Appending to a buffer puts the bytes behind what it held, inside memory the
    buffer owns, or says it could not and leaves the buffer as it was.  It never
    runs forever and takes at most twice the room needed. *)
Theorem C62_append : forall ok b xs ys,
  buf_holds b xs -> Z.of_nat (length xs + length ys) <= 2 ^ 50 ->
  exists r b', tg_buf_append_bytes ok b ys = Did r b' /\
    (r = true -> buf_holds b' (xs ++ ys) /\
       b_cap b' <= Z.max (b_cap b) (Z.max 16 (2 * Z.of_nat (length (xs ++ ys))))) /\
    (r = false -> b' = b /\ ok = false).
Proof.
  intros ok b xs ys H N. pose proof H as (L & _ & _). unfold tg_buf_append_bytes.
  destruct (ensure_ok ok b xs (Z.of_nat (length ys)) H ltac:(lia) ltac:(lia)) as (r & b' & -> & G & B).
  destruct r; [|exists false, b'; split; [reflexivity|split; [discriminate|exact B]]].
  destruct (G eq_refl) as (H1 & EL & C1 & C2).
  destruct (put_holds (b_data b') _ _ xs ys H1 ltac:(lia)) as (d & -> & H2 & _).
  eexists true, _. split; [reflexivity|]. split; [|discriminate]. intros _. split; [exact H2|].
  cbn [b_cap]. rewrite app_length. lia.
Qed.
Print Assumptions C62_append.

Lemma append_byte ok b v : tg_buf_append_byte ok b v = tg_buf_append_bytes ok b [v].
Proof. reflexivity. Qed.

(** ** Chains of appends *)

Definition call_bytes (c : call) : list Z := match c with Byte _ v => [v] | Bytes _ vs => vs end.
Definition call_ok (c : call) : bool := match c with Byte ok _ | Bytes ok _ => ok end.

(** A chain of appends leaves exactly the bytes of the calls made so far, and it
    is cut short only by a call for which the allocator had no memory. *)
Theorem C62_chain : forall cs b xs,
  buf_holds b xs -> Z.of_nat (length (xs ++ concat (map call_bytes cs))) <= 2 ^ 50 ->
  exists r b', appends b cs = Did r b' /\
    (r = true -> buf_holds b' (xs ++ concat (map call_bytes cs))) /\
    (r = false -> exists k c, nth_error cs k = Some c /\ call_ok c = false /\
       buf_holds b' (xs ++ concat (map call_bytes (firstn k cs)))) /\
    (forallb call_ok cs = true -> r = true).
Proof.
  induction cs as [|c cs IH]; intros b xs H N.
  - exists true, b. cbn. rewrite app_nil_r. repeat split; auto; try discriminate; apply H.
  - cbn [appends map concat] in *. rewrite !app_length in N.
    assert (E : (match c with Byte ok v => tg_buf_append_byte ok b v | Bytes ok vs => tg_buf_append_bytes ok b vs end)
                = tg_buf_append_bytes (call_ok c) b (call_bytes c)) by (now destruct c).
    rewrite E. clear E.
    destruct (C62_append (call_ok c) b xs (call_bytes c) H ltac:(lia)) as (r & b1 & -> & G & B).
    destruct r.
    + destruct (G eq_refl) as [H1 _].
      destruct (IH b1 (xs ++ call_bytes c) H1 ltac:(rewrite !app_length; lia)) as (r & b2 & -> & G2 & B2 & A2).
      exists r, b2. split; [reflexivity|]. split; [|split].
      * intros T. rewrite app_assoc. auto.
      * intros T. destruct (B2 T) as (k & c' & K1 & K2 & K3). exists (S k), c'. split; [exact K1|]. split; [exact K2|].
        cbn [firstn map concat]. rewrite app_assoc. exact K3.
      * cbn [forallb]. intros T. apply andb_true_iff in T. tauto.
    + destruct (B eq_refl) as [-> O]. exists false, b. split; [reflexivity|]. split; [discriminate|]. split.
      * intros _. exists 0%nat, c. split; [reflexivity|]. split; [exact O|]. cbn. now rewrite app_nil_r.
      * cbn [forallb]. rewrite O. discriminate.
Qed.
Print Assumptions C62_chain.

(** ** Truncating *)

(** Truncating keeps the bytes; if it succeeds at most eight spare bytes are
    left, besides the terminator, and if it fails nothing has changed. *)
Theorem C62_trunc : forall ok b xs,
  buf_holds b xs ->
  exists r b', tg_buf_trunc ok b = Did r b' /\ buf_holds b' xs /\
    (r = true -> b_cap b' <= Z.of_nat (length xs) + 8) /\ (r = false -> b' = b /\ ok = false).
Proof.
  intros ok b xs H. pose proof H as (L & C & F). unfold tg_buf_trunc. destruct (8 <? b_cap b - b_len b) eqn:E.
  - destruct ok; [|exists false, b; repeat split; auto; try discriminate; apply H].
    destruct (realloc_holds (b_data b) _ _ xs (b_len b) H ltac:(lia)) as (d & -> & H1 & _).
    eexists true, _. split; [reflexivity|]. split; [exact H1|]. split; [cbn [b_cap]; lia|discriminate].
  - exists true, b. split; [reflexivity|]. split; [exact H|]. split; [lia|discriminate].
Qed.
Print Assumptions C62_trunc.

(** ** Pairs of a JSON object *)

Lemma holds_less {T} (d : list (option T)) len cap xs ys : holds d len cap (xs ++ ys) -> holds d (Z.of_nat (length xs)) cap xs.
Proof.
  intros (L & C & F). rewrite app_length in L. split; [reflexivity|]. split; [lia|].
  rewrite app_length, map_app in F. apply (f_equal (firstn (length xs))) in F.
  rewrite firstn_firstn, firstn_app, map_length, Nat.sub_diag in F. cbn [firstn] in F. rewrite app_nil_r in F.
  replace (Nat.min _ _) with (length xs) in F by lia. rewrite F. apply firstn_all2. now rewrite map_length.
Qed.

(** A pair is written whole, with the bracket or comma before it and the colon
    inside, or the buffer holds what it held before, in the memory the appends
    have left it (the one before may have moved). *)
Theorem C62_json_pair : forall k1 k2 k3 k4 b xs key val,
  buf_holds b xs -> Z.of_nat (length xs + length key + length val + 2) <= 2 ^ 50 ->
  exists r b', buf_append_json_pair k1 k2 k3 k4 b key val = Did r b' /\
    (r = true -> buf_holds b' (xs ++ (match xs with [] => 123 | _ => 44 end) :: key ++ 58 :: val)) /\
    (r = false -> buf_holds b' xs /\ (k1 && k2 && k3 && k4) = false /\
       exists b1, appends b [Byte k1 (match xs with [] => 123 | _ => 44 end); Bytes k2 key; Byte k3 58; Bytes k4 val] = Did false b1 /\
         b_data b' = b_data b1 /\ b_cap b' = b_cap b1).
Proof.
  intros k1 k2 k3 k4 b xs key val H N. unfold buf_append_json_pair. pose proof H as (L & _ & _).
  replace (if b_len b =? 0 then 123 else 44) with (match xs with [] => 123 | _ => 44 end)
    by (rewrite L; destruct xs; reflexivity).
  set (cs := [Byte k1 _; _; _; _]).
  destruct (C62_chain cs b xs H) as (r & b' & V & G & B & A).
  { unfold cs. cbn [map call_bytes concat]. rewrite !app_length. cbn [length]. rewrite ?app_length. cbn [length]. lia. }
  rewrite V. destruct r.
  - exists true, b'. split; [reflexivity|]. split; [|discriminate]. intros _. specialize (G eq_refl).
    unfold cs in G. cbn [map call_bytes concat app] in G. rewrite app_nil_r in G. exact G.
  - eexists false, _. split; [reflexivity|]. split; [discriminate|]. intros _. split; [|split].
    + destruct (B eq_refl) as (k & c & _ & _ & K). apply holds_less in K. rewrite <- L in K. exact K.
    + unfold cs in A. cbn [forallb call_ok] in A. destruct k1, k2, k3, k4; try reflexivity. discriminate (A eq_refl).
    + exists b'. repeat split.
Qed.
Print Assumptions C62_json_pair.

(** ** Vectors *)

Definition vec_inv {T} (s : Z) (v : vec T) : Prop :=
  v_cap v <= Z.max s (2 * v_len v) /\ 0 <= v_moved v <= 5 * v_cap v.

Lemma moves c s c' m : 0 <= c <= 2 ^ 50 -> 1 <= s -> grow_cap c s = Some c' -> 0 <= m <= 5 * c -> m + c <= 5 * c'.
Proof.
  intros H S G M. unfold grow_cap in G. destruct (c =? 0) eqn:E; [injection G as <-; lia|].
  destruct (c <? 1000) eqn:F; [injection G as <-; lia|].
  destruct (c <=? 2 ^ 50); [|discriminate]. injection G as <-. clear H.
  Z.to_euclidean_division_equations. lia.
Qed.

Lemma vec_append_ok {T} s ok (v : vec T) xs f : 1 <= s -> vec_holds v xs -> vec_inv s v -> v_len v < 2 ^ 50 ->
  exists r v', vec_append s ok v f = Did r v' /\
    (r = true -> vec_holds v' (xs ++ [f]) /\ vec_inv s v') /\ (r = false -> v' = v /\ ok = false).
Proof.
  intros S H (I1 & I2) N. pose proof H as (L & C & F). unfold vec_append.
  destruct (v_len v =? v_cap v) eqn:E.
  - destruct (grow_more (v_cap v) s ltac:(lia) S) as (c & GC & G1 & G2). rewrite GC.
    destruct ok; [|exists false, v; split; [reflexivity|]; split; [discriminate|auto]].
    destruct (realloc_holds (v_data v) _ _ xs c H ltac:(lia)) as (d & -> & H1 & _).
    destruct (put_holds d _ _ xs [f] H1) as (d' & -> & H2 & _); [cbn [length]; lia|].
    eexists true, _. split; [reflexivity|]. split; [|discriminate]. intros _. split; [exact H2|].
    pose proof (moves (v_cap v) s c (v_moved v) ltac:(lia) S GC I2). unfold vec_inv. cbn [v_cap v_len v_moved]. lia.
  - destruct (put_holds (v_data v) _ _ xs [f] H) as (d' & -> & H2 & _); [cbn [length]; lia|].
    eexists true, _. split; [reflexivity|]. split; [|discriminate]. intros _. split; [exact H2|].
    unfold vec_inv. cbn [v_cap v_len v_moved]. lia.
Qed.

Lemma vec_appends_ok {T} s (fs : list (bool * T)) : 1 <= s -> forall (v : vec T) xs, vec_holds v xs -> vec_inv s v ->
  Z.of_nat (length xs + length fs) <= 2 ^ 50 ->
  exists r v', vec_appends s v fs = Did r v' /\ vec_inv s v' /\
    (r = true -> vec_holds v' (xs ++ map snd fs)) /\
    (r = false -> exists k f, nth_error fs k = Some (false, f) /\ vec_holds v' (xs ++ map snd (firstn k fs))).
Proof.
  intros S. induction fs as [|[ok f] fs IH]; intros v xs H I N.
  - exists true, v. cbn. rewrite app_nil_r. repeat split; auto; try discriminate; try apply I; apply H.
  - pose proof H as (L & _ & _). cbn [length] in N. cbn [vec_appends].
    destruct (vec_append_ok s ok v xs f S H I ltac:(lia)) as (r & v1 & -> & G & B). destruct r.
    + destruct (G eq_refl) as [H1 I1].
      destruct (IH v1 (xs ++ [f]) H1 I1) as (r & v2 & -> & I2 & G2 & B2); [rewrite app_length; cbn [length]; lia|].
      rewrite <- app_assoc in G2. exists r, v2. split; [reflexivity|]. split; [exact I2|]. split; [exact G2|].
      intros T'. destruct (B2 T') as (k & f' & K1 & K2). exists (Datatypes.S k), f'. split; [exact K1|].
      cbn [firstn map snd]. rewrite <- app_assoc in K2. exact K2.
    + destruct (B eq_refl) as [-> ->]. exists false, v. split; [reflexivity|]. split; [exact I|]. split; [discriminate|].
      intros _. exists 0%nat, f. split; [reflexivity|]. cbn. now rewrite app_nil_r.
Qed.

(** Elements appended one by one are all there in order, unless the allocator
    said no; and all reallocations together carry over at most ten times as many
    elements as there are in the end, plus five times the starting size. *)
Theorem C62_vector : forall (T : Type) s (fs : list (bool * T)),
  1 <= s -> Z.of_nat (length fs) <= 2 ^ 50 ->
  exists r v, vec_appends s vec0 fs = Did r v /\
    v_moved v <= 10 * v_len v + 5 * s /\
    (r = true -> vec_holds v (map snd fs)) /\
    (r = false -> exists k f, nth_error fs k = Some (false, f) /\ vec_holds v (map snd (firstn k fs))).
Proof.
  intros T s fs S N.
  destruct (vec_appends_ok s fs S vec0 []) as (r & v & V & (I1 & I2) & G & B).
  - repeat split; cbn; lia.
  - split; cbn; lia.
  - cbn [length]. lia.
  - exists r, v. split; [exact V|]. split; [|split; [exact G|exact B]].
    assert (0 <= v_len v).
    { destruct r; [destruct (G eq_refl) as (L & _)|destruct (B eq_refl) as (k & f & _ & (L & _))]; lia. }
    lia.
Qed.
Print Assumptions C62_vector.

(** ** Examples *)

(** a chain that grows twice; one that runs out of memory at the second growth
    keeps what it had; and truncation *)
Example C62_example :
  let cs ok := [Byte true 123; Bytes true (repeat 97 15); Byte ok 58; Bytes true (repeat 98 30); Byte true 0] in
  (exists b, appends buf0 (cs true) = Did true b /\ b_len b = 48 /\ b_cap b = 64 /\ length (b_data b) = 65%nat /\
     exists b', tg_buf_trunc true b = Did true b' /\ b_cap b' = 48 /\ length (b_data b') = 48%nat) /\
  (exists b, appends buf0 (cs false) = Did false b /\ buf_holds b (123 :: repeat 97 15)) /\
  buf_holds buf0 [].
Proof.
  cbv zeta. split; [|split].
  - eexists. split; [vm_compute; reflexivity|]. do 3 (split; [reflexivity|]).
    eexists. split; [vm_compute; reflexivity|]. split; reflexivity.
  - eexists. split; [vm_compute; reflexivity|]. repeat split; vm_compute; congruence.
  - repeat split; vm_compute; congruence.
Qed.

(** the fourth append of the second pair fails: the first pair is still there *)
Example C62_pair_example :
  exists b, buf_append_json_pair true true true true buf0 [34; 97; 34] [49] = Did true b /\
    buf_holds b [123; 34; 97; 34; 58; 49] /\
    exists b', buf_append_json_pair true true true false b [34; 98; 34] (repeat 50 20) = Did false b' /\
      buf_holds b' [123; 34; 97; 34; 58; 49].
Proof.
  eexists. split; [vm_compute; reflexivity|]. split; [repeat split; vm_compute; congruence|].
  eexists. split; [vm_compute; reflexivity|]. repeat split; vm_compute; congruence.
Qed.

(** seventeen elements in a vector that starts with one: 1 + 2 + 4 + 8 + 16
    elements are carried over *)
Example C62_vector_example :
  exists v, vec_appends 1 vec0 (repeat (true, 7) 17) = Did true v /\
    v_len v = 17 /\ v_cap v = 32 /\ v_moved v = 31 /\ vec_holds v (repeat 7 17).
Proof. eexists. split; [vm_compute; reflexivity|]. repeat split; vm_compute; congruence. Qed.
