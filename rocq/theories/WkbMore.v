(** * Nested collections, and when rings can always be built *)

From Coq Require Import ZArith Bool List Lia ZifyBool.
From Verif Require Import F64 Geo Series RingApi Bytes Geom WkbParse.
From Verif Require Import SpecWkb WriterFacts GeomFacts WkbParseFacts WkbRoundFacts WkbSafe.
Import ListNotations.
Local Open Scope Z_scope.

Lemma series_new_total ps closed kind spread : kind <> IxYstripes ->
  series_new ps closed kind spread <> None.
Proof.
  intros K. unfold series_new. cbv zeta. destruct kind; [| |congruence].
  - rewrite andb_false_r. discriminate.
  - rewrite andb_false_r. discriminate.
Qed.

Lemma series_new_ix_total e ix ps closed : resolve_kind e (Z.land ix 15) <> IxYstripes ->
  series_new_ix e ps closed ix <> None.
Proof. intros K. unfold series_new_ix, tg_index_extract_spread. now apply series_new_total. Qed.

(** the start of a GEOMETRYCOLLECTION: byte order, dimension, number of children *)
Definition collection_head (h : bool * dim * Z) : list Z :=
  let '(big, d, count) := h in e_head big 7 d ++ e_int big 4 count.

Section Deep.
Variable e : env.
Variable ix : Z.

Lemma too_deep fuel depth bs : (1024 < depth)%nat ->
  parse_wkb e ix (S fuel) depth bs = fail_invalid.
Proof.
  intros H. cbn [parse_wkb]. destruct bs as [|o bs]; [reflexivity|].
  destruct (negb _); [reflexivity|].
  destruct (Nat.ltb_spec MAXDEPTH depth) as [L|L]; [reflexivity|]. unfold MAXDEPTH in L. lia.
Qed.

Lemma parse_deep : forall hs depth fuel rest,
  Forall (fun h => 0 < snd h < 2 ^ 32) hs -> (1024 < depth + length hs)%nat ->
  (1026 <= fuel + depth)%nat -> (depth <= 1025)%nat ->
  parse_wkb e ix fuel depth (concat (map collection_head hs) ++ rest) = fail_invalid.
Proof.
  induction hs as [|[[big d] n] hs IH]; intros depth fuel rest HF HL Hf Hd;
    (destruct fuel as [|fuel]; [lia|]).
  - cbn [length] in HL. apply too_deep. lia.
  - destruct (Nat.leb_spec depth 1024) as [L|L]; [|now apply too_deep].
    inversion HF as [|? ? Hn HF']; subst. cbn [snd] in Hn. cbn [length] in HL.
    cbn [map concat collection_head]. rewrite <- !app_assoc.
    rewrite parse_head by lia. unfold body. cbn [Z.eqb Pos.eqb].
    unfold p_multi. rewrite p_uint32_ok by lia.
    cbn [p_children]. replace (n =? 0) with false by lia.
    rewrite IH; [reflexivity|assumption|lia|lia|lia].
Qed.

Lemma tg_parse_deep hs rest : Forall (fun h => 0 < snd h < 2 ^ 32) hs -> (1024 < length hs)%nat ->
  tg_parse_wkb_ix e ix (concat (map collection_head hs) ++ rest) =
  Ok (wrap_error (make_parse_error msg_invalid)).
Proof.
  intros HF HL. unfold tg_parse_wkb_ix. rewrite parse_deep; [reflexivity|assumption|lia| |lia].
  unfold wkb_fuel, MAXDEPTH. lia.
Qed.

(** every input, without a condition on it *)
Lemma parse_outcome bs : Forall is_byte bs -> tg_parse_wkb_ix e ix bs <> NoFuel /\
  (forall m, tg_parse_wkb_ix e ix bs <> Err m).
Proof.
  intros HB. pose proof (safe_tg_parse e ix True bs (conj HB (or_introl I))) as H. revert H.
  generalize (tg_parse_wkb_ix e ix bs). intros x H. destruct x; cbn in H; try contradiction;
    split; try discriminate; intros; discriminate.
Qed.
End Deep.
