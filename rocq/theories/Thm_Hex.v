(** * C18: hex text *)

From Coq Require Import String ZArith Bool List Lia.
From Verif Require Import F64 Geo Series RingApi Bytes Geom Writer WkbWrite WkbParse Geobin Hex.
From Verif Require Import SpecWkb SpecJson SpecBin WriterFacts WkbWriteFacts HexFacts SeriesExamples Thm_Wkb.
Import ListNotations.
Local Open Scope Z_scope.

(** Text that spells some bytes, in any mix of upper and lower case, is parsed
    exactly as the bytes are: as GeoBIN when the first byte is 2, 3 or 4, else as
    WKB. *)
Theorem C18_same_as_binary :
  forall e ix bs t, hex_text bs t -> bs <> [] ->
    tg_parse_hexn_ix e ix t =
    if (2 <=? nth 0 bs 0) && (nth 0 bs 0 <=? 4)
    then tg_parse_geobin_ix e ix bs else tg_parse_wkb_ix e ix bs.
Proof. exact parse_hex_text. Qed.
Print Assumptions C18_same_as_binary.

(** The hex writer: for every geometry that the WKB writer can write, it stores a
    text spelling the WKB bytes, within the buffer and terminated, and returns the
    length of the text.  However much of its text is changed to lower case,
    parsing it is parsing the WKB. *)
Theorem C18_round_trip :
  forall e ix g w, geom_made g -> written (tg_geom_wkb (Some g)) w ->
    exists t, written_text (tg_geom_hex (Some g)) t /\ hex_text w t /\
      forall t', hex_text w t' -> tg_parse_hexn_ix e ix t' = tg_parse_wkb_ix e ix w.
Proof.
  intros e ix g w Hm HW. destruct (settled_geom g Hm) as [N|(b & E & HB)].
  { specialize (HW []). unfold tg_geom_wkb in HW. rewrite N in HW. discriminate. }
  assert (w = b).
  { assert (HE : written (tg_geom_wkb (Some g)) b).
    { intros dst. unfold tg_geom_wkb. rewrite E, emit_start. reflexivity. }
    apply emit_inj. intros [dst c]. clear -HW HE.
    specialize (HW (repeat 0 (length w))). specialize (HE (repeat 0 (length w))).
    rewrite HW in HE. injection HE as E1 E2. rewrite repeat_length in E2. rewrite <- E1 in E2.
    rewrite firstn_all, (firstn_all2 b) in E2 by lia.
    rewrite skipn_all2 in E2 by (rewrite repeat_length; lia). rewrite !app_nil_r in E2.
    now subst. }
  subst b. destruct (first_geom g w Hm E) as (r & ->).
  exists (hex_upper (1 :: r)). split; [|split].
  - now apply hex_written.
  - now apply hex_upper_text.
  - intros t' Ht. rewrite (parse_hex_text _ _ _ _ Ht); [reflexivity|discriminate].
Qed.
Print Assumptions C18_round_trip.

(** Text of odd length, or with a character that is no hex digit, is refused with
    an error; so is the empty text. *)
Theorem C18_rejects :
  forall e ix t, Forall is_byte t ->
    t = [] \/ Nat.odd (length t) = true \/ (exists c, In c t /\ forall v, ~ hex_digit c v) ->
    exists g, tg_parse_hexn_ix e ix t = Ok g /\
      tg_geom_error (Some g) = Some (str "ParseError: invalid binary"%string).
Proof.
  intros e ix t HB H. exists (wrap_error (make_parse_error msg_invalid)). split; [|reflexivity].
  unfold tg_parse_hexn_ix, parse_hex.
  destruct (Nat.eqb_spec (length t) 0) as [Z0|Z0]; [reflexivity|].
  destruct (Nat.odd (length t)) eqn:O; [reflexivity|]. cbn [orb].
  destruct H as [->|[H|H]]; [now destruct Z0|discriminate|].
  now rewrite (hex_decode_bad (length t) t (le_n _) HB O H).
Qed.
Print Assumptions C18_rejects.

(** ... and nothing else is: every other text spells some bytes. *)
Theorem C18_complete :
  forall t, Forall is_byte t -> Nat.odd (length t) = false ->
    (forall c, In c t -> exists v, hex_digit c v) -> exists bs, hex_text bs t.
Proof.
  intros t HB. induction t as [|a|a b t IH] using (fix F (P : list Z -> Prop) p0 p1 p2 l : P l :=
    match l with [] => p0 | [a] => p1 a | a :: b :: t => p2 a b t (F P p0 p1 p2 t) end); intros O H.
  - exists []. exact I.
  - discriminate.
  - inversion HB as [|? ? _ HB1]. inversion HB1. destruct (H a) as (va & Ha); [now left|].
    destruct (H b) as (vb & Hb); [right; now left|].
    destruct IH as (bs & Hbs); [assumption|exact O|intros c Hc; apply H; right; now right|].
    exists ((16 * va + vb) :: bs). cbn [hex_text]. split; [|exact Hbs]. now exists va, vb.
Qed.
Print Assumptions C18_complete.

(** A point, its hex text, the lower case text, and a buffer that is too small. *)
Example C18_example :
  let g := tg_geom_new_point (Pt (f_of_Z 1) (f_of_Z (-171))) in
  let t := str "0101000000000000000000F03F00000000006065C0" in
  let t' := str "0101000000000000000000f03F00000000006065c0" in
  geom_made g /\
  tg_geom_hex (Some g) (repeat 7 44) = Some (42%nat, t ++ [0; 7]) /\
  tg_geom_hex (Some g) (repeat 7 12) = Some (42%nat, firstn 11 t ++ [0]) /\
  tg_parse_hexn_ix env_init 0 t = Ok g /\ tg_parse_hexn_ix env_init 0 t' = Ok g /\
  option_map is_error (match tg_parse_hexn_ix env_init 0 (t ++ [48]) with
                       | Ok g => Some (geom_flags g) | _ => None end) = Some true.
Proof. split; [exact I|]. vms. Qed.
