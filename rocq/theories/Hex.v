(** * Hex writer and parser of tg.c *)

From Coq Require Import ZArith Bool List.
From Verif Require Import F64 Geo Series RingApi Bytes Geom Writer WkbWrite WkbParse Geobin.
Import ListNotations.
Local Open Scope Z_scope.

(** tg.c:14465 hexchars *)
Definition hex_chars : list Z := [48;49;50;51;52;53;54;55;56;57;65;66;67;68;69;70].
(** hexchars[k], k < 16, tg.c:14475 *)
Definition hex_char (k : Z) : Z := nth (Z.to_nat k) hex_chars 0.

(** dst[i] = b when i < n, e.g. tg.c:14475 *)
Definition put_in (dst : list Z) (i : nat) (b : Z) : list Z :=
  if (i <? length dst)%nat then store dst i [b] else dst.

(** tg.c:14471-14482 the loop that rewrites the buffer from its end; the index i
    of tg.c is [k], from count-1 down to 0, and j is 2i+1.  ch&15 and (ch>>4)&15
    are the remainder and the quotient by 16. *)
Fixpoint hex_loop (k : nat) (dst : list Z) : list Z :=
  match k with
  | O => dst
  | S i =>
      let dst :=
        if (i <? length dst)%nat then
          let ch := nth i dst 0 in
          put_in (put_in dst (2 * i + 1) (hex_char (ch mod 16))) (2 * i) (hex_char (ch / 16 mod 16))
        else dst in
      hex_loop i dst
  end.

(** tg.c:14461-14486 tg_geom_hex: the count returned and the buffer afterwards;
    [None] as in tg_geom_wkb *)
Definition tg_geom_hex (g : option geom) (dst : list Z) : option (nat * list Z) :=
  match tg_geom_wkb g dst with
  | None => None
  | Some (count, dst) =>
      if (count =? 0)%nat then Some (0%nat, put_in dst 0 0)
      else
        let dst := hex_loop count dst in
        let n := length dst in
        Some ((count * 2)%nat,
              if (count * 2 <? n)%nat then put_in dst (count * 2) 0
              else if (0 <? n)%nat then put_in dst (n - 1) 0
              else dst)
  end.

(** tg.c:14494-14499 hextoks: one more than the digit, 0 for other characters; the
    entries not listed are 0 *)
Definition hextoks : list Z := [
  0;0;0;0;0;0;0;0;0;0;0;0;0;0;0;0;0;0;0;0;0;0;0;0;0;0;0;0;0;0;0;0;
  0;0;0;0;0;0;0;0;0;0;0;0;0;0;0;0;1;2;3;4;5;6;7;8;9;10;0;0;0;0;0;0;
  0;11;12;13;14;15;16;0;0;0;0;0;0;0;0;0;0;0;0;0;0;0;0;0;0;0;0;0;0;0;0;0;
  0;11;12;13;14;15;16;0;0;0;0;0;0;0;0;0;0;0;0;0;0;0;0;0;0].
(** tg.c:14494-14499 reading the table *)
Definition hextok (c : Z) : Z := nth (Z.to_nat c) hextoks 0.

(** tg.c:14511-14518 the decoding loop; the length is even.  [None] is "goto
    invalid". *)
Fixpoint hex_decode (hex : list Z) : option (list Z) :=
  match hex with
  | a :: b :: rest =>
      let b0 := hextok a in
      let b1 := hextok b in
      if (b0 =? 0) || (b1 =? 0) then None
      else option_map (cons ((b0 - 1) * 16 + (b1 - 1))) (hex_decode rest)
  | _ => Some []
  end.

(** tg.c:14491-14533 parse_hex.  Simplification: allocation succeeds. *)
Definition parse_hex (e : env) (ix : Z) (hex : list Z) : out geom :=
  if (length hex =? 0)%nat || Nat.odd (length hex) then Ok (make_parse_error msg_invalid)
  else
    match hex_decode hex with
    | None => Ok (make_parse_error msg_invalid)
    | Some dst =>
        let b := nth 0 dst 0 in
        obind (if (0 <? length dst)%nat && (2 <=? b) && (b <=? 4)
               then parse_geobin e ix (wkb_fuel 0) 0 dst
               else parse_wkb e ix (wkb_fuel 0) 0 dst)
              (fun r => Ok (snd r))
    end.

(** tg.c:14545-14556 tg_parse_hexn_ix (14567 tg_parse_hex_ix, 14579 tg_parse_hexn
    and 14593 tg_parse_hex call it) *)
Definition tg_parse_hexn_ix (e : env) (ix : Z) (hex : list Z) : out geom :=
  obind (parse_hex e ix hex) (fun g => Ok (wrap_error g)).
