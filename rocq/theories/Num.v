(** * Printing and reading numbers

    Printing is the Ryu code of tg.c with fp_utoa; reading is the C library's
    strtod, which tg.c calls for WKT and GeoJSON numbers. *)

From Coq Require Import ZArith Bool String List.
From Coq Require Import Floats.SpecFloat.
From Verif Require Import F64 Bytes Writer Pow5Tab.
Import ListNotations.
Local Open Scope Z_scope.

(** conversion to uint32_t, e.g. tg.c:9866 *)
Definition u32 (x : Z) : Z := x mod 4294967296.
(** conversion to uint64_t, e.g. tg.c:9033 *)
Definition u64 (x : Z) : Z := x mod 18446744073709551616.

(** tg.c:8819-8827 pow5bits; [None] when an assertion fails *)
Definition pow5bits (e : Z) : option Z :=
  if (0 <=? e) && (e <=? 3528) then Some (u32 (e * 1217359) / 524288 + 1) else None.
(** tg.c:8830-8836 log10Pow2 *)
Definition log10Pow2 (e : Z) : option Z :=
  if (0 <=? e) && (e <=? 1650) then Some (u32 (e * 78913) / 262144) else None.
(** tg.c:8839-8845 log10Pow5 *)
Definition log10Pow5 (e : Z) : option Z :=
  if (0 <=? e) && (e <=? 2620) then Some (u32 (e * 732923) / 1048576) else None.

(** tg.c:8960-8972 pow5Factor; [None] when the loop has not ended after [fuel]
    rounds *)
Fixpoint pow5Factor (fuel : nat) (value count : Z) : option Z :=
  match fuel with
  | O => None
  | S k =>
      if value =? 0 then None else
      let value := u64 (value * 14757395258967641293) in
      if 3689348814741910323 <? value then Some count else pow5Factor k value (count + 1)
  end.
(** tg.c:8975-8978 multipleOfPowerOf5 *)
Definition multipleOfPowerOf5 (value p : Z) : option bool :=
  match pow5Factor 65 value 0 with Some c => Some (p <=? c) | None => None end.
(** tg.c:8981-8986 multipleOfPowerOf2 *)
Definition multipleOfPowerOf2 (value p : Z) : option bool :=
  if (value =? 0) || (64 <=? p) then None
  else Some (Z.land value (u64 (2 ^ p) - 1) =? 0).

(** tg.c:9028-9034 mulShift64 (the 128-bit variant); [None] when the shift
    count is out of range *)
Definition mulShift64 (m : Z) (mul : Z * Z) (j : Z) : option Z :=
  let b0 := m * fst mul in
  let b2 := m * snd mul in
  if (0 <=? j - 64) && (j - 64 <? 128)
  then Some (u64 (((b0 / 2 ^ 64 + b2) mod 2 ^ 128) / 2 ^ (j - 64))) else None.

(** tg.c:9036-9043 mulShiftAll64: vr, vp, vm *)
Definition mulShiftAll64 (m : Z) (mul : Z * Z) (j mmShift : Z) : option (Z * Z * Z) :=
  match mulShift64 (u64 (4 * m + 2)) mul j with
  | Some vp =>
      match mulShift64 (u64 (4 * m - 1 - mmShift)) mul j with
      | Some vm =>
          match mulShift64 (u64 (4 * m)) mul j with
          | Some vr => Some (vr, vp, vm)
          | None => None
          end
      | None => None
      end
  | None => None
  end.

(** tg.c:9787-9811 decimalLength17; [None] when its assertion fails *)
Definition decimalLength17 (v : Z) : option nat :=
  if 100000000000000000 <=? v then None
  else Some (
    if 10000000000000000 <=? v then 17%nat
    else if 1000000000000000 <=? v then 16%nat
    else if 100000000000000 <=? v then 15%nat
    else if 10000000000000 <=? v then 14%nat
    else if 1000000000000 <=? v then 13%nat
    else if 100000000000 <=? v then 12%nat
    else if 10000000000 <=? v then 11%nat
    else if 1000000000 <=? v then 10%nat
    else if 100000000 <=? v then 9%nat
    else if 10000000 <=? v then 8%nat
    else if 1000000 <=? v then 7%nat
    else if 100000 <=? v then 6%nat
    else if 10000 <=? v then 5%nat
    else if 1000 <=? v then 4%nat
    else if 100 <=? v then 3%nat
    else if 10 <=? v then 2%nat
    else 1%nat).

(** (uint32_t) v - k * (uint32_t) (v / k), as in tg.c:9866 and 9918 *)
Definition mod32 (v k : Z) : Z := u32 (u32 v - k * u32 (v / k)).
(** the bool added to an integer, as in tg.c:9954 *)
Definition b2z (b : bool) : Z := if b then 1 else 0.

(** the variables of Step 4 of d2d, tg.c:9908-9911 and 9837-9840 *)
Record d2d_state := D2 {
  d_vr : Z; d_vp : Z; d_vm : Z;
  d_vmz : bool; d_vrz : bool;          (* vmIsTrailingZeros, vrIsTrailingZeros *)
  d_last : Z;                          (* lastRemovedDigit *)
  d_removed : Z }.

(** tg.c:9915-9935 the first loop of the general case *)
Fixpoint d2d_loop1 (fuel : nat) (s : d2d_state) : option d2d_state :=
  match fuel with
  | O => None
  | S k =>
      if d_vp s / 10 <=? d_vm s / 10 then Some s
      else d2d_loop1 k
             (D2 (d_vr s / 10) (d_vp s / 10) (d_vm s / 10)
                 (d_vmz s && (mod32 (d_vm s) 10 =? 0)) (d_vrz s && (d_last s =? 0))
                 (mod32 (d_vr s) 10) (d_removed s + 1))
  end.
(** tg.c:9936-9954 the second loop of the general case *)
Fixpoint d2d_loop2 (fuel : nat) (s : d2d_state) : option d2d_state :=
  match fuel with
  | O => None
  | S k =>
      if negb (mod32 (d_vm s) 10 =? 0) then Some s
      else d2d_loop2 k
             (D2 (d_vr s / 10) (d_vp s / 10) (d_vm s / 10)
                 (d_vmz s) (d_vrz s && (d_last s =? 0))
                 (mod32 (d_vr s) 10) (d_removed s + 1))
  end.
(** tg.c:9982-9996 the loop of the common case; [d_vrz] holds roundUp *)
Fixpoint d2d_loop3 (fuel : nat) (s : d2d_state) : option d2d_state :=
  match fuel with
  | O => None
  | S k =>
      if d_vp s / 10 <=? d_vm s / 10 then Some s
      else d2d_loop3 k
             (D2 (d_vr s / 10) (d_vp s / 10) (d_vm s / 10)
                 (d_vmz s) (5 <=? mod32 (d_vr s) 10) (d_last s) (d_removed s + 1))
  end.

(** tg.c:9912-9963 Step 4, the general case: output and removed *)
Definition d2d_general (acceptBounds : bool) (s : d2d_state) : option (Z * Z) :=
  match d2d_loop1 25 s with
  | None => None
  | Some s =>
      match (if d_vmz s then d2d_loop2 25 s else Some s) with
      | None => None
      | Some s =>
          let last := if d_vrz s && (d_last s =? 5) && (d_vr s mod 2 =? 0) then 4
                      else d_last s in
          Some (u64 (d_vr s + b2z (((d_vr s =? d_vm s) && (negb acceptBounds || negb (d_vmz s)))
                                   || (5 <=? last))),
                d_removed s)
      end
  end.
(** tg.c:9964-10000 Step 4, the common case *)
Definition d2d_common (s : d2d_state) : option (Z * Z) :=
  let s := D2 (d_vr s) (d_vp s) (d_vm s) false false 0 0 in
  let s := if d_vm s / 100 <? d_vp s / 100
           then D2 (d_vr s / 100) (d_vp s / 100) (d_vm s / 100) false
                   (50 <=? mod32 (d_vr s) 100) 0 2
           else s in
  match d2d_loop3 25 s with
  | None => None
  | Some s => Some (u64 (d_vr s + b2z ((d_vr s =? d_vm s) || d_vrz s)), d_removed s)
  end.

(** tg.c:9841-9880 Step 3 for e2 >= 0: the state and e10 *)
Definition d2d_pos (m2 e2 mmShift : Z) (acceptBounds : bool) : option (d2d_state * Z) :=
  let mv := 4 * m2 in
  match log10Pow2 e2 with
  | None => None
  | Some l =>
      let q := u32 (l - b2z (3 <? e2)) in
      match pow5bits q, nth_error DOUBLE_POW5_INV_SPLIT (Z.to_nat q) with
      | Some b, Some mul =>
          let k := 125 + b - 1 in
          let i := - e2 + q + k in
          match mulShiftAll64 m2 mul i mmShift with
          | None => None
          | Some (vr, vp, vm) =>
              if q <=? 21 then
                if mod32 mv 5 =? 0 then
                  match multipleOfPowerOf5 mv q with
                  | Some b => Some (D2 vr vp vm false b 0 0, q)
                  | None => None
                  end
                else if acceptBounds then
                  match multipleOfPowerOf5 (mv - 1 - mmShift) q with
                  | Some b => Some (D2 vr vp vm b false 0 0, q)
                  | None => None
                  end
                else
                  match multipleOfPowerOf5 (mv + 2) q with
                  | Some b => Some (D2 vr (u64 (vp - b2z b)) vm false false 0 0, q)
                  | None => None
                  end
              else Some (D2 vr vp vm false false 0 0, q)
          end
      | _, _ => None
      end
  end.
(** tg.c:9880-9912 Step 3 for e2 < 0 *)
Definition d2d_neg (m2 e2 mmShift : Z) (acceptBounds : bool) : option (d2d_state * Z) :=
  let mv := 4 * m2 in
  match log10Pow5 (- e2) with
  | None => None
  | Some l =>
      let q := u32 (l - b2z (1 <? - e2)) in
      let i := - e2 - q in
      match pow5bits i, nth_error DOUBLE_POW5_SPLIT (Z.to_nat i) with
      | Some b, Some mul =>
          let k := b - 125 in
          let j := q - k in
          match mulShiftAll64 m2 mul j mmShift with
          | None => None
          | Some (vr, vp, vm) =>
              if q <=? 1 then
                if acceptBounds then Some (D2 vr vp vm (mmShift =? 1) true 0 0, q + e2)
                else Some (D2 vr (u64 (vp - 1)) vm false true 0 0, q + e2)
              else if q <? 63 then
                match multipleOfPowerOf2 mv q with
                | Some b => Some (D2 vr vp vm false b 0 0, q + e2)
                | None => None
                end
              else Some (D2 vr vp vm false false 0 0, q + e2)
          end
      | _, _ => None
      end
  end.

(** tg.c:9820-10007 d2d: mantissa and decimal exponent *)
Definition d2d (ieeeMantissa ieeeExponent : Z) : option (Z * Z) :=
  let e2 := if ieeeExponent =? 0 then 1 - 1023 - 52 - 2 else ieeeExponent - 1023 - 52 - 2 in
  let m2 := if ieeeExponent =? 0 then ieeeMantissa else p52 + ieeeMantissa in
  let acceptBounds := m2 mod 2 =? 0 in
  let mmShift := b2z (negb (ieeeMantissa =? 0) || (ieeeExponent <=? 1)) in
  match (if 0 <=? e2 then d2d_pos m2 e2 mmShift acceptBounds
         else d2d_neg m2 e2 mmShift acceptBounds) with
  | None => None
  | Some (s, e10) =>
      match (if d_vmz s || d_vrz s then d2d_general acceptBounds s else d2d_common s) with
      | None => None
      | Some (output, removed) => Some (output, e10 + removed)
      end
  end.

(** two digits of tg.c:8868-8889 DIGIT_TABLE *)
Definition digit_pair (c : Z) : list Z := [48 + c / 10; 48 + c mod 10].

(** tg.c:10052-10083 the digits of a uint32_t, put before [acc].
    Simplification: the digits are a list, the C code stores them from the
    right at fixed places of the buffer; the first digit and the rest are
    parted by the decimal point in [to_chars64]. *)
Fixpoint digits32 (fuel : nat) (output2 : Z) (acc : list Z) : option (list Z) :=
  match fuel with
  | O => None
  | S k =>
      if 10000 <=? output2 then
        let c := output2 mod 10000 in
        digits32 k (output2 / 10000) (digit_pair (c / 100) ++ digit_pair (c mod 100) ++ acc)
      else
        let '(output2, acc) :=
          if 100 <=? output2 then (output2 / 100, digit_pair (output2 mod 100) ++ acc)
          else (output2, acc) in
        Some (if 10 <=? output2 then digit_pair output2 ++ acc else (48 + output2) :: acc)
  end.

(** tg.c:10018-10083 the digits of the mantissa *)
Definition digits64 (output : Z) : option (list Z) :=
  if output / 4294967296 =? 0 then digits32 3 (u32 output) []
  else
    let q := output / 100000000 in
    let output2 := u32 (u32 output - 100000000 * u32 q) in
    let c := output2 mod 10000 in
    let d := (output2 / 10000) mod 10000 in
    digits32 3 (u32 q)
      (digit_pair (d / 100) ++ digit_pair (d mod 100)
       ++ digit_pair (c / 100) ++ digit_pair (c mod 100)).

(** tg.c:10093-10109 the exponent *)
Definition exp_chars (e : Z) : list Z :=
  let a := Z.abs e in
  (if e <? 0 then str "-" else [])
  ++ (if 100 <=? a then digit_pair (a / 10) ++ [48 + a mod 10]
      else if 10 <=? a then digit_pair a
      else [48 + a]).

(** tg.c:10009-10112 to_chars64; [None] when the number of digits is not the
    olength the C code reserves for them *)
Definition to_chars64 (mantissa exponent : Z) (sign : bool) : option (list Z) :=
  match decimalLength17 mantissa, digits64 mantissa with
  | Some olength, Some (d :: ds) =>
      if (length ds + 1 =? olength)%nat then
        Some ((if sign then str "-" else [])
              ++ d :: (if (1 <? olength)%nat then str "." ++ ds else [])
              ++ str "E" ++ exp_chars (exponent + Z.of_nat olength - 1))
      else None
  | _, _ => None
  end.

(** tg.c:10114-10146 d2d_small_int: the mantissa, or [None] (false) *)
Definition d2d_small_int (ieeeMantissa ieeeExponent : Z) : option Z :=
  let m2 := p52 + ieeeMantissa in
  let e2 := ieeeExponent - 1023 - 52 in
  if 0 <? e2 then None
  else if e2 <? -52 then None
  else if negb (Z.land m2 (2 ^ (- e2) - 1) =? 0) then None
  else Some (m2 / 2 ^ (- e2)).

(** tg.c:10176-10184 the loop that moves trailing zeros into the exponent *)
Fixpoint trim_zeros (fuel : nat) (mantissa exponent : Z) : option (Z * Z) :=
  match fuel with
  | O => None
  | S k =>
      if negb (mod32 mantissa 10 =? 0) then Some (mantissa, exponent)
      else trim_zeros k (mantissa / 10) (exponent + 1)
  end.

(** tg.c:10148-10190 d2s_buffered_n, 8847-8863 copy_special_str *)
Definition d2s_buffered_n (f : f64) : option (list Z) :=
  let ieeeSign := f_sign f in
  let ieeeMantissa := f mod p52 in
  let ieeeExponent := (f / p52) mod 2048 in
  if (ieeeExponent =? 2047) || ((ieeeExponent =? 0) && (ieeeMantissa =? 0)) then
    if negb (ieeeMantissa =? 0) then Some (str "NaN")
    else Some ((if ieeeSign then str "-" else [])
               ++ if negb (ieeeExponent =? 0) then str "Infinity" else str "0E0")
  else
    match d2d_small_int ieeeMantissa ieeeExponent with
    | Some m =>
        match trim_zeros 20 m 0 with
        | Some (m, e) => to_chars64 m e ieeeSign
        | None => None
        end
    | None =>
        match d2d ieeeMantissa ieeeExponent with
        | Some (m, e) => to_chars64 m e ieeeSign
        | None => None
        end
    end.

(** tg.c:11144-11149 the text before and after the last E or e, if any *)
Fixpoint split_exp (p : list Z) : option (list Z * list Z) :=
  match p with
  | [] => None
  | c :: r =>
      match split_exp r with
      | Some (a, b) => Some (c :: a, b)
      | None => if (c =? 69) || (c =? 101) then Some ([], r) else None
      end
  end.

(** the digits of C atoi (stdlib.h), called at tg.c:11173 *)
Fixpoint atoi_digits (acc : Z) (l : list Z) : Z :=
  match l with
  | c :: r => if (48 <=? c) && (c <=? 57) then atoi_digits (10 * acc + (c - 48)) r else acc
  | [] => acc
  end.
(** C atoi (stdlib.h), called at tg.c:11173, on text without leading spaces *)
Definition atoi (l : list Z) : Z :=
  match l with
  | 45 :: r => - atoi_digits 0 r
  | _ => atoi_digits 0 l
  end.

(** tg.c:11188-11194 the first [en] digits, padded with 0, and what remains *)
Fixpoint pad_digits (en : nat) (p : list Z) : list Z * list Z :=
  match en with
  | O => ([], p)
  | S k =>
      match p with
      | c :: r => let '(a, b) := pad_digits k r in (c :: a, b)
      | [] => let '(a, b) := pad_digits k [] in (48 :: a, b)
      end
  end.

(** tg.c:11175-11199 the fixed notation of the mantissa text [p] (after the
    sign) with exponent [en] *)
Definition fixed_chars (p : list Z) (en : Z) : list Z :=
  if en <? 0 then
    str "0." ++ repeat 48 (Z.to_nat (- en - 1))
    ++ match p with
       | [] => [0]
       | c :: [] => [c]
       | c :: _ :: r => c :: r
       end
  else
    match p with
    | [] => [0]
    | c :: r =>
        let '(a, b) := pad_digits (Z.to_nat en) (tl r) in
        c :: a ++ (match b with
                   | [] => []
                   | 48 :: [] => []
                   | _ => str "." ++ b
                   end)
    end.

(** tg.c:11116-11240 fp_utoa for 64 bits and the formats 'f' ([g] false) and
    'g' ([g] true): the text of the first pass, and of the rewriting pass if
    there is one.  A NUL written by [fixed_chars] (empty mantissa) cannot
    happen for text made by to_chars64. *)
Definition fp_utoa_text (g : bool) (buf : list Z) : list Z * option (list Z) :=
  let neg := match buf with 45 :: _ => true | _ => false end in
  let p := if neg then tl buf else buf in
  let sg := if neg then str "-" else [] in
  match split_exp p with
  | None =>
      (sg ++ match p with
             | c :: _ =>
                 if (c =? 105) || (c =? 73) then str "Infinity"
                 else if (c =? 110) || (c =? 78) then str "NaN" else []
             | [] => []
             end, None)
  | Some (a, b) =>
      let t := sg ++ fixed_chars a (atoi b) in
      (t, if g && (length buf <? length t)%nat then Some (sg ++ a ++ str "e" ++ b) else None)
  end.

(** tg.c:11007-11010 fp_write_nullterm of a struct fp_writer that begins at
    place [base] of the buffer *)
Definition fp_write_nullterm (base : nat) : W := fun w =>
  if (w_count w <? w_n w)%nat then Some (Wr (store (w_dst w) (w_count w) [0]) (w_count w))
  else if (base <? w_n w)%nat then Some (Wr (store (w_dst w) (w_n w - 1) [0]) (w_count w))
  else Some w.

(** tg.c:11216 a new struct fp_writer at place [base]: counting starts again *)
Definition fp_rewind (base : nat) : W := fun w => Some (Wr (w_dst w) base).

(** tg.c:11116-11240 fp_utoa writing at the end of [w] *)
Definition fp_dtoa (g : bool) (f : f64) : W := fun w =>
  let base := w_count w in
  match d2s_buffered_n f with
  | None => None
  | Some buf =>
      let '(t1, t2) := fp_utoa_text g buf in
      match t2 with
      | None => (write_string t1 ;; fp_write_nullterm base) w
      | Some t2 =>
          (write_string t1 ;; fp_write_nullterm base ;; fp_rewind base ;;
           write_string t2 ;; fp_write_nullterm base) w
      end
  end.

(** tg.c:11325-11337 write_string_double; [fixed] is the global
    print_fixed_floats (tg.c:8790) *)
Definition write_string_double (fixed : bool) (f : f64) : W :=
  if negb (f_isnormal f) then write_byte 48
  else fp_dtoa (negb fixed) f.

(** ** strtod *)

(** the double nearest to (-1)^neg * m * 10^e10: what the C library's strtod
    (tg.c:7524, 12105, 12178) returns for that decimal (correctly rounded, ties
    to even; an overflow gives an infinity).  Assumed of the C library. *)
Definition dec_round (neg : bool) (m e10 : Z) : f64 :=
  match m with
  | Zpos p =>
      if 0 <=? e10 then
        match m * 10 ^ e10 with
        | Zpos n => f_enc (binary_round 53 1024 neg n 0)
        | _ => f_signbit neg
        end
      else
        match 10 ^ (- e10) with
        | Zpos d =>
            let '(mz, ez, lz) := SFdiv_core_binary 53 1024 (Zpos p) 0 (Zpos d) 0 in
            f_enc (binary_round_aux 53 1024 neg mz ez lz)
        | _ => f_signbit neg
        end
  | _ => f_signbit neg
  end.

(** a byte that strtod (tg.c:12105) may take into a number: digits, letters,
    dot and signs *)
Definition num_byte (c : Z) : bool :=
  ((48 <=? c) && (c <=? 57)) || ((65 <=? c) && (c <=? 90)) || ((97 <=? c) && (c <=? 122))
  || (c =? 46) || (c =? 43) || (c =? 45).

(** the leading digits of strtod's text (tg.c:12105): their number as an
    integer, how many, and the rest *)
Fixpoint dec_digits (acc : Z) (k : nat) (l : list Z) : Z * nat * list Z :=
  match l with
  | c :: r =>
      if (48 <=? c) && (c <=? 57) then dec_digits (10 * acc + (c - 48)) (S k) r
      else (acc, k, l)
  | [] => (acc, k, [])
  end.

(** the exponent part of strtod's text (tg.c:12105): 0 if there is none, and
    the rest *)
Definition dec_exp (l : list Z) : Z * list Z :=
  match l with
  | c :: r =>
      if (c =? 101) || (c =? 69) then
        let '(neg, r1) :=
          match r with
          | 45 :: r1 => (true, r1)
          | 43 :: r1 => (false, r1)
          | _ => (false, r)
          end in
        let '(e, k, r2) := dec_digits 0 0 r1 in
        if (k =? 0)%nat then (0, l) else ((if neg then - e else e), r2)
      else (0, l)
  | [] => (0, [])
  end.

(** strtod on text (tg.c:12105) that begins with a sign, a digit or a dot: the
    value of the longest decimal number at its start and the rest of the text.
    Simplification: a hexadecimal number (0x...) reads as its leading 0; tg.c
    rejects the text after it.  In the C locale. *)
Definition strtod (l : list Z) : f64 * list Z :=
  let '(neg, r0) := match l with
                    | 45 :: r => (true, r)
                    | 43 :: r => (false, r)
                    | _ => (false, l)
                    end in
  let '(m1, k1, r1) := dec_digits 0 0 r0 in
  let '(m2, k2, r2) := match r1 with
                       | 46 :: r => dec_digits m1 0 r
                       | _ => (m1, 0%nat, r1)
                       end in
  if (k1 + k2 =? 0)%nat then (0, l)
  else let '(e, r3) := dec_exp r2 in
       (dec_round neg m2 (e - Z.of_nat k2), r3).

(** strtod called on a place of a buffer whose rest is [l] (tg.c:12105, 12178):
    it reads on until a byte that ends the number, so [Oob] when the buffer
    ends first *)
Fixpoint strtod_in (l : list Z) : out (list Z) :=
  match l with
  | [] => Oob
  | c :: r => if num_byte c then obind (strtod_in r) (fun t => Ok (c :: t)) else Ok []
  end.
