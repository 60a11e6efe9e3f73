(** * Doubles and floats used by tg.c

    A C [double] is its 64-bit pattern, a [Z] between 0 and 2^64-1, so that the
    codecs keep NaN payloads and signed zeros.  Ordering is ordering of the
    sign-magnitude key.  Arithmetic decodes to the standard library's
    [spec_float], applies the correctly rounded operation (nearest, ties to
    even, which is the default C environment) and encodes again.

    Simplification: an arithmetic operation that yields a NaN yields one fixed
    quiet NaN; tg.c never looks at a payload. *)

From Coq Require Import ZArith Bool List Lia.
From Coq Require Import Floats.SpecFloat.
Local Open Scope Z_scope.

(** tg.h:22-25 (the C type double) *)
Definition f64 := Z.

(** 2^52; constants of the binary64 layout (IEEE 754) of the C type double, tg.h:22-25 *)
Definition p52 : Z := 4503599627370496.            (* 2^52 *)
(** 2^63, layout of the C type double (tg.h:22-25) *)
Definition p63 : Z := 9223372036854775808.         (* 2^63 *)
(** 2^64, layout of the C type double (tg.h:22-25) *)
Definition p64 : Z := 18446744073709551616.        (* 2^64 *)
(** 0x7FF0000000000000, the pattern of infinity (tg.h:22-25) *)
Definition inf_mag : Z := 9218868437227405312.     (* 0x7FF0000000000000 *)

(** a well-formed pattern (C type double, tg.h:22-25) *)
Definition f_wf (x : f64) : bool := (0 <=? x) && (x <? p64).

(** sign bit (IEEE 754 layout of the C type double, tg.h:22-25) *)
Definition f_sign (x : f64) : bool := p63 <=? x.
(** pattern without its sign bit (C type double, tg.h:22-25) *)
Definition f_mag (x : f64) : Z := if f_sign x then x - p63 else x.
(** C isnan, tg.c:16 (math.h) *)
Definition f_isnan (x : f64) : bool := inf_mag <? f_mag x.
(** C isinf (math.h, tg.c:16) *)
Definition f_isinf (x : f64) : bool := inf_mag =? f_mag x.
(** C isfinite (math.h, tg.c:16) *)
Definition f_isfinite (x : f64) : bool := f_mag x <? inf_mag.
(** C isnormal, used at tg.c:11326 (write_string_double) *)
Definition f_isnormal (x : f64) : bool := (p52 <=? f_mag x) && (f_mag x <? inf_mag).

(** order key (for the comparisons such as tg.c:829): for non-NaN patterns, a < b as doubles iff key a < key b *)
Definition f_key (x : f64) : Z := if f_sign x then - f_mag x else f_mag x.

(** C operator < on double, e.g. tg.c:829; all comparisons but != are false on
    NaN *)
Definition flt (x y : f64) : bool :=
  negb (f_isnan x) && negb (f_isnan y) && (f_key x <? f_key y).
(** C operator > on double, e.g. tg.c:813-814 *)
Definition fgt (x y : f64) : bool := flt y x.
(** C operator <= on double, e.g. tg.c:1393 *)
Definition fle (x y : f64) : bool :=
  negb (f_isnan x) && negb (f_isnan y) && (f_key x <=? f_key y).
(** C operator >= on double, e.g. tg.c:1418 *)
Definition fge (x y : f64) : bool := fle y x.
(** C operator == on double, e.g. tg.c:1200 *)
Definition feqb (x y : f64) : bool :=
  negb (f_isnan x) && negb (f_isnan y) && (f_key x =? f_key y).
(** C operator != on double, e.g. tg.c:1182 *)
Definition fneb (x y : f64) : bool := negb (feqb x y).

(** decoding to the standard library's float values (binary64 layout,
    C type double, tg.h:22-25) *)
Definition f_dec (x : f64) : spec_float :=
  let s := f_sign x in
  let m := f_mag x in
  let e := m / p52 in
  let f := m mod p52 in
  if e =? 0 then
    match f with
    | Zpos p => S754_finite s p (-1074)
    | _ => S754_zero s
    end
  else if e =? 2047 then
    if f =? 0 then S754_infinity s else S754_nan
  else
    match f + p52 with
    | Zpos p => S754_finite s p (e - 1075)
    | _ => S754_nan
    end.

(** the quiet NaN produced by arithmetic on the C type double (tg.h:22-25) *)
Definition f_nan : f64 := 9221120237041090560.     (* 0x7FF8000000000000 *)
(** the sign bit as a number (layout of the C type double, tg.h:22-25) *)
Definition f_signbit (s : bool) : Z := if s then p63 else 0.

(** encoding (binary64 layout, C type double, tg.h:22-25) *)
Definition f_enc (v : spec_float) : f64 :=
  match v with
  | S754_zero s => f_signbit s
  | S754_infinity s => f_signbit s + inf_mag
  | S754_nan => f_nan
  | S754_finite s m e => f_signbit s + ((e + 1074) * p52 + Zpos m)
  end.

(** C operator + on double, e.g. tg.c:879 *)
Definition fadd (x y : f64) : f64 := f_enc (SFadd 53 1024 (f_dec x) (f_dec y)).
(** C operator - on double, e.g. tg.c:879 *)
Definition fsub (x y : f64) : f64 := f_enc (SFsub 53 1024 (f_dec x) (f_dec y)).
(** C operator * on double, e.g. tg.c:879 *)
Definition fmul (x y : f64) : f64 := f_enc (SFmul 53 1024 (f_dec x) (f_dec y)).
(** C operator / on double, e.g. tg.c:1697 *)
Definition fdiv (x y : f64) : f64 := f_enc (SFdiv 53 1024 (f_dec x) (f_dec y)).
(** C sqrt, used at tg.c:879, 14678 *)
Definition fsqrt (x : f64) : f64 := f_enc (SFsqrt 53 1024 (f_dec x)).
(** C fabs, tg.c:2094 *)
Definition fabs (x : f64) : f64 := f_mag x.

(** C conversion double -> float -> double: the value of (double)(float)x.
    Implicit conversions at tg.c:1531-1534 and 1583-1584. *)
Definition f_to_f32 (x : f64) : f64 :=
  match f_dec x with
  | S754_finite s m e =>
      match binary_round 24 128 s m e with
      | S754_finite s' m' e' => f_enc (binary_round 53 1024 s' m' e')
      | v => f_enc v
      end
  | v => f_enc v
  end.

(** C conversion int -> double, e.g. tg.c:2701 (exact for |n| < 2^53) *)
Definition f_of_Z (n : Z) : f64 := f_enc (binary_normalize 53 1024 n 0 false).

(** C conversion double -> integer type by truncation (e.g. tg.c:2701); [None] for NaN and
    infinity, where the C conversion is undefined.  The caller checks the
    range of the integer type. *)
Definition f_trunc (x : f64) : option Z :=
  match f_dec x with
  | S754_zero _ => Some 0
  | S754_finite s m e =>
      let a := if 0 <=? e then Zpos m * 2 ^ e else Zpos m / 2 ^ (- e) in
      Some (if s then - a else a)
  | _ => None
  end.

(** C conversion double -> int: undefined ([None]) outside the int range.
    tg.c:1676, 1697-1698, 2709. *)
Definition f_to_int (x : f64) : option Z :=
  match f_trunc x with
  | Some n => if (-2147483648 <=? n) && (n <=? 2147483647) then Some n else None
  | None => None
  end.

(** the constant 0, e.g. tg.c:833 *)
Definition f_zero : f64 := 0.
(** the constant 1, e.g. tg.c:1401 *)
Definition f_one : f64 := 4607182418800017408.
(** the constant 2.0, e.g. tg.c:2094 *)
Definition f_two : f64 := 4611686018427387904.
(** C INFINITY, e.g. tg.c:868 *)
Definition f_pinf : f64 := inf_mag.
(** C -INFINITY, e.g. tg.c:866 *)
Definition f_ninf : f64 := p63 + inf_mag.

(** C nexttoward(x, INFINITY), used at tg.c:868, 873, 1226 *)
Definition f_nextup (x : f64) : f64 :=
  if f_isnan x then x
  else if f_sign x then
    (if f_mag x =? 0 then 1 else x - 1)
  else (if f_mag x =? inf_mag then x else x + 1).
(** C nexttoward(x, -INFINITY), used at tg.c:866, 871 *)
Definition f_nextdown (x : f64) : f64 :=
  if f_isnan x then x
  else if f_sign x then
    (if f_mag x =? inf_mag then x else x + 1)
  else (if f_mag x =? 0 then p63 + 1 else x - 1).

(** tg.c:790-798, 810-815 fmin0/fmax0: minsd/maxsd return the second operand
    unless the comparison holds; the portable branch is the same expression.
    (The arm64 branch uses fmin/fmax, which differs only for NaN and for the
    sign of zero; not modelled.) *)
Definition fmin0 (x y : f64) : f64 := if flt x y then x else y.
(** tg.c:795-798, 813-815 fmax0 *)
Definition fmax0 (x y : f64) : f64 := if fgt x y then x else y.

(** tg.c:824-826 fclamp0 *)
Definition fclamp0 (f mn mx : f64) : f64 := fmin0 (fmax0 f mn) mx.

(** tg.c:828-830 feq: true when unordered *)
Definition feq (x y : f64) : bool := negb (flt x y || fgt x y).
(** tg.c:832-834 eq_zero *)
Definition eq_zero (x : f64) : bool := feq x f_zero.

(** tg.c:1512-1518 fnext0: d * vals[((d<0)+dir)&1] *)
Definition fvals0 : f64 := 4607182417726275584.   (* 1.0 - 1.0/8388608.0 *)
(** tg.c:1513-1516 vals[1] *)
Definition fvals1 : f64 := 4607182419336888320.   (* 1.0 + 1.0/8388608.0 *)
(** tg.c:1520-1522 fdown/fup *)
Definition fdown (d : f64) : f64 := fmul d (if flt d f_zero then fvals1 else fvals0).
(** tg.c:1524-1526 fup *)
Definition fup (d : f64) : f64 := fmul d (if flt d f_zero then fvals0 else fvals1).

(** Conversion tests should unfold the arithmetic last (a hint to the
    conversion checker only; nothing is assumed or skipped). *)
Global Strategy 100 [f_dec f_enc fadd fsub fmul fdiv fsqrt f_to_f32 f_of_Z f_trunc f_to_int].
