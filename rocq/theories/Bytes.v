(** * Byte strings *)

From Coq Require Import ZArith Bool String Ascii List.
Import ListNotations.
Local Open Scope Z_scope.

(** A C string literal as the list of its bytes, NUL not included.
    (Used for the literals that appear in tg.c, e.g. tg.c:13281-13283.) *)
Definition str (s : string) : list Z :=
  map (fun a => Z.of_N (N_of_ascii a)) (list_ascii_of_string s).

(** Outcome of a piece of parsing code.  [Err]: the code reports this message.
    [Oob]: a read outside the input.  [Ub]: some other undefined behaviour.
    [NoFuel]: the bound given to a loop of the model ran out (never happens,
    see the facts files).  (E.g. the results of tg.c:13325-13365.) *)
Inductive out (A : Type) :=
  | Ok (a : A) | Err (msg : list Z) | Oob | Ub | NoFuel.
Arguments Ok {A}. Arguments Err {A}. Arguments Oob {A}. Arguments Ub {A}. Arguments NoFuel {A}.

(** sequencing of outcomes: "if (i == PARSE_FAIL) return", e.g. tg.c:13382 *)
Definition obind {A B : Type} (x : out A) (f : A -> out B) : out B :=
  match x with
  | Ok a => f a
  | Err m => Err m
  | Oob => Oob
  | Ub => Ub
  | NoFuel => NoFuel
  end.

(** tg.c:13285-13301 read_uint32 / read_uint64 over the bytes read: the shifted
    bytes are disjoint, so the | of tg.c is +.  With [swap] the bytes are taken
    in the opposite order (__builtin_bswap).  Little-endian host. *)
Definition le_val (bs : list Z) : Z := fold_right (fun b acc => b + 256 * acc) 0 bs.
(** tg.c:13285-13301, the swap argument of read_uint32 and read_uint64 *)
Definition rd_val (swap : bool) (bs : list Z) : Z := le_val (if swap then rev bs else bs).

(** k bytes from the front of the input (tg.c:13303-13318), [None] = read outside *)
Definition take_bytes (k : nat) (bs : list Z) : option (list Z * list Z) :=
  if (length bs <? k)%nat then None else Some (firstn k bs, skipn k bs).

(** tg.c:8732-8742 write_uint32le, write_uint64le: k bytes, least first *)
Fixpoint le_bytes (k : nat) (x : Z) : list Z :=
  match k with
  | O => []
  | S k' => x mod 256 :: le_bytes k' (x / 256)
  end.
