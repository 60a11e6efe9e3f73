(** * The parts of a JSON value *)

From Coq Require Import ZArith Bool List.
From Verif Require Import SpecJson JsonTok.
Import ListNotations.
Local Open Scope Z_scope.

(** A value of RFC 8259. *)
Definition jvalue (n : nat) (v : list Z) : Prop := value rfc_char false n v.

(** A token stands for the value text [v], followed in the text by [r]. *)
Definition denotes (j : json) (v r : list Z) : Prop :=
  json_exists j = true /\ json_raw j = v ++ r /\ json_raw_length j = length v.

(** The texts between the brackets of an array, each with what follows it there. *)
Inductive elements_are (n : nat) : list Z -> list (list Z * list Z) -> Prop :=
  | els_one w1 v w2 :
      ws w1 -> jvalue n v -> ws w2 -> elements_are n (w1 ++ v ++ w2) [(v, w2)]
  | els_more w1 v w2 es l :
      ws w1 -> jvalue n v -> ws w2 -> elements_are n es l ->
      elements_are n (w1 ++ v ++ w2 ++ 44 :: es) ((v, w2 ++ 44 :: es) :: l).
Definition behind (e : list Z) (p : list Z * list Z) : list Z * list Z := (fst p, snd p ++ e).
Inductive array_is (n : nat) : list Z -> list (list Z * list Z) -> Prop :=
  | arr_none w : ws w -> array_is n (91 :: w ++ [93]) []
  | arr_some es l : elements_are n es l -> array_is n (91 :: es ++ [93]) (map (behind [93]) l).

(** The members of an object: the key without its quotes and what follows it, the
    value and what follows that. *)
Definition member : Type := (list Z * list Z) * (list Z * list Z).
Inductive members_are (n : nat) : list Z -> list member -> Prop :=
  | mem_one w1 k w2 w3 v w4 :
      ws w1 -> chars rfc_char k -> ws w2 -> ws w3 -> jvalue n v -> ws w4 ->
      members_are n (w1 ++ 34 :: k ++ 34 :: w2 ++ 58 :: w3 ++ v ++ w4)
        [((k, w2 ++ 58 :: w3 ++ v ++ w4), (v, w4))]
  | mem_more w1 k w2 w3 v w4 ms l :
      ws w1 -> chars rfc_char k -> ws w2 -> ws w3 -> jvalue n v -> ws w4 -> members_are n ms l ->
      members_are n (w1 ++ 34 :: k ++ 34 :: w2 ++ 58 :: w3 ++ v ++ w4 ++ 44 :: ms)
        (((k, w2 ++ 58 :: w3 ++ v ++ w4 ++ 44 :: ms), (v, w4 ++ 44 :: ms)) :: l).
Definition mbehind (e : list Z) (m : member) : member := (behind e (fst m), behind e (snd m)).
Inductive object_is (n : nat) : list Z -> list member -> Prop :=
  | obj_none w : ws w -> object_is n (123 :: w ++ [125]) []
  | obj_some ms l : members_are n ms l -> object_is n (123 :: ms ++ [125]) (map (mbehind [125]) l).

(** What json_first and json_next meet in an object: keys with their quotes, and
    values. *)
Definition parts_of (l : list member) : list (list Z * list Z) :=
  flat_map (fun m => [(34 :: fst (fst m) ++ [34], snd (fst m)); snd m]) l.

(** The type of a value text, by its grammar. *)
Inductive type_is : list Z -> Z -> Prop :=
  | t_null : type_is lit_null 0
  | t_false : type_is lit_false 1
  | t_number s : number s -> type_is s 2
  | t_string s : type_is (34 :: s) 3
  | t_true : type_is lit_true 4
  | t_array s : type_is (91 :: s) 5
  | t_object s : type_is (123 :: s) 6.

(** The value of the first member of that name; [names]: the names of the members
    [l], decoded. *)
Fixpoint lookup (name : list Z) (names : list (list Z)) (l : list member) : option (list Z * list Z) :=
  match names, l with
  | t :: names, m :: l =>
      if list_eq_dec Z.eq_dec t name then Some (snd m) else lookup name names l
  | _, _ => None
  end.

(** the pairs of escapes that are decoded right, as in C44 *)
Definition right_pair (cp : Z) : Prop :=
  high_unit cp <> 0xD800 /\ low_unit cp <> 0xDC00 /\ Z.odd (cp / 0x10000) = true.
