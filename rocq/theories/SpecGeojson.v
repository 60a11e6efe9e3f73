(** * What the GeoJSON theorems speak about *)

From Coq Require Import ZArith Bool String List.
From Verif Require Import F64 Geo Series Bytes Geom Json JsonTok.
Import ListNotations.
Local Open Scope Z_scope.

(** how many collections are nested in one another, the geometry itself included *)
Fixpoint collection_depth (g : geom) : nat :=
  match g with
  | GGMulti _ _ (Some l) _ _ =>
      S ((fix deepest (l : list (option geom)) : nat :=
            match l with
            | [] => O
            | Some g :: rest => Nat.max (collection_depth g) (deepest rest)
            | None :: rest => deepest rest
            end) l)
  | _ => O
  end.

(** the tokens of a text: the first one, and what json_first, json_next and
    json_ensure make of a token *)
Inductive token_of (s : list Z) : json -> Prop :=
| tok_root : token_of s (json_parsen s)
| tok_first j : token_of s j -> token_of s (json_first j)
| tok_next j : token_of s j -> token_of s (json_next j)
| tok_ensure j : token_of s j -> token_of s (json_ensure j).
