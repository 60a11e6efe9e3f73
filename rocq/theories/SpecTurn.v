(** * Turns and signed area of a polygon with integer vertices *)

From Coq Require Import ZArith Reals List.
From Verif Require Import F64 Geo F64Real.
Import ListNotations.
Local Open Scope Z_scope.

Definition vertex : Type := Z * Z.

(** the point has exactly these integer coordinates *)
Definition stands_for (p : pt) (v : vertex) : Prop :=
  (fin (px p) /\ RV (px p) = IZR (fst v)) /\ (fin (py p) /\ RV (py p) = IZR (snd v)).
Definition points_stand_for : list pt -> list vertex -> Prop := Forall2 stands_for.

(** every coordinate has magnitude at most m *)
Definition within (m : Z) (vs : list vertex) : Prop :=
  forall v, In v vs -> Z.abs (fst v) <= m /\ Z.abs (snd v) <= m.

(** positive when a, b, c is a left turn, negative when it is a right turn *)
Definition turn (a b c : vertex) : Z :=
  (fst b - fst a) * (snd c - snd b) - (snd b - snd a) * (fst c - fst b).

(** k-th vertex around the polygon *)
Definition vertex_at (vs : list vertex) (k : nat) : vertex := nth (k mod length vs) vs (0, 0).
(** turn at the vertex after the k-th *)
Definition turn_after (vs : list vertex) (k : nat) : Z :=
  turn (vertex_at vs k) (vertex_at vs (k + 1)) (vertex_at vs (k + 2)).
(** no left turn together with a right turn *)
Definition turns_one_way (vs : list vertex) : Prop :=
  ~ exists i j, 0 < turn_after vs i /\ turn_after vs j < 0.

(** twice the signed area (shoelace formula), positive for counter-clockwise *)
Fixpoint shoelace_path (vs : list vertex) : Z :=
  match vs with
  | a :: ((b :: _) as rest) => fst a * snd b - fst b * snd a + shoelace_path rest
  | _ => 0
  end.
Definition shoelace (vs : list vertex) : Z :=
  match vs with [] => 0 | a :: _ => shoelace_path (vs ++ [a]) end.

(** the corners of the outline: a vertex equal to the next one around the
    polygon is dropped, so a repeated first point is dropped too *)
Definition same (a b : vertex) : bool := (fst a =? fst b) && (snd a =? snd b).
Fixpoint drop_repeats (first : vertex) (vs : list vertex) : list vertex :=
  match vs with
  | [] => []
  | a :: rest =>
      if same a (hd first rest) then drop_repeats first rest
      else a :: drop_repeats first rest
  end.
Definition corners (vs : list vertex) : list vertex := drop_repeats (hd (0, 0) vs) vs.
