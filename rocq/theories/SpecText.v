(** * What it means for writing code to print a text *)

From Coq Require Import ZArith Bool String List.
From Verif Require Import F64 Geo Series RingApi Bytes Geom Writer.
Import ListNotations.
Local Open Scope Z_scope.

(** As snprintf does: whatever the size of the caller's buffer, the length of the
    whole text is counted, and a buffer of n > 0 bytes is left holding the first
    n - 1 bytes of the text and then a zero byte. *)
Definition printed (f : W) (text : list Z) : Prop :=
  forall dst, exists w, f (Wr dst 0) = Some w /\
    w_count w = length text /\ length (w_dst w) = length dst /\
    (dst <> [] ->
     exists tail, w_dst w = firstn (length dst - 1) text ++ 0 :: tail).

(** the same contract for the call as a whole, which returns the length *)
Definition prints_text (f : list Z -> option (nat * list Z)) (text : list Z) : Prop :=
  forall dst, exists buf, f dst = Some (length text, buf) /\ length buf = length dst /\
    (dst <> [] -> exists tail, buf = firstn (length dst - 1) text ++ 0 :: tail).

(** the value of a string of decimal digits *)
Definition decimal_value (ds : list Z) : Z := fold_left (fun a c => 10 * a + (c - 48)) ds 0.

(** [ds] is how the integer [n] is written: a minus sign if it is negative, then
    digits, the first of them not zero unless it is the only one *)
Definition plain_decimal (n : Z) (t : list Z) : Prop :=
  exists d ds, t = (if n <? 0 then str "-" else []) ++ d :: ds /\
    (forall c, In c (d :: ds) -> 48 <= c <= 57) /\ (d = 48 -> ds = []) /\
    decimal_value (d :: ds) = Z.abs n.

(** the doubles that a geometry holds *)
Definition pt_doubles (p : pt) : list f64 := [px p; py p].
Definition ring_doubles (r : ring) : list f64 :=
  flat_map pt_doubles (r_points r) ++ pt_doubles (rmin (r_rect r)) ++ pt_doubles (rmax (r_rect r)).
Definition opt_doubles {A : Type} (f : A -> list f64) (o : option A) : list f64 :=
  match o with Some a => f a | None => [] end.
Definition poly_doubles (p : poly) : list f64 :=
  match p with
  | PRing r => ring_doubles r
  | PPoly r hs => ring_doubles r ++ flat_map (opt_doubles ring_doubles) hs
  end.
Fixpoint doubles_of (g : geom) : list f64 :=
  match g with
  | GPoint _ p => pt_doubles p
  | GLine _ l => ring_doubles l
  | GPoly _ p => poly_doubles p
  | GGPoint _ p z m _ => pt_doubles p ++ [z; m]
  | GGLine _ l c _ => opt_doubles ring_doubles l ++ c
  | GGPoly _ p c _ => opt_doubles poly_doubles p ++ c
  | GGMulti _ _ None c _ => c
  | GGMulti _ _ (Some gs) c _ => flat_map (fun o => match o with Some g => doubles_of g | None => [] end) gs ++ c
  end.
(** each of them is 64 bits *)
Definition all_bits (l : list f64) : Prop := Forall (fun x => 0 <= x < 2 ^ 64) l.

(** There is a NULL that the text writers would follow: a line or polygon that is
    not empty and has no points, a NULL hole, a child of a multi-geometry that is
    not of its type, a NULL child of a collection. *)
Definition poly_null (p : option poly) : Prop :=
  match p with
  | None => True
  | Some (PRing _) => False
  | Some (PPoly _ hs) => In None hs
  end.
Fixpoint has_null (g : geom) : Prop :=
  match g with
  | GPoint _ _ | GLine _ _ | GGPoint _ _ _ _ _ => False
  | GPoly _ p => poly_null (Some p)
  | GGLine f l _ _ => is_empty f = false /\ l = None
  | GGPoly f p _ _ => is_empty f = false /\ poly_null p
  | GGMulti _ _ None _ _ => False
  | GGMulti t _ (Some gs) _ _ =>
      match t with
      | MPoints => False
      | MLines => Exists (fun o => tg_geom_line o = None) gs
      | MPolys => Exists (fun o => poly_null (tg_geom_poly o)) gs
      | MGeoms =>
          (fix any (l : list (option geom)) : Prop :=
             match l with
             | [] => False
             | o :: rest => match o with Some g => has_null g | None => True end \/ any rest
             end) gs
      end
  end.
