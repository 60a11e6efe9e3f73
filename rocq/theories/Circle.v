(** * Circles: rings made of points at equal angles *)

From Coq Require Import ZArith Bool List.
From Verif Require Import F64 Geo Series RingApi.
Import ListNotations.
Local Open Scope Z_scope.

(** tg.c:14649 the constant 360.0 *)
Definition f_360 : f64 := 4645040803167600640.
(** tg.c:14650 the constant 180.0 *)
Definition f_180 : f64 := 4640537203540230144.

(** tg.c:14650-14653 the point at [th] degrees.  cos and sin are the C
    library's: any two functions *)
Definition circle_point (cs sn : f64 -> f64) (c : pt) (radius th : f64) : pt :=
  let radians := fmul (fdiv f_pi f_180) th in
  Pt (fadd (px c) (fmul radius (cs radians))) (fadd (py c) (fmul radius (sn radians))).

(** tg.c:14649-14655 what becomes of the loop: it ends with [i] points stored, the last one
    first; it stores past the end of the points; the fuel is used up *)
Inductive filled :=
| Fill (i : Z) (points : list pt)
| FillPast
| FillLoops.

(** tg.c:14648-14655 the loop over the angles; the points have room for
    steps + 1, slots 0 to steps *)
Fixpoint circle_loop (fuel : nat) (cs sn : f64 -> f64) (c : pt) (radius inc : f64) (steps : Z)
    (th : f64) (i : Z) (points : list pt) : filled :=
  if negb (fle th f_360) then Fill i points
  else match fuel with
  | O => FillLoops
  | S fuel =>
      if steps <? i then FillPast
      else circle_loop fuel cs sn c radius inc steps (fadd th inc) (i + 1)
             (circle_point cs sn c radius th :: points)
  end.

(** tg.c:14642-14661 what becomes of the call: a ring (or NULL); the signed decrement of the least int; a store past the
    end of the points; slots read that were never stored to; fuel used up *)
Inductive circle :=
| CircRing (r : option ring)
| CircOverflow
| CircPast
| CircUnset
| CircLoops.

(** tg.c:14639-14662 tg_circle_new_ix.  The allocation of the points is taken
    to succeed. *)
Definition tg_circle_new_ix (fuel : nat) (cs sn : f64 -> f64) (e : env) (c : pt) (radius : f64)
    (steps ix : Z) : circle :=
  if steps <=? -2147483648 then CircOverflow
  else
    let steps := steps - 1 in
    let radius := if flt radius f_zero then f_zero else radius in
    let steps := if steps <? 3 then 3 else steps in
    match circle_loop fuel cs sn c radius (fdiv f_360 (f_of_Z steps)) steps f_zero 0 [] with
    | FillPast => CircPast
    | FillLoops => CircLoops
    | Fill i points =>
        if i <? steps then CircUnset
        else
          let points := firstn (Z.to_nat steps) (rev points) in
          CircRing (series_new_ix e (points ++ firstn 1 points) true ix)
    end.

(** tg.c:14664-14666 tg_circle_new: the default index *)
Definition tg_circle_new (fuel : nat) (cs sn : f64 -> f64) (e : env) (c : pt) (radius : f64) (steps : Z) : circle :=
  tg_circle_new_ix fuel cs sn e c radius steps 0.
