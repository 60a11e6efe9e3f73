(** * What the iteration over nearest segments has to deliver

    Only comparisons of doubles, lists and permutations are used here. *)

From Coq Require Import ZArith Bool List Permutation Sorted.
From Verif Require Import F64 Geo SpecGeo.
Import ListNotations.

(** A distance callback is called with *more = 0 first and called again, with
    the value it left in *more, as long as that is not 0.  [settles f lo fin m]:
    the calls starting with m come to an end, every intermediate distance
    satisfies lo and the last one fin.  A callback that ignores *more settles
    at once. *)
Inductive settles (f : Z -> f64 * Z) (lo fin : f64 -> Prop) : Z -> Prop :=
| settles_done m d : f m = (d, 0%Z) -> fin d -> settles f lo fin m
| settles_more m d m' : f m = (d, m') -> m' <> 0%Z -> lo d ->
    settles f lo fin m' -> settles f lo fin m.

(** [sd] computes the distance [D], with lower bounds on the way *)
Definition measures (sd : seg -> Z -> f64 * Z) (D : seg -> f64) (s : seg) : Prop :=
  real_or_inf (D s) /\ settles (sd s) (fun d => fle d (D s) = true) (fun d => d = D s) 0%Z.

(** [rd] never exceeds the distance of one of the given segments *)
Definition bounds (rd : rect -> Z -> f64 * Z) (D : seg -> f64) (r : rect) (ss : seg -> Prop) : Prop :=
  let low d := real_or_inf d /\ forall s, ss s -> fle d (D s) = true in
  settles (rd r) low low 0%Z.

(** both ends of the segment are in the rectangle *)
Definition inside (r : rect) (s : seg) : Prop := in_rect r (sa s) /\ in_rect r (sb s).

(** The calls [out] (segment, distance, index) of a run that returned [ok] are
    right: they can be completed by [rest] to a list that has every segment
    exactly once, with its distance, from near to far; the callback [iter] was
    asked after each call and only the last answer may be "stop"; [ok] is false
    only if an allocation failed, and if it is true without a "stop" all
    segments have been delivered. *)
Record nearest_spec (segs : list seg) (D : seg -> f64)
  (iter : list (seg * f64 * nat) -> bool) (alloc : nat -> bool)
  (ok : bool) (out rest : list (seg * f64 * nat)) : Prop := NearestSpec {
  ns_each_once : Permutation (map snd (out ++ rest)) (seq 0 (length segs));
  ns_values : forall s d i, In (s, d, i) (out ++ rest) -> nth_error segs i = Some s /\ d = D s;
  ns_sorted : StronglySorted (fun a b => fle (snd (fst a)) (snd (fst b)) = true) (out ++ rest);
  ns_went_on : forall p q, out = p ++ q -> p <> [] -> q <> [] -> iter p = true;
  ns_complete : ok = true -> rest = [] \/ (out <> [] /\ iter out = false);
  ns_no_memory : ok = false -> (exists k, alloc k = false) /\ (out = [] \/ iter out = true)
}.
