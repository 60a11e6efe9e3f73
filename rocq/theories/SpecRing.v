(** * Specification vocabulary that needs real numbers *)

From Coq Require Import ZArith Bool List Reals.
From Verif Require Import F64 F64Real Geo Series RingApi SpecGeo.
Import ListNotations.

(** real value of a finite double is [RV] (F64Real.v): SF2R of the decoded pattern *)

(** y is below the top of the points by at least 2^-49 of their height *)
Definition clear_of_top (ps : list pt) (y : f64) : Prop :=
  exists top bottom, In top ps /\ In bottom ps /\
    (forall q, In q ps -> fle (py bottom) (py q) = true /\ fle (py q) (py top) = true) /\
    (RV y <= RV (py top) - (RV (py top) - RV (py bottom)) / 2 ^ 49)%R.

(** every segment at the height of p reaches below the top sliver of the ring *)
Definition stripe_safe (ps : list pt) (p : pt) : Prop :=
  forall s, In s (ring_segments ps) -> between (py (sa s)) (py (sb s)) (py p) ->
    clear_of_top ps (py (sa s)) \/ clear_of_top ps (py (sb s)).

(** circumstances in which the index of a ring of these points is sound *)
Definition index_safe (ps : list pt) (kind : ixkind) (spread : nat) (p : pt) : Prop :=
  (length ps < 2 * spread)%nat \/
  match kind with
  | IxNone => True
  | IxNatural => explicitly_closed ps \/ (length ps mod spread = 0)%nat
  | IxYstripes => stripe_safe ps p
  end.

(** circumstances in which the natural index of a series is sound *)
Definition search_safe (ps : list pt) (closed : bool) (kind : ixkind) (spread : nat) : Prop :=
  closed = false \/ kind = IxNone \/ (length ps < 2 * spread)%nat \/
  explicitly_closed ps \/ (length ps mod spread = 0)%nat.

(** spread limited to the range an index option can hold *)
Definition clamp_spread (s : Z) : Z := Z.max 2 (Z.min 4096 s).

(** calls that change the global index settings *)
Inductive env_op := SetIndex (ix : Z) | SetSpread (s : Z).
Definition env_step (e : env) (o : env_op) : env :=
  match o with SetIndex ix => tg_env_set_index e ix | SetSpread s => tg_env_set_index_spread e s end.
(** the last acceptable value set, or the initial one *)
Definition last_index (e : env) (ops : list env_op) : Z :=
  last (env_index e :: flat_map (fun o => match o with
     | SetIndex ix => if (1 <=? ix)%Z && (ix <=? 3)%Z then [ix] else [] | _ => [] end) ops) 0%Z.
Definition last_spread (e : env) (ops : list env_op) : Z :=
  last (env_spread e :: flat_map (fun o => match o with
     | SetSpread s => if (2 <=? s)%Z && (s <=? 4096)%Z then [s] else [] | _ => [] end) ops) 0%Z.
Definition kind_of (ix : Z) : ixkind :=
  if (ix =? 1)%Z then IxNone else if (ix =? 3)%Z then IxYstripes else IxNatural.
