(** * C37: index options and the environment encoding *)

From Coq Require Import ZArith Bool List Lia.
From Verif Require Import F64 Geo Series RingApi SpecRing SpecGeo IndexFacts SeriesExamples.
Import ListNotations.
Local Open Scope Z_scope.

(** what an encoded option decodes to: the kind is untouched, a spread given
    as 0 means the global spread, every other spread is clamped to 2..4096 *)
Theorem C37_option_round_trip : forall e ix s,
  tg_index_extract_spread e (tg_index_with_spread ix s) =
  (Z.land ix 15, if s =? 0 then env_spread e else clamp_spread s).
Proof. exact extract_with. Qed.
Print Assumptions C37_option_round_trip.

(** the settings after any history of calls: last acceptable value of each *)
Theorem C37_env_history : forall ops e,
  env_index (fold_left env_step ops e) = last_index e ops /\
  env_spread (fold_left env_step ops e) = last_spread e ops.
Proof. exact env_history'. Qed.
Print Assumptions C37_env_history.

(** the settings never leave their legal range *)
Theorem C37_env_range : forall ops,
  let e := fold_left env_step ops env_init in
  1 <= env_index e <= 3 /\ 2 <= env_spread e <= 4096.
Proof. exact env_range. Qed.
Print Assumptions C37_env_range.

(** new rings use what the option or the environment says *)
Theorem C37_ring_uses_option : forall ops ps closed ix s,
  0 <= ix <= 3 ->
  let e := fold_left env_step ops env_init in
  series_new_ix e ps closed (tg_index_with_spread ix s) =
  series_new ps closed
    (kind_of (if ix =? 0 then last_index env_init ops else ix))
    (Z.to_nat (if s =? 0 then last_spread env_init ops else clamp_spread s)).
Proof. exact ring_uses_option. Qed.
Print Assumptions C37_ring_uses_option.

(** observable through the accessors *)
Theorem C37_ring_reports_spread : forall ops ps closed ix s r,
  0 <= ix <= 3 -> points_ok ps ->
  let e := fold_left env_step ops env_init in
  series_new_ix e ps closed (tg_index_with_spread ix s) = Some r ->
  let k := if ix =? 0 then last_index env_init ops else ix in
  let sp := if s =? 0 then last_spread env_init ops else clamp_spread s in
  tg_ring_index_spread (Some r) =
  if (k =? TG_NONE) || (Z.of_nat (length ps) <? 2 * sp) then 0 else sp.
Proof. exact ring_reports_spread. Qed.
Print Assumptions C37_ring_reports_spread.

Example C37_example :
  let ops := [SetIndex 3; SetSpread 8; SetIndex 9; SetSpread 5000; SetSpread 1] in
  last_index env_init ops = 3 /\ last_spread env_init ops = 8 /\
  tg_index_extract_spread env_init (tg_index_with_spread TG_YSTRIPES 4096) = (3, 4096) /\
  tg_index_extract_spread env_init (tg_index_with_spread TG_NATURAL (-7)) = (2, 2) /\
  exists r, series_new_ix (fold_left env_step ops env_init) ex_square true
              (tg_index_with_spread TG_DEFAULT 0) = Some r /\ tg_ring_index_spread (Some r) = 8.
Proof. split; [|split; [|split; [|split; [|eexists]]]]; vms. Qed.
