(** * WKB: round trip, arbitrary input, byte order, nesting *)

From Coq Require Import ZArith Bool String List Lia.
From Verif Require Import F64 Geo Series RingApi Bytes Geom Writer WkbWrite WkbParse SpecWkb.
From Verif Require Import WriterFacts GeomFacts WkbWriteFacts WkbParseFacts WkbRoundFacts WkbSafe
  WkbReach WkbMore SeriesExamples.
Import ListNotations.
Local Open Scope Z_scope.

(** ** C15 *)

(** Full statement: every geometry a parser can produce is written as bytes that
    parse back to it.  It is false of the code (next theorem).  Proved for every
    geometry that the WKB parser produces from any bytes, as long as it has no
    missing (NULL) child, less than 2^26 points in each series and less than 2^31
    children in each list: parsing the written bytes gives the very same
    geometry. *)
Theorem C15_parsed_round_trip_partial :
  forall e ix bs g,
    Forall is_byte bs -> tg_parse_wkb_ix e ix bs = Ok g ->
    is_error (geom_flags g) = false -> no_null g -> geom_small g ->
    exists w, written (tg_geom_wkb (Some g)) w /\ tg_parse_wkb_ix e ix w = Ok g.
Proof. exact parsed_round_trip. Qed.
Print Assumptions C15_parsed_round_trip_partial.

(** ... and, wherever a geometry comes from: if it has the contents [s], and [s]
    respects the reader's rules, then the bytes written are an encoding of [s] and
    the geometry parsed from them has the contents [s]. *)
Theorem C15_contents_round_trip_partial :
  forall e ix g s,
    geom_made g -> shape_of g = Some s -> fits 0 s -> rings_build e ix s ->
    exists w g', written (tg_geom_wkb (Some g)) w /\ wkb_enc s w /\
      tg_parse_wkb_ix e ix w = Ok g' /\ shape_of g' = Some s.
Proof.
  intros e ix g s Hm Hs Hf Hb. destruct (emits_geom g 0 s Hm Hs Hf) as (w & E & Hw).
  exists w, (build e ix s). split.
  { intros dst. unfold tg_geom_wkb. rewrite E, emit_start. reflexivity. }
  split; [assumption|]. split.
  - rewrite <- (app_nil_r w). apply tg_parse_ok; auto using fits_reads.
  - now apply (build_shape e ix s 0).
Qed.
Print Assumptions C15_contents_round_trip_partial.

(** a MULTILINESTRING whose only child is LINESTRING EMPTY is accepted; the
    resulting geometry has a NULL child and writing it dereferences that *)
Definition wkb_null_child : list Z :=
  [1; 5;0;0;0; 1;0;0;0;   1; 2;0;0;0; 0;0;0;0].
Theorem C15_refuted :
  exists bs g, Forall is_byte bs /\ tg_parse_wkb_ix env_init 0 bs = Ok g /\
    tg_geom_error (Some g) = None /\ tg_geom_wkb (Some g) (repeat 0 100) = None.
Proof.
  exists wkb_null_child. eexists. split; [|vms].
  unfold wkb_null_child, is_byte. repeat (constructor; [lia|]). constructor.
Qed.
Print Assumptions C15_refuted.

(** example: a collection of a triangle with Z, big-endian, and a point *)
Definition ex_one : f64 := f_of_Z 1.
Definition ex_tri : list posn :=
  [[0;0;ex_one]; [ex_one;0;0]; [0;ex_one;0]; [0;0;0]].
Definition ex_shape : shape :=
  ShGeoms [ShPoly (Dim true false) [ex_tri]; ShPoint xy [ex_one; ex_one];
           ShLines (Dim false true) [[[0;0;0];[0;ex_one;0]]]].
Definition ex_wkb (big : bool) : list Z :=
  e_head big 7 xy ++ e_int big 4 3 ++
  (e_head true 3 (Dim true false) ++ e_rings true [ex_tri]) ++
  (e_head big 1 xy ++ e_posn big [ex_one; ex_one]) ++
  (e_head big 5 (Dim false true) ++ e_int big 4 1 ++
   e_head big 2 (Dim false true) ++ e_posns big [[0;0;0];[0;ex_one;0]]).
Lemma ex_wkb_enc big : wkb_enc ex_shape (ex_wkb big).
Proof.
  assert (P2 : posn_ok xy [ex_one; ex_one]).
  { split; [reflexivity|]. assert (0 <= ex_one < 2 ^ 64) by (vm_compute; split; congruence).
    constructor; [assumption|]. constructor; [assumption|constructor]. }
  exists big. eexists. split; [reflexivity|]. unfold ex_wkb. cbn [e_seq].
  do 2 eexists. split; [reflexivity|]. split; [exists true; reflexivity|].
  do 2 eexists. split; [reflexivity|]. split.
  { exists big, [ex_one; ex_one]. split; [reflexivity|]. split; [exact P2|].
    split; [reflexivity|vm_compute; reflexivity]. }
  eexists; exists []. split; [symmetry; apply app_nil_r|]. split; [|reflexivity].
  exists big. eexists. split; [reflexivity|]. cbn [e_seq].
  eexists; exists []. split; [symmetry; apply app_nil_r|]. split; [|reflexivity].
  exists big. reflexivity.
Qed.
Lemma ex_one_ok : 0 <= ex_one < 2 ^ 64.
Proof. vm_compute. split; congruence. Qed.
Ltac posns_ok :=
  pose proof ex_one_ok;
  repeat match goal with
  | |- Forall _ [] => constructor
  | |- Forall _ (_ :: _) => constructor
  | |- posn_ok _ _ => split; [reflexivity|]
  | |- 0 <= _ < 2 ^ 64 => first [assumption|lia]
  end.
Lemma ex_shape_fits : fits 0 ex_shape.
Proof.
  split; [lia|]. split; [cbn; lia|]. split; [|split; [|split; [|exact I]]].
  - split; [lia|]. right. split; [discriminate|]. split; [cbn; lia|]. constructor; [|constructor].
    right. split; [unfold ex_tri; posns_ok|]. split; [cbn; lia|]. split; [cbn; lia|].
    vm_compute. reflexivity.
  - split; [lia|]. right. split; [posns_ok|vm_compute; reflexivity].
  - split; [lia|]. split; [cbn; lia|]. split; [|lia]. constructor; [|constructor].
    split; [posns_ok|]. cbn. lia.
Qed.
Definition bytesb (bs : list Z) : bool := forallb (fun b => (0 <=? b) && (b <? 256)) bs.
Lemma bytesb_ok bs : bytesb bs = true -> Forall is_byte bs.
Proof.
  intros H. apply Forall_forall. intros b Hb. unfold bytesb in H. rewrite forallb_forall in H.
  specialize (H b Hb). apply andb_true_iff in H. unfold is_byte. lia.
Qed.
Example C15_example :
  exists g, tg_parse_wkb_ix env_init 0 (ex_wkb true) = Ok g /\ Forall is_byte (ex_wkb true) /\
    is_error (geom_flags g) = false /\ no_null g /\ geom_small g /\
    geom_made g /\ shape_of g = Some ex_shape /\ fits 0 ex_shape /\ rings_build env_init 0 ex_shape.
Proof.
  assert (B : rings_build env_init 0 ex_shape) by (intros r _; apply series_new_ix_total; discriminate).
  exists (build env_init 0 ex_shape).
  split. { rewrite <- (app_nil_r (ex_wkb true)). apply tg_parse_ok;
           auto using fits_reads, ex_shape_fits, ex_wkb_enc. }
  split. { apply bytesb_ok. vm_compute. reflexivity. }
  split. { reflexivity. }
  destruct (build_shape env_init 0 ex_shape 0 ex_shape_fits B) as [S1 S2].
  split. { cbn. tauto. }
  split. { vm_compute. repeat split; reflexivity. }
  split; [assumption|]. split; [assumption|]. split; [exact ex_shape_fits|assumption].
Qed.

(** ** C16 *)

(** Full statement: any byte string.  It is false of the code (next theorem).
    Proved for all byte strings in which no four bytes form a count whose size in
    bytes wraps around 2^32 to something that is there, and for index options
    other than y-stripes. *)
Theorem C16_in_bounds_partial :
  forall e ix bs,
    Forall is_byte bs -> no_wrapping_count bs -> resolve_kind e (Z.land ix 15) <> IxYstripes ->
    exists g, tg_parse_wkb_ix e ix bs = Ok g.
Proof.
  intros e ix bs HB HW HK. pose proof (safe_tg_parse e ix False bs (conj HB (or_intror HW))) as H.
  destruct (tg_parse_wkb_ix e ix bs) as [g|m| | |]; try contradiction; [eauto|].
  destruct H as [[pts H]|[]]. now apply series_new_ix_total in H.
Qed.
Print Assumptions C16_in_bounds_partial.

(** ... with y-stripes the only other outcome is the undefined conversion while
    building the stripes of some ring *)
Theorem C16_ystripes_partial :
  forall e ix bs, Forall is_byte bs -> no_wrapping_count bs ->
    (exists g, tg_parse_wkb_ix e ix bs = Ok g) \/
    (tg_parse_wkb_ix e ix bs = Ub /\ exists pts, series_new_ix e pts true ix = None).
Proof.
  intros e ix bs HB HW. pose proof (safe_tg_parse e ix False bs (conj HB (or_intror HW))) as H.
  destruct (tg_parse_wkb_ix e ix bs) as [g|m| | |]; try contradiction; [eauto|].
  destruct H as [H|[]]. auto.
Qed.
Print Assumptions C16_ystripes_partial.

(** nine bytes: LINESTRING with 2^28 positions.  count*2*8 is 0 in 32 bits, so
    the size check passes and the points are read from beyond the end. *)
Theorem C16_refuted :
  exists bs, Forall is_byte bs /\ tg_parse_wkb_ix env_init 0 bs = Oob.
Proof.
  exists [1; 2;0;0;0; 0;0;0;16]. split; [apply bytesb_ok|]; vm_compute; reflexivity.
Qed.
Print Assumptions C16_refuted.

Example C16_example :
  no_wrapping_count [1; 2;0;0;0; 255;255;255;255; 7] /\
  exists g, tg_parse_wkb_ix env_init 0 [1; 2;0;0;0; 255;255;255;255; 7] = Ok g /\
    tg_geom_error (Some g) = Some (str "ParseError: invalid binary"%string).
Proof.
  split; [|eexists; vms].
  intros pre cnt post E L. cbn zeta. intros H.
  destruct cnt as [|a [|b [|c [|d [|? ?]]]]]; try discriminate.
  do 7 (destruct pre as [|? pre]; [cbn in E; injection E as <- <- <- <- <-; vm_compute in *; congruence
                                  |injection E as <- E]).
  apply (f_equal (@length Z)) in E. rewrite app_length in E. cbn in E. lia.
Qed.

(** ** C17 *)

(** Any two encodings of the same contents, each header in either byte order,
    parse to the same geometry. *)
Theorem C17_byte_order :
  forall e ix s b1 b2,
    reads 0 s -> rings_build e ix s -> wkb_enc s b1 -> wkb_enc s b2 ->
    exists g, tg_parse_wkb_ix e ix b1 = Ok g /\ tg_parse_wkb_ix e ix b2 = Ok g /\
      tg_geom_error (Some g) = None.
Proof.
  intros e ix s b1 b2 Hf HB H1 H2. exists (build e ix s).
  rewrite <- (app_nil_r b1), <- (app_nil_r b2). split; [|split].
  - now apply tg_parse_ok.
  - now apply tg_parse_ok.
  - apply error_flag, build_error.
Qed.
Print Assumptions C17_byte_order.

Example C17_example :
  reads 0 ex_shape /\ rings_build env_init 0 ex_shape /\ wkb_enc ex_shape (ex_wkb true) /\
  wkb_enc ex_shape (ex_wkb false) /\ ex_wkb true <> ex_wkb false.
Proof.
  split; [apply fits_reads, ex_shape_fits|].
  split; [intros r _; apply series_new_ix_total; discriminate|].
  split; [apply ex_wkb_enc|]. split; [apply ex_wkb_enc|]. vm_compute. discriminate.
Qed.

(** ** C22, the WKB writer *)

(** For any geometry made of rings from the ring constructors, either writing is
    undefined whatever the buffer (a NULL child), or there is one byte string of
    which every call stores what fits and returns the length. *)
Theorem C22_wkb :
  forall g, geom_made g ->
    (forall dst, tg_geom_wkb (Some g) dst = None) \/
    exists w, written (tg_geom_wkb (Some g)) w.
Proof.
  intros g Hm. destruct (settled_geom g Hm) as [H|(w & H & _)].
  - left. intros dst. unfold tg_geom_wkb. now rewrite H.
  - right. exists w. intros dst. unfold tg_geom_wkb. rewrite H, emit_start. reflexivity.
Qed.
Print Assumptions C22_wkb.

(** ... and it is defined when the geometry has proper contents *)
Theorem C22_wkb_defined :
  forall g s, geom_made g -> shape_of g = Some s -> fits 0 s ->
    exists w, written (tg_geom_wkb (Some g)) w.
Proof.
  intros g s Hm Hs Hf. destruct (emits_geom g 0 s Hm Hs Hf) as (w & E & _).
  exists w. intros dst. unfold tg_geom_wkb. rewrite E, emit_start. reflexivity.
Qed.
Print Assumptions C22_wkb_defined.

Example C22_example_wkb :
  tg_geom_wkb (Some (tg_geom_new_point (P 1 2))) [9; 9; 9] = Some (21%nat, [1; 1; 0]) /\
  tg_geom_wkb (Some (tg_geom_new_point (P 1 2))) [] = Some (21%nat, []).
Proof. vms. Qed.

(** ** C26, WKB *)

(** More than 1024 nested collections are an error, whatever follows. *)
Theorem C26_wkb_too_deep_partial :
  forall e ix hs rest,
    Forall (fun h => 0 < snd h < 2 ^ 32) hs -> (1024 < length hs)%nat ->
    exists g, tg_parse_wkb_ix e ix (concat (map collection_head hs) ++ rest) = Ok g /\
      tg_geom_error (Some g) = Some (str "ParseError: invalid binary"%string).
Proof.
  intros e ix hs rest HF HL. eexists. split; [now apply tg_parse_deep|]. reflexivity.
Qed.
Print Assumptions C26_wkb_too_deep_partial.

(** The recursion of the model is bounded by 1026 levels: that bound is never hit,
    for any input. *)
Theorem C26_wkb_bounded_partial :
  forall e ix bs, Forall is_byte bs -> tg_parse_wkb_ix e ix bs <> NoFuel.
Proof. intros. now apply parse_outcome. Qed.
Print Assumptions C26_wkb_bounded_partial.

Example C26_example_wkb :
  let h := (false, xy, 1) in
  (1024 < length (repeat h 1025))%nat /\ Forall (fun h : bool * dim * Z => 0 < snd h < 2 ^ 32) (repeat h 1025).
Proof.
  intros h. split; [rewrite repeat_length; lia|]. apply Forall_forall. intros x Hx.
  apply repeat_spec in Hx. subst x. cbn. lia.
Qed.

(** ** C43, WKB *)

(** A parsed geometry is an error geometry with a message, or there is no error
    anywhere in it. *)
Theorem C43_wkb_partial :
  forall e ix bs g, Forall is_byte bs -> tg_parse_wkb_ix e ix bs = Ok g ->
    error_geom g \/ no_error g.
Proof.
  intros e ix bs g HB H. pose proof (safe_tg_parse e ix True bs (conj HB (or_introl I))) as S.
  rewrite H in S. exact S.
Qed.
Print Assumptions C43_wkb_partial.

Example C43_example_wkb :
  (exists g, tg_parse_wkb_ix env_init 0 (ex_wkb false) = Ok g /\ no_error g) /\
  (exists g, tg_parse_wkb_ix env_init 0 [1; 1;0] = Ok g /\ error_geom g).
Proof.
  split.
  - exists (build env_init 0 ex_shape). split.
    + rewrite <- (app_nil_r (ex_wkb false)).
      apply tg_parse_ok; auto using fits_reads, ex_shape_fits, ex_wkb_enc.
      intros r _; apply series_new_ix_total; discriminate.
    + cbn. tauto.
  - eexists. split; [vm_compute; reflexivity|]. split; [reflexivity|discriminate].
Qed.
