(** * The text writers do the same for every buffer *)

From Coq Require Import ZArith Bool String List Lia.
From Verif Require Import F64 Geo Series RingApi Bytes Geom Writer WriterFacts WkbWrite Num WktWrite Json JsonTok GeojsonParse GeojsonWrite
  GeomFacts SpecWkb SpecText TextFacts NumFacts GeojsonTypes SpecNotes GeojsonTrip RingTurn F64Real JsonSafe.
Import ListNotations.
Local Open Scope Z_scope.

Section Null.
(** there is a NULL *)
Variable U : Prop.

(** undefined for every buffer, or a text that starts with [s] *)
Definition settles (s : list Z) (f : W) : Prop := (U /\ forall w, f w = None) \/ exists t, types f (s ++ t).

Lemma settles_weak s f : settles s f -> settles [] f.
Proof. intros [H|(t & H)]; [now left|]. right. now exists (s ++ t). Qed.
Lemma settles_undef s : U -> settles s wundef.
Proof. now left. Qed.
Lemma settles_types f t : types f t -> settles t f.
Proof. intros H. right. exists []. now rewrite app_nil_r. Qed.
Lemma settles_skip : settles [] wskip.
Proof. apply settles_types, types_skip. Qed.
Lemma settles_seq s f g : settles s f -> settles [] g -> settles s (f ;; g).
Proof.
  intros [[V F]|(t & F)] [[V' G]|(u & G)].
  - left. split; [assumption|]. intros w. unfold wseq. now rewrite F.
  - left. split; [assumption|]. intros w. unfold wseq. now rewrite F.
  - left. split; [assumption|]. intros w. unfold wseq. destruct (f w); [apply G|reflexivity].
  - right. exists (t ++ u). rewrite app_assoc. now apply types_seq.
Qed.
Lemma types_byte_mod b : types (write_byte b) [b mod 256].
Proof.
  replace (write_byte b) with (write_byte (b mod 256)).
  - apply types_byte. apply Z.mod_pos_bound. lia.
  - unfold write_byte. now rewrite Zmod_mod.
Qed.
Lemma settles_byte b : settles [] (write_byte b).
Proof. exact (settles_weak _ _ (settles_types _ _ (types_byte_mod b))). Qed.
Lemma settles_loop l : Forall (settles []) l -> settles [] (wloop l).
Proof. induction 1 as [|f l F _ IH]; [apply settles_skip|]. cbn. now apply settles_seq. Qed.
Lemma settles_string s : settles [] (write_string s).
Proof. unfold write_string. apply settles_loop. apply Forall_map, Forall_forall. intros. apply settles_byte. Qed.
Lemma settles_lit s : bytes_ok s -> settles s (write_string s).
Proof. intros H. now apply settles_types, types_string. Qed.
Lemma settles_sep sep l : settles [] sep -> Forall (settles []) l -> settles [] (wsep sep l).
Proof.
  intros S. induction 1 as [|f l F H IH]; [apply settles_skip|]. cbn. destruct l; [exact F|].
  apply settles_seq; [exact F|]. now apply settles_seq.
Qed.

(** ** Numbers and points *)

Lemma settles_double fixed x : f_wf x = true -> settles [] (write_string_double fixed x).
Proof. intros H. destruct (flush_ok fixed x H) as [T _]. exact (settles_weak _ _ (settles_types _ _ T)). Qed.

Definition dwf (l : list f64) : Prop := Forall (fun x => f_wf x = true) l.
Lemma dwf_nth l i : dwf l -> f_wf (nth i l f_zero) = true.
Proof.
  intros H. destruct (nth_in_or_default i l f_zero) as [I|E].
  - exact (proj1 (Forall_forall _ _) H _ I).
  - now rewrite E.
Qed.
Lemma dwf_skipn k l : dwf l -> dwf (skipn k l).
Proof. unfold dwf. rewrite !Forall_forall. intros H x X. apply H. rewrite <- (firstn_skipn k l). apply in_or_app. now right. Qed.
Lemma extra_wf k ps : Forall wf_pt ps -> forall coords, dwf coords -> Forall dwf (with_extra k ps coords).
Proof.
  induction 1 as [|p ps [X Y] _ IH]; intros coords C; [constructor|]. cbn [with_extra]. constructor.
  - constructor; [exact X|]. constructor; [exact Y|]. apply Forall_map, Forall_forall. intros i _. now apply dwf_nth.
  - apply IH. now apply dwf_skipn.
Qed.


(** ** What the writers read from the geometry *)

Lemma dwf_app a b : dwf (a ++ b) <-> dwf a /\ dwf b.
Proof. apply Forall_app. Qed.
Lemma dwf_flat {A : Type} (f : A -> list f64) l : dwf (flat_map f l) <-> Forall (fun a => dwf (f a)) l.
Proof.
  induction l as [|a l IH]; cbn; [split; constructor|]. rewrite dwf_app, IH. split.
  - intros [X Y]. now constructor.
  - intros H. inversion_clear H. now split.
Qed.
Lemma dwf_pt p : dwf (pt_doubles p) -> wf_pt p.
Proof. intros H. inversion_clear H. inversion_clear H1. now split. Qed.
Lemma dwf_points r : dwf (ring_doubles r) -> Forall wf_pt (ring_points r).
Proof.
  unfold ring_doubles. rewrite dwf_app. intros [H _]. apply dwf_flat in H. unfold ring_points.
  apply Forall_forall. intros p P. apply dwf_pt. apply (proj1 (Forall_forall _ _) H).
  rewrite <- (firstn_skipn (r_npoints r) (r_points r)). apply in_or_app. now left.
Qed.
Definition wf_rect (r : rect) : Prop := wf_pt (rmin r) /\ wf_pt (rmax r).
Lemma dwf_rect r : dwf (ring_doubles r) -> wf_rect (r_rect r).
Proof. unfold ring_doubles. rewrite !dwf_app. intros (_ & A & B). split; now apply dwf_pt. Qed.
Lemma wf_rect0 : wf_rect rect0.
Proof. now repeat split. Qed.
Lemma wf_expand a b : wf_rect a -> wf_rect b -> wf_rect (tg_rect_expand a b).
Proof.
  intros [[A1 A2] [A3 A4]] [[B1 B2] [B3 B4]]. unfold tg_rect_expand, fmin0, fmax0.
  repeat split; cbn; match goal with |- f_wf (if ?c then _ else _) = _ => destruct c end; assumption.
Qed.
Lemma wf_rings p : dwf (opt_doubles poly_doubles p) -> Forall (fun o => dwf (opt_doubles ring_doubles o)) (poly_rings p).
Proof.
  destruct p as [[r|e hs]|]; cbn; intros H.
  - now constructor.
  - rewrite dwf_app, dwf_flat in H. destruct H. now constructor.
  - constructor; [exact H|constructor].
Qed.
Lemma wf_poly_rect p : dwf (opt_doubles poly_doubles p) -> wf_rect (tg_poly_rect p).
Proof.
  destruct p as [[r|e hs]|]; cbn; intros H.
  - now apply dwf_rect.
  - apply dwf_app in H. now apply dwf_rect.
  - apply wf_rect0.
Qed.
Lemma wf_geom_rect g : dwf (doubles_of g) -> wf_rect (rect_of_geom g).
Proof.
  induction g as [f p|f l|f p|f p z m x|f l c x|f p c x|t f c x|t f gs c x IH] using geom_ind_deep;
    cbn [doubles_of rect_of_geom]; intros H; rewrite ?dwf_app in H.
  - apply dwf_pt in H. now split.
  - now apply dwf_rect.
  - now apply (wf_poly_rect (Some p)).
  - destruct H as [H _]. apply dwf_pt in H. now split.
  - destruct l as [l|]; [|apply wf_rect0]. destruct H. now apply dwf_rect.
  - destruct H. now apply wf_poly_rect.
  - apply wf_rect0.
  - destruct H as [H _]. apply dwf_flat in H.
    assert (A : Forall wf_rect (map (fun o => match o with Some g => rect_of_geom g | None => rect0 end) gs)).
    { apply Forall_map. apply Forall_forall. intros [g|] G; [|apply wf_rect0].
      rewrite Forall_forall in IH, H. exact (IH _ G (H _ G)). }
    destruct A as [|r rs R A]; [apply wf_rect0|]. revert r R.
    induction A as [|r' rs R' A IHA]; intros r R; [exact R|]. cbn. apply IHA. now apply wf_expand.
Qed.
Lemma wf_point o : dwf (opt_doubles doubles_of o) -> wf_pt (tg_geom_point o).
Proof.
  destruct o as [g|]; [|now split]. intros H. change (opt_doubles doubles_of (Some g)) with (doubles_of g) in H.
  pose proof (wf_geom_rect g H) as [[A B] [C D]].
  assert (M : wf_pt (Pt (fdiv (fadd (px (rmin (rect_of_geom g))) (px (rmax (rect_of_geom g)))) f_two)
         (fdiv (fadd (py (rmin (rect_of_geom g))) (py (rmax (rect_of_geom g)))) f_two))).
  { split; apply fdiv_wf; try reflexivity; now apply fadd_wf. }
  destruct g; try exact M.
  - now apply dwf_pt.
  - cbn [doubles_of] in H. rewrite dwf_app in H. now apply dwf_pt.
Qed.
Lemma wf_line g : dwf (opt_doubles doubles_of g) -> dwf (opt_doubles ring_doubles (tg_geom_line g)).
Proof. destruct g as [[]|]; cbn; intros H; rewrite ?dwf_app in H; try easy; constructor. Qed.
Lemma wf_poly g : dwf (opt_doubles doubles_of g) -> dwf (opt_doubles poly_doubles (tg_geom_poly g)).
Proof. destruct g as [[]|]; cbn; intros H; rewrite ?dwf_app in H; try easy; constructor. Qed.

Lemma null_rings p : (poly_null p -> U) -> dwf (opt_doubles poly_doubles p) ->
  Forall (fun o => (o = None -> U) /\ dwf (opt_doubles ring_doubles o)) (poly_rings p).
Proof.
  intros V H. apply wf_rings in H. rewrite Forall_forall in *. intros o O. split; [|now apply H].
  intros ->. apply V. destruct p as [[r|e hs]|]; cbn in *; [destruct O as [O|[]]; discriminate|destruct O as [O|O]; [discriminate|assumption]|exact I].
Qed.
Lemma null_kids t f gs c x : (has_null (GGMulti t f (Some gs) c x) -> U) ->
  Forall (fun o => dwf (opt_doubles doubles_of o)) gs ->
  match t with
  | MPoints => True
  | MLines => Forall (fun o => (tg_geom_line o = None -> U) /\ dwf (opt_doubles doubles_of o)) gs
  | MPolys => Forall (fun o => (poly_null (tg_geom_poly o) -> U) /\ dwf (opt_doubles doubles_of o)) gs
  | MGeoms => Forall (fun o => (match o with Some g => has_null g | None => True end -> U) /\ dwf (opt_doubles doubles_of o)) gs
  end.
Proof.
  intros V H. cbn [has_null] in V. destruct t; [exact I|..]; apply Forall_forall; intros o O; rewrite Forall_forall in H;
    (split; [|now apply H]); intros N; apply V.
  - apply Exists_exists. now exists o.
  - apply Exists_exists. now exists o.
  - clear V H. induction gs as [|a gs IH]; [destruct O|]. destruct O as [->|O]; [now left|]. right. now apply IH.
Qed.

Section Fixed.
Variable fixed : bool.

Lemma settles_posn_wkt ds : dwf ds -> settles [] (write_posn_wkt fixed ds).
Proof.
  intros H. apply settles_sep; [apply settles_byte|]. apply Forall_map. eapply Forall_impl; [|exact H].
  intros x X. now apply settles_double.
Qed.
Lemma settles_posn_geojson ds : dwf ds -> settles [] (write_posn_geojson fixed ds).
Proof.
  intros H. apply settles_seq; [apply settles_byte|]. apply settles_seq; [|apply settles_byte].
  apply settles_sep; [apply settles_byte|]. apply Forall_map. eapply Forall_impl; [|exact H].
  intros x X. now apply settles_double.
Qed.

Ltac st := apply settles_seq; [first [apply settles_byte|apply settles_string]|].
(** *** WKT *)
Lemma settles_paren f : settles [] f -> settles [] (wparen f).
Proof. intros H. st. apply settles_seq; [exact H|apply settles_byte]. Qed.
Lemma settles_ring_wkt k r c : (r = None -> U) -> dwf (opt_doubles ring_doubles r) -> dwf c -> settles [] (write_ring_points_wkt fixed k r c).
Proof.
  intros V R C. destruct r as [r|]; [|apply settles_undef; now apply V]. apply settles_sep; [apply settles_byte|].
  apply Forall_map. eapply Forall_impl; [intros ds; apply settles_posn_wkt|]. apply extra_wf; [now apply dwf_points|exact C].
Qed.
Lemma settles_rings_wkt k rs : Forall (fun o => (o = None -> U) /\ dwf (opt_doubles ring_doubles o)) rs ->
  forall c, dwf c -> Forall (settles []) (wkt_rings fixed k rs c).
Proof.
  induction 1 as [|r rs [V R] _ IH]; intros c C; [constructor|]. cbn. constructor.
  - now apply settles_paren, settles_ring_wkt.
  - now apply IH, dwf_skipn.
Qed.
Lemma settles_poly_wkt k p c : (poly_null p -> U) -> dwf (opt_doubles poly_doubles p) -> dwf c -> settles [] (write_poly_points_wkt fixed k p c).
Proof. intros V P C. apply settles_sep; [apply settles_byte|]. apply settles_rings_wkt; [now apply null_rings|exact C]. Qed.
Lemma settles_zm f : settles [] (write_zm_def_wkt f).
Proof. unfold write_zm_def_wkt. destruct (has_m f && negb (has_z f)); [apply settles_string|apply settles_skip]. Qed.
Lemma settles_points_wkt k gs : Forall (fun o => dwf (opt_doubles doubles_of o)) gs ->
  forall c, dwf c -> Forall (settles []) (wkt_points fixed k gs c).
Proof.
  intros H c C. apply Forall_map. eapply Forall_impl; [intros ds; apply settles_posn_wkt|]. apply extra_wf; [|exact C].
  apply Forall_map. eapply Forall_impl; [intros o; apply wf_point|exact H].
Qed.
Lemma settles_lines_wkt k gs : Forall (fun o => (tg_geom_line o = None -> U) /\ dwf (opt_doubles doubles_of o)) gs ->
  forall c, dwf c -> Forall (settles []) (wkt_lines fixed k gs c).
Proof.
  induction 1 as [|g gs [V G] _ IH]; intros c C; [constructor|]. cbn. constructor.
  - apply settles_paren, settles_ring_wkt; [exact V|now apply wf_line|exact C].
  - now apply IH, dwf_skipn.
Qed.
Lemma settles_polys_wkt k gs : Forall (fun o => (poly_null (tg_geom_poly o) -> U) /\ dwf (opt_doubles doubles_of o)) gs ->
  forall c, dwf c -> Forall (settles []) (wkt_polys fixed k gs c).
Proof.
  induction 1 as [|g gs [V G] _ IH]; intros c C; [constructor|]. cbn. constructor.
  - apply settles_paren, settles_poly_wkt; [exact V|now apply wf_poly|exact C].
  - now apply IH, dwf_skipn.
Qed.
Definition wkt_first (g : geom) : list Z :=
  match g with
  | GPoint _ _ | GGPoint _ _ _ _ _ => str "POINT"
  | GLine _ _ | GGLine _ _ _ _ => str "LINESTRING"
  | GPoly _ _ | GGPoly _ _ _ _ => str "POLYGON"
  | GGMulti t _ _ _ _ => wkt_multi_name t
  end.
Lemma kids_doubles gs : dwf (flat_map (fun o => match o with Some g => doubles_of g | None => [] end) gs) ->
  Forall (fun o => dwf (opt_doubles doubles_of o)) gs.
Proof. intros H. apply dwf_flat in H. exact H. Qed.
Lemma dwf_xyzm p z m (a b : bool) : dwf (pt_doubles p ++ [z; m]) ->
  dwf (px p :: py p :: (if a then [z] else []) ++ (if b then [m] else [])).
Proof.
  intros H. inversion_clear H. inversion_clear H1. cbn in H2. inversion_clear H2. inversion_clear H3.
  constructor; [assumption|]. constructor; [assumption|]. destruct a, b; repeat (constructor; [assumption|]); constructor.
Qed.
Lemma ascii_ok s : forallb (fun b => (0 <=? b) && (b <? 256)) s = true -> bytes_ok s.
Proof. intros H. apply Forall_forall. intros b B. pose proof (proj1 (forallb_forall _ s) H b B) as X. cbv beta in X. lia. Qed.
Theorem settles_wkt g : (has_null g -> U) -> dwf (doubles_of g) -> settles (wkt_first g) (write_geom_wkt fixed g).
Proof.
  induction g as [f p|f l|f p|f p z m x|f l c x|f p c x|t f c x|t f gs c x IH] using geom_ind_deep;
    cbn [doubles_of wkt_first write_geom_wkt]; intros V H;
    (apply settles_seq; [apply settles_lit; try (now apply ascii_ok); destruct t; now apply ascii_ok|]); rewrite ?dwf_app in H.
  - apply settles_paren, settles_posn_wkt. exact H.
  - apply settles_paren, settles_ring_wkt; [discriminate|exact H|constructor].
  - apply settles_paren, settles_poly_wkt; [exact V|exact H|constructor].
  - apply settles_seq; [apply settles_zm|]. destruct (is_empty f); [apply settles_string|].
    apply settles_paren, settles_posn_wkt. apply dwf_xyzm. now apply dwf_app.
  - apply settles_seq; [apply settles_zm|]. destruct (is_empty f) eqn:E; [apply settles_string|].
    apply settles_paren, settles_ring_wkt; try apply H. intros N. apply V. now split.
  - apply settles_seq; [apply settles_zm|]. destruct (is_empty f) eqn:E; [apply settles_string|].
    apply settles_paren, settles_poly_wkt; try apply H. intros N. apply V. now split.
  - apply settles_seq; [apply settles_zm|apply settles_string].
  - destruct H as [HG HC]. apply kids_doubles in HG. pose proof (null_kids _ _ _ _ _ V HG) as K0. apply settles_seq; [apply settles_zm|].
    destruct gs as [|o gs]; [apply settles_string|]. destruct (is_empty f); [apply settles_string|].
    apply settles_paren, settles_sep; [apply settles_byte|]. destruct t.
    + now apply settles_points_wkt.
    + now apply settles_lines_wkt.
    + now apply settles_polys_wkt.
    + apply Forall_map. apply Forall_forall. intros [g|] G; rewrite Forall_forall in K0; destruct (K0 _ G) as [K1 _]; [|apply settles_undef; now apply K1].
      rewrite Forall_forall in IH, HG. exact (settles_weak _ _ (IH _ G K1 (HG _ G))).
Qed.

(** *** GeoJSON *)
Lemma settles_brack f : settles [] f -> settles [] (wbrack f).
Proof. intros H. st. apply settles_seq; [exact H|apply settles_byte]. Qed.
Lemma settles_ring_gj k r c : (r = None -> U) -> dwf (opt_doubles ring_doubles r) -> dwf c -> settles [] (write_ring_points_geojson fixed k r c).
Proof.
  intros V R C. destruct r as [r|]; [|apply settles_undef; now apply V]. apply settles_brack, settles_sep; [apply settles_byte|].
  apply Forall_map. eapply Forall_impl; [intros ds; apply settles_posn_geojson|]. apply extra_wf; [now apply dwf_points|exact C].
Qed.
Lemma settles_rings_gj k rs : Forall (fun o => (o = None -> U) /\ dwf (opt_doubles ring_doubles o)) rs ->
  forall c, dwf c -> Forall (settles []) (geojson_rings fixed k rs c).
Proof.
  induction 1 as [|r rs [V R] _ IH]; intros c C; [constructor|]. cbn. constructor.
  - now apply settles_ring_gj.
  - now apply IH, dwf_skipn.
Qed.
Lemma settles_poly_gj k p c : (poly_null p -> U) -> dwf (opt_doubles poly_doubles p) -> dwf c -> settles [] (write_poly_points_geojson fixed k p c).
Proof. intros V P C. apply settles_brack, settles_sep; [apply settles_byte|]. apply settles_rings_gj; [now apply null_rings|exact C]. Qed.
Lemma settles_points_gj k gs : Forall (fun o => dwf (opt_doubles doubles_of o)) gs ->
  forall c, dwf c -> Forall (settles []) (geojson_points fixed k gs c).
Proof.
  intros H c C. apply Forall_map. eapply Forall_impl; [intros ds; apply settles_posn_geojson|]. apply extra_wf; [|exact C].
  apply Forall_map. eapply Forall_impl; [intros o; apply wf_point|exact H].
Qed.
Lemma settles_lines_gj k gs : Forall (fun o => (tg_geom_line o = None -> U) /\ dwf (opt_doubles doubles_of o)) gs ->
  forall c, dwf c -> Forall (settles []) (geojson_lines fixed k gs c).
Proof.
  induction 1 as [|g gs [V G] _ IH]; intros c C; [constructor|]. cbn. constructor.
  - apply settles_ring_gj; [exact V|now apply wf_line|exact C].
  - now apply IH, dwf_skipn.
Qed.
Lemma settles_polys_gj k gs : Forall (fun o => (poly_null (tg_geom_poly o) -> U) /\ dwf (opt_doubles doubles_of o)) gs ->
  forall c, dwf c -> Forall (settles []) (geojson_polys fixed k gs c).
Proof.
  induction 1 as [|g gs [V G] _ IH]; intros c C; [constructor|]. cbn. constructor.
  - apply settles_poly_gj; [exact V|now apply wf_poly|exact C].
  - now apply IH, dwf_skipn.
Qed.
Lemma settles_assoc s a b c : settles s ((a ;; b) ;; c) -> settles s (a ;; b ;; c).
Proof.
  intros [[V H]|(t & H)]; [left; split; [exact V|]|right; exists t; now apply types_assoc].
  intros w. specialize (H w). unfold wseq in *. now destruct (a w).
Qed.
Lemma settles_extra B a b gj : settles [a; b] B -> settles [a] (B ;; write_geometry_extra gj).
Proof.
  intros H. unfold write_geometry_extra.
  destruct ((json_type gj =? JSON_OBJECT) && json_exists (json_first gj) && (1 <? json_raw_length gj - 1)%nat).
  - apply settles_assoc. apply settles_seq; [|st; apply settles_string].
    destruct H as [[V H]|(t & H)]; [left; split; [exact V|]; intros w; unfold wseq; now rewrite H|]. right.
    destruct (exists_last (l := b :: t) ltac:(discriminate)) as (u & c & E).
    exists u. apply types_rewind with (c := c). eapply types_eq; [exact H|]. cbn. now rewrite E.
  - apply settles_seq; [|apply settles_skip]. destruct H as [H|(t & H)]; [now left|]. right. now exists (b :: t).
Qed.
Lemma settles_feature_head fj : settles [123] (write_feature_head fj).
Proof.
  unfold write_feature_head. apply settles_seq.
  - right. exists (tl (qstr "{'type':'Feature',")). now apply types_lit.
  - apply settles_seq; [|apply settles_string]. unfold json_object_get.
    assert (T : exists id, (if json_type fj =? JSON_OBJECT then object_get_loop (S (length (json_raw fj))) (json_first fj) (str "id") else Some JNone) = Some id).
    { destruct (json_type fj =? JSON_OBJECT); [|now eexists].
      destruct (object_get_total (S (length (json_raw fj))) (str "id") (json_first fj) (first_inside _)) as (v & E & _); [|now exists v].
      pose proof (first_le fj). lia. }
    destruct T as [id ->].
    destruct (json_exists id); [|apply settles_skip].
    apply settles_seq; [apply settles_string|]. apply settles_seq; [apply settles_string|apply settles_byte].
Qed.
Lemma members_total fuel : forall j, in_text j -> (length (json_raw j) < fuel)%nat ->
  forall wrote, exists r, feature_members fuel j wrote = Some r.
Proof.
  induction fuel as [|fuel IH]; intros j I0 H wrote; [lia|]. cbn [feature_members].
  destruct (json_exists j) eqn:E; [|now eexists].
  assert (L : (length (json_raw (json_next (json_next j))) < fuel)%nat).
  { pose proof (next_le j) as N1. pose proof (next_le (json_next j)) as N2.
    pose proof (exists_raw j I0 E). pose proof (next_shorter (json_next j)) as N3. pose proof (next_shorter j) as N4.
    destruct (json_next j) eqn:E3; [cbn; lia|]. specialize (N4 eq_refl). rewrite <- E3 in *. lia. }
  destruct (json_raw_comparen_eq j (qstr "'id'")); [apply IH; [apply next_inside|exact L]|].
  destruct (IH _ (next_inside (json_next j)) L (wrote || json_raw_comparen_eq j (qstr "'properties'"))) as ([t w] & ->).
  now eexists.
Qed.
Lemma settles_feature_tail f fj : settles [] (write_feature_tail f fj).
Proof.
  assert (P : settles [] (write_properties f)) by (unfold write_properties; apply settles_seq; apply settles_string).
  unfold write_feature_tail. apply settles_seq; [|apply settles_byte].
  destruct (json_type fj =? JSON_OBJECT); [|exact P].
  destruct (members_total (S (length (json_raw fj))) (json_first fj) (first_inside _)) with (wrote := false) as ([t w] & ->).
  { pose proof (first_le fj). lia. }
  apply settles_seq; [apply settles_string|]. destruct w; [apply settles_skip|exact P].
Qed.
Lemma settles_base f x body : settles [123; 34] body -> settles [123] (write_base_geom_geojson f x body).
Proof.
  intros B. unfold write_base_geom_geojson.
  destruct (is_error f); [right; exists (tl (qstr "{'type':'Point','coordinates':[]}")); now apply types_lit|].
  destruct (extra_tokens (is_feature f) x) as [fj gj].
  destruct (is_feature f); cbn [andb].
  - apply settles_seq; [apply settles_feature_head|]. apply settles_assoc. apply settles_seq; [|apply settles_feature_tail].
    destruct (is_unlocated f); eapply settles_weak.
    + eapply (settles_extra _ 110 117). right. exists (str "ll"). now apply types_lit.
    + apply (settles_extra _ _ _ _ B).
  - assert (X : settles [123] (body ;; write_geometry_extra gj ;; wskip)).
    { apply settles_assoc. apply settles_seq; [|apply settles_skip]. exact (settles_extra _ _ _ _ B). }
    destruct X as [[V X]|(t & X)]; [left|right; exists t].
    + split; [exact V|]. intros w. exact (X w).
    + intros w bs Hw. exact (X w bs Hw).
Qed.
Lemma settles_plain f body : settles [123; 34] body -> settles [123] (write_plain_feature f body).
Proof.
  intros B. unfold write_plain_feature. destruct (is_feature f).
  - apply settles_seq; [right; exists (tl (qstr "{'type':'Feature','geometry':")); now apply types_lit|].
    apply settles_seq; [exact (settles_weak _ _ B)|]. apply settles_seq; apply settles_string.
  - destruct B as [B|(t & B)]; [now left|]. right. now exists (34 :: t).
Qed.
Lemma settles_head s f : forallb (fun b => (0 <=? b) && (b <? 256)) (123 :: 34 :: s) = true -> settles [] f ->
  settles [123; 34] (write_string (123 :: 34 :: s) ;; f).
Proof. intros H F. apply settles_seq; [|exact F]. right. exists s. now apply types_lit. Qed.
Theorem settles_geojson g : (has_null g -> U) -> dwf (doubles_of g) -> settles [123] (write_geom_geojson fixed g).
Proof.
  induction g as [f p|f l|f p|f p z m x|f l c x|f p c x|t f c x|t f gs c x IH] using geom_ind_deep;
    cbn [doubles_of write_geom_geojson]; intros V H; rewrite ?dwf_app in H;
    first [apply settles_plain|apply settles_base].
  - apply settles_head; [reflexivity|]. apply settles_seq; [|apply settles_byte]. now apply settles_posn_geojson.
  - apply settles_head; [reflexivity|]. apply settles_seq; [|apply settles_byte]. apply settles_ring_gj; [discriminate|exact H|constructor].
  - apply settles_head; [reflexivity|]. apply settles_seq; [|apply settles_byte]. apply settles_poly_gj; [exact V|exact H|constructor].
  - apply settles_head; [reflexivity|]. apply settles_seq; [|apply settles_byte].
    destruct (is_empty f); [apply settles_string|]. apply settles_posn_geojson. apply dwf_xyzm. now apply dwf_app.
  - apply settles_head; [reflexivity|]. apply settles_seq; [|apply settles_byte].
    destruct (is_empty f) eqn:E; [apply settles_string|]. apply settles_ring_gj; try apply H. intros N. apply V. now split.
  - apply settles_head; [reflexivity|]. apply settles_seq; [|apply settles_byte].
    destruct (is_empty f) eqn:E; [apply settles_string|]. apply settles_poly_gj; try apply H. intros N. apply V. now split.
  - assert (K : settles [] (wskip ;; write_string (str "]}"))) by (apply settles_seq; [apply settles_skip|apply settles_string]).
    destruct t; [..|unfold geojson_multi_head; destruct (is_feature_col f)]; (apply settles_head; [reflexivity|exact K]).
  - destruct H as [HG HC]. apply kids_doubles in HG. pose proof (null_kids _ _ _ _ _ V HG) as K0.
    match goal with |- settles _ (_ ;; ?k) => assert (K : settles [] k) end.
    { apply settles_seq; [|apply settles_string]. apply settles_sep; [apply settles_byte|]. destruct t.
      + now apply settles_points_gj.
      + now apply settles_lines_gj.
      + now apply settles_polys_gj.
      + apply Forall_map. apply Forall_forall. intros [g|] G; rewrite Forall_forall in K0; destruct (K0 _ G) as [K1 _]; [|apply settles_undef; now apply K1].
        rewrite Forall_forall in IH, HG. exact (settles_weak _ _ (IH _ G K1 (HG _ G))). }
    destruct t; [..|unfold geojson_multi_head; destruct (is_feature_col f)]; (apply settles_head; [reflexivity|exact K]).
Qed.
End Fixed.
End Null.
