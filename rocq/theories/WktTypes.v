(** * What the WKT writer types for a geometry is the text of its shape *)

From Coq Require Import ZArith Bool String List Lia.
From Verif Require Import F64 Geo Series RingApi Bytes Geom Writer WriterFacts WkbWrite Num GeomFacts
  SpecWkb WkbWriteFacts SpecWkt TextFacts WktText WktWrite.
Import ListNotations.
Local Open Scope Z_scope.

Lemma types_sep c fs ts : 0 <= c < 256 -> Forall2 types fs ts ->
  types (wsep (write_byte c) fs) (join c ts).
Proof.
  intros HC H. induction H as [|f t fs ts Hf H IH]; [apply types_skip|].
  rewrite join_cons. inversion H; subst.
  - cbn [wsep more]. now rewrite app_nil_r.
  - change (wsep (write_byte c) (f :: x :: l)) with (f ;; write_byte c ;; wsep (write_byte c) (x :: l)).
    apply types_seq; [assumption|]. cbn [more]. apply (types_seq _ _ [c]); [now apply types_byte|assumption].
Qed.

Lemma types_paren f t : types f t -> types (wparen f) (paren t).
Proof.
  intros H. unfold wparen, paren. apply (types_seq _ _ [40]); [apply types_byte; lia|].
  apply types_seq; [assumption|apply types_byte; lia].
Qed.

Lemma types_str s : types (write_string (str s)) (str s).
Proof.
  apply types_string. induction s as [|a s IH]; cbn; constructor; [|exact IH].
  pose proof (Ascii.N_ascii_bounded a). lia.
Qed.

Section types.
Variable fixed : bool.
Variable num : f64 -> list Z.
Local Notation typed x := (types (write_string_double fixed x) (num x)).
Local Notation typeds := (Forall (fun x => typed x)).

Lemma types_posn p : typeds p -> types (write_posn_wkt fixed p) (t_posn num p).
Proof.
  intros H. apply types_sep; [lia|]. induction H; cbn; constructor; assumption.
Qed.

Lemma types_posns ds : Forall typeds ds ->
  types (wsep wcomma (map (write_posn_wkt fixed) ds)) (t_posns num ds).
Proof.
  intros H. apply types_sep; [lia|].
  induction H; cbn; constructor; [now apply types_posn|assumption].
Qed.

Lemma types_ring k r a b ds : posns k (ring_pts r) a = Some ds -> Forall typeds ds ->
  types (write_ring_points_wkt fixed k (Some r) (a ++ b)) (t_posns num ds).
Proof.
  intros Hp H. unfold write_ring_points_wkt. change (ring_points r) with (ring_pts r).
  rewrite (posns_with_extra _ _ _ _ _ Hp). now apply types_posns.
Qed.

Lemma types_rings k : forall rs cs tl dss,
  Forall ring_made rs -> posns_list k (map ring_pts rs) cs = Some dss -> Forall (Forall typeds) dss ->
  Forall2 types (wkt_rings fixed k (map Some rs) (cs ++ tl)) (map (fun ps => paren (t_posns num ps)) dss).
Proof.
  induction rs as [|r rs IH]; intros cs tl dss Hm; cbn [map posns_list wkt_rings].
  - destruct cs; [intros [= <-] _; constructor|discriminate].
  - inversion Hm as [|? ? Hr Hrs]; subst.
    destruct (posns k (ring_pts r) _) as [a|] eqn:Ea; [|discriminate].
    destruct (posns_list k (map ring_pts rs) _) as [b|] eqn:Eb; [|discriminate].
    intros [= <-] HF. inversion HF; subst. cbn [map].
    set (n := (k * length (ring_pts r))%nat) in *.
    assert (Hc := posns_cs _ _ _ _ Ea). fold n in Hc. rewrite firstn_length in Hc.
    constructor.
    + apply types_paren. rewrite <- (firstn_skipn n cs) at 1. rewrite <- app_assoc. now apply types_ring.
    + cbn [ring_extra]. replace (k * r_npoints r)%nat with n
        by (unfold n; rewrite made_pts_length by assumption; reflexivity).
      rewrite skipn_app. replace (n - length cs)%nat with 0%nat by lia.
      cbn [skipn]. now apply IH.
Qed.

Lemma types_poly k p rs cs tl dss : poly_made p -> poly_pts p = Some rs ->
  posns_list k rs cs = Some dss -> Forall (Forall typeds) dss ->
  types (write_poly_points_wkt fixed k (Some p) (cs ++ tl)) (t_rings num dss).
Proof.
  intros Hm Hr Hp HF. destruct (poly_pts_rings _ _ Hr Hm) as (l & E1 & E2 & Hl & En).
  unfold write_poly_points_wkt. rewrite E1. apply types_sep; [lia|]. subst rs. now apply types_rings.
Qed.

Lemma poly_pts_some p rs : poly_pts p = Some rs -> rs <> [].
Proof. destruct p as [r|r hs]; cbn; [intros [= <-]; easy|]. destruct (all_some hs); [|easy]. now intros [= <-]. Qed.

Lemma posns_some k ps cs ds : posns k ps cs = Some ds -> ps <> [] -> ds <> [].
Proof. intros H N ->. apply posns_length in H. destruct ps; [easy|discriminate]. Qed.
Lemma posns_list_some k ps cs ds : posns_list k ps cs = Some ds -> ps <> [] -> ds <> [].
Proof. intros H N ->. apply posns_list_length in H. destruct ps; [easy|discriminate]. Qed.
Lemma posns_list2_some k ps cs ds : posns_list2 k ps cs = Some ds -> ps <> [] -> ds <> [].
Proof.
  destruct ps; [easy|]. cbn. destruct (posns_list k _ _); [|discriminate].
  destruct (posns_list2 _ _ _); [|discriminate]. now intros [= <-].
Qed.

Lemma types_zm f : types (write_zm_def_wkt f) (t_zm (dim_of f)).
Proof.
  unfold write_zm_def_wkt, t_zm, dim_of. cbn [dz dm].
  destruct (has_m f && negb (has_z f)); [apply types_str|apply types_skip].
Qed.

Lemma types_body {A} N f (t : list A -> list Z) l w : l <> [] -> types w (t l) ->
  types (write_string (str N) ;; write_zm_def_wkt f ;; wparen w) (t_body (str N) (dim_of f) t l).
Proof.
  intros NE H. destruct l; [easy|]. apply types_seq; [apply types_str|].
  apply types_seq; [apply types_zm|now apply types_paren].
Qed.
Lemma types_none {A} N f (t : list A -> list Z) :
  types (write_string (str N) ;; write_zm_def_wkt f ;; write_string (str " EMPTY")) (t_body (str N) (dim_of f) t []).
Proof.
  apply types_seq; [apply types_str|]. apply types_seq; [apply types_zm|apply types_str].
Qed.
Lemma types_base {A} N (t : list A -> list Z) l w : l <> [] -> types w (t l) ->
  types (write_string (str N) ;; wparen w) (t_body (str N) xy t l).
Proof.
  intros NE H. destruct l; [easy|]. apply types_seq; [apply types_str|]. now apply types_paren.
Qed.

Lemma types_lines k gs : forall ls cs tl dss,
  Forall2 (fun o l => match o with Some (GLine _ r) => Some (ring_pts r) | _ => None end = Some l)
          gs ls ->
  Forall (opt_all geom_made) gs ->
  posns_list k ls cs = Some dss -> Forall (Forall typeds) dss ->
  Forall2 types (wkt_lines fixed k gs (cs ++ tl)) (map (fun ps => paren (t_posns num ps)) dss).
Proof.
  induction gs as [|o gs IH]; intros ls cs tl dss HF Hm.
  - inversion HF; subst. cbn. destruct cs; [|discriminate]. intros [= <-] _. constructor.
  - inversion HF as [|? l ? ls' Hl HF']; subst. inversion Hm as [|? ? Ho Hm']; subst.
    destruct o as [[|f0 r| | | | |]|]; try discriminate. injection Hl as <-. cbn in Ho.
    cbn [posns_list].
    destruct (posns k (ring_pts r) _) as [a|] eqn:Ea; [|discriminate].
    destruct (posns_list k ls' _) as [b|] eqn:Eb; [|discriminate].
    intros [= <-] Hok. inversion Hok as [|? ? Ha Hb]; subst.
    set (n := (k * length (ring_pts r))%nat) in *.
    assert (Hc := posns_cs _ _ _ _ Ea). fold n in Hc. rewrite firstn_length in Hc.
    cbn [wkt_lines tg_geom_line ring_extra map].
    replace (k * r_npoints r)%nat with n
      by (unfold n; rewrite made_pts_length by assumption; reflexivity).
    rewrite skipn_app. replace (n - length cs)%nat with 0%nat by lia. cbn [skipn].
    constructor.
    + apply types_paren. rewrite <- (firstn_skipn n cs) at 1. rewrite <- app_assoc. now apply types_ring.
    + now apply (IH ls').
Qed.

Lemma types_polys k gs : forall ls cs tl dss,
  Forall2 (fun o l => match o with Some (GPoly _ p) => poly_pts p | _ => None end = Some l)
          gs ls ->
  Forall (opt_all geom_made) gs ->
  posns_list2 k ls cs = Some dss -> Forall (Forall (Forall typeds)) dss ->
  Forall2 types (wkt_polys fixed k gs (cs ++ tl)) (map (fun rs => paren (t_rings num rs)) dss).
Proof.
  induction gs as [|o gs IH]; intros ls cs tl dss HF Hm.
  - inversion HF; subst. cbn. destruct cs; [|discriminate]. intros [= <-] _. constructor.
  - inversion HF as [|? l ? ls' Hl HF']; subst. inversion Hm as [|? ? Ho Hm']; subst.
    destruct o as [[| |f0 p| | | |]|]; try discriminate. cbn in Ho.
    cbn [posns_list2].
    set (n := (k * length (concat l))%nat) in *.
    destruct (posns_list k l _) as [a|] eqn:Ea; [|discriminate].
    destruct (posns_list2 k ls' _) as [b|] eqn:Eb; [|discriminate].
    intros [= <-] Hok. inversion Hok as [|? ? Ha Hb]; subst.
    assert (Hc := posns_list_cs _ _ _ _ Ea). fold n in Hc. rewrite firstn_length in Hc.
    cbn [wkt_polys tg_geom_poly map].
    rewrite (poly_extra_pts k p l Ho Hl). fold n.
    rewrite skipn_app. replace (n - length cs)%nat with 0%nat by lia. cbn [skipn].
    constructor.
    + apply types_paren. rewrite <- (firstn_skipn n cs) at 1. rewrite <- app_assoc.
      now apply (types_poly k p l).
    + now apply (IH ls').
Qed.

Lemma Forall_concat {A} (P : A -> Prop) l : Forall P (concat l) -> Forall (Forall P) l.
Proof.
  induction l as [|a l IH]; cbn; [constructor|]. rewrite Forall_app. intros [H1 H2]. constructor; auto.
Qed.

Theorem types_geom g : forall s,
  geom_made g -> shape_of g = Some s -> no_bare_line g -> typeds (coords_of s) ->
  types (write_geom_wkt fixed g) (t_shape num s).
Proof.
  induction g as [f p|f l|f p|f p z m x|f l c x|f p c x|t f c x|t f gs c x IH]
    using geom_ind_deep; intros s Hm Hs Hn Hf; cbn [write_geom_wkt].
  - cbn [shape_of] in Hs. destruct (is_xy f) eqn:Ef; [|discriminate]. injection Hs as <-.
    apply types_base; [easy|]. now apply types_posn.
  - cbn [shape_of] in Hs. destruct (is_xy f) eqn:Ef; [|discriminate]. injection Hs as <-.
    cbn [coords_of] in Hf. apply Forall_concat in Hf. cbn in Hn. apply types_base.
    + intros E. apply map_eq_nil in E. contradiction.
    + apply (types_ring 0 l [] []); [apply posns_0|assumption].
  - cbn [shape_of] in Hs. destruct (is_xy f) eqn:Ef; [|discriminate].
    destruct (poly_pts p) as [rs|] eqn:Ep; [|discriminate]. injection Hs as <-.
    cbn [coords_of] in Hf. apply Forall_concat, Forall_concat in Hf. apply types_base.
    + intros E. apply map_eq_nil in E. now apply poly_pts_some in Ep.
    + apply (types_poly 0 p rs [] []); [exact Hm|exact Ep|apply posns_list_0|assumption].
  - cbn [shape_of] in Hs. injection Hs as <-. unfold write_geom_point_wkt. cbn [t_shape].
    destruct (is_empty f) eqn:Ef; [apply types_none|]. apply types_body; [easy|].
    now apply types_posn.
  - cbn [shape_of] in Hs. unfold write_geom_linestring_wkt. cbn [no_bare_line] in Hn. destruct (is_empty f) eqn:Ef.
    + injection Hs as <-. apply types_none.
    + destruct l as [l|]; [|discriminate]. cbn [obind2] in Hs.
      destruct (posns _ (ring_pts l) c) as [ds|] eqn:Ep; [|discriminate]. injection Hs as <-.
      cbn [coords_of] in Hf. apply Forall_concat in Hf. apply types_body.
      * eapply posns_some; eauto.
      * rewrite <- (app_nil_r c), xdims_xdim. now apply types_ring.
  - cbn [shape_of] in Hs. unfold write_geom_polygon_wkt. destruct (is_empty f) eqn:Ef.
    + injection Hs as <-. apply types_none.
    + destruct p as [p|]; [|discriminate]. cbn [obind2] in Hs.
      destruct (poly_pts p) as [rs|] eqn:Er; [|discriminate]. cbn [obind2] in Hs.
      destruct (posns_list _ rs c) as [ds|] eqn:Ep; [|discriminate]. injection Hs as <-.
      cbn [coords_of] in Hf. apply Forall_concat, Forall_concat in Hf. apply types_body.
      * eapply posns_list_some; eauto. now apply poly_pts_some in Er.
      * rewrite <- (app_nil_r c), xdims_xdim. now apply (types_poly _ p rs).
  - (* no children *)
    assert (E : s = match t with
                    | MPoints => ShPoints (dim_of f) [] | MLines => ShLines (dim_of f) []
                    | MPolys => ShPolys (dim_of f) [] | MGeoms => ShGeoms [] end /\
                (t = MGeoms -> dim_of f = xy)).
    { cbn [shape_of] in Hs. destruct t; destruct (is_empty f); cbn in Hs;
        try (destruct c; cbn in Hs; [|discriminate]); try (injection Hs as <-; split; congruence);
        destruct (is_xy f) eqn:Ef; try discriminate; injection Hs as <-; split; try reflexivity;
        intros _; now apply dim_xy. }
    destruct E as [-> Ed].
    destruct t; cbn [t_shape wkt_multi_name]; try rewrite <- (Ed eq_refl); apply types_none.
  - apply made_multi in Hm. cbn [shape_of] in Hs.
    assert (HN : forall T (a : T) b, (is_empty f = true \/ gs = []) ->
      match gs with [] => a | _ :: _ => if is_empty f then a else b end = a).
    { intros T a b [E|E]; [rewrite E; now destruct gs|now rewrite E]. }
    replace (match gs with [] => _ | _ :: _ => _ end) with
      (if match gs with [] => true | _ => is_empty f end then write_string (str " EMPTY") else
         wparen (wsep wcomma
              (match t with
               | MPoints => wkt_points fixed (xdims f) gs c
               | MLines => wkt_lines fixed (xdims f) gs c
               | MPolys => wkt_polys fixed (xdims f) gs c
               | MGeoms => map (fun o => match o with
                                         | Some g => write_geom_wkt fixed g
                                         | None => wundef
                                         end) gs
               end))) by (destruct gs; reflexivity).
    destruct (match gs with [] => true | _ => is_empty f end) eqn:Ef.
    + assert (E : s = match t with
                      | MPoints => ShPoints (dim_of f) [] | MLines => ShLines (dim_of f) []
                      | MPolys => ShPolys (dim_of f) [] | MGeoms => ShGeoms [] end /\
                  (t = MGeoms -> dim_of f = xy)).
      { assert (EL : (if is_empty f then [] else gs) = []) by (destruct gs; [now destruct (is_empty f)|now rewrite Ef]).
        destruct t.
        1-3: rewrite EL in Hs; cbn in Hs; destruct c; cbn in Hs; [|discriminate]; injection Hs as <-; split; congruence.
        destruct (is_xy f) eqn:Ef2; [|discriminate].
        replace (if is_empty f then Some [] else _) with (Some (@nil shape)) in Hs
          by (destruct gs; [now destruct (is_empty f)|now rewrite Ef]).
        injection Hs as <-. split; [reflexivity|]. intros _. now apply dim_xy. }
      destruct E as [-> Ed].
      destruct t; cbn [t_shape wkt_multi_name]; try rewrite <- (Ed eq_refl); apply types_none.
    + assert (Ef' : is_empty f = false) by (destruct gs; [discriminate|assumption]).
      assert (NE : gs <> []) by (intros ->; discriminate). rewrite Ef' in Hs. clear Ef HN Ef'.
      destruct t.
      * destruct (all_some (map _ gs)) as [ps|] eqn:Ea; [|discriminate]. cbn [obind2] in Hs.
        apply all_some_map in Ea.
        destruct (posns _ ps c) as [ds|] eqn:Ep; [|discriminate]. injection Hs as <-.
        cbn [coords_of] in Hf. apply Forall_concat in Hf.
        apply types_body.
        { eapply posns_some; eauto. intros ->. inversion Ea; subst; easy. }
        unfold wkt_points.
        assert (E : map tg_geom_point gs = ps).
        { clear -Ea. induction Ea as [|o p gs pts H _ IH]; cbn; [reflexivity|].
          rewrite IH. f_equal. destruct o as [[]|]; try discriminate. now injection H. }
        rewrite E, xdims_xdim.
        rewrite <- (app_nil_r c), (posns_with_extra _ _ _ _ _ Ep). now apply types_posns.
      * destruct (all_some (map _ gs)) as [ps|] eqn:Ea; [|discriminate]. cbn [obind2] in Hs.
        apply all_some_map in Ea.
        destruct (posns_list _ ps c) as [ds|] eqn:Ep; [|discriminate]. injection Hs as <-.
        cbn [coords_of] in Hf. apply Forall_concat, Forall_concat in Hf.
        apply types_body.
        { eapply posns_list_some; eauto. intros ->. inversion Ea; subst; easy. }
        rewrite <- (app_nil_r c), xdims_xdim. apply types_sep; [lia|]. now apply (types_lines _ gs ps).
      * destruct (all_some (map _ gs)) as [ps|] eqn:Ea; [|discriminate]. cbn [obind2] in Hs.
        apply all_some_map in Ea.
        destruct (posns_list2 _ ps c) as [ds|] eqn:Ep; [|discriminate]. injection Hs as <-.
        cbn [coords_of] in Hf. apply Forall_concat, Forall_concat, Forall_concat in Hf.
        apply types_body.
        { eapply posns_list2_some; eauto. intros ->. inversion Ea; subst; easy. }
        rewrite <- (app_nil_r c), xdims_xdim. apply types_sep; [lia|]. now apply (types_polys _ gs ps).
      * destruct (is_xy f) eqn:Exy; [|discriminate].
        destruct (all_some (map _ gs)) as [ss|] eqn:Ea; [|discriminate]. injection Hs as <-.
        apply all_some_map in Ea. cbn [t_shape wkt_multi_name]. rewrite <- (dim_xy f Exy). apply types_body.
        { intros ->. inversion Ea; subst; easy. }
        apply types_sep; [lia|]. clear NE Exy. cbn [coords_of] in Hf. cbn [no_bare_line] in Hn.
        revert ss Ea Hf. induction gs as [|o gs IHl]; intros ss Ea Hf.
        -- inversion Ea; subst. constructor.
        -- inversion Ea as [|? s' ? ss' Ho Ea']; subst. inversion IH as [|? ? IHo IHr]; subst.
           inversion Hm as [|? ? Hmo Hmr]; subst. cbn [map concat] in Hf. apply Forall_app in Hf. destruct Hf as [Hf1 Hf2].
           destruct o as [g|]; [|discriminate]. cbn in IHo, Hmo. destruct Hn as [Hn1 Hn2].
           cbn [map]. constructor; [now apply IHo|]. now apply IHl.
Qed.
End types.
