(** * The WKB writer emits an encoding of the shape of the geometry *)

From Coq Require Import ZArith Bool List Lia.
From Verif Require Import F64 Geo Series RingApi Bytes Geom Writer WkbWrite.
From Verif Require Import SpecWkb WriterFacts GeomFacts.
Import ListNotations.
Local Open Scope Z_scope.

Definition doubles (ds : list f64) : list Z := concat (map (le_bytes 8) ds).

Lemma doubles_posn ds : doubles ds = e_posn false ds.
Proof. reflexivity. Qed.

Lemma doubles_length ds : length (doubles ds) = (8 * length ds)%nat.
Proof.
  unfold doubles. induction ds as [|d ds IH]; [reflexivity|].
  cbn [map concat]. rewrite app_length, le_bytes_length, IH. cbn [length]. lia.
Qed.

Lemma emits_posn ds : emits (write_posn ds) (doubles ds).
Proof.
  intros w. unfold write_posn. destruct (Nat.ltb_spec (w_count w + 8 * length ds) (w_n w)).
  - apply memcpy_emit. fold (doubles ds). rewrite doubles_length. lia.
  - apply (emits_loop write_doublele (le_bytes 8)). intros d _. apply emits_le.
Qed.

Definition points_bytes (dss : list (list f64)) : list Z := concat (map doubles dss).

Lemma points_bytes_length k dss : Forall (fun ds => length ds = k) dss ->
  length (points_bytes dss) = (length dss * (8 * k))%nat.
Proof.
  unfold points_bytes. induction 1 as [|ds dss H _ IH]; [reflexivity|].
  cbn [map concat length]. rewrite app_length, doubles_length, IH, H. lia.
Qed.

Lemma with_extra_length k ps : forall cs, length (with_extra k ps cs) = length ps.
Proof. induction ps as [|p ps IH]; intros cs; cbn; [reflexivity|now rewrite IH]. Qed.

Lemma with_extra_each k ps : forall cs,
  Forall (fun ds => length ds = (2 + k)%nat) (with_extra k ps cs).
Proof.
  induction ps as [|p ps IH]; intros cs; cbn; constructor; [|apply IH].
  cbn. rewrite map_length, seq_length. reflexivity.
Qed.

Lemma with_extra_0 ps : forall cs, with_extra 0 ps cs = map (fun p => [px p; py p]) ps.
Proof. induction ps as [|p ps IH]; intros cs; cbn; [reflexivity|now rewrite IH]. Qed.

(** a ring that can be written *)
Definition ring_fine (k : nat) (r : ring) : Prop :=
  (r_npoints r <= length (r_points r))%nat /\
  imul_ok (r_npoints r) (16 + 8 * Z.of_nat k) = true.

Definition ring_bytes (k : nat) (r : ring) (cs : list f64) : list Z :=
  le_bytes 4 (Z.of_nat (r_npoints r)) ++ points_bytes (with_extra k (ring_points r) cs).

Lemma ring_points_length r : (r_npoints r <= length (r_points r))%nat ->
  length (ring_points r) = r_npoints r.
Proof. intros H. unfold ring_points. rewrite firstn_length. lia. Qed.

Lemma emits_ring k r cs : ring_fine k r ->
  emits (write_ring_points k (Some r) cs) (ring_bytes k r cs).
Proof.
  intros [Hl Hm]. unfold write_ring_points.
  assert (Len : length (points_bytes (with_extra k (ring_points r) cs)) =
                (r_npoints r * (16 + 8 * k))%nat).
  { rewrite (points_bytes_length (2 + k)) by apply with_extra_each.
    rewrite with_extra_length, ring_points_length by assumption. lia. }
  destruct k as [|k].
  - unfold write_ring_points_wkb, ring_bytes. apply emits_seq; [apply emits_le|].
    change (16 + 8 * Z.of_nat 0) with 16 in Hm. rewrite Hm. intros w.
    rewrite with_extra_0 in *. rewrite Nat.mul_0_r, Nat.add_0_r in Len.
    destruct (Nat.leb_spec (w_count w + r_npoints r * 16) (w_n w)) as [L|L].
    + assert (E : concat (map (fun p => le_bytes 8 (px p) ++ le_bytes 8 (py p)) (ring_points r)) =
                  points_bytes (map (fun p => [px p; py p]) (ring_points r))).
      { unfold points_bytes. rewrite map_map. apply (f_equal (@concat Z)). apply map_ext. intros p.
        unfold doubles. cbn [map concat]. now rewrite app_nil_r. }
      rewrite E. apply memcpy_emit. rewrite Len. exact L.
    + destruct (Nat.leb_spec (w_n w) (w_count w)) as [F|F].
      * apply skip_emit; assumption.
      * unfold points_bytes. rewrite map_map.
        apply (emits_loop (fun p => write_posn [px p; py p])
                 (fun p => doubles [px p; py p])). intros p _. apply emits_posn.
  - unfold write_ring_points_wkb_x, ring_bytes. apply emits_seq; [apply emits_le|].
    rewrite Hm. intros w.
    destruct (Nat.leb_spec (w_n w) (w_count w)) as [F|F].
    + apply skip_emit; assumption.
    + apply (emits_loop write_posn doubles). intros ds _. apply emits_posn.
Qed.

Lemma doubles_byte ds : Forall is_byte (doubles ds).
Proof.
  unfold doubles. induction ds as [|d ds IH]; [constructor|]. cbn [map concat].
  apply Forall_app. split; [apply le_bytes_byte|exact IH].
Qed.

Lemma ring_bytes_byte k r cs : Forall is_byte (ring_bytes k r cs).
Proof.
  unfold ring_bytes. apply Forall_app. split; [apply le_bytes_byte|].
  unfold points_bytes. induction (with_extra k (ring_points r) cs) as [|d ds IH]; [constructor|].
  cbn [map concat]. apply Forall_app. split; [apply doubles_byte|exact IH].
Qed.

Lemma settled_ring k r cs : opt_all ring_made r -> settled (write_ring_points k r cs).
Proof.
  destruct r as [r|]; [|intros _; apply settled_undef]. cbn [opt_all]. intros H.
  apply made_npoints in H.
  destruct (imul_ok (r_npoints r) (16 + 8 * Z.of_nat k)) eqn:E.
  - eapply settled_emits; [apply emits_ring; split; assumption|apply ring_bytes_byte].
  - left. intros w. unfold write_ring_points. destruct k.
    + unfold write_ring_points_wkb. change (16 + 8 * Z.of_nat 0) with 16 in E. rewrite E.
      unfold wseq, write_uint32le. rewrite emits_le. reflexivity.
    + unfold write_ring_points_wkb_x. rewrite E.
      unfold wseq, write_uint32le. rewrite emits_le. reflexivity.
Qed.

Lemma settled_rings k rs : forall cs, Forall (opt_all ring_made) rs ->
  settled (write_rings k rs cs).
Proof.
  induction rs as [|r rs IH]; intros cs H; cbn.
  - apply settled_skip.
  - inversion H; subst. apply settled_seq; [now apply settled_ring|now apply IH].
Qed.

Lemma poly_rings_made p : opt_all poly_made p -> Forall (opt_all ring_made) (poly_rings p).
Proof.
  destruct p as [[r|e hs]|]; cbn.
  - intros H. repeat constructor. exact H.
  - intros [H1 H2]. constructor; [exact H1|]. exact H2.
  - intros _. repeat constructor.
Qed.

Lemma settled_poly k p cs : opt_all poly_made p -> settled (write_poly_points k p cs).
Proof.
  intros H. unfold write_poly_points. apply settled_seq.
  - apply settled_le.
  - now apply settled_rings, poly_rings_made.
Qed.

Lemma emits_type type f :
  emits (write_wkb_type type f) (1 :: le_bytes 4 (wkb_type_code type f)).
Proof.
  unfold write_wkb_type. apply (emits_seq _ _ [1]).
  - apply (emits_byte_ok 1). unfold is_byte. lia.
  - apply emits_le.
Qed.

Lemma settled_type type f : settled (write_wkb_type type f).
Proof. eapply settled_emits; [apply emits_type|]. constructor; [unfold is_byte; lia|apply le_bytes_byte]. Qed.

Lemma settled_posn ds : settled (write_posn ds).
Proof. eapply settled_emits; [apply emits_posn|apply doubles_byte]. Qed.

Lemma settled_u32 x : settled (write_uint32le x).
Proof. apply settled_le. Qed.

Lemma settled_points f gs cs : settled (write_points f gs cs).
Proof.
  unfold write_points. apply settled_loop. intros ds _.
  apply settled_seq; [apply settled_type|apply settled_posn].
Qed.

Lemma made_line g : opt_all geom_made g -> opt_all ring_made (tg_geom_line g).
Proof. destruct g as [[]|]; cbn; auto. Qed.
Lemma made_poly g : opt_all geom_made g -> opt_all poly_made (tg_geom_poly g).
Proof. destruct g as [[]|]; cbn; auto. Qed.

Lemma settled_lines f gs : forall cs, Forall (opt_all geom_made) gs ->
  settled (write_lines f gs cs).
Proof.
  induction gs as [|g gs IH]; intros cs H; cbn.
  - apply settled_skip.
  - inversion H; subst. apply settled_seq; [apply settled_type|].
    apply settled_seq; [now apply settled_ring, made_line|now apply IH].
Qed.

Lemma settled_polys f gs : forall cs, Forall (opt_all geom_made) gs ->
  settled (write_polys f gs cs).
Proof.
  induction gs as [|g gs IH]; intros cs H; cbn.
  - apply settled_skip.
  - inversion H; subst. apply settled_seq; [apply settled_type|].
    apply settled_seq; [now apply settled_poly, made_poly|now apply IH].
Qed.

(** every geometry made of constructed rings: the writer behaves the same for
    every buffer *)
Theorem settled_geom g : geom_made g -> settled (write_geom_wkb g).
Proof.
  induction g as [f p|f l|f p|f p z m x|f l c x|f p c x|t f c x|t f gs c x IH]
    using geom_ind_deep; intros Hm; cbn [write_geom_wkb].
  - apply settled_seq; [apply settled_type|apply settled_posn].
  - apply settled_seq; [apply settled_type|]. apply (settled_ring 0 (Some l) []). exact Hm.
  - apply settled_seq; [apply settled_type|]. apply settled_poly. exact Hm.
  - unfold write_geom_point_wkb. apply settled_seq; [apply settled_type|].
    destruct (is_empty f); apply settled_posn.
  - unfold write_geom_linestring_wkb. apply settled_seq; [apply settled_type|].
    destruct (is_empty f); [apply settled_u32|]. apply settled_ring. exact Hm.
  - unfold write_geom_polygon_wkb. apply settled_seq; [apply settled_type|].
    destruct (is_empty f); [apply settled_u32|]. apply settled_poly. exact Hm.
  - apply settled_seq; [apply settled_type|apply settled_u32].
  - apply settled_seq; [apply settled_type|].
    destruct (is_empty f); [apply settled_u32|].
    apply settled_seq; [apply settled_u32|].
    apply made_multi in Hm.
    destruct t.
    + apply settled_points.
    + now apply settled_lines.
    + now apply settled_polys.
    + apply settled_loop. intros [g|] Hg; [|apply settled_undef].
      rewrite Forall_forall in IH, Hm. apply (IH _ Hg). apply (Hm _ Hg).
Qed.

(** what the writer emits starts with the mark of the little-endian order *)
Lemma first_type t f k bs : emits (write_wkb_type t f ;; k) bs -> settled k ->
  exists rest, bs = 1 :: rest.
Proof.
  intros E [H|(b & H & _)].
  - pose proof (E (Wr [] 0)) as E0. unfold wseq in E0. rewrite (emits_type t f) in E0.
    rewrite H in E0. discriminate.
  - pose proof (emits_seq _ _ _ _ (emits_type t f) H) as E'.
    exists (le_bytes 4 (wkb_type_code t f) ++ b).
    exact (emits_unique _ _ _ E E').
Qed.

(** the writer after the header *)
Lemma geom_head g : geom_made g ->
  exists t f k, write_geom_wkb g = (write_wkb_type t f ;; k) /\ settled k.
Proof.
  intros Hm. destruct g as [f p|f l|f p|f p z m x|f l c x|f p c x|t f gs c x];
    cbn [write_geom_wkb];
    unfold write_geom_point_wkb, write_geom_linestring_wkb, write_geom_polygon_wkb;
    do 3 eexists; (split; [reflexivity|]).
  - apply settled_posn.
  - apply (settled_ring 0 (Some l) []). exact Hm.
  - apply settled_poly. exact Hm.
  - destruct (is_empty f); apply settled_posn.
  - destruct (is_empty f); [apply settled_u32|]. apply settled_ring. exact Hm.
  - destruct (is_empty f); [apply settled_u32|]. apply settled_poly. exact Hm.
  - destruct gs as [gs|]; [|apply settled_u32].
    destruct (is_empty f); [apply settled_u32|].
    apply settled_seq; [apply settled_u32|].
    apply made_multi in Hm.
    destruct t.
    + apply settled_points.
    + now apply settled_lines.
    + now apply settled_polys.
    + apply settled_loop. intros [g|] Hg; [|apply settled_undef].
      apply settled_geom. rewrite Forall_forall in Hm. apply (Hm _ Hg).
Qed.

Lemma first_geom g bs : geom_made g -> emits (write_geom_wkb g) bs -> exists rest, bs = 1 :: rest.
Proof.
  intros Hm E. destruct (geom_head g Hm) as (t & f & k & Hk & Hs). rewrite Hk in E.
  exact (first_type _ _ _ _ E Hs).
Qed.

(** ** The bytes are an encoding of the shape *)

Lemma type_code type f : wkb_type_code type f =
  type + (if dz (dim_of f) then 1000 else 0) + (if dm (dim_of f) then 2000 else 0).
Proof. unfold wkb_type_code. cbn. destruct (has_z f), (has_m f); lia. Qed.

Lemma emits_head type f : emits (write_wkb_type type f) (e_head false type (dim_of f)).
Proof.
  unfold e_head, e_int. rewrite <- type_code. apply emits_type.
Qed.

Lemma xdims_xdim f : xdims f = xdim (dim_of f).
Proof. unfold xdims, dims_of, xdim, dim_of. cbn. destruct (has_z f), (has_m f); reflexivity. Qed.

Lemma nth_seq_firstn k : forall cs : list f64, (k <= length cs)%nat ->
  map (fun i => nth i cs f_zero) (seq 0 k) = firstn k cs.
Proof.
  induction k as [|k IH]; intros cs H; [reflexivity|].
  destruct cs as [|c cs]; [cbn in H; lia|]. cbn in *. f_equal.
  rewrite <- seq_shift, map_map. apply IH. lia.
Qed.

Lemma posns_with_extra k : forall ps a b ds, posns k ps a = Some ds ->
  with_extra k ps (a ++ b) = ds.
Proof.
  induction ps as [|p ps IH]; intros a b ds; cbn [posns with_extra].
  - destruct a; [intros [= <-]; reflexivity|discriminate].
  - destruct (Nat.ltb_spec (length a) k) as [L|L]; [discriminate|].
    destruct (posns k ps (skipn k a)) as [r|] eqn:E; [|discriminate].
    intros [= <-]. f_equal.
    + f_equal. f_equal. rewrite nth_seq_firstn by (rewrite app_length; lia).
      rewrite firstn_app. replace (k - length a)%nat with 0%nat by lia. cbn. apply app_nil_r.
    + rewrite skipn_app. replace (k - length a)%nat with 0%nat by lia. cbn. now apply IH.
Qed.

Lemma posns_length k : forall ps cs ds, posns k ps cs = Some ds -> length ds = length ps.
Proof.
  induction ps as [|p ps IH]; intros cs ds; cbn [posns length].
  - destruct cs; [intros [= <-]; reflexivity|discriminate].
  - destruct (length cs <? k)%nat; [discriminate|].
    destruct (posns k ps (skipn k cs)) as [r|] eqn:E; [|discriminate].
    intros [= <-]. cbn. f_equal. eauto.
Qed.

Lemma points_bytes_enc dss : points_bytes dss = concat (map (e_posn false) dss).
Proof. reflexivity. Qed.

(** the size condition that [line_ok] and [ring_ok] give *)
Lemma fine_of_length k r : ring_made r -> (k <= 2)%nat ->
  Z.of_nat (length (ring_pts r)) < 2 ^ 26 -> ring_fine k r.
Proof.
  intros Hm Hk H. rewrite made_pts_length in H by assumption. split.
  - now apply made_npoints.
  - unfold imul_ok. apply Z.ltb_lt. change (2 ^ 26) with 67108864 in H. nia.
Qed.

Lemma emits_ring_posns k r a b ds : ring_made r -> (k <= 2)%nat ->
  posns k (ring_pts r) a = Some ds -> Z.of_nat (length ds) < 2 ^ 26 ->
  emits (write_ring_points k (Some r) (a ++ b)) (e_posns false ds).
Proof.
  intros Hm Hk Hp Hl.
  assert (Hn := posns_length _ _ _ _ Hp).
  replace (e_posns false ds) with (ring_bytes k r (a ++ b)).
  - apply emits_ring. apply fine_of_length; auto. now rewrite <- Hn.
  - unfold ring_bytes, e_posns, e_count, e_int.
    change (ring_points r) with (ring_pts r).
    rewrite (posns_with_extra _ _ _ _ _ Hp), Hn, made_pts_length by assumption. reflexivity.
Qed.

Lemma xdim_le d : (xdim d <= 2)%nat.
Proof. unfold xdim. destruct (dz d), (dm d); cbn; lia. Qed.

Lemma posns_0 ps : posns 0 ps [] = Some (map (fun p => [px p; py p]) ps).
Proof. induction ps as [|p ps IH]; cbn; [reflexivity|]. now rewrite IH. Qed.

Lemma posns_list_0 ls : posns_list 0 ls [] = Some (map (map (fun p => [px p; py p])) ls).
Proof. induction ls as [|l ls IH]; cbn; [reflexivity|]. now rewrite posns_0, IH. Qed.

Lemma posns_list_length k : forall ls cs ds, posns_list k ls cs = Some ds -> length ds = length ls.
Proof.
  induction ls as [|l ls IH]; intros cs ds; cbn.
  - destruct cs; [intros [= <-]; reflexivity|discriminate].
  - destruct (posns k l _); [|discriminate].
    destruct (posns_list k ls _) eqn:E; [|discriminate]. intros [= <-]. cbn. f_equal. eauto.
Qed.

Lemma posns_cs k : forall ps cs ds, posns k ps cs = Some ds -> length cs = (k * length ps)%nat.
Proof.
  induction ps as [|p ps IH]; intros cs ds; cbn [posns length].
  - destruct cs; [intros _; cbn; lia|discriminate].
  - destruct (Nat.ltb_spec (length cs) k) as [L|L]; [discriminate|].
    destruct (posns k ps (skipn k cs)) as [r|] eqn:E; [|discriminate].
    intros _. apply IH in E. rewrite skipn_length in E. lia.
Qed.

Lemma posns_list_cs k : forall ls cs ds, posns_list k ls cs = Some ds ->
  length cs = (k * length (concat ls))%nat.
Proof.
  induction ls as [|l ls IH]; intros cs ds; cbn.
  - destruct cs; [intros _; cbn; lia|discriminate].
  - destruct (posns k l _) as [a|] eqn:Ea; [|discriminate].
    destruct (posns_list k ls _) as [b|] eqn:Eb; [|discriminate]. intros _.
    apply posns_cs in Ea. apply IH in Eb.
    rewrite app_length. rewrite firstn_length in Ea. rewrite skipn_length in Eb. lia.
Qed.

(** a list of rings *)
Lemma emits_rings k : (k <= 2)%nat -> forall rs cs tl dss,
  Forall ring_made rs -> posns_list k (map ring_pts rs) cs = Some dss ->
  Forall (fun ds => Z.of_nat (length ds) < 2 ^ 26) dss ->
  emits (write_rings k (map Some rs) (cs ++ tl)) (concat (map (e_posns false) dss)).
Proof.
  intros Hk. induction rs as [|r rs IH]; intros cs tl dss Hm; cbn [map posns_list write_rings].
  - destruct cs; [intros [= <-] _; apply emits_skip|discriminate].
  - inversion Hm as [|? ? Hr Hrs]; subst.
    destruct (posns k (ring_pts r) _) as [a|] eqn:Ea; [|discriminate].
    destruct (posns_list k (map ring_pts rs) _) as [b|] eqn:Eb; [|discriminate].
    intros [= <-] HF. inversion HF; subst. cbn [map concat].
    set (n := (k * length (ring_pts r))%nat) in *.
    assert (Hc := posns_cs _ _ _ _ Ea). fold n in Hc. rewrite firstn_length in Hc.
    apply emits_seq.
    + rewrite <- (firstn_skipn n cs), <- app_assoc. now apply emits_ring_posns.
    + cbn [ring_extra]. replace (k * r_npoints r)%nat with n
        by (unfold n; rewrite made_pts_length by assumption; reflexivity).
      rewrite skipn_app. replace (n - length cs)%nat with 0%nat by lia.
      cbn [skipn]. now apply IH.
Qed.

Lemma all_some_Some {A} (l : list (option A)) r : all_some l = Some r <-> l = map Some r.
Proof.
  revert r. induction l as [|[a|] l IH]; intros r; cbn.
  - split; [intros [= <-]; reflexivity|]. destruct r; [reflexivity|discriminate].
  - destruct (all_some l) as [t|] eqn:E; cbn.
    + split.
      * intros [= <-]. cbn. f_equal. now apply IH.
      * destruct r as [|b r]; [discriminate|]. cbn. intros [= -> H].
        apply IH in H. congruence.
    + split; [discriminate|]. destruct r as [|b r]; [discriminate|]. cbn. intros [= -> H].
      apply IH in H. discriminate.
  - split; [discriminate|]. destruct r; discriminate.
Qed.

(** the rings of a polygon without a NULL hole *)
Lemma poly_pts_rings p rs : poly_pts p = Some rs -> poly_made p ->
  exists l, poly_rings (Some p) = map Some l /\ rs = map ring_pts l /\ Forall ring_made l /\
            1 + tg_poly_num_holes (Some p) = Z.of_nat (length rs).
Proof.
  destruct p as [r|e hs]; cbn [poly_pts poly_rings tg_poly_num_holes poly_made].
  - intros [= <-] H. exists [r]. repeat split; auto.
  - destruct (all_some hs) as [l|] eqn:E; [|discriminate]. cbn [option_map]. intros [= <-] [H1 H2].
    apply all_some_Some in E. subst hs. exists (e :: l). repeat split.
    + constructor; [assumption|]. rewrite Forall_map in H2. exact H2.
    + cbn [length]. rewrite !map_length. lia.
Qed.

Lemma emits_poly k p rs cs tl dss : (k <= 2)%nat -> poly_made p -> poly_pts p = Some rs ->
  posns_list k rs cs = Some dss ->
  Forall (fun ds => Z.of_nat (length ds) < 2 ^ 26) dss ->
  emits (write_poly_points k (Some p) (cs ++ tl)) (e_rings false dss).
Proof.
  intros Hk Hm Hr Hp HF. destruct (poly_pts_rings _ _ Hr Hm) as (l & E1 & E2 & Hl & En).
  unfold write_poly_points. rewrite E1, En. unfold e_rings, e_count, e_int. apply emits_seq.
  - rewrite (posns_list_length _ _ _ _ Hp). apply emits_le.
  - subst rs. now apply emits_rings.
Qed.

Lemma poly_extra_pts k p rs : poly_made p -> poly_pts p = Some rs ->
  poly_extra k (Some p) = (k * length (concat rs))%nat.
Proof.
  intros Hm Hr. destruct (poly_pts_rings _ _ Hr Hm) as (l & E1 & -> & Hl & _).
  unfold poly_extra. rewrite E1. clear E1 Hr. induction Hl as [|r l H _ IH]; cbn; [lia|].
  rewrite IH, app_length, made_pts_length by assumption. lia.
Qed.

Lemma Forall2_length {A B} (R : A -> B -> Prop) l r : Forall2 R l r -> length l = length r.
Proof. induction 1; cbn; congruence. Qed.

Lemma child_dim f : dim_of (child_flags f) = dim_of f.
Proof. reflexivity. Qed.

(** the children of the three homogeneous multi types *)
Lemma emits_points f gs pts cs ds :
  Forall2 (fun o p => match o with Some (GPoint _ q) => Some q | _ => None end = Some p) gs pts ->
  posns (xdim (dim_of f)) pts cs = Some ds -> Forall (point_ok (dim_of f)) ds ->
  exists bs, emits (write_points f gs cs) bs /\ e_seq (point_enc (dim_of f)) ds bs.
Proof.
  intros HF Hp Hok. unfold write_points.
  assert (E : map tg_geom_point gs = pts).
  { clear -HF. induction HF as [|o p gs pts H _ IH]; cbn; [reflexivity|].
    rewrite IH. f_equal. destruct o as [[]|]; try discriminate. now injection H. }
  rewrite E, xdims_xdim.
  rewrite <- (app_nil_r cs), (posns_with_extra _ _ _ _ _ Hp).
  clear -Hok. exists (concat (map (fun p => e_head false 1 (dim_of f) ++ e_posn false p) ds)).
  split.
  - apply (emits_loop _ (fun p => e_head false 1 (dim_of f) ++ e_posn false p)).
    intros p _. apply emits_seq; [exact (emits_head 1 (child_flags f))|apply emits_posn].
  - induction Hok as [|p ds H _ IH]; cbn; [reflexivity|].
    exists (e_head false 1 (dim_of f) ++ e_posn false p). eexists. split; [reflexivity|].
    split; [|exact IH]. exists false, p. split; [reflexivity|]. split; [apply H|].
    destruct p; [destruct H as [[[=] _] _]|]. split; [reflexivity|apply H].
Qed.

Lemma emits_lines f gs : forall ls cs tl dss d,
  Forall2 (fun o l => match o with Some (GLine _ r) => Some (ring_pts r) | _ => None end = Some l)
          gs ls ->
  Forall (opt_all geom_made) gs ->
  posns_list (xdim (dim_of f)) ls cs = Some dss -> Forall (line_ok d) dss ->
  exists bs, emits (write_lines f gs (cs ++ tl)) bs /\
    e_seq (fun l b => exists big, b = e_head big 2 (dim_of f) ++ e_posns big l) dss bs.
Proof.
  induction gs as [|o gs IH]; intros ls cs tl dss d HF Hm.
  - inversion HF; subst. cbn. destruct cs; [|discriminate]. intros [= <-] _.
    exists []. split; [apply emits_skip|reflexivity].
  - inversion HF as [|? l ? ls' Hl HF']; subst. inversion Hm as [|? ? Ho Hm']; subst.
    destruct o as [[|f0 r| | | | |]|]; try discriminate. injection Hl as <-. cbn in Ho.
    cbn [posns_list]. set (k := xdim (dim_of f)) in *.
    destruct (posns k (ring_pts r) _) as [a|] eqn:Ea; [|discriminate].
    destruct (posns_list k ls' _) as [b|] eqn:Eb; [|discriminate].
    intros [= <-] Hok. inversion Hok as [|? ? Ha Hb]; subst.
    set (n := (k * length (ring_pts r))%nat) in *.
    assert (Hc := posns_cs _ _ _ _ Ea). fold n in Hc. rewrite firstn_length in Hc.
    cbn [write_lines tg_geom_line ring_extra]. rewrite xdims_xdim. fold k.
    replace (k * r_npoints r)%nat with n
      by (unfold n; rewrite made_pts_length by assumption; reflexivity).
    rewrite skipn_app. replace (n - length cs)%nat with 0%nat by lia. cbn [skipn].
    destruct (IH ls' (skipn n cs) tl b d HF' Hm' Eb Hb) as (bs & E1 & E2).
    exists ((e_head false 2 (dim_of f) ++ e_posns false a) ++ bs). split.
    + rewrite <- app_assoc. apply emits_seq; [exact (emits_head 2 (child_flags f))|]. apply emits_seq; [|exact E1].
      rewrite <- (firstn_skipn n cs) at 1. rewrite <- app_assoc. apply emits_ring_posns; auto.
      * apply xdim_le.
      * apply Ha.
    + cbn. exists (e_head false 2 (dim_of f) ++ e_posns false a), bs. split; [reflexivity|].
      split; [|exact E2]. exists false. reflexivity.
Qed.

Lemma poly_ok_small d rs : poly_ok d rs ->
  Forall (fun ds : list posn => Z.of_nat (length ds) < 2 ^ 26) rs.
Proof.
  intros (_ & _ & H). eapply Forall_impl; [|exact H]. intros ds [->|(_ & _ & L & _)]; [cbn; lia|exact L].
Qed.

Lemma emits_polys f gs : forall ls cs tl dss d,
  Forall2 (fun o l => match o with Some (GPoly _ p) => poly_pts p | _ => None end = Some l)
          gs ls ->
  Forall (opt_all geom_made) gs ->
  posns_list2 (xdim (dim_of f)) ls cs = Some dss -> Forall (poly_ok d) dss ->
  exists bs, emits (write_polys f gs (cs ++ tl)) bs /\
    e_seq (fun l b => exists big, b = e_head big 3 (dim_of f) ++ e_rings big l) dss bs.
Proof.
  induction gs as [|o gs IH]; intros ls cs tl dss d HF Hm.
  - inversion HF; subst. cbn. destruct cs; [|discriminate]. intros [= <-] _.
    exists []. split; [apply emits_skip|reflexivity].
  - inversion HF as [|? l ? ls' Hl HF']; subst. inversion Hm as [|? ? Ho Hm']; subst.
    destruct o as [[| |f0 p| | | |]|]; try discriminate. cbn in Ho.
    cbn [posns_list2]. set (k := xdim (dim_of f)) in *.
    set (n := (k * length (concat l))%nat) in *.
    destruct (posns_list k l _) as [a|] eqn:Ea; [|discriminate].
    destruct (posns_list2 k ls' _) as [b|] eqn:Eb; [|discriminate].
    intros [= <-] Hok. inversion Hok as [|? ? Ha Hb]; subst.
    assert (Hc := posns_list_cs _ _ _ _ Ea). fold n in Hc. rewrite firstn_length in Hc.
    cbn [write_polys tg_geom_poly]. rewrite xdims_xdim. fold k.
    rewrite (poly_extra_pts k p l Ho Hl). fold n.
    rewrite skipn_app. replace (n - length cs)%nat with 0%nat by lia. cbn [skipn].
    destruct (IH ls' (skipn n cs) tl b d HF' Hm' Eb Hb) as (bs & E1 & E2).
    exists ((e_head false 3 (dim_of f) ++ e_rings false a) ++ bs). split.
    + rewrite <- app_assoc. apply emits_seq; [exact (emits_head 3 (child_flags f))|]. apply emits_seq; [|exact E1].
      rewrite <- (firstn_skipn n cs) at 1. rewrite <- app_assoc.
      apply (emits_poly k p l); auto.
      * apply xdim_le.
      * eapply poly_ok_small; eauto.
    + cbn. exists (e_head false 3 (dim_of f) ++ e_rings false a), bs. split; [reflexivity|].
      split; [|exact E2]. exists false. reflexivity.
Qed.

Lemma dim_xy f : is_xy f = true -> dim_of f = xy.
Proof. unfold is_xy, dim_of, xy. destruct (has_z f), (has_m f); cbn; congruence. Qed.

Lemma emits_empty_line f : dim_of f = xy ->
  emits (write_uint32le 0) (e_posns false []).
Proof. intros _. unfold e_posns. cbn [map concat]. rewrite app_nil_r. apply emits_le. Qed.

Theorem emits_geom g : forall depth s,
  geom_made g -> shape_of g = Some s -> fits depth s ->
  exists bs, emits (write_geom_wkb g) bs /\ wkb_enc s bs.
Proof.
  induction g as [f p|f l|f p|f p z m x|f l c x|f p c x|t f c x|t f gs c x IH]
    using geom_ind_deep; intros depth s Hm Hs Hf; cbn [write_geom_wkb].
  - cbn [shape_of] in Hs. destruct (is_xy f) eqn:Ef; [|discriminate]. injection Hs as <-.
    destruct Hf as [_ [[[=] _]|Hf]].
    exists (e_head false 1 xy ++ e_posn false [px p; py p]). split.
    + rewrite <- (dim_xy f Ef). apply emits_seq; [apply emits_head|apply emits_posn].
    + exists false, [px p; py p]. split; [reflexivity|]. split; [apply Hf|].
      split; [reflexivity|apply Hf].
  - cbn [shape_of] in Hs. destruct (is_xy f) eqn:Ef; [|discriminate]. injection Hs as <-.
    exists (e_head false 2 xy ++ e_posns false (map (fun p => [px p; py p]) (ring_pts l))).
    split; [|exists false; reflexivity].
    rewrite <- (dim_xy f Ef). apply emits_seq; [apply emits_head|].
    apply (emits_ring_posns 0 l [] []); [exact Hm|lia|apply posns_0|].
    destruct Hf as [_ [[E _]|Hf]]; [rewrite E; cbn; lia|apply Hf].
  - cbn [shape_of] in Hs. destruct (is_xy f) eqn:Ef; [|discriminate].
    destruct (poly_pts p) as [rs|] eqn:Ep; [|discriminate]. injection Hs as <-.
    eexists. split; [|exists false; reflexivity].
    rewrite <- (dim_xy f Ef) at 1. apply emits_seq; [apply emits_head|].
    apply (emits_poly 0 p rs [] []); [lia|exact Hm|exact Ep|apply posns_list_0|].
    destruct Hf as [_ [[E _]|Hf]]; [rewrite E; constructor|]. eapply poly_ok_small; eauto.
  - cbn [shape_of] in Hs. injection Hs as <-. unfold write_geom_point_wkb.
    destruct (is_empty f) eqn:Ef.
    + destruct Hf as [_ [[_ Hd]|Hf]]; [|destruct Hf as [[L _] _]; discriminate L].
      exists (e_head false 1 (dim_of f) ++ e_posn false [f_nan_bits; f_nan_bits]). split.
      * apply emits_seq; [apply emits_head|apply emits_posn].
      * exists false, [f_nan_bits; f_nan_bits]. split; [reflexivity|]. rewrite Hd.
        split; [|reflexivity]. split; [reflexivity|]. unfold f_nan_bits.
        repeat constructor; lia.
    + destruct Hf as [_ [[[=] _]|Hf]].
      eexists. split; [apply emits_seq; [apply emits_head|apply emits_posn]|].
      exists false. eexists. split; [reflexivity|]. split; [apply Hf|].
      split; [reflexivity|apply Hf].
  - cbn [shape_of] in Hs. unfold write_geom_linestring_wkb. destruct (is_empty f) eqn:Ef.
    + injection Hs as <-. destruct Hf as [_ [[_ Hd]|Hf]];
        [|destruct Hf as (_ & L & _); cbn in L; lia].
      eexists. split; [apply emits_seq; [apply emits_head|now apply (emits_empty_line f)]|].
      exists false. reflexivity.
    + destruct l as [l|]; [|discriminate]. cbn [obind2] in Hs.
      destruct (posns _ (ring_pts l) c) as [ds|] eqn:Ep; [|discriminate]. injection Hs as <-.
      exists (e_head false 2 (dim_of f) ++ e_posns false ds). split; [|exists false; reflexivity].
      apply emits_seq; [apply emits_head|]. rewrite <- (app_nil_r c), xdims_xdim.
      apply emits_ring_posns; [exact Hm|apply xdim_le|exact Ep|].
      destruct Hf as [_ [[E _]|Hf]]; [rewrite E; cbn; lia|apply Hf].
  - cbn [shape_of] in Hs. unfold write_geom_polygon_wkb. destruct (is_empty f) eqn:Ef.
    + injection Hs as <-. destruct Hf as [_ [[_ Hd]|Hf]]; [|destruct Hf as (L & _); congruence].
      eexists. split; [apply emits_seq; [apply emits_head|apply emits_le]|].
      exists false. unfold e_rings. cbn [map concat]. now rewrite app_nil_r.
    + destruct p as [p|]; [|discriminate]. cbn [obind2] in Hs.
      destruct (poly_pts p) as [rs|] eqn:Er; [|discriminate]. cbn [obind2] in Hs.
      destruct (posns_list _ rs c) as [ds|] eqn:Ep; [|discriminate]. injection Hs as <-.
      exists (e_head false 3 (dim_of f) ++ e_rings false ds). split; [|exists false; reflexivity].
      apply emits_seq; [apply emits_head|]. rewrite <- (app_nil_r c), xdims_xdim.
      apply (emits_poly _ p rs); [apply xdim_le|exact Hm|exact Er|exact Ep|].
      destruct Hf as [_ [[E _]|Hf]]; [rewrite E; constructor|]. eapply poly_ok_small; eauto.
  - (* no children *)
    assert (E : s = match t with
                    | MPoints => ShPoints (dim_of f) [] | MLines => ShLines (dim_of f) []
                    | MPolys => ShPolys (dim_of f) [] | MGeoms => ShGeoms [] end /\
                (t = MGeoms -> dim_of f = xy)).
    { cbn [shape_of] in Hs. destruct t; destruct (is_empty f); cbn in Hs;
        try (destruct c; cbn in Hs; [|discriminate]); try (injection Hs as <-; split; congruence);
        destruct (is_xy f) eqn:Ef; try discriminate; injection Hs as <-; split; try reflexivity;
        intros _; now apply dim_xy. }
    destruct E as [-> Ed].
    exists (e_head false (mtype_code t) (dim_of f) ++ le_bytes 4 0). split.
    + apply emits_seq; [apply emits_head|apply emits_le].
    + destruct t; cbn [wkb_enc]; try rewrite (Ed eq_refl); exists false, []; split; reflexivity.
  - apply made_multi in Hm. cbn [shape_of] in Hs. destruct (is_empty f) eqn:Ef.
    + assert (E : s = match t with
                      | MPoints => ShPoints (dim_of f) [] | MLines => ShLines (dim_of f) []
                      | MPolys => ShPolys (dim_of f) [] | MGeoms => ShGeoms [] end /\
                  (t = MGeoms -> dim_of f = xy)).
      { destruct t; cbn in Hs;
          try (destruct c; cbn in Hs; [|discriminate]); try (injection Hs as <-; split; congruence);
          destruct (is_xy f) eqn:Ef2; try discriminate; injection Hs as <-; split; try reflexivity;
          intros _; now apply dim_xy. }
      destruct E as [-> Ed].
      exists (e_head false (mtype_code t) (dim_of f) ++ le_bytes 4 0). split.
      * apply emits_seq; [apply emits_head|apply emits_le].
      * destruct t; cbn [wkb_enc]; try rewrite (Ed eq_refl); exists false, []; split; reflexivity.
    + destruct t; cbn [shape_of] in Hs.
      * destruct (all_some (map _ gs)) as [ps|] eqn:Ea; [|discriminate]. cbn [obind2] in Hs.
        apply all_some_map in Ea.
        destruct (posns _ ps c) as [ds|] eqn:Ep; [|discriminate]. injection Hs as <-.
        destruct Hf as (_ & _ & Hok & _).
        destruct (emits_points f gs ps c ds Ea Ep Hok) as (bs & E1 & E2).
        exists (e_head false 4 (dim_of f) ++ e_count false ds ++ bs). split.
        -- apply emits_seq; [apply emits_head|]. apply emits_seq; [|exact E1].
           unfold e_count, e_int. rewrite (posns_length _ _ _ _ Ep).
           rewrite <- (Forall2_length _ _ _ Ea). apply emits_le.
        -- exists false, bs. split; [reflexivity|exact E2].
      * destruct (all_some (map _ gs)) as [ps|] eqn:Ea; [|discriminate]. cbn [obind2] in Hs.
        apply all_some_map in Ea.
        destruct (posns_list _ ps c) as [ds|] eqn:Ep; [|discriminate]. injection Hs as <-.
        destruct Hf as (_ & _ & Hok & _).
        rewrite <- (app_nil_r c).
        destruct (emits_lines f gs ps c [] ds _ Ea Hm Ep Hok) as (bs & E1 & E2).
        exists (e_head false 5 (dim_of f) ++ e_count false ds ++ bs). split.
        -- apply emits_seq; [apply emits_head|]. apply emits_seq; [|exact E1].
           unfold e_count, e_int. rewrite (posns_list_length _ _ _ _ Ep).
           rewrite <- (Forall2_length _ _ _ Ea). apply emits_le.
        -- exists false, bs. split; [reflexivity|exact E2].
      * destruct (all_some (map _ gs)) as [ps|] eqn:Ea; [|discriminate]. cbn [obind2] in Hs.
        apply all_some_map in Ea.
        destruct (posns_list2 _ ps c) as [ds|] eqn:Ep; [|discriminate]. injection Hs as <-.
        destruct Hf as (_ & _ & Hok & _).
        rewrite <- (app_nil_r c).
        destruct (emits_polys f gs ps c [] ds _ Ea Hm Ep Hok) as (bs & E1 & E2).
        exists (e_head false 6 (dim_of f) ++ e_count false ds ++ bs). split.
        -- apply emits_seq; [apply emits_head|]. apply emits_seq; [|exact E1].
           unfold e_count, e_int.
           assert (L : forall ls cs dss, posns_list2 (xdim (dim_of f)) ls cs = Some dss ->
                       length dss = length ls).
           { clear. induction ls as [|l ls IH]; intros cs dss; cbn.
             - destruct cs; [intros [= <-]; reflexivity|discriminate].
             - destruct (posns_list _ l _); [|discriminate].
               destruct (posns_list2 _ ls _) eqn:E; [|discriminate]. intros [= <-]. cbn.
               f_equal. eauto. }
           rewrite (L _ _ _ Ep).
           rewrite <- (Forall2_length _ _ _ Ea). apply emits_le.
        -- exists false, bs. split; [reflexivity|exact E2].
      * destruct (is_xy f) eqn:Exy; [|discriminate].
        destruct (all_some (map _ gs)) as [ss|] eqn:Ea; [|discriminate]. injection Hs as <-.
        apply all_some_map in Ea. apply fits_geoms in Hf. destruct Hf as (_ & _ & Hf).
        assert (H : exists bs, emits (wloop (map (fun o => match o with
                       | Some g => write_geom_wkb g | None => wundef end) gs)) bs /\
                     e_seq wkb_enc ss bs).
        { clear Ef Exy. revert ss Ea Hf. induction gs as [|o gs IHl]; intros ss Ea Hf.
          - inversion Ea; subst. exists []. split; [apply emits_skip|reflexivity].
          - inversion Ea as [|? s' ? ss' Ho Ea']; subst. inversion IH as [|? ? IHo IHr]; subst.
            inversion Hm as [|? ? Hmo Hmr]; subst. inversion Hf as [|? ? Hfo Hfr]; subst.
            destruct o as [g|]; [|discriminate]. cbn in IHo, Hmo.
            destruct (IHo (S depth) s' Hmo Ho Hfo) as (b1 & B1 & B2).
            destruct (IHl IHr Hmr ss' Ea' Hfr) as (b2 & B3 & B4).
            exists (b1 ++ b2). split; [now apply (emits_seq (write_geom_wkb g))|].
            cbn. exists b1, b2. auto. }
        destruct H as (bs & E1 & E2).
        exists (e_head false 7 xy ++ e_count false ss ++ bs). split.
        -- rewrite <- (dim_xy f Exy). apply emits_seq; [apply emits_head|].
           apply emits_seq; [|exact E1]. unfold e_count, e_int.
           rewrite <- (Forall2_length _ _ _ Ea). apply emits_le.
        -- exists false, bs. split; [reflexivity|exact E2].
Qed.
