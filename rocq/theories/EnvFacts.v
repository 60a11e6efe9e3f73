(** * Envelopes of polygons, multi-geometries and collections *)

From Coq Require Import ZArith Bool List Lia ZifyBool PeanoNat.
From Verif Require Import F64 Geo Series Search Geom Geobin F64Order F64Real F64Mono SeriesFacts SearchFacts RectFacts SpecGeo SpecFacts
  GeomFacts GeobinFacts SpecEnv.
Import ListNotations.

Lemma solid_multi t f l c x :
  solid (GGMulti t f (Some l) c x) <-> l <> [] /\ Forall (fun o => exists g, o = Some g /\ solid g) l.
Proof.
  cbn [solid]. apply and_iff_compat_l. induction l as [|[g|] l IH].
  - split; [constructor|auto].
  - rewrite Forall_cons_iff, IH. split; intros [A B]; (split; [|exact B]); eauto.
    destruct A as (h & [= <-] & A). exact A.
  - split; [tauto|]. intros H. inversion H as [|o l' X Y]; destruct X as (g & X & _); discriminate.
Qed.

Definition kenv (ps : list pt) (r : rect) : Prop :=
  rect_nn r /\ attained ps r /\ (forall p, In p ps -> pt_nn p /\ kin r p).

Lemma ring_kenv r : solid_ring r -> kenv (ring_vertices r) (r_rect r).
Proof.
  intros (ps & closed & kind & spread & E & Hok & S2 & L). apply points_ok_iff in Hok.
  destruct (series_rect _ _ _ _ _ E Hok S2 L) as (O & A & K).
  assert (V : ring_vertices r = ps).
  { apply series_new_fields in E. cbv zeta in E. destruct E as (_ & EL & _ & EP & _).
    unfold ring_vertices. rewrite EL, EP. unfold ringpts. rewrite firstn_app, firstn_all, Nat.sub_diag. cbn. apply app_nil_r. }
  rewrite V. split; [apply rect_ok_nn, O|]. split; [exact A|]. intros p I. split.
  - eapply Forall_forall in Hok; eauto. apply pt_ok_nn; auto.
  - destruct (In_nth _ _ pt0 I) as (i & Hi & <-). apply K; auto.
Qed.
Lemma poly_kenv p : solid_poly p -> kenv (outline p) (tg_poly_rect (Some p)).
Proof. destruct p; cbn; apply ring_kenv. Qed.

Lemma attained_sub ps qs r : attained ps r -> incl ps qs -> attained qs r.
Proof.
  intros ((a & A & A') & (b & B & B') & (c & C & C') & (d & D & D')) I.
  repeat split; [exists a|exists b|exists c|exists d]; auto.
Qed.
Lemma kenv_app ps qs a b : kenv ps a -> kenv qs b -> kenv (ps ++ qs) (tg_rect_expand a b).
Proof.
  intros (Na & Aa & Ka) (Nb & Ab & Kb). split; [auto with nn|]. split.
  - apply attained_expand; auto; eapply attained_sub; eauto using incl_appl, incl_appr, incl_refl.
  - intros p I. apply in_app_iff in I. destruct I as [I|I].
    + destruct (Ka p I). split; auto. eapply kin_cov; [apply kcov_expand_l|]; auto.
    + destruct (Kb p I). split; auto. eapply kin_cov; [apply kcov_expand_r|]; auto.
Qed.

Lemma point_kenv p : point_ok p -> kenv [p] (tg_point_rect p).
Proof.
  intros O. apply point_ok_iff in O. pose proof (pt_ok_nn _ O) as N.
  split; [destruct N; repeat split; assumption|]. split; [apply attained_self; now left|].
  intros q [<-|[]]. split; auto. unfold kin; cbn. lia.
Qed.

Lemma geom_kenv g : solid g -> kenv (vertices g) (rect_of_geom g).
Proof.
  induction g as [f p|f l|f p|f p z m x|f [l|] c x|f [p|] c x|t f c x|t f gs c x H] using geom_ind_deep;
    try (cbn [solid]; contradiction).
  - apply point_kenv.
  - apply ring_kenv.
  - apply poly_kenv.
  - apply point_kenv.
  - apply ring_kenv.
  - apply poly_kenv.
  - rewrite solid_multi. intros [NE F].
    cbn [vertices rect_of_geom].
    assert (G : Forall (fun o : option geom => kenv (match o with Some c => vertices c | None => [] end)
                       (match o with Some g => rect_of_geom g | None => rect0 end)) gs).
    { clear NE. induction gs as [|o gs IH]; constructor; inversion H; inversion F; subst; auto.
      destruct H6 as (g & -> & S). auto. }
    destruct gs as [|o gs]; [contradiction|]. inversion G as [|? ? G1 G2]; subst.
    cbn [map flat_map]. clear NE F H G. revert G1.
    generalize (match o with Some c => vertices c | None => [] end) as ps.
    generalize (match o with Some g => rect_of_geom g | None => rect0 end) as r.
    induction gs as [|o' gs IH]; intros r ps K; cbn [map flat_map fold_left].
    + rewrite app_nil_r. exact K.
    + inversion G2; subst. rewrite app_assoc. apply IH; auto. apply kenv_app; auto.
Qed.

Lemma kenv_envelope ps r : kenv ps r -> envelope ps r.
Proof.
  intros (N & (A1 & A2 & A3 & A4) & K). split.
  { intros p I. destruct (K p I). apply in_rect_kin; auto. }
  destruct N as [[N1 N2] [N3 N4]].
  destruct A1 as (p1 & I1 & E1), A2 as (p2 & I2 & E2), A3 as (p3 & I3 & E3), A4 as (p4 & I4 & E4).
  destruct (K _ I1) as [[] _], (K _ I2) as [[] _], (K _ I3) as [[] _], (K _ I4) as [[] _].
  repeat split; [exists p1|exists p2|exists p3|exists p4]; (split; [auto|]); rewrite feqb_key by auto; lia.
Qed.

Theorem geom_envelope g : solid g -> envelope (vertices g) (tg_geom_rect (Some g)).
Proof. intros S. apply kenv_envelope, geom_kenv, S. Qed.

(** ** Z and M *)

Definition khull (xs : list f64) (lo hi : f64) : Prop :=
  In lo xs /\ In hi xs /\ forall x, In x xs -> nn x /\ (f_key lo <= f_key x <= f_key hi)%Z.
Lemma khull_app xs ys a b c d : khull xs a b -> khull ys c d -> khull (xs ++ ys) (fmin0 a c) (fmax0 b d).
Proof.
  intros (A & B & K) (C & D & L).
  destruct (K a A) as [Na _], (K b B) as [Nb _], (L c C) as [Nc _], (L d D) as [Nd _].
  split; [|split].
  - unfold fmin0. apply in_app_iff. destruct (flt a c); auto.
  - unfold fmax0. apply in_app_iff. destruct (fgt b d); auto.
  - intros x I. rewrite key_fmin0, key_fmax0 by auto. apply in_app_iff in I. destruct I as [I|I].
    + destruct (K x I). split; auto. lia.
    + destruct (L x I). split; auto. lia.
Qed.
Lemma khull_one x : nn x -> khull [x] x x.
Proof. intros N. split; [now left|]. split; [now left|]. intros y [<-|[]]. split; auto. lia. Qed.

Lemma column_app E F i : column (E ++ F) i = column E i ++ column F i.
Proof. apply flat_map_app. Qed.
Lemma column_max E i : column E i <> [] <-> i < list_max (map (@length f64) E).
Proof.
  unfold column. induction E as [|e E IH]; [cbn; split; [congruence|lia]|].
  cbn [flat_map map]. change (list_max (length e :: map (@length f64) E)) with (Nat.max (length e) (list_max (map (@length f64) E))).
  destruct (nth_error e i) eqn:N.
  - split; [|intros _; discriminate]. intros _. assert (i < length e) by (apply nth_error_Some; congruence). lia.
  - cbn [app]. rewrite IH. apply nth_error_None in N. lia.
Qed.

Definition fenv (a : frect) (E : list (list f64)) : Prop :=
  fr_ok a /\ fr_dims a = 2 + list_max (map (@length f64) E) /\
  forall i, i < 2 -> column E i <> [] -> khull (column E i) (aget (fr_min a) (2 + i)) (aget (fr_max a) (2 + i)).

Lemma max_app E F : list_max (map (@length f64) (E ++ F)) = Nat.max (list_max (map (@length f64) E)) (list_max (map (@length f64) F)).
Proof. rewrite map_app. apply list_max_app. Qed.

Lemma fenv_child a c E F : fenv a E -> fenv c F -> fenv (fr_child a c) (E ++ F).
Proof.
  intros (Oa & Da & Ha) (Oc & Dc & Hc). split; [apply fr_child_ok; auto|].
  destruct Oa as (La & L1 & L2), Oc as (Lc & L3 & L4).
  destruct a as [d mn mx], c as [d' mn' mx']; cbn [fr_dims fr_min fr_max] in *.
  destruct mn as [|n0 [|n1 [|n2 [|n3 [|]]]]]; try discriminate.
  destruct mx as [|x0 [|x1 [|x2 [|x3 [|]]]]]; try discriminate.
  destruct mn' as [|n0' [|n1' [|n2' [|n3' [|]]]]]; try discriminate.
  destruct mx' as [|x0' [|x1' [|x2' [|x3' [|]]]]]; try discriminate.
  pose proof (Ha 0 ltac:(lia)) as Ha0. pose proof (Ha 1 ltac:(lia)) as Ha1.
  pose proof (Hc 0 ltac:(lia)) as Hc0. pose proof (Hc 1 ltac:(lia)) as Hc1. clear Ha Hc.
  rewrite column_max in Ha0, Ha1, Hc0, Hc1. cbn [Nat.add aget nth] in Ha0, Ha1, Hc0, Hc1.
  assert (EN : forall G i, ~ i < list_max (map (@length f64) G) -> column G i = []).
  { intros G i N. destruct (column G i) eqn:X; auto. exfalso. apply N. apply column_max. congruence. }
  rewrite max_app.
  assert (KD : forall P : nat -> Prop, P 2 -> P 3 -> P 4 -> forall n, 2 <= n <= 4 -> P n).
  { clear. intros P A B C n H. destruct n as [|[|[|[|[|n]]]]]; try lia; auto. }
  revert Da Dc. generalize La, Lc. pattern d. apply KD; [| | |exact La]; pattern d'; (apply KD; [| | |exact Lc]);
    intros _ _ Da Dc;
    unfold fr_child, fr_join, aset, aget; cbn [fr_dims fr_min fr_max Nat.leb Nat.eqb firstn skipn app nth];
    (split; [lia|]); intros i Hi; destruct i as [|[|]]; try lia; cbn [Nat.add nth]; rewrite column_app;
    intros NE;
    repeat match goal with
    | H : ?i < list_max (map (@length f64) ?E) -> khull _ _ _ |- _ =>
        first [ specialize (H ltac:(lia)) | rewrite (EN E i ltac:(lia)) in *; clear H ]
    end; cbn [app] in *; rewrite ?app_nil_r in *; try congruence; auto using khull_app.
Qed.

Lemma fenv_start r : fenv (fr_start r) [].
Proof. split; [apply fr_start_ok|]. split; [reflexivity|]. intros i _ N. now contradiction N. Qed.

Lemma fr_extend1_fenv cs : forall a E, Forall nn cs -> fenv a E -> (forall e, In e E -> length e = 1) -> E <> [] ->
  fenv (fr_extend1 cs a) (E ++ map (fun c => [c]) cs).
Proof.
  induction cs as [|c cs IH]; intros a E N H L NE; cbn [fr_extend1 map]; [rewrite app_nil_r; exact H|].
  inversion N; subst. replace (E ++ [c] :: map (fun c => [c]) cs) with ((E ++ [[c]]) ++ map (fun c => [c]) cs)
    by (rewrite <- app_assoc; reflexivity).
  apply IH; auto.
  - replace (FR _ _ _) with (fr_child a (FR 3 [f_zero; f_zero; c; f_zero] [f_zero; f_zero; c; f_zero])).
    + apply fenv_child; auto. split; [unfold fr_ok; cbn; lia|]. split; [reflexivity|].
      intros i Hi. destruct i as [|[|]]; try lia; cbn; [intros _; apply khull_one; auto|congruence].
    + destruct H as (_ & D & _). assert (M : list_max (map (@length f64) E) = 1).
      { destruct E as [|e E]; [congruence|]. clear -L. assert (A : forall E : list (list f64), (forall e, In e E -> length e = 1) -> list_max (map (@length f64) E) <= 1).
        { clear. induction E as [|e E IH]; intros L; cbn; [lia|]. rewrite (L e) by now left.
          specialize (IH (fun x I => L x (or_intror I))). unfold list_max in IH. lia. }
        assert (B : list_max (map (@length f64) (e :: E)) >= length e).
        { change (Nat.max (length e) (list_max (map (@length f64) E)) >= length e). lia. }
        specialize (A (e :: E) L). rewrite (L e) in B by now left. lia. }
      rewrite M in D. destruct a as [d mn mx]. cbn [fr_dims] in D. subst d. reflexivity.
  - intros e I. apply in_app_iff in I. destruct I as [I|[<-|[]]]; auto.
  - intros Z. apply app_eq_nil in Z. tauto.
Qed.

Lemma list_max_const E n : (forall e : list f64, In e E -> length e = n) -> E <> [] -> list_max (map (@length f64) E) = n.
Proof.
  induction E as [|e E IH]; intros L NE; [congruence|].
  change (Nat.max (length e) (list_max (map (@length f64) E)) = n). rewrite (L e) by now left.
  destruct E as [|e' E]; [cbn; lia|]. rewrite IH; [lia| |discriminate]. intros x I. apply L. now right.
Qed.

Lemma fr_extend2_fenv n : forall cs a E, length cs <= n -> Forall nn cs -> fenv a E -> (forall e, In e E -> length e = 2) -> E <> [] ->
  fenv (fr_extend2 cs a) (E ++ by_two cs).
Proof.
  induction n as [|n IH]; intros [|c [|d cs]] a E LE N H L NE; cbn [fr_extend2 by_two];
    try (rewrite app_nil_r; exact H); [cbn in LE; lia|].
  inversion N as [|? ? Nc N']; subst. inversion N' as [|? ? Nd N2]; subst.
  replace (E ++ [c; d] :: by_two cs) with ((E ++ [[c; d]]) ++ by_two cs) by (rewrite <- app_assoc; reflexivity).
  apply IH; auto.
  - cbn in LE; lia.
  - replace (FR _ _ _) with (fr_child a (FR 4 [f_zero; f_zero; c; d] [f_zero; f_zero; c; d])).
    + apply fenv_child; auto. split; [unfold fr_ok; cbn; lia|]. split; [reflexivity|].
      intros i Hi. destruct i as [|[|]]; try lia; cbn; intros _; apply khull_one; auto.
    + destruct H as ((_ & L1 & L2) & D & _). rewrite (list_max_const E 2 L NE) in D.
      destruct a as [k mn mx]. cbn [fr_dims fr_min fr_max] in *. subst k.
      destruct mn as [|n0 [|n1 [|n2 [|n3 [|]]]]]; try discriminate.
      destruct mx as [|x0 [|x1 [|x2 [|x3 [|]]]]]; try discriminate. reflexivity.
  - intros e I. apply in_app_iff in I. destruct I as [I|[<-|[]]]; auto.
  - intros Z. apply app_eq_nil in Z. tauto.
Qed.

(** odd length: the last number is not looked at *)
Lemma fr_extend2_even n : forall cs a, length cs <= n -> fr_extend2 cs a = fr_extend2 (concat (by_two cs)) a.
Proof.
  induction n as [|n IH]; intros [|c [|d cs]] a L; try reflexivity; cbn in L; try lia.
  cbn [fr_extend2 by_two concat app]. apply IH. lia.
Qed.
Lemma by_two_concat n : forall cs, length cs <= n -> by_two (concat (by_two cs)) = by_two cs.
Proof.
  induction n as [|n IH]; intros [|c [|d cs]] L; try reflexivity; cbn in L; try lia.
  cbn [by_two concat app]. f_equal. apply IH. lia.
Qed.

Lemma fenv_coords f cs r : Forall (Forall nn) (extra_of f cs) -> (has_z f || has_m f = true -> extra_of f cs <> []) ->
  fenv (fr_coords f cs (fr_start r)) (extra_of f cs).
Proof.
  unfold extra_of, fr_coords. cbn [fr_start fr_dims fr_min fr_max]. intros N NE.
  destruct (has_z f), (has_m f); cbn [Nat.add Nat.eqb andb orb] in *.
  - destruct cs as [|c [|d cs]]; [exfalso; now apply NE|exfalso; now apply NE|].
    rewrite (fr_extend2_even (length cs)) by lia. cbn [by_two] in *.
    inversion N as [|? ? N1 N2]; subst. inversion N1 as [|? ? Nc N3]; subst. inversion N3 as [|? ? Nd N4]; subst.
    replace ([c; d] :: by_two cs) with ([[c; d]] ++ by_two (concat (by_two cs)))
      by (rewrite (by_two_concat (length cs) cs) by lia; reflexivity).
    apply (fr_extend2_fenv (length (concat (by_two cs))) _ _ [[c; d]]); auto.
    + clear -N2. induction N2; cbn; auto. apply Forall_app. auto.
    + split; [unfold fr_ok; cbn; lia|]. split; [reflexivity|].
      intros i Hi. destruct i as [|[|]]; try lia; cbn; intros _; apply khull_one; auto.
    + intros e [<-|[]]; reflexivity.
    + discriminate.
  - destruct cs as [|c cs]; [exfalso; now apply NE|]. cbn [map] in *.
    inversion N as [|? ? N1 N2]; subst. inversion N1 as [|? ? Nc N3]; subst.
    apply (fr_extend1_fenv cs _ [[c]]); [| | |discriminate].
    + clear -N2. induction cs; constructor; inversion N2 as [|? ? A B]; subst; auto. inversion A; auto.
    + split; [unfold fr_ok; cbn; lia|]. split; [reflexivity|].
      intros i Hi. destruct i as [|[|]]; try lia; cbn; [intros _; apply khull_one; auto|congruence].
    + intros e [<-|[]]; reflexivity.
  - destruct cs as [|c cs]; [exfalso; now apply NE|]. cbn [map] in *.
    inversion N as [|? ? N1 N2]; subst. inversion N1 as [|? ? Nc N3]; subst.
    apply (fr_extend1_fenv cs _ [[c]]); [| | |discriminate].
    + clear -N2. induction cs; constructor; inversion N2 as [|? ? A B]; subst; auto. inversion A; auto.
    + split; [unfold fr_ok; cbn; lia|]. split; [reflexivity|].
      intros i Hi. destruct i as [|[|]]; try lia; cbn; [intros _; apply khull_one; auto|congruence].
    + intros e [<-|[]]; reflexivity.
  - apply (fenv_start r).
Qed.

Lemma there_multi f l c x :
  extras_there (GGMulti MGeoms f (Some l) c x) <-> Forall (opt_all extras_there) l.
Proof.
  cbn [extras_there]. induction l as [|[g|] l IH].
  - split; [constructor|auto].
  - rewrite IH, Forall_cons_iff. reflexivity.
  - rewrite IH, Forall_cons_iff. cbn. tauto.
Qed.

Lemma child_none a : fr_child a (FR 0 [] []) = a.
Proof. reflexivity. Qed.

Lemma fold_fenv gs : forall a E,
  Forall (opt_all (fun g => extras_there g -> Forall (Forall nn) (extras g) -> fenv (fullrect g) (extras g))) gs ->
  Forall (opt_all extras_there) gs ->
  Forall (Forall nn) (flat_map (fun o => match o with Some c => extras c | None => [] end) gs) ->
  fenv a E ->
  fenv (fold_left fr_child (map (fun o => match o with Some c => fullrect c | None => FR 0 [] [] end) gs) a)
       (E ++ flat_map (fun o => match o with Some c => extras c | None => [] end) gs).
Proof.
  induction gs as [|[g|] gs IH]; intros a E H T N A; cbn [map flat_map fold_left].
  - rewrite app_nil_r. exact A.
  - inversion T as [|? ? T1 T2]; inversion H as [|? ? HA HB]; subst. cbn [flat_map] in N. apply Forall_app in N.
    destruct N as [Na Nb]. rewrite app_assoc. apply IH; auto. apply fenv_child; auto.
  - inversion T as [|? ? T1 T2]; inversion H as [|? ? HA HB]; subst. rewrite child_none. apply IH; auto.
Qed.

Lemma fullrect_fenv g : extras_there g -> Forall (Forall nn) (extras g) -> fenv (fullrect g) (extras g).
Proof.
  induction g as [f p|f l|f p|f p z m x|f l c x|f p c x|t f c x|t f gs c x H] using geom_ind_deep; intros T N.
  - apply fenv_start.
  - apply fenv_start.
  - apply fenv_start.
  - cbn [extras fullrect] in *. inversion N as [|? ? N1 _]; subst. apply Forall_app in N1. destruct N1 as [Nz Nm].
    destruct (has_z f), (has_m f); unfold fr_push, fr_start, aset; cbn [fr_dims fr_min fr_max firstn skipn app].
    + inversion Nz; inversion Nm; subst. split; [unfold fr_ok; cbn; lia|]. split; [reflexivity|].
      intros i Hi. destruct i as [|[|]]; try lia; cbn; intros _; apply khull_one; auto.
    + inversion Nz; subst. split; [unfold fr_ok; cbn; lia|]. split; [reflexivity|].
      intros i Hi. destruct i as [|[|]]; try lia; cbn; [intros _; apply khull_one; auto|congruence].
    + inversion Nm; subst. split; [unfold fr_ok; cbn; lia|]. split; [reflexivity|].
      intros i Hi. destruct i as [|[|]]; try lia; cbn; [intros _; apply khull_one; auto|congruence].
    + split; [unfold fr_ok; cbn; lia|]. split; [reflexivity|].
      intros i Hi. destruct i as [|[|]]; try lia; cbn; congruence.
  - apply fenv_coords; auto.
  - apply fenv_coords; auto.
  - destruct t; apply fenv_coords; auto.
  - destruct t; try (apply fenv_coords; auto).
    apply there_multi in T. cbn [extras fullrect] in *.
    assert (A := fenv_start (rect_of_geom (GGMulti MGeoms f (Some gs) c x))).
    revert A. generalize (fr_start (rect_of_geom (GGMulti MGeoms f (Some gs) c x))) as a. intros a A.
    apply (fold_fenv gs a []); auto.
Qed.

Theorem fullrect_hull g :
  extras_there g -> (forall e x, In e (extras g) -> In x e -> real_or_inf x) ->
  fr_dims (fullrect g) = 2 + list_max (map (@length f64) (extras g)) /\
  forall i, 2 <= i < fr_dims (fullrect g) ->
    hull (column (extras g) (i - 2)) (aget (fr_min (fullrect g)) i) (aget (fr_max (fullrect g)) i).
Proof.
  intros T N.
  assert (NN : Forall (Forall nn) (extras g)).
  { apply Forall_forall. intros e I. apply Forall_forall. intros x J. apply (proj2 (proj1 (real_ok x) (N e x I J))). }
  destruct (fullrect_fenv g T NN) as (O & D & K). split; [exact D|]. intros i Hi.
  destruct O as (D4 & _). specialize (K (i - 2) ltac:(lia)).
  replace (2 + (i - 2)) with i in K by lia. destruct K as (A & B & C).
  { apply column_max. lia. }
  destruct (C _ A) as [NA _], (C _ B) as [NB _].
  split; [|split].
  - intros x I. destruct (C x I) as [Nx Kx]. rewrite !fle_iff by auto. lia.
  - eexists. split; [exact A|]. rewrite feqb_key by auto. lia.
  - eexists. split; [exact B|]. rewrite feqb_key by auto. lia.
Qed.
