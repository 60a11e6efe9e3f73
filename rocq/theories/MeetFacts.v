(** * Rings, lines and segments meeting on integer coordinates *)

From Coq Require Import ZArith Reals Bool List Lia Lra PeanoNat.
From Verif Require Import F64 Geo Series Search RingApi Geom MultiIx Preds PredsFacts F64Order F64Real F64Mono
  SeriesFacts SearchFacts RectFacts RingFacts SpecGeo SpecFacts SpecPlane SpecPreds SpecRing SpecShape
  SegExact SegMeet SegRay SegRing Thm_Ring Thm_Seg Thm_Pairs Thm_Preds Jordan JordanRing.
Import ListNotations.

Lemma ints_fin ps : (forall q, In q ps -> int_point 24 q) -> fin_points ps.
Proof. intros H q I. exact (int_fin _ _ (H q I)). Qed.
Lemma ints_ok ps : (forall q, In q ps -> int_point 24 q) -> points_ok ps.
Proof. intros H q I. exact (int_ok _ _ (H q I)). Qed.

Lemma series_segs ps closed kind spread r : pts_ok ps -> series_new ps closed kind spread = Some r ->
  ring_segs r = series_segments closed ps.
Proof.
  intros OK E. apply series_new_fields in E. cbv zeta in E. destruct E as (EC & EN & ES & EP & _).
  rewrite (series_segments_spec ps closed OK). unfold ring_segs. rewrite ES.
  apply map_ext. intros i. apply seg_at_pseg; auto.
Qed.

(** ** Bounding boxes *)

(** (x, y) is within the extent of the points *)
Definition span (ps : list pt) (x y : R) : Prop :=
  (exists q, In q ps /\ xR q <= x)%R /\ (exists q, In q ps /\ x <= xR q)%R /\
  (exists q, In q ps /\ yR q <= y)%R /\ (exists q, In q ps /\ y <= yR q)%R.
Definition held (r : rect) (ps : list pt) : Prop := forall q, In q ps -> kin r q.

Lemma span_more ps qs x y : span ps x y -> (forall q, In q ps -> In q qs) -> span qs x y.
Proof. intros (A & B & C & D) H. repeat split; [destruct A as (q & ? & ?)|destruct B as (q & ? & ?)|destruct C as (q & ? & ?)|destruct D as (q & ? & ?)]; exists q; auto. Qed.

Lemma boxes_meet ra rb pa pb x y : rect_nn ra -> rect_nn rb -> fin_points pa -> fin_points pb ->
  held ra pa -> held rb pb -> span pa x y -> span pb x y -> tg_rect_intersects_rect ra rb = true.
Proof.
  intros Na Nb Fa Fb Ha Hb (A1 & A2 & A3 & A4) (B1 & B2 & B3 & B4). apply intersects_rect_iff; auto.
  assert (X : forall p q, In p pa -> In q pb -> (xR p <= xR q)%R -> (f_key (px p) <= f_key (px q))%Z).
  { intros p q I J. apply key_le_R; [apply Fa, I|apply Fb, J]. }
  assert (X' : forall p q, In p pa -> In q pb -> (xR q <= xR p)%R -> (f_key (px q) <= f_key (px p))%Z).
  { intros p q I J. apply key_le_R; [apply Fb, J|apply Fa, I]. }
  assert (Y : forall p q, In p pa -> In q pb -> (yR p <= yR q)%R -> (f_key (py p) <= f_key (py q))%Z).
  { intros p q I J. apply key_le_R; [apply Fa, I|apply Fb, J]. }
  assert (Y' : forall p q, In p pa -> In q pb -> (yR q <= yR p)%R -> (f_key (py q) <= f_key (py p))%Z).
  { intros p q I J. apply key_le_R; [apply Fb, J|apply Fa, I]. }
  destruct A1 as (a1 & I1 & L1), A2 as (a2 & I2 & L2), A3 as (a3 & I3 & L3), A4 as (a4 & I4 & L4).
  destruct B1 as (b1 & J1 & M1), B2 as (b2 & J2 & M2), B3 as (b3 & J3 & M3), B4 as (b4 & J4 & M4).
  pose proof (X a1 b2 I1 J2 ltac:(lra)). pose proof (X' a2 b1 I2 J1 ltac:(lra)).
  pose proof (Y a3 b4 I3 J4 ltac:(lra)). pose proof (Y' a4 b3 I4 J3 ltac:(lra)).
  pose proof (Ha _ I1). pose proof (Ha _ I2). pose proof (Ha _ I3). pose proof (Ha _ I4).
  pose proof (Hb _ J1). pose proof (Hb _ J2). pose proof (Hb _ J3). pose proof (Hb _ J4).
  unfold kin, kmeet in *. lia.
Qed.

Lemma lies_span s x y : lies_on s x y -> span [sa s; sb s] x y.
Proof.
  intros L. apply on_segment_iff in L. destruct L as (X & Y & _).
  assert (M : forall a b c, (Rmin a b <= c <= Rmax a b -> (a <= c \/ b <= c) /\ (c <= a \/ c <= b))%R).
  { intros a b c. unfold Rmin, Rmax. destruct (Rle_dec a b); intros; lra. }
  apply M in X, Y. destruct X as [X1 X2], Y as [Y1 Y2].
  repeat split; [destruct X1|destruct X2|destruct Y1|destruct Y2]; eexists; (split; [|eassumption]); cbn; auto.
Qed.
Lemma segment_held s : seg_nn s -> held (tg_segment_rect s) [sa s; sb s].
Proof. intros N q [<-|[<-|[]]]; unnn; unfold kin; cbn; keys; lia. Qed.

Lemma rayb_left x y s : (x < xR (sa s))%R -> (x < xR (sb s))%R ->
  rayb x y s = xorb (leb (yR (sa s)) y) (leb (yR (sb s)) y).
Proof.
  intros A B. unfold rayb, crossb. destruct (leb (yR (sa s)) y) eqn:C; destruct (leb (yR (sb s)) y) eqn:D; cbn [andb negb orb xorb]; auto.
  - rewrite orb_false_r. apply posb_true. apply leb_true in C. apply leb_false in D. unfold turn.
    assert (0 <= (xR (sb s) - x) * (y - yR (sa s)))%R by (apply Rmult_le_pos; lra).
    assert (0 < (xR (sa s) - x) * (yR (sb s) - y))%R by (apply Rmult_lt_0_compat; lra). lra.
  - apply posb_true. apply leb_false in C. apply leb_true in D. unfold turn.
    assert (0 < (xR (sb s) - x) * (yR (sa s) - y))%R by (apply Rmult_lt_0_compat; lra).
    assert (0 <= (xR (sa s) - x) * (y - yR (sb s)))%R by (apply Rmult_le_pos; lra). lra.
Qed.

(** a point with an odd number of crossings: the ray hits, so there is something
    to the right, and the height is strictly below the top *)
Lemma odd_right ps x y : odd_at ps x y = true -> exists s, In s (ring_segments ps) /\ ray_meets x y s.
Proof.
  unfold odd_at. generalize (ring_segments ps). induction l as [|s l IH]; [discriminate|].
  cbn [par fold_right]. fold (par (rayb x y) l). destruct (rayb x y s) eqn:E.
  - intros _. exists s. split; [now left|now apply rayb_iff].
  - rewrite xorb_false_l. intros H. destruct (IH H) as (t & I & M). exists t. split; [now right|exact M].
Qed.
Lemma odd_left ps x y : fin_points ps -> odd_at ps x y = true -> exists q, In q ps /\ (xR q <= x)%R.
Proof.
  intros F O. destruct (Classical_Prop.classic (exists q, In q ps /\ (xR q <= x)%R)) as [|N]; [assumption|]. exfalso.
  assert (E : odd_at ps x y = false); [|congruence].
  unfold odd_at. rewrite <- (par_ring (fun _ v => leb v y) ps F). apply par_ext. intros s I.
  apply ring_segments_in in I. destruct I as [I1 I2]. apply rayb_left.
  - destruct (Rlt_dec x (xR (sa s))) as [|L]; [assumption|]. exfalso. apply N. exists (sa s). split; [exact I1|lra].
  - destruct (Rlt_dec x (xR (sb s))) as [|L]; [assumption|]. exfalso. apply N. exists (sb s). split; [exact I2|lra].
Qed.
Lemma border_span ps x y : ring_border ps x y -> span ps x y.
Proof.
  intros (s & I & L). apply ring_segments_in in I. destruct I as [I1 I2].
  eapply span_more; [apply lies_span, L|]. intros q [<-|[<-|[]]]; assumption.
Qed.
Lemma has_span ps x y : fin_points ps -> ring_has ps x y -> span ps x y.
Proof.
  intros F H. apply ring_has_odd in H. destruct H as [H|H]; [now apply border_span|].
  destruct (odd_right ps x y H) as (s & I & Y & x' & L & X). apply ring_segments_in in I. destruct I as [I1 I2].
  destruct (lies_span _ _ _ L) as (_ & (q2 & J2 & L2) & (q3 & J3 & L3) & (q4 & J4 & L4)).
  assert (IN : forall q, In q [sa s; sb s] -> In q ps) by (intros q [<-|[<-|[]]]; assumption).
  split; [now apply odd_left in H|]. split; [exists q2; split; [auto|lra]|]. split; [exists q3|exists q4]; auto.
Qed.
Lemma has_three ps x y : ring_has ps x y -> (3 <= length ps)%nat.
Proof.
  intros H. destruct (Nat.lt_ge_cases (length ps) 3) as [L|L]; [|exact L]. exfalso.
  assert (E : ring_segments ps = []) by (unfold ring_segments; apply Nat.ltb_lt in L; now rewrite L).
  unfold ring_has, ring_border in H. rewrite E in H. destruct H as [(s & [] & _)|(n & C & O)].
  inversion C; subst. discriminate.
Qed.
Lemma line_span ps x y : on_line ps x y -> span ps x y.
Proof.
  intros (s & I & L). apply pairs_in in I. destruct I as [I1 I2].
  eapply span_more; [apply lies_span, L|]. intros q [<-|[<-|[]]]; assumption.
Qed.

Lemma series_held ps closed kind spread r : points_ok ps -> (2 <= spread)%nat -> (2 <= length ps)%nat ->
  series_new ps closed kind spread = Some r -> rect_nn (r_rect r) /\ held (r_rect r) ps.
Proof.
  intros OK S L E. destruct (series_rect _ _ _ _ _ E (proj1 (points_ok_iff ps) OK) S L) as (O & _ & K).
  split; [now apply rect_ok_nn|]. intros q I. destruct (In_nth _ _ pt0 I) as (i & Hi & <-). now apply K.
Qed.

(** ** Counting the segments that meet *)

Lemma selects_counts {X} (P Q : X -> Prop) i l r m : selects Q i l r -> (forall x, In x l -> P x -> Q x) ->
  counts P l m -> counts (fun ix : nat * X => P (snd ix)) r m.
Proof.
  intros S. revert m. induction S as [|i x l r Qx S IH|i x l r Qx S IH]; intros m H C; inversion C; subst.
  - constructor.
  - apply counts_yes; [assumption|]. apply IH; [|assumption]. intros y I. apply H. now right.
  - apply counts_no; [assumption|]. apply IH; [|assumption]. intros y I. apply H. now right.
  - exfalso. apply Qx, H; [now left|assumption].
  - apply IH; [|assumption]. intros y I. apply H. now right.
Qed.

Lemma interseg_count s (l : list (nat * seg)) m :
  counts (fun ix : nat * seg => tg_segment_intersects_segment s (snd ix) = true) l m -> forall c a b, (c < 2)%nat ->
  let '(n, _, _) := snd (run_callback (fun st is => intersegiter s true st (snd is) (fst is)) l (c, a, b)) in
  (2 <=? n)%nat = (2 <=? c + m)%nat.
Proof.
  intros C. induction C as [|[i t] l n P C IH|[i t] l n P C IH]; intros c a b L.
  - cbn. now rewrite Nat.add_0_r.
  - cbn [run_callback intersegiter snd fst] in *. rewrite P. cbn [negb].
    destruct (S c <? 2)%nat eqn:E.
    + apply Nat.ltb_lt in E. specialize (IH (S c) a b E). destruct (snd _) as [[n' a'] b']. rewrite IH. f_equal. lia.
    + apply Nat.ltb_ge in E. cbn [snd]. assert (c = 1)%nat by lia. subst c. symmetry. apply Nat.leb_le. lia.
  - cbn [run_callback intersegiter snd fst] in *. destruct (tg_segment_intersects_segment s t); [contradiction|]. cbn [negb].
    apply IH. exact L.
Qed.

Lemma counts_exists {X} (P : X -> Prop) l : exists m, counts P l m.
Proof.
  induction l as [|x l (m & C)]; [exists 0%nat; constructor|].
  destruct (Classical_Prop.classic (P x)); [exists (S m); now apply counts_yes|exists m; now apply counts_no].
Qed.

Lemma seg_int_ok s : int_segment 24 s -> seg_ok s.
Proof. intros [A B]. split; apply point_ok_iff; eapply int_ok; eauto. Qed.
Lemma seg_int_fin s : int_segment 24 s -> fin_points [sa s; sb s].
Proof. intros [A B] q [<-|[<-|[]]]; eapply int_fin; eauto. Qed.

Theorem ring_segment_exact ps r s : int_segment 24 s -> ring_stands [sa s; sb s] ps r ->
  exists v, tg_ring_intersects_segment (Some r) s true = Ret v /\
    (v = true <-> exists x y, lies_on s x y /\ ring_has ps x y).
Proof.
  intros IS (IP & kind & spread & S2 & N & SS & IX).
  pose proof (seg_int_ok s IS) as OKs. pose proof (seg_ok_nn _ OKs) as NNs. pose proof (seg_int_fin s IS) as Fs.
  pose proof (ints_ok ps IP) as OK. pose proof (ints_fin ps IP) as F.
  unfold tg_ring_intersects_segment.
  destruct (tg_rect_intersects_rect (tg_segment_rect s) (r_rect r)) eqn:RB; cbn [negb].
  2:{ exists false. split; [reflexivity|]. split; [discriminate|]. intros (x & y & L & H). exfalso.
      pose proof (has_three _ _ _ H) as L3.
      destruct (series_held ps true kind spread r OK S2 ltac:(lia) N) as [RN RH].
      assert (E : tg_rect_intersects_rect (tg_segment_rect s) (r_rect r) = true); [|congruence].
      apply (boxes_meet _ _ [sa s; sb s] ps x y); auto using segment_held, lies_span, has_span with nn. }
  destruct (hits_inside ps kind spread r (sa s) IP (proj1 IS) S2 N (IX _ (or_introl eq_refl))) as (va & HA & VA).
  destruct (hits_inside ps kind spread r (sb s) IP (proj2 IS) S2 N (IX _ (or_intror (or_introl eq_refl)))) as (vb & HB & VB).
  rewrite inside_has in VA, VB.
  destruct (counts_exists (meets_seg (xR (sa s)) (yR (sa s)) (xR (sb s)) (yR (sb s))) (ring_segments ps)) as (m & C).
  pose proof (meets_ring ps _ _ _ _ m F C) as M.
  assert (ISR : forall t, In t (ring_segments ps) -> int_segment 24 t).
  { intros t I. apply ring_segments_in in I. split; apply IP, I. }
  cbn [any_of]. rewrite HA, HB.
  change ((exists x y, lies_on s x y /\ ring_has ps x y) <->
    ring_has ps (xR (sa s)) (yR (sa s)) \/ ring_has ps (xR (sb s)) (yR (sb s)) \/ (2 <= m)%nat) in M.
  destruct va; cbn [bind_out]; [exists true; split; [reflexivity|]; tauto|].
  destruct vb; cbn [bind_out]; [exists true; split; [reflexivity|]; tauto|].
  destruct (C02_rect_search_partial _ ps true kind spread r (tg_segment_rect s) (intersegiter s true) (O, false, false) OK S2 N SS) as (l & SEL & ->).
  { apply rectangle_ok_iff. auto with fok. }
  { apply ordered_key; [auto with nn|]. apply segment_rect_ordered; auto. }
  assert (C' : counts (fun ix : nat * seg => tg_segment_intersects_segment s (snd ix) = true) l m).
  { apply (selects_counts (fun t => tg_segment_intersects_segment s t = true) _ _ _ _ _ SEL).
    - cbn [series_segments]. intros t I T. pose proof (ISR t I) as IT.
      apply box_meets_iff; [now apply seg_int_ok|auto with fok| |].
      { apply ordered_key; [auto with nn|]. apply segment_rect_ordered; auto. }
      apply C09_intersects_exact in T; [|exact IS|exact IT]. destruct T as (x & y & T1 & T2).
      unfold segment_rect_intersects_rect. pose proof (seg_ok_nn _ (seg_int_ok t IT)) as NNt.
      apply (boxes_meet _ _ [sa s; sb s] [sa t; sb t] x y); auto using segment_held, lies_span, seg_int_fin with nn.
    - cbn [series_segments]. revert C. apply counts_same. intros t I. symmetry. apply C09_intersects_exact; [exact IS|now apply ISR]. }
  pose proof (interseg_count s l m C' 0 false false ltac:(lia)) as K.
  destruct (snd _) as [[n a'] b']. exists (2 <=? n)%nat. split; [reflexivity|]. rewrite K, M. cbn [Nat.add].
  rewrite Nat.leb_le. split; [tauto|]. intros [H|[H|H]]; [apply VA in H; discriminate|apply VB in H; discriminate|exact H].
Qed.

(** ** Lines *)

Lemma any_of_iff {X} (f : X -> out bool) (P : X -> Prop) l :
  (forall x, In x l -> exists v, f x = Ret v /\ (v = true <-> P x)) ->
  exists v, any_of (map f l) = Ret v /\ (v = true <-> exists x, In x l /\ P x).
Proof.
  induction l as [|x l IH]; intros H; cbn [map any_of].
  - exists false. split; [reflexivity|]. split; [discriminate|]. intros (x & [] & _).
  - destruct (H x (or_introl eq_refl)) as (v & E & V). rewrite E. cbn [bind_out].
    destruct v.
    + exists true. split; [reflexivity|]. split; [|reflexivity]. intros _. exists x. split; [now left|now apply V].
    + destruct IH as (w & E' & W); [intros y I; apply H; now right|]. exists w. split; [exact E'|]. rewrite W. split.
      * intros (y & I & Py). exists y. split; [now right|exact Py].
      * intros (y & [<-|I] & Py); [apply V in Py; discriminate|]. exists y. auto.
Qed.
Lemma any_of_ret {X} (f : X -> out bool) l v : any_of (map f l) = Ret v -> (forall x, In x l -> exists w, f x = Ret w) ->
  (v = true <-> exists x, In x l /\ f x = Ret true).
Proof.
  intros E H. destruct (any_of_iff f (fun x => f x = Ret true) l) as (w & E' & W).
  - intros x I. destruct (H x I) as (u & U). exists u. split; [exact U|]. rewrite U. split; congruence.
  - rewrite E in E'. injection E' as <-. exact W.
Qed.

Lemma line_stands_facts ps l : line_stands ps l ->
  ring_segs l = pairs ps /\ line_is_empty (Some l) = (length ps <? 2)%nat /\
  ((2 <= length ps)%nat -> rect_nn (r_rect l) /\ held (r_rect l) ps).
Proof.
  intros (IP & kind & spread & S2 & N). pose proof (line_pts_ok ps IP) as OK.
  destruct (line_segs _ _ _ _ OK N) as (E & _). split; [exact E|]. split; [eapply line_empty; eauto|].
  intros L. apply (series_held ps false kind spread l); auto. now apply ints_ok.
Qed.
Lemma ring_stands_facts asked ps r : ring_stands asked ps r ->
  ring_segs r = ring_segments ps /\ line_is_empty (Some r) = (length ps <? 3)%nat /\
  ((3 <= length ps)%nat -> rect_nn (r_rect r) /\ held (r_rect r) ps).
Proof.
  intros (IP & kind & spread & S2 & N & _). pose proof (line_pts_ok ps IP) as OK.
  split; [exact (series_segs ps true kind spread r OK N)|].
  split.
  - apply series_new_fields in N. cbv zeta in N. destruct N as (EC & EN & _).
    cbn [line_is_empty]. unfold tg_ring_empty. rewrite EC, EN. cbn [andb].
    destruct (length ps <? 3)%nat eqn:A; destruct (length ps <? 2)%nat eqn:B; auto.
    apply Nat.ltb_lt in B. apply Nat.ltb_ge in A. lia.
  - intros L. apply (series_held ps true kind spread r); auto; [now apply ints_ok|lia].
Qed.
Lemma on_line_two ps x y : on_line ps x y -> (2 <= length ps)%nat.
Proof. intros (s & I & _). destruct ps as [|a [|b ps]]; [destruct I..|]. cbn. lia. Qed.
Lemma ring_stands_less asked asked' ps r : ring_stands asked ps r -> (forall q, In q asked' -> In q asked) -> ring_stands asked' ps r.
Proof. intros (IP & kind & spread & S2 & N & SS & IX) H. split; [exact IP|]. exists kind, spread.
  split; [exact S2|]. split; [exact N|]. split; [exact SS|]. intros q I. apply IX, H, I. Qed.

Theorem ring_line_exact pr r pl l : line_stands pl l -> ring_stands pl pr r ->
  exists v, tg_ring_intersects_line (Some r) (Some l) true = Ret v /\
    (v = true <-> exists x y, ring_has pr x y /\ on_line pl x y).
Proof.
  intros HL HR. destruct (line_stands_facts _ _ HL) as (SL & EL & BL). destruct (ring_stands_facts _ _ _ HR) as (SR & ER & BR).
  pose proof HL as (IL & _). pose proof HR as (IR & _). unfold tg_ring_intersects_line. rewrite EL, ER.
  destruct ((length pr <? 3)%nat || (length pl <? 2)%nat) eqn:E.
  { exists false. split; [reflexivity|]. split; [discriminate|]. intros (x & y & H1 & H2).
    apply has_three in H1. apply on_line_two in H2. apply orb_true_iff in E. rewrite !Nat.ltb_lt in E. lia. }
  apply orb_false_iff in E. rewrite !Nat.ltb_ge in E. destruct E as [L3 L2].
  destruct (BL L2) as [NL KL]. destruct (BR L3) as [NR KR].
  destruct (tg_rect_intersects_rect (r_rect r) (r_rect l)) eqn:RB; cbn [negb].
  2:{ exists false. split; [reflexivity|]. split; [discriminate|]. intros (x & y & H1 & H2). exfalso.
      assert (X : tg_rect_intersects_rect (r_rect r) (r_rect l) = true); [|congruence].
      apply (boxes_meet _ _ pr pl x y); auto using ints_fin, has_span, line_span. }
  rewrite SL.
  destruct (any_of_iff (fun s => tg_ring_intersects_segment (Some r) s true)
    (fun s => exists x y, lies_on s x y /\ ring_has pr x y) (pairs pl)) as (v & V & P).
  { intros s I. apply ring_segment_exact; [now apply (pairs_int pl)|].
    eapply ring_stands_less; [exact HR|]. apply pairs_in in I. intros q [<-|[<-|[]]]; apply I. }
  exists v. split; [exact V|]. rewrite P. split.
  - intros (s & I & x & y & A & B). exists x, y. split; [exact B|]. exists s. auto.
  - intros (x & y & B & s & I & A). exists s. split; [exact I|]. exists x, y. auto.
Qed.

Theorem line_line_exact pa a pb b : line_stands pa a -> line_stands pb b ->
  tg_line_intersects_line (Some a) (Some b) = true <-> exists x y, on_line pa x y /\ on_line pb x y.
Proof.
  intros (IA & ka & na & SA & NA) (IB & kb & nb & SB & NB).
  destruct (C03_pairs_exact_partial pa false ka na a pb false kb nb b) as (L & _ & HL & RUN); auto.
  { intros p [I|I]; auto. }
  { left. reflexivity. } { left. reflexivity. }
  destruct (RUN _ intersects_iter false) as (_ & _ & E). unfold tg_line_intersects_line. rewrite E.
  destruct L as [|[i j] L].
  - cbn. split; [discriminate|]. intros (x & y & (s & I & A) & (t & J & B)).
    apply In_nth_error in I, J. destruct I as (i & I), J as (j & J). exfalso. refine (proj2 (HL i j) _). exists s, t.
    split; [exact I|]. split; [exact J|]. exists x, y. auto.
  - assert (R : snd (run_callback (call_pair (series_segments false pa) (series_segments false pb) intersects_iter) ((i, j) :: L) false) = true).
    { destruct (proj1 (HL i j) (or_introl eq_refl)) as (s & t & I & J & _). cbn [run_callback call_pair]. unfold call_pair.
      unfold intersects_iter. reflexivity. }
    rewrite R. split; [|reflexivity]. intros _. destruct (proj1 (HL i j) (or_introl eq_refl)) as (s & t & I & J & x & y & A & B).
    apply nth_error_In in I, J. exists x, y. split; [exists s|exists t]; auto.
Qed.

Theorem series_point_exact pl closed kind spread l p : (forall q, In q pl -> int_point 24 q) -> (2 <= spread)%nat ->
  series_new pl closed kind spread = Some l -> search_safe pl closed kind spread -> int_point 24 p ->
  tg_line_covers_point (Some l) p = true <-> exists s, In s (series_segments closed pl) /\ lies_on s (xR p) (yR p).
Proof.
  intros IL S2 N SAFE IP. unfold tg_line_covers_point.
  assert (OP : pt_ok p) by (apply point_ok_iff; eapply int_ok; eauto).
  destruct (C02_rect_search_partial _ pl closed kind spread l (Rect p p) (line_covers_point_iter p) false) as (r & SEL & E); auto.
  { now apply ints_ok. }
  { apply rectangle_ok_iff. split; exact OP. }
  { pose proof (pt_ok_nn _ OP) as [? ?]. split; cbn [rmin rmax]; apply fle_iff; auto; lia. }
  rewrite E. clear E. 
  assert (K : forall l (r : list (nat * seg)) i st, selects (fun s => box_meets s (Rect p p)) i l r ->
    (forall t, In t l -> int_segment 24 t) ->
    (snd (run_callback (fun st is => line_covers_point_iter p st (snd is) (fst is)) r st) = true <->
     st = true \/ exists s, In s l /\ lies_on s (xR p) (yR p))).
  { clear r SEL. intros l0 r i st SEL. revert st. induction SEL as [|i x l0 r Q S IH|i x l0 r Q S IH]; intros st II.
    - cbn. split; [auto|]. intros [H|(s & [] & _)]. exact H.
    - cbn [run_callback line_covers_point_iter fst snd]. unfold line_covers_point_iter at 1.
      pose proof (C10_covers_exact_24 x p (II x (or_introl eq_refl)) IP) as CX.
      destruct (tg_segment_covers_point x p) eqn:T.
      + cbn [snd]. split; [|reflexivity]. intros _. right. exists x. split; [now left|now apply CX].
      + rewrite IH by (intros; apply II; now right). split.
        * intros [H|(s & I & H)]; [now left|right; exists s; split; [now right|exact H]].
        * intros [H|(s & [<-|I] & H)]; [now left| |right; eauto]. apply CX in H. discriminate.
    - rewrite IH by (intros; apply II; now right). split.
      + intros [H|(s & I & H)]; [now left|right; exists s; split; [now right|exact H]].
      + intros [H|(s & [<-|I] & H)]; [now left| |right; eauto]. exfalso. apply Q.
        pose proof (II _ (or_introl eq_refl)) as IX. pose proof (seg_int_ok _ IX) as OX. pose proof (pt_ok_nn _ OP) as NP.
        apply box_meets_iff; [exact OX|split; exact OP|destruct NP; split; cbn [rmin rmax]; apply fle_iff; auto; lia|].
        unfold segment_rect_intersects_rect.
        pose proof (seg_ok_nn _ OX) as NX.
        assert (HP : held (Rect p p) [p]) by (intros q [<-|[]]; unfold kin; cbn; lia).
        assert (FP : fin_points [p]) by (intros q [<-|[]]; eapply int_fin; eauto).
        assert (SP : span [p] (xR p) (yR p)) by (repeat split; exists p; (split; [now left|lra])).
        first [ apply (boxes_meet _ _ [sa x; sb x] [p] (xR p) (yR p)); auto using segment_held, lies_span, seg_int_fin with nn; fail
              | apply (boxes_meet _ _ [p] [sa x; sb x] (xR p) (yR p)); auto using segment_held, lies_span, seg_int_fin with nn ]. }
  rewrite (K _ _ _ false SEL). 2:{ intros t I. destruct closed; [|now apply (pairs_int pl IL)]. apply ring_segments_in in I. split; apply IL, I. }
  split; [intros [H|H]; [discriminate|exact H]|auto].
Qed.
Theorem line_point_exact pl l p : line_stands pl l -> int_point 24 p ->
  tg_line_covers_point (Some l) p = true <-> on_line pl (xR p) (yR p).
Proof.
  intros (IL & kind & spread & S2 & N) IP.
  apply (series_point_exact pl false kind spread l p IL S2 N (or_introl eq_refl) IP).
Qed.
Theorem border_point_exact asked ps r p : ring_stands asked ps r -> int_point 24 p ->
  tg_line_covers_point (Some r) p = true <-> ring_border ps (xR p) (yR p).
Proof.
  intros (IL & kind & spread & S2 & N & SS & _) IP. exact (series_point_exact ps true kind spread r p IL S2 N SS IP).
Qed.
