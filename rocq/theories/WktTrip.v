(** * Writing WKT and reading it back *)

From Coq Require Import ZArith Bool String List Lia ZifyBool.
From Verif Require Import F64 Geo Series RingApi Bytes Geom Writer WkbWrite Num GeomFacts
  NumFacts NumRound NumPrint SpecWkb WkbParseFacts SpecWkt SpecText TextFacts WktText WktParse WktWrite WktRound WktTypes.
Import ListNotations.
Local Open Scope Z_scope.

(** the text of a number *)
Definition num_text (fixed : bool) (x : f64) : list Z :=
  if f_isnormal x then
    match d2s_buffered_n x with
    | Some buf => let (t1, t2) := fp_utoa_text (negb fixed) buf in
                  match t2 with Some t => t | None => t1 end
    | None => []
    end
  else [48].

(** what it reads as *)
Definition num_back (x : f64) : f64 := if f_isnan x then 0 else plus_zero x.

Definition prints (x : f64) : Prop :=
  f_wf x = true /\ plain_number x /\
  (f_isnormal x = true -> d2d_small_int (man x) (exq x) = None -> d2d_good x).

Lemma reads_zero : reads_as [48] 0.
Proof.
  split.
  - exists false, [48], [], []. split; [reflexivity|]. split; [repeat constructor; unfold digit; lia|].
    split; [discriminate|]. split; [now left|]. split; [constructor|now left].
  - split; [|cbn; lia].
    intros rest HR. pose proof (strtod_parts false [48] [] rest 0 rest) as H. cbn [app sgn frac_chars] in H.
    change ([48] ++ rest) with (48 :: rest). rewrite H; [reflexivity| | | | |].
    + repeat constructor; unfold digit; lia.
    + discriminate.
    + constructor.
    + now left.
    + now apply dec_exp_none.
Qed.

Lemma prints_ok fixed x : prints x ->
  types (write_string_double fixed x) (num_text fixed x) /\ reads_as (num_text fixed x) (num_back x).
Proof.
  intros (W & P & G). unfold num_text, num_back. destruct (f_isnormal x) eqn:N.
  - destruct (double_texts (negb fixed) x W N (G eq_refl)) as (t1 & t2 & T & R1 & R2).
    pose proof T as (buf & HB & HT). rewrite HB, HT. split.
    + apply (types_double fixed x t1 t2 N T); [apply R1|]. intros t Ht. apply (R2 t Ht).
    + replace (f_isnan x) with false by (unfold f_isnormal, f_isnan in *; lia).
      replace (plus_zero x) with x.
      2: { unfold plus_zero. destruct (Z.eqb_spec x minus_zero) as [->|]; [discriminate N|reflexivity]. }
      destruct t2 as [t|]; [now apply R2|apply R1].
  - destruct P as [P|P]; [congruence|]. split; [now apply types_zero|].
    fold (num_back x). destruct P as [-> | ->]; apply reads_zero.
Qed.

Lemma back_nan x : f_isnan (num_back x) = false.
Proof.
  unfold num_back, plus_zero. destruct (f_isnan x) eqn:E; [reflexivity|].
  destruct (Z.eqb_spec x minus_zero); [reflexivity|assumption].
Qed.
Lemma back_wf x : 0 <= x < 2 ^ 64 -> 0 <= num_back x < 2 ^ 64.
Proof.
  intros H. unfold num_back, plus_zero. destruct (f_isnan x); [lia|]. destruct (x =? minus_zero); lia.
Qed.
Lemma back_eq x y : feqb x y = true -> feqb (num_back x) (num_back y) = true.
Proof.
  unfold feqb. rewrite !back_nan. cbn [negb andb]. unfold num_back.
  destruct (f_isnan x), (f_isnan y); cbn [negb andb]; try discriminate.
  assert (K : forall z, f_key (plus_zero z) = f_key z).
  { intros z. unfold plus_zero. destruct (Z.eqb_spec z minus_zero) as [->|]; reflexivity. }
  now rewrite !K.
Qed.
Lemma back_plain x : plain_number x -> num_back x = plus_zero x.
Proof.
  intros H. unfold num_back. destruct (f_isnan x) eqn:E; [|reflexivity].
  destruct H as [H|[-> | ->]]; try discriminate. unfold f_isnormal, f_isnan in *. lia.
Qed.

(** ** The shape read back is a shape WKT can spell *)

Lemma map_nil_iff {A B} (h : A -> B) l : map h l = [] <-> l = [].
Proof. destruct l; split; intros H; try reflexivity; discriminate. Qed.

Lemma last_map {A B} (h : A -> B) l a : last (map h l) (h a) = h (last l a).
Proof. induction l as [|x [|y l] IH]; [reflexivity|reflexivity|exact IH]. Qed.

Section fits.
Variable h : f64 -> f64.
Hypothesis h0 : h 0 = 0.
Hypothesis hwf : forall x, 0 <= x < 2 ^ 64 -> 0 <= h x < 2 ^ 64.
Hypothesis heq : forall x y, feqb x y = true -> feqb (h x) (h y) = true.

Lemma fits_posn d p : posn_ok d p -> posn_ok d (map h p).
Proof.
  intros [L R]. split; [now rewrite map_length|]. rewrite Forall_map. eapply Forall_impl; [|exact R]. auto.
Qed.
Lemma fits_posns d ps : Forall (posn_ok d) ps -> Forall (posn_ok d) (map (map h) ps).
Proof. intros H. rewrite Forall_map. eapply Forall_impl; [|exact H]. apply fits_posn. Qed.
Lemma fits_line d ps : line_ok d ps -> line_ok d (map (map h) ps).
Proof. intros (A & B & C). split; [now apply fits_posns|]. rewrite map_length. auto. Qed.
Lemma fits_ring d ps : ring_ok d ps -> ring_ok d (map (map h) ps).
Proof.
  intros (A & B & C & D). split; [now apply fits_posns|]. rewrite map_length. split; [assumption|].
  split; [assumption|]. cbv zeta in *.
  replace (hd [] (map (map h) ps)) with (map h (hd [] ps)) by (destruct ps; reflexivity).
  change (last (map (map h) ps) []) with (last (map (map h) ps) (map h [])). rewrite last_map.
  rewrite <- h0, !map_nth. apply andb_true_iff in D. destruct D as [D1 D2].
  apply andb_true_iff. split; apply heq; assumption.
Qed.

Lemma fits_map s : wkt_fits s -> wkt_fits (shape_map h s).
Proof.
  induction s as [d p|d ps|d rs|d ps|d ls|d ps|gs IH] using shape_ind_deep; intros H; cbn [shape_map wkt_fits] in *.
  - destruct H as [[-> ->]|H]; [now left|right; now apply fits_posn].
  - destruct H as [[-> ->]|H]; [now left|right; now apply fits_line].
  - destruct H as [[-> ->]|[H1 H2]]; [now left|right]. rewrite map_nil_iff. split; [assumption|].
    rewrite Forall_map. eapply Forall_impl; [|exact H2]. apply fits_ring.
  - destruct H as [[-> ->]|[H1 H2]]; [now left|right]. rewrite map_nil_iff. split; [assumption|].
    now apply fits_posns.
  - destruct H as [[-> ->]|[H1 H2]]; [now left|right]. rewrite map_nil_iff. split; [assumption|].
    rewrite Forall_map. eapply Forall_impl; [|exact H2]. apply fits_line.
  - destruct H as [[-> ->]|[H1 H2]]; [now left|right]. rewrite map_nil_iff. split; [assumption|].
    rewrite Forall_map. eapply Forall_impl; [|exact H2]. cbv beta. intros rs [A B]. rewrite map_nil_iff.
    split; [assumption|]. rewrite Forall_map. eapply Forall_impl; [|exact B]. apply fits_ring.
  - apply fits_geoms_iff in H. apply (proj2 (fits_geoms_iff (map (shape_map h) gs))).
    rewrite Forall_map. rewrite Forall_forall in *. auto.
Qed.
End fits.

Lemma map_ext_in2 {A B} (f g : A -> B) l : Forall (fun x => f x = g x) l -> map f l = map g l.
Proof. induction 1; cbn; congruence. Qed.

Lemma shape_map_ext f g s : Forall (fun x => f x = g x) (coords_of s) -> shape_map f s = shape_map g s.
Proof.
  induction s as [d p|d ps|d rs|d ps|d ls|d ps|gs IH] using shape_ind_deep; intros H; cbn [shape_map coords_of] in *;
    repeat apply Forall_concat in H; f_equal.
  - now apply map_ext_in2.
  - apply map_ext_in2. eapply Forall_impl; [|exact H]. intros a Ha. now apply map_ext_in2.
  - apply map_ext_in2. eapply Forall_impl; [|exact H]. intros a Ha. apply map_ext_in2.
    eapply Forall_impl; [|exact Ha]. intros b Hb. now apply map_ext_in2.
  - apply map_ext_in2. eapply Forall_impl; [|exact H]. intros a Ha. now apply map_ext_in2.
  - apply map_ext_in2. eapply Forall_impl; [|exact H]. intros a Ha. apply map_ext_in2.
    eapply Forall_impl; [|exact Ha]. intros b Hb. now apply map_ext_in2.
  - apply map_ext_in2. eapply Forall_impl; [|exact H]. intros a Ha. apply map_ext_in2.
    eapply Forall_impl; [|exact Ha]. intros b Hb. apply map_ext_in2.
    eapply Forall_impl; [|exact Hb]. intros c Hc. now apply map_ext_in2.
  - apply map_ext_in2. rewrite Forall_map in H. rewrite Forall_forall in *. auto.
Qed.

(** ** The round trip *)

Lemma wkt_text fixed g s :
  geom_made g -> shape_of g = Some s -> no_bare_line g -> Forall prints (coords_of s) ->
  printed (write_geom_wkt fixed g ;; write_nullterm) (t_shape (num_text fixed) s).
Proof.
  intros Hm Hs Hn Hp. apply printed_types. apply types_geom; try assumption.
  eapply Forall_impl; [|exact Hp]. intros x Hx. now apply (prints_ok fixed).
Qed.

Theorem wkt_trip fixed e ix g s :
  geom_made g -> shape_of g = Some s -> no_bare_line g -> wkt_fits s -> (groups s <= 1024)%nat ->
  Forall prints (coords_of s) -> buildable e ix (shape_map plus_zero s) ->
  exists t g', printed (write_geom_wkt fixed g ;; write_nullterm) t /\
    tg_parse_wktn_ix e ix t = Ok g' /\ shape_of g' = Some (shape_map plus_zero s).
Proof.
  intros Hm Hs Hn Hf Hg Hp Hb.
  assert (E : shape_map plus_zero s = shape_map num_back s).
  { apply shape_map_ext. eapply Forall_impl; [|exact Hp]. intros x (_ & P & _). symmetry. now apply back_plain. }
  rewrite E in *.
  destruct (tg_parse_wkt_ok e ix (num_text fixed) num_back (fun x _ => back_nan x) s) as (g' & G1 & G2); try assumption.
  - split.
    + apply fits_map; [reflexivity|apply back_wf|apply back_eq|assumption].
    + eapply Forall_impl; [|exact Hp]. intros x Hx. now apply (prints_ok fixed).
  - exists (t_shape (num_text fixed) s), g'. split; [|now split].
    now apply wkt_text.
Qed.
