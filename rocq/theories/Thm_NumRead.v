(** * C66: numbers in texts are read by their decimal value *)

From Coq Require Import ZArith Bool String List Lia ZifyBool Reals.
From Flocq Require Import Core.
From Verif Require Import F64 Geo F64Real Series RingApi Bytes Geom WkbParse Num NumFacts NumRound WktParse GeojsonParse SeriesExamples.
From Verif Require SpecJson.
Import ListNotations.
Local Open Scope Z_scope.

(** ** Decimal texts *)

(** [t] is a dot and the digits [fp], or nothing *)
Definition frac_text (t fp : list Z) : Prop := digits fp /\ (t = [] /\ fp = [] \/ t = 46 :: fp /\ fp <> []).
(** [t] is the letter E and the number [x], or nothing for 0 *)
Inductive exp_text : list Z -> Z -> Prop :=
  | et_none : exp_text [] 0
  | et_plain c ds : c = 101 \/ c = 69 -> digits ds -> ds <> [] -> exp_text (c :: ds) (val ds)
  | et_plus c ds : c = 101 \/ c = 69 -> digits ds -> ds <> [] -> exp_text (c :: 43 :: ds) (val ds)
  | et_minus c ds : c = 101 \/ c = 69 -> digits ds -> ds <> [] -> exp_text (c :: 45 :: ds) (- val ds).
(** [l] spells (-1)^neg * m * 10^e *)
Definition decimal (l : list Z) (neg : bool) (m e : Z) : Prop :=
  exists ip tf fp te x, l = (if neg then [45] else []) ++ ip ++ tf ++ te /\ digits ip /\ frac_text tf fp /\ exp_text te x /\
    ip ++ fp <> [] /\ m = val (ip ++ fp) /\ e = x - Z.of_nat (length fp).

(** ** strtod *)

Lemma dig_not c k : digit c -> k < 48 \/ 57 < k -> c <> k.
Proof. unfold digit. lia. Qed.

Lemma match_sign_not (A : Type) (c : Z) (l : list Z) (x y : list Z -> A) (z : A) : c <> 45 -> c <> 43 ->
  match c :: l with 45 :: r => x r | 43 :: r => y r | _ => z end = z.
Proof.
  intros H1 H2. destruct c as [|p|p]; try reflexivity. do 6 (destruct p as [p|p|]; try reflexivity); lia.
Qed.
Lemma match_dot_not (A : Type) (l : list Z) (x : list Z -> A) (y : A) : hd 0 l <> 46 ->
  match l with 46 :: r => x r | _ => y end = y.
Proof.
  destruct l as [|c r]; [reflexivity|]. cbn [hd]. intros H.
  destruct c as [|p|p]; try reflexivity. do 6 (destruct p as [p|p|]; try reflexivity); lia.
Qed.

Lemma exp_text_dec te x rest : exp_text te x -> stops rest -> dec_exp (te ++ rest) = (x, rest).
Proof.
  intros H S. pose proof (stops_no_digit _ S) as ND.
  assert (K : forall ds : list Z, ds <> [] -> (0 + length ds =? 0)%nat = false) by (intros [|]; [easy|reflexivity]).
  destruct H as [|c ds C D N|c ds C D N|c ds C D N].
  - now apply dec_exp_none.
  - cbn [app dec_exp]. replace ((c =? 101) || (c =? 69)) with true by lia.
    destruct ds as [|d ds]; [easy|]. assert (Hd : digit d) by (now inversion D).
    cbn [app]. rewrite (match_sign_not _ d (ds ++ rest) (fun r => (true, r)) (fun r => (false, r)) (false, d :: ds ++ rest));
      [|now apply dig_not with (k := 45); [|lia]|now apply dig_not with (k := 43); [|lia]].
    change (d :: ds ++ rest) with ((d :: ds) ++ rest). rewrite (dec_digits_ok _ _ D ND), (K _ N). reflexivity.
  - cbn [app dec_exp]. replace ((c =? 101) || (c =? 69)) with true by lia.
    rewrite (dec_digits_ok _ _ D ND), (K _ N). reflexivity.
  - cbn [app dec_exp]. replace ((c =? 101) || (c =? 69)) with true by lia.
    rewrite (dec_digits_ok _ _ D ND), (K _ N). reflexivity.
Qed.

Lemma exp_no_digit te x rest : exp_text te x -> stops rest -> no_digit (te ++ rest) /\ hd 0 (te ++ rest) <> 46.
Proof.
  intros H S. destruct H as [|c ds C D N|c ds C D N|c ds C D N]; cbn [app no_digit hd]; unfold digit; try (split; lia).
  split; [now apply stops_no_digit|]. destruct rest; cbn in S |- *; lia.
Qed.

Lemma strtod_decimal l neg m e rest : decimal l neg m e -> stops rest -> strtod (l ++ rest) = (dec_round neg m e, rest).
Proof.
  intros (ip & tf & fp & te & x & -> & DI & (DF & TF) & TE & NE & -> & ->) S.
  pose proof (exp_text_dec _ _ _ TE S) as X. destruct (exp_no_digit _ _ _ TE S) as [ND NP].
  rewrite <- !app_assoc. unfold strtod.
  assert (H0 : match (if neg then [45] else []) ++ ip ++ tf ++ te ++ rest with
               | 45 :: r => (true, r) | 43 :: r => (false, r)
               | _ => (false, (if neg then [45] else []) ++ ip ++ tf ++ te ++ rest) end = (neg, ip ++ tf ++ te ++ rest)).
  { destruct neg; [reflexivity|]. cbn [app]. destruct ip as [|c r].
    - destruct TF as [[-> ->]|[-> _]]; [easy|reflexivity].
    - assert (Hc : digit c) by (now inversion DI). cbn [app].
      apply (match_sign_not _ c (r ++ tf ++ te ++ rest) (fun r => (true, r)) (fun r => (false, r))); unfold digit in Hc; lia. }
  rewrite H0. clear H0.
  destruct TF as [[-> ->]|[-> NF]].
  - rewrite app_nil_r in NE. cbn [app]. rewrite (dec_digits_ok ip _ DI ND).
    rewrite (match_dot_not _ (te ++ rest) _ _ NP).
    replace (0 + length ip + 0 =? 0)%nat with false by (destruct ip; [easy|reflexivity]).
    rewrite X, app_nil_r. cbn [length]. f_equal; f_equal; lia.
  - rewrite (dec_digits_ok ip ((46 :: fp) ++ te ++ rest) DI) by (cbn; unfold digit; lia). cbn [app].
    rewrite (dec_digits_ok fp _ DF ND).
    replace (0 + length ip + (0 + length fp) =? 0)%nat with false by (destruct fp; [easy|]; cbn [length]; lia).
    rewrite X, val_app. f_equal; f_equal; lia.
Qed.

(** ** GeoJSON *)

Lemma number_decimal l : SpecJson.number l -> exists neg m e, decimal l neg m e.
Proof.
  assert (DD : forall s, Forall (fun b => SpecJson.digit b = true) s -> digits s).
  { intros s F. eapply Forall_impl; [|exact F]. unfold SpecJson.digit, digit. cbv beta. intros. lia. }
  assert (I : forall i, SpecJson.integer i -> digits i /\ i <> []).
  { intros i [|s [NS DS] _]; [split; [repeat constructor; unfold digit; lia|easy]|]. split; [auto|exact NS]. }
  assert (F : forall f, SpecJson.fraction f -> exists fp, frac_text f fp).
  { intros f [|s [NS DS]]; [exists []; split; [constructor|now left]|]. exists s. split; [auto|right; auto]. }
  assert (E : forall t, SpecJson.exponent t -> exists x, exp_text t x).
  { intros t [|c s C [NS DS]|c g s C [->| ->] [NS DS]]; eexists; [constructor|apply et_plain|apply et_plus|apply et_minus]; auto. }
  intros [i f t HI HF HT|i f t HI HF HT]; destruct (I i HI) as [DI NI]; destruct (F f HF) as [fp TF]; destruct (E t HT) as [x TE];
    [exists false|exists true]; do 2 eexists; exists i, f, fp, t, x; (split; [reflexivity|]); repeat (split; [assumption|]);
    (split; [destruct i; easy|]); split; reflexivity.
Qed.

(** A number of a JSON text shorter than 512 bytes is read as the double nearest
    to its decimal value. *)
Theorem C66_json_partial : forall l, SpecJson.number l -> (length l < 512)%nat ->
  (exists neg m e, decimal l neg m e) /\
  forall neg m e, decimal l neg m e -> parse_double l = dec_round neg m e.
Proof.
  intros l N L. split; [now apply number_decimal|]. intros neg m e D.
  unfold parse_double. replace (512 <=? length l)%nat with false by lia.
  pose proof (strtod_decimal l neg m e [] D I) as H. rewrite app_nil_r in H. now rewrite H.
Qed.
Print Assumptions C66_json_partial.

(** From 512 bytes on the number is read as 0, even 1.000...0. *)
Theorem C66_long_refuted : exists l, SpecJson.number l /\ decimal l false (10 ^ 510) (-510) /\
  parse_double l = f_zero /\ dec_round false (10 ^ 510) (-510) <> f_zero.
Proof.
  exists (49 :: 46 :: repeat 48 510).
  assert (R : digits (repeat 48 510)) by (apply Forall_forall; intros c I; apply repeat_spec in I; subst c; unfold digit; lia).
  split; [|split; [|split]].
  - change (49 :: 46 :: repeat 48 510) with ([49] ++ (46 :: repeat 48 510) ++ []). constructor.
    + apply SpecJson.int_pos; [split; [easy|repeat constructor]|easy].
    + constructor. split; [easy|]. apply Forall_forall. intros c I. apply repeat_spec in I. now subst c.
    + constructor.
  - exists [49], (46 :: repeat 48 510), (repeat 48 510), [], 0. split; [reflexivity|]. split; [repeat constructor; unfold digit; lia|].
    split; [split; [exact R|right; split; [reflexivity|easy]]|]. split; [constructor|]. split; [easy|]. split; [vm_compute; reflexivity|reflexivity].
  - vm_compute. reflexivity.
  - vm_compute. discriminate.
Qed.
Print Assumptions C66_long_refuted.

(** ** The double *)

(** dec_round is the nearest double, ties to even, unless that is beyond the
    largest one. *)
Theorem C66_nearest : forall (neg : bool) (m e : Z), 0 < m ->
  let v := round radix2 (FLT_exp (-1074) 53) ZnearestE ((if neg then -1 else 1) * IZR m * bpow radix10 e)%R in
  (Rabs v < bpow radix2 1024)%R ->
  fin (dec_round neg m e) /\ RV (dec_round neg m e) = v /\ f_sign (dec_round neg m e) = neg.
Proof.
  intros neg m e M v V.
  assert (E : v = rnd64 (cond_Ropp neg (DR m e))).
  { unfold v. replace ((if neg then -1 else 1) * IZR m * bpow radix10 e)%R with (cond_Ropp neg (DR m e)); [reflexivity|].
    unfold cond_Ropp, DR, F2R. cbn [Fnum Fexp]. destruct neg; ring. }
  pose proof (dec_round_correct neg m e M) as H. cbv zeta in H. rewrite <- E in H. exact (H V).
Qed.
Print Assumptions C66_nearest.

(** ** WKT *)

Lemma isdig_digit c : isdig c = true <-> digit c.
Proof. unfold isdig, digit. lia. Qed.

Lemma skip_split l : exists ds, l = ds ++ skip_digits l /\ digits ds.
Proof.
  induction l as [|c r (ds & E & D)]; [exists []; split; [reflexivity|constructor]|]. cbn [skip_digits].
  destruct (isdig c) eqn:C; [|exists []; split; [reflexivity|constructor]].
  exists (c :: ds). split; [cbn [app]; congruence|]. constructor; [now apply isdig_digit|exact D].
Qed.

Lemma vexp_text l r : wkt_vexp l = Ok r -> exists te x, l = te ++ r /\ exp_text te x.
Proof.
  destruct l as [|c l]; cbn [wkt_vexp]; intros H. { injection H as <-. exists [], 0. split; [reflexivity|constructor]. }
  destruct ((c =? 101) || (c =? 69)) eqn:C; [|injection H as <-; exists [], 0; split; [reflexivity|constructor]].
  assert (C' : c = 101 \/ c = 69) by lia.
  destruct l as [|s l]; [discriminate|]. cbv zeta in H.
  destruct ((s =? 43) || (s =? 45)) eqn:S.
  - destruct l as [|d l]; [discriminate|]. destruct (isdig d) eqn:D; [|discriminate]. injection H as <-.
    destruct (skip_split l) as (ds & E & DD). apply isdig_digit in D.
    assert (DS : digits (d :: ds)) by (constructor; assumption).
    destruct (s =? 43) eqn:S1.
    + replace s with 43 by lia. exists (c :: 43 :: d :: ds). eexists. split; [cbn [app]; congruence|]. now apply et_plus.
    + replace s with 45 by lia. exists (c :: 45 :: d :: ds). eexists. split; [cbn [app]; congruence|]. now apply et_minus.
  - destruct (isdig s) eqn:D; [|discriminate]. injection H as <-.
    destruct (skip_split l) as (ds & E & DD). apply isdig_digit in D.
    exists (c :: s :: ds). eexists. split; [cbn [app]; congruence|]. apply et_plain; [exact C'|now constructor|easy].
Qed.

(** what wkt_vnumber delimits is a decimal *)
Lemma vnumber_decimal l r : wkt_vnumber l = Ok r -> exists n neg m e, l = n ++ r /\ decimal n neg m e.
Proof.
  destruct l as [|c l0]; [discriminate|]. cbn [wkt_vnumber]. cbv zeta. set (neg := c =? 45). intros H.
  set (l := if neg then l0 else c :: l0) in *.
  assert (EL : c :: l0 = (if neg then [45] else []) ++ l). { unfold l, neg. destruct (c =? 45) eqn:C; [|reflexivity]. cbn. f_equal. lia. }
  assert (K : forall ip tf fp te x, l = ip ++ tf ++ te ++ r -> digits ip -> frac_text tf fp -> exp_text te x -> ip ++ fp <> [] ->
    exists n neg m e, c :: l0 = n ++ r /\ decimal n neg m e).
  { intros ip tf fp te x E DI TF TE NE. exists ((if neg then [45] else []) ++ ip ++ tf ++ te), neg. do 2 eexists. split.
    - rewrite EL, E, <- !app_assoc. reflexivity.
    - exists ip, tf, fp, te, x. repeat (split; [assumption || reflexivity|]). split; reflexivity. }
  clearbody l. destruct l as [|d l1]; [discriminate|]. destruct (negb (isdig d) && negb (d =? 46)) eqn:HD; [discriminate|].
  destruct (skip_split (d :: l1)) as (ip & E & DI).
  assert (F0 : frac_text [] []) by (split; [constructor|now left]).
  assert (NI : isdig d = true -> ip <> []).
  { intros ID ->. cbn [app skip_digits] in E. rewrite ID in E. destruct (skip_split l1) as (ds & E' & _).
    apply (f_equal (@length Z)) in E, E'. rewrite app_length in E'. cbn [length] in E. lia. }
  destruct (skip_digits (d :: l1)) as [|y q] eqn:SK.
  - injection H as <-. apply (K ip [] [] [] 0); [exact E|exact DI|exact F0|constructor|].
    rewrite !app_nil_r in *. now intros ->.
  - destruct (y =? 46) eqn:Y.
    + destruct q as [|g q]; [discriminate|]. destruct (isdig g) eqn:G; [|discriminate].
      apply vexp_text in H. destruct H as (te & x & EX & TE). destruct (skip_split q) as (ds & EQ & DS).
      apply (K ip (46 :: g :: ds) (g :: ds) te x); [|exact DI| |exact TE|now destruct ip].
      * rewrite E. replace y with 46 by lia. rewrite EQ, EX. reflexivity.
      * apply isdig_digit in G. split; [now constructor|right; easy].
    + apply vexp_text in H. destruct H as (te & x & EX & TE).
      apply (K ip [] [] te x); [rewrite E, EX; reflexivity|exact DI|exact F0|exact TE|].
      rewrite app_nil_r. apply NI. destruct (isdig d) eqn:ID; [reflexivity|]. exfalso.
      cbn [skip_digits] in SK. rewrite ID in SK. injection SK as -> ->. lia.
Qed.

(** Whatever number the WKT reader takes is a decimal, read as the nearest double
    when nothing behind it continues it. *)
Theorem C66_wkt : forall l tail x r, wkt_number l tail = Ok (x, r) -> stops (r ++ tail) ->
  exists n neg m e, l = n ++ r /\ decimal n neg m e /\ x = dec_round neg m e.
Proof.
  intros l tail x r H S. unfold wkt_number in H. destruct (wkt_vnumber l) as [r'| | | |] eqn:V; try discriminate. cbn [obind] in H.
  destruct (strtod_in (l ++ tail)); try discriminate. cbn [obind] in H. injection H as <- ->.
  destruct (vnumber_decimal l r V) as (n & neg & m & e & E & D). exists n, neg, m, e. split; [exact E|]. split; [exact D|].
  rewrite E, <- app_assoc, (strtod_decimal n neg m e _ D S). reflexivity.
Qed.
Print Assumptions C66_wkt.

(** ** A point *)

Lemma skip_app ds r : digits ds -> no_digit r -> skip_digits (ds ++ r) = r.
Proof.
  intros D N. induction D as [|c ds C D IH]; cbn [app].
  - destruct r as [|c r]; [reflexivity|]. cbn [skip_digits no_digit] in *. rewrite <- isdig_digit in N.
    now destruct (isdig c).
  - cbn [skip_digits]. apply isdig_digit in C. now rewrite C.
Qed.
Lemma text_vexp te x r : exp_text te x -> stops r -> wkt_vexp (te ++ r) = Ok r.
Proof.
  intros H S. pose proof (stops_no_digit _ S) as ND.
  destruct H as [|c ds C D N|c ds C D N|c ds C D N]; cbn [app].
  - destruct r as [|c r]; [reflexivity|]. cbn [wkt_vexp stops] in *. now replace ((c =? 101) || (c =? 69)) with false by lia.
  - cbn [wkt_vexp]. replace ((c =? 101) || (c =? 69)) with true by lia. destruct ds as [|d ds]; [easy|]. inversion D as [|? ? Hd Hds]; subst.
    cbn [app]. unfold digit in Hd. replace ((d =? 43) || (d =? 45)) with false by lia. cbv zeta.
    replace (isdig d) with true by (unfold isdig; lia). now rewrite skip_app.
  - cbn [wkt_vexp]. replace ((c =? 101) || (c =? 69)) with true by lia. destruct ds as [|d ds]; [easy|]. inversion D as [|? ? Hd Hds]; subst.
    cbn [app]. unfold digit in Hd. cbn [Z.eqb Pos.eqb orb]. cbv zeta.
    replace (isdig d) with true by (unfold isdig; lia). now rewrite skip_app.
  - cbn [wkt_vexp]. replace ((c =? 101) || (c =? 69)) with true by lia. destruct ds as [|d ds]; [easy|]. inversion D as [|? ? Hd Hds]; subst.
    cbn [app]. unfold digit in Hd. cbn [Z.eqb Pos.eqb orb]. cbv zeta.
    replace (isdig d) with true by (unfold isdig; lia). now rewrite skip_app.
Qed.

Lemma decimal_vnumber n neg m e r : decimal n neg m e -> stops r -> wkt_vnumber (n ++ r) = Ok r.
Proof.
  intros (ip & tf & fp & te & x & -> & DI & (DF & TF) & TE & NE & _) S.
  destruct (exp_no_digit _ _ _ TE S) as [ND NP]. pose proof (text_vexp _ _ _ TE S) as X.
  set (b := ip ++ tf ++ te ++ r).
  assert (HB : exists d b', b = d :: b' /\ (digit d \/ d = 46)).
  { unfold b. destruct ip as [|d ip]; [|exists d; eexists; split; [reflexivity|left; now inversion DI]].
    destruct TF as [[-> ->]|[-> NF]]; [easy|]. exists 46. eexists. split; [reflexivity|now right]. }
  destruct HB as (d & b' & EB & HD). unfold digit in HD.
  assert (GO : wkt_vnumber (((if neg then [45] else []) ++ ip ++ tf ++ te) ++ r) =
    match skip_digits b with
    | [] => Ok []
    | x :: r => if x =? 46 then match r with [] => Err msg_text | d :: r1 => if isdig d then wkt_vexp (skip_digits r1) else Err msg_text end
                else wkt_vexp (x :: r)
    end).
  { rewrite <- !app_assoc. fold b. rewrite EB. destruct neg; cbn [app wkt_vnumber].
    - cbn [Z.eqb Pos.eqb]. cbv zeta. replace (negb (isdig d) && negb (d =? 46)) with false by (unfold isdig; lia). reflexivity.
    - cbv zeta. replace (d =? 45) with false by lia.
      replace (negb (isdig d) && negb (d =? 46)) with false by (unfold isdig; lia). reflexivity. }
  rewrite GO. unfold b. destruct TF as [[-> ->]|[-> NF]].
  - cbn [app]. rewrite (skip_app ip _ DI ND). destruct (te ++ r) as [|y q] eqn:Q.
    + destruct te, r; try discriminate Q. reflexivity.
    + cbn [hd] in NP. replace (y =? 46) with false by lia. exact X.
  - rewrite (skip_app ip _ DI) by (cbn; unfold digit; lia). cbn [app Z.eqb Pos.eqb].
    destruct fp as [|g fp]; [easy|]. inversion DF as [|? ? Hg Hf]; subst. cbn [app]. apply isdig_digit in Hg. rewrite Hg.
    rewrite (skip_app fp _ Hf ND). exact X.
Qed.

Lemma decimal_bytes n neg m e : decimal n neg m e -> n <> [] /\ Forall (fun c => c <> 40 /\ c <> 41 /\ isws c = false) n.
Proof.
  intros (ip & tf & fp & te & x & -> & DI & (DF & TF) & TE & NE & _).
  assert (D : forall l, digits l -> Forall (fun c => c <> 40 /\ c <> 41 /\ isws c = false) l).
  { intros l H. eapply Forall_impl; [|exact H]. unfold digit, isws. cbv beta. intros. lia. }
  assert (C : forall c, c <> 40 /\ c <> 41 /\ c <> 32 /\ c <> 9 /\ c <> 10 /\ c <> 13 -> c <> 40 /\ c <> 41 /\ isws c = false).
  { intros c H. unfold isws. lia. }
  split.
  - destruct neg; [easy|]. cbn [app]. destruct ip; [|easy]. destruct TF as [[-> ->]|[-> _]]; easy.
  - apply Forall_app. split; [destruct neg; repeat constructor; lia|]. apply Forall_app. split; [auto|]. apply Forall_app. split.
    + destruct TF as [[-> _]|[-> _]]; [constructor|]. constructor; [apply C; lia|auto].
    + destruct TE; repeat (constructor; [apply C; lia|]); try constructor; auto.
Qed.

Lemma balance_plain b r : Forall (fun c => c <> 40 /\ c <> 41) b -> wkt_balance 1 1 (b ++ 41 :: r) = Some (b, r).
Proof.
  induction 1 as [|c b [H1 H2] F IH]; cbn [app wkt_balance].
  - reflexivity.
  - replace (c =? 40) with false by lia. replace (c =? 41) with false by lia. now rewrite IH.
Qed.

Lemma strtod_in_ends l c t : num_byte c = false -> exists u, strtod_in (l ++ c :: t) = Ok u.
Proof.
  intros C. induction l as [|d l (u & IH)]; cbn [app strtod_in].
  - rewrite C. now exists [].
  - destruct (num_byte d); [|now exists []]. rewrite IH. now exists (d :: u).
Qed.

Lemma number_ok n neg m e r c t : decimal n neg m e -> stops r -> stops (r ++ c :: t) -> num_byte c = false ->
  wkt_number (n ++ r) (c :: t) = Ok (dec_round neg m e, r).
Proof.
  intros D S S' C. unfold wkt_number. rewrite (decimal_vnumber _ _ _ _ _ D S). cbn [obind].
  destruct (strtod_in_ends (n ++ r) c t C) as (u & ->). cbn [obind]. rewrite <- app_assoc, (strtod_decimal _ _ _ _ _ D S'). reflexivity.
Qed.

Lemma trim_plain n r : n <> [] -> Forall (fun c => c <> 40 /\ c <> 41 /\ isws c = false) n -> wkt_trim_ws (n ++ r) = n ++ r.
Proof. intros N F. destruct F as [|c n (_ & _ & C) F]; [easy|]. cbn [app wkt_trim_ws]. now rewrite C. Qed.

(** The text of a point with two decimals gives the point of the nearest doubles. *)
Theorem C66_point : forall e ix n1 s1 m1 e1 n2 s2 m2 e2, decimal n1 s1 m1 e1 -> decimal n2 s2 m2 e2 ->
  exists g, tg_parse_wktn_ix e ix (str "POINT(" ++ n1 ++ str " " ++ n2 ++ str ")") = Ok g /\
    tg_geom_error (Some g) = None /\ tg_geom_typeof (Some g) = 1 /\
    tg_geom_point (Some g) = Pt (dec_round s1 m1 e1) (dec_round s2 m2 e2).
Proof.
  intros e ix n1 s1 m1 e1 n2 s2 m2 e2 D1 D2.
  destruct (decimal_bytes _ _ _ _ D1) as [N1 F1]. destruct (decimal_bytes _ _ _ _ D2) as [N2 F2].
  exists (tg_geom_new_point (Pt (dec_round s1 m1 e1) (dec_round s2 m2 e2))).
  split; [|repeat split].
  change (str "POINT(" ++ n1 ++ str " " ++ n2 ++ str ")") with ([80; 79; 73; 78; 84] ++ 40 :: (n1 ++ 32 :: n2 ++ [41])).
  unfold tg_parse_wktn_ix. cbn [app parse_wkt length wkt_trim_ws]. change (isws 80) with false. cbv iota.
  change (split_paren (80 :: 79 :: 73 :: 78 :: 84 :: 40 :: n1 ++ 32 :: n2 ++ [41]))
    with ([80; 79; 73; 78; 84], 40 :: n1 ++ 32 :: n2 ++ [41]). cbv iota beta.
  replace (wkt2type (trim_end [80; 79; 73; 78; 84])) with (WType 1 false false false) by (vm_compute; reflexivity).
  assert (B : wkt_balance_coords (n1 ++ 32 :: n2 ++ [41]) = Some (n1 ++ 32 :: n2, [])).
  { unfold wkt_balance_coords. change (n1 ++ 32 :: n2 ++ [41]) with (n1 ++ (32 :: n2) ++ [41]). rewrite app_assoc.
    apply balance_plain. apply Forall_app. split; [eapply Forall_impl; [|exact F1]; cbv beta; tauto|].
    constructor; [lia|]. eapply Forall_impl; [|exact F2]; cbv beta; tauto. }
  cbv iota. rewrite B. cbn [forallb app]. cbv zeta. change (1 =? TG_POINT) with true. cbv iota.
  assert (P : parse_wkt_point (n1 ++ 32 :: n2) [41] false false = Ok (tg_geom_new_point (Pt (dec_round s1 m1 e1) (dec_round s2 m2 e2)))).
  { unfold parse_wkt_point. rewrite (trim_plain n1 _ N1 F1). destruct (n1 ++ 32 :: n2) as [|x0 q0] eqn:EL; [now destruct n1|]. rewrite <- EL.
    assert (ST : stops (32 :: n2) /\ stops ((32 :: n2) ++ [41]) /\ stops ([] ++ [41])) by (cbn; unfold digit; lia).
    destruct ST as (ST1 & ST2 & ST3).
    assert (Q : wkt_point_nums (S (length (n1 ++ 32 :: n2))) (wkt_dims false false) [] (n1 ++ 32 :: n2) [41]
              = Ok [dec_round s1 m1 e1; dec_round s2 m2 e2]).
    { cbn [wkt_point_nums]. rewrite (number_ok n1 s1 m1 e1 (32 :: n2) 41 [] D1 ST1 ST2 eq_refl). cbn [obind fst snd length Nat.ltb Nat.leb app].
      change (isws 32) with true. cbn [wkt_trim_ws]. change (isws 32) with true. cbv iota zeta.
      pose proof (trim_plain n2 [] N2 F2) as TN. rewrite app_nil_r in TN. rewrite TN. clear TN.
      destruct n2 as [|y0 q2]; [easy|]. 
      assert (LN : exists k, length (n1 ++ 32 :: y0 :: q2) = S k).
      { rewrite app_length. cbn [length]. exists (length n1 + S (length q2))%nat. lia. }
      destruct LN as (k & ->). cbn [wkt_point_nums].
      pose proof (number_ok (y0 :: q2) s2 m2 e2 [] 41 [] D2 I ST3 eq_refl) as NB. rewrite app_nil_r in NB. rewrite NB. reflexivity. }
    rewrite Q. reflexivity. }
  rewrite P. reflexivity.
Qed.
Print Assumptions C66_point.

(** ** Example *)

(** -12.50e-1 spells -1250 * 10^-3; the point and the line of C64 read .5 *)
Example C66_example :
  decimal (str "-12.50e-1") true 1250 (-3) /\ decimal (str ".5") false 5 (-1) /\ SpecJson.number (str "-12.50e-1") /\
  parse_double (str "-12.50e-1") = dec_round true 1250 (-3) /\ dec_round true 1250 (-3) = dec_round true 125 (-2) /\
  (exists r, wkt_number (str "-12.50e-1 7") (str ")") = Ok r /\ fst r = dec_round true 1250 (-3) /\ stops (snd r ++ str ")")).
Proof.
  assert (D12 : digits [49; 50]) by (repeat constructor; unfold digit; lia).
  assert (D50 : digits [53; 48]) by (repeat constructor; unfold digit; lia).
  assert (D1 : digits [49]) by (repeat constructor; unfold digit; lia).
  assert (D5 : digits [53]) by (repeat constructor; unfold digit; lia).
  split; [|split; [|split; [|split; [|split]]]].
  - exists [49; 50], [46; 53; 48], [53; 48], [101; 45; 49], (-1). split; [reflexivity|]. split; [exact D12|].
    split; [split; [exact D50|right; easy]|]. split; [apply (et_minus 101 [49]); [now left|exact D1|easy]|]. easy.
  - exists (@nil Z), [46; 53], [53], (@nil Z), 0. split; [reflexivity|]. split; [constructor|].
    split; [split; [exact D5|right; easy]|]. split; [constructor|]. easy.
  - apply (SpecJson.number_neg [49; 50] [46; 53; 48] [101; 45; 49]).
    + apply SpecJson.int_pos; [split; [easy|repeat constructor]|easy].
    + constructor. split; [easy|repeat constructor].
    + apply (SpecJson.exp_sign 101 45 [49]); [now left|now right|]. split; [easy|repeat constructor].
  - vm_compute. reflexivity.
  - vm_compute. reflexivity.
  - eexists. split; [vm_compute; reflexivity|]. split; [vm_compute; reflexivity|]. cbn. unfold digit. lia.
Qed.
