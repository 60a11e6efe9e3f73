(** * The text of a shape and how the parser reads it *)

From Coq Require Import ZArith Bool String List Lia ZifyBool.
From Verif Require Import F64 Geo Series RingApi Bytes Geom WkbParse Num WktParse.
From Verif Require Import SpecWkb SpecWkt NumFacts NumPrint WktSafe GeomFacts WkbParseFacts WkbRoundFacts.
Import ListNotations.
Local Open Scope Z_scope.

(** ** Text *)

Fixpoint join (c : Z) (l : list (list Z)) : list Z :=
  match l with
  | [] => []
  | [a] => a
  | a :: r => a ++ c :: join c r
  end.
Definition paren (t : list Z) : list Z := 40 :: t ++ [41].
(** what follows an item in a joined list *)
Definition more (c : Z) (l : list (list Z)) : list Z :=
  match l with [] => [] | _ => c :: join c l end.
Lemma join_cons c a l : join c (a :: l) = a ++ more c l.
Proof. destruct l; cbn; [now rewrite app_nil_r|reflexivity]. Qed.

Section text.
Variable num : f64 -> list Z.
Definition t_posn (p : posn) : list Z := join 32 (map num p).
Definition t_posns (ps : list posn) : list Z := join 44 (map t_posn ps).
Definition t_rings (rs : list (list posn)) : list Z :=
  join 44 (map (fun ps => paren (t_posns ps)) rs).
Definition t_polys (ps : list (list (list posn))) : list Z :=
  join 44 (map (fun rs => paren (t_rings rs)) ps).
Definition t_zm (d : dim) : list Z := if dm d && negb (dz d) then str " M" else [].
(** a name and then the contents, or EMPTY *)
Definition t_body {A : Type} (name : list Z) (d : dim) (t : list A -> list Z) (l : list A) : list Z :=
  match l with
  | [] => name ++ t_zm d ++ str " EMPTY"
  | _ => name ++ t_zm d ++ paren (t l)
  end.
Fixpoint t_shape (s : shape) : list Z :=
  match s with
  | ShPoint d p => t_body (str "POINT") d t_posn p
  | ShLine d ps => t_body (str "LINESTRING") d t_posns ps
  | ShPoly d rs => t_body (str "POLYGON") d t_rings rs
  | ShPoints d ps => t_body (str "MULTIPOINT") d t_posns ps
  | ShLines d ls => t_body (str "MULTILINESTRING") d t_rings ls
  | ShPolys d ps => t_body (str "MULTIPOLYGON") d t_polys ps
  | ShGeoms gs => t_body (str "GEOMETRYCOLLECTION") xy (fun gs => join 44 (map t_shape gs)) gs
  end.
End text.

(** ** Numbers *)

Definition nchar (c : Z) : Prop := num_byte c = true.

Lemma num_form_chars t : num_form t -> Forall nchar t.
Proof.
  intros (neg & ip & fp & ex & -> & H1 & _ & _ & H2 & H3).
  assert (D : forall l, digits l -> Forall nchar l).
  { intros l. apply Forall_impl. unfold digit, nchar, num_byte. lia. }
  rewrite !Forall_app. repeat split; auto.
  - destruct neg; repeat constructor.
  - destruct fp; [constructor|]. cbn. constructor; [reflexivity|]. now apply D.
  - destruct H3 as [->|(e & He & ->)]; [constructor|]. constructor; [reflexivity|].
    unfold exp_chars. rewrite Forall_app. split; [destruct (e <? 0); repeat constructor|].
    apply D. unfold digit_pair.
    destruct (100 <=? Z.abs e) eqn:E1; [|destruct (10 <=? Z.abs e) eqn:E2]; cbn [app];
      repeat (apply Forall_cons; [unfold digit; Z.to_euclidean_division_equations; lia|]); apply Forall_nil.
Qed.

Lemma num_form_head t : num_form t -> exists c r, t = c :: r /\ isnum c = true.
Proof.
  intros (neg & ip & fp & ex & -> & H1 & H2 & _).
  destruct neg; [exists 45; eexists; split; reflexivity|].
  destruct ip as [|c ip]; [easy|]. exists c. eexists. split; [reflexivity|].
  inversion H1; subst. unfold digit, isnum in *. lia.
Qed.

(** a number ends before a blank, a comma, a parenthesis or the end *)
Definition ends (rest : list Z) : Prop :=
  match rest with [] => True | c :: _ => c = 32 \/ c = 44 \/ c = 41 end.

Lemma skip_digits_app ds rest : digits ds -> match rest with [] => True | c :: _ => isdig c = false end ->
  skip_digits (ds ++ rest) = rest.
Proof.
  intros H HR. induction H as [|c ds Hc _ IH]; cbn.
  - destruct rest as [|c r]; [reflexivity|]. cbn. now rewrite HR.
  - unfold digit in Hc. unfold isdig at 1. replace ((48 <=? c) && (c <=? 57)) with true by lia. exact IH.
Qed.

Lemma vexp_ok e rest : -1000 < e < 1000 -> ends rest -> wkt_vexp (101 :: exp_chars e ++ rest) = Ok rest.
Proof.
  intros He HR.
  assert (HD : exists neg d ds, exp_chars e = (if neg : bool then [45] else []) ++ d :: ds /\ digits (d :: ds)).
  { exists (e <? 0). unfold exp_chars, digit_pair.
    destruct (100 <=? Z.abs e) eqn:E1; [|destruct (10 <=? Z.abs e) eqn:E2]; cbn [app];
      do 2 eexists; (split; [reflexivity|]);
      repeat (apply Forall_cons; [unfold digit; Z.to_euclidean_division_equations; lia|]); apply Forall_nil. }
  destruct HD as (neg & d & ds & -> & HD). inversion HD as [|? ? Hd Hds]; subst.
  assert (Dd : isdig d = true) by (unfold digit, isdig in *; lia).
  assert (SD : skip_digits (ds ++ rest) = rest).
  { apply skip_digits_app; [assumption|]. destruct rest as [|c r]; [exact I|]. cbn in HR. unfold isdig. lia. }
  unfold wkt_vexp. cbn [Z.eqb Pos.eqb orb]. destruct neg; cbn [app].
  - cbn [Z.eqb Pos.eqb orb]. rewrite Dd, SD. reflexivity.
  - replace ((d =? 43) || (d =? 45)) with false by (unfold digit in Hd; lia). rewrite Dd, SD. reflexivity.
Qed.

Lemma vnumber_ok t rest : num_form t -> ends rest -> wkt_vnumber (t ++ rest) = Ok rest.
Proof.
  intros (neg & ip & fp & ex & -> & H1 & H2 & _ & H3 & H4) HR.
  destruct ip as [|c ip]; [easy|]. clear H2. inversion H1 as [|? ? Hc Hip]; subst.
  assert (Dc : isdig c = true) by (unfold digit, isdig in *; lia).
  assert (N45 : (c =? 45) = false) by (unfold digit in Hc; lia).
  assert (E : wkt_vnumber ((c :: ip ++ frac_chars fp ++ ex) ++ rest) = Ok rest /\
              wkt_vnumber (45 :: (c :: ip ++ frac_chars fp ++ ex) ++ rest) = Ok rest).
  { unfold wkt_vnumber. cbn [app Z.eqb Pos.eqb]. rewrite N45, Dc. cbn [negb andb skip_digits].
    rewrite Dc.
    assert (X : wkt_vexp (ex ++ rest) = Ok rest /\ match ex ++ rest with [] => True | c :: _ => isdig c = false /\ (c =? 46) = false end).
    { destruct H4 as [->|(e & He & ->)].
      - cbn [app]. split.
        + unfold wkt_vexp. destruct rest as [|x r]; [reflexivity|]. cbn in HR.
          replace ((x =? 101) || (x =? 69)) with false by lia. reflexivity.
        + destruct rest as [|x r]; [exact I|]. cbn in HR. unfold isdig. lia.
      - cbn [app]. rewrite vexp_ok by assumption. split; [reflexivity|]. cbn. auto. }
    destruct X as [X1 X2]. rewrite <- !app_assoc. destruct fp as [|f fp].
    - cbn [frac_chars app]. rewrite skip_digits_app; [|assumption|destruct (ex ++ rest); [exact I|tauto]].
      destruct (ex ++ rest) as [|x r] eqn:EX.
      + cbn in X1. split; exact X1.
      + destruct X2 as [_ ->]. split; exact X1.
    - inversion H3 as [|? ? Hf Hfp]; subst.
      assert (Df : isdig f = true) by (unfold digit, isdig in *; lia).
      change (frac_chars (f :: fp)) with (46 :: f :: fp). cbn [app].
      rewrite skip_digits_app; [|assumption|reflexivity]. cbn [Z.eqb Pos.eqb]. rewrite Df.
      rewrite skip_digits_app; [|assumption|destruct (ex ++ rest); [exact I|tauto]]. split; exact X1. }
  destruct neg; [exact (proj2 E)|exact (proj1 E)].
Qed.

Section parse.
Variable num : f64 -> list Z.
Variable rd : f64 -> f64.
Definition good (x : f64) : Prop := reads_as (num x) (rd x).

Lemma number_ok x rest t : good x -> ends rest ->
  wkt_number (num x ++ rest) (41 :: t) = Ok (rd x, rest).
Proof.
  intros (F & R & _) HR. unfold wkt_number. rewrite vnumber_ok by assumption. cbn [obind].
  destruct (strtod_in_ok (num x ++ rest) t) as [r ->]. cbn [obind].
  rewrite <- app_assoc, R; [reflexivity|]. destruct rest as [|c r']; cbn in *; unfold digit; lia.
Qed.

Lemma good_head x : good x -> exists c r, num x = c :: r /\ isnum c = true.
Proof. intros [F _]. now apply num_form_head. Qed.

Lemma isnum_plain c : isnum c = true ->
  isws c = false /\ (c =? 40) = false /\ (c =? 41) = false /\ (c =? 44) = false.
Proof. unfold isnum, isws. lia. Qed.

Lemma t_posn_cons x p : t_posn num (x :: p) = num x ++ match p with [] => [] | _ => 32 :: t_posn num p end.
Proof. unfold t_posn. cbn [map]. rewrite join_cons. destruct p; reflexivity. Qed.
Lemma t_posn_head p : p <> [] -> Forall good p -> exists c r, t_posn num p = c :: r /\ isnum c = true.
Proof.
  intros NE H. destruct p as [|x p]; [easy|]. rewrite t_posn_cons. inversion H; subst.
  destruct (good_head x) as (c & r & -> & Hc); [assumption|]. exists c. eexists. split; [reflexivity|assumption].
Qed.
Lemma trim_num c r : isnum c = true -> wkt_trim_ws (c :: r) = c :: r.
Proof. intros H. cbn. destruct (isnum_plain c H) as (-> & _). reflexivity. Qed.

(** the numbers of a position *)
Lemma nums_ok dims t : forall p fuel acc rest, p <> [] -> Forall good p ->
  (length acc + length p <= 4)%nat -> (length p <= fuel)%nat ->
  match rest with [] => True | c :: _ => c = 44 \/ c = 41 end ->
  wkt_nums fuel dims acc (t_posn num p ++ rest) (41 :: t) = Ok (acc ++ map rd p, rest).
Proof.
  induction p as [|x p IH]; intros fuel acc rest NE G L LF HR; [easy|].
  inversion G as [|? ? Gx Gp]; subst. destruct fuel as [|fuel]; [cbn in LF; lia|].
  rewrite t_posn_cons, <- app_assoc.
  destruct (good_head x Gx) as (c & r & Hn & Hc).
  assert (Hl : exists l, num x ++ (match p with [] => [] | _ => 32 :: t_posn num p end) ++ rest = c :: l)
    by (rewrite Hn; eexists; reflexivity).
  destruct Hl as [l Hl]. rewrite Hl. cbn [wkt_nums]. rewrite Hc. rewrite <- Hl. clear Hl l.
  cbn [length] in L.
  rewrite number_ok; [|assumption|destruct p; [destruct rest; cbn in *; [exact I|lia]|cbn; auto]].
  cbn [obind fst snd]. replace (length acc =? 4)%nat with false by (symmetry; apply Nat.eqb_neq; lia).
  destruct p as [|y p].
  - cbn [app map]. destruct rest as [|d rest]; [reflexivity|].
    replace (isws d) with false by (unfold isws; lia). reflexivity.
  - cbn [app]. change (isws 32) with true. cbv iota.
    destruct (t_posn_head (y :: p)) as (d & r2 & Hd & Hd2); [easy|assumption|].
    rewrite Hd. cbn [app]. rewrite trim_num by assumption.
    destruct (isnum_plain d Hd2) as (_ & _ & E1 & E2). rewrite E1, E2. cbn [orb].
    change (d :: r2 ++ rest) with ((d :: r2) ++ rest). rewrite <- Hd.
    rewrite IH; [|easy|assumption|rewrite app_length; cbn in *; lia|cbn in *; lia|assumption].
    cbn [map]. now rewrite <- app_assoc.
Qed.

Lemma point_nums_ok dims t : forall p fuel acc, p <> [] -> Forall good p ->
  (length acc + length p <= 4)%nat -> (length p <= fuel)%nat ->
  wkt_point_nums fuel dims acc (t_posn num p) (41 :: t) = Ok (acc ++ map rd p).
Proof.
  induction p as [|x p IH]; intros fuel acc NE G L LF; [easy|].
  inversion G as [|? ? Gx Gp]; subst. destruct fuel as [|fuel]; [cbn in LF; lia|].
  rewrite t_posn_cons. cbn [wkt_point_nums]. cbn [length] in L.
  rewrite number_ok; [|assumption|destruct p; cbn; auto].
  cbn [obind fst snd]. replace (length acc <? 4)%nat with true by (symmetry; apply Nat.ltb_lt; lia).
  destruct p as [|y p]; [reflexivity|].
  change (isws 32) with true. cbv iota.
  change (wkt_trim_ws (32 :: t_posn num (y :: p))) with (wkt_trim_ws (t_posn num (y :: p))).
  destruct (t_posn_head (y :: p)) as (d & r2 & Hd & Hd2); [easy|assumption|].
  rewrite Hd, trim_num by assumption. rewrite <- Hd.
  rewrite IH; [|easy|assumption|rewrite app_length; cbn in *; lia|cbn in *; lia].
  cbn [map]. now rewrite <- app_assoc.
Qed.

Lemma t_posn_length p : Forall good p -> (length p <= length (t_posn num p))%nat.
Proof.
  induction 1 as [|x p Gx _ IH]; [cbn; lia|]. rewrite t_posn_cons, app_length.
  destruct (good_head x Gx) as (c & r & -> & _). destruct p; cbn [length] in *; lia.
Qed.

Lemma t_posns_cons p ps : t_posns num (p :: ps) =
  t_posn num p ++ match ps with [] => [] | _ => 44 :: t_posns num ps end.
Proof. unfold t_posns. cbn [map]. rewrite join_cons. destruct ps; reflexivity. Qed.

Lemma t_posns_head ps : ps <> [] -> Forall (fun p => p <> [] /\ Forall good p) ps ->
  exists c r, t_posns num ps = c :: r /\ isnum c = true.
Proof.
  intros NE H. destruct ps as [|p ps]; [easy|]. rewrite t_posns_cons. inversion H as [|? ? [N G] _]; subst.
  destruct (t_posn_head p N G) as (c & r & -> & Hc). exists c. eexists. split; [reflexivity|assumption].
Qed.

Lemma posns_ok n t : (2 <= n <= 4)%nat -> forall ps fuel dims, ps <> [] ->
  Forall (fun p => length p = n /\ Forall good p) ps ->
  (dims = 0%nat \/ dims = n) -> (length (t_posns num ps) < fuel)%nat ->
  wkt_posns fuel false dims (t_posns num ps) (41 :: t) = Ok (n, map (map rd) ps).
Proof.
  intros Hn. induction ps as [|p ps IH]; intros fuel dims NE H HD LF; [easy|].
  inversion H as [|? ? [Lp Gp] Hps]; subst. destruct fuel as [|fuel]; [lia|].
  assert (NP : p <> []) by (destruct p; cbn in *; [lia|easy]).
  destruct (t_posns_head (p :: ps)) as (c & r & Hc & Hcn); [easy| |].
  { eapply Forall_impl; [|exact H]. intros q [Lq Gq]. split; [|assumption]. destruct q; cbn in *; [lia|easy]. }
  rewrite Hc. cbn [wkt_posns]. rewrite <- Hc. clear Hc Hcn c r.
  rewrite t_posns_cons in *. cbn [wkt_xparen obind].
  rewrite nums_ok; [|assumption|assumption|cbn; lia| |destruct ps; cbn; auto].
  2:{ pose proof (t_posn_length p Gp). rewrite app_length. lia. }
  cbn [obind fst snd app]. rewrite map_length.
  assert (HDM : (if (dims =? length p)%nat then Ok dims
          else if (dims =? 0)%nat && (2 <=? length p)%nat then Ok (length p)
          else Err (err_for_wkt_posn dims)) = Ok (length p)).
  { destruct HD as [-> | ->]; [|rewrite Nat.eqb_refl; reflexivity].
    destruct (Nat.eqb_spec 0 (length p)); [lia|]. cbn [Nat.eqb andb].
    destruct (Nat.leb_spec 2 (length p)); [reflexivity|lia]. }
  destruct ps as [|p2 ps].
  - cbn [obind map]. rewrite HDM. cbn [obind]. destruct fuel; reflexivity.
  - cbn [Z.eqb Pos.eqb].
    destruct (t_posns_head (p2 :: ps)) as (c & r & Hc & Hcn); [easy| |].
    { eapply Forall_impl; [|exact Hps]. intros q [Lq Gq]. split; [|assumption]. destruct q; cbn in *; [lia|easy]. }
    rewrite Hc, trim_num by assumption. cbn [obind]. rewrite HDM. cbn [obind]. rewrite <- Hc.
    rewrite IH; [reflexivity|easy|assumption|now right|].
    rewrite app_length in LF. cbn [length] in LF. lia.
Qed.

Lemma parse_posns_ok base n dims ps t : (2 <= n <= 4)%nat -> ps <> [] ->
  Forall (fun p => length p = n /\ Forall good p) ps -> (dims = 0%nat \/ dims = n) ->
  match base with
  | WBPoint => None
  | WBLine => check_parse_posns false (map posn_point (map (map rd) ps))
  | WBRing => check_parse_posns true (map posn_point (map (map rd) ps))
  end = None ->
  parse_wkt_posns base dims (t_posns num ps) (41 :: t)
  = Ok (n, map posn_point (map (map rd) ps), extras (map (map rd) ps)).
Proof.
  intros Hn NE H HD HC. unfold parse_wkt_posns.
  destruct (t_posns_head ps) as (c & r & Hc & Hcn); [assumption| |].
  { eapply Forall_impl; [|exact H]. intros q [Lq Gq]. split; [|assumption]. destruct q; cbn in *; [lia|easy]. }
  assert (HT : wkt_trim_ws (t_posns num ps) = t_posns num ps) by (rewrite Hc; now apply trim_num).
  rewrite HT.
  assert (HX : match base, t_posns num ps with WBPoint, 40 :: _ => true | _, _ => false end = false).
  { rewrite Hc. destruct base; [|destruct c; reflexivity|destruct c; reflexivity].
    destruct (isnum_plain c Hcn) as (_ & E & _). clear -E. destruct c as [|p|p]; try reflexivity.
    do 6 (destruct p as [p|p|]; try reflexivity). discriminate. }
  rewrite HX. rewrite (posns_ok n) by (auto; lia). cbn [obind fst snd].
  change (map posn_pt (map (map rd) ps)) with (map posn_point (map (map rd) ps)).
  rewrite HC. reflexivity.
Qed.

(** ** Parentheses *)

Lemma bal_app : forall a k d b, bal k a -> bal (k + d) (a ++ b) = bal d b.
Proof.
  induction a as [|c a IH]; intros k d b H.
  - cbn in H. subst k. reflexivity.
  - cbn [app bal] in *. destruct (c =? 40); [exact (IH (S k) d b H)|].
    destruct (c =? 41); [|now apply IH]. destruct k as [|k]; [contradiction|]. now apply IH.
Qed.
Lemma bal_app0 a b : bal 0 a -> bal 0 b -> bal 0 (a ++ b).
Proof. intros Ha Hb. pose proof (bal_app a 0 0 b Ha) as E. cbn in E. now rewrite E. Qed.
Lemma bal_paren t : bal 0 t -> bal 0 (paren t).
Proof.
  intros H. unfold paren. cbn [bal]. change (40 =? 40) with true. cbv iota.
  assert (E : bal (0 + 1) (t ++ [41]) = bal 1 [41]) by now apply bal_app.
  cbn [Nat.add] in E. rewrite E. reflexivity.
Qed.
Lemma bal_chars t : Forall nchar t -> bal 0 t /\ opens t = 0%nat.
Proof.
  induction 1 as [|c t Hc _ [IH1 IH2]]; [split; reflexivity|]. cbn [bal opens].
  assert ((c =? 40) = false /\ (c =? 41) = false) as [-> ->] by (unfold nchar, num_byte in Hc; lia).
  split; [assumption|]. rewrite IH2. reflexivity.
Qed.
Lemma bal_join c l : (c =? 40) = false -> (c =? 41) = false -> Forall (bal 0) l -> bal 0 (join c l).
Proof.
  intros E1 E2 H. induction H as [|a l Ha HL IH]; [reflexivity|]. rewrite join_cons.
  apply bal_app0; [assumption|]. destruct l; [reflexivity|]. unfold more. cbn [bal]. rewrite E1, E2. exact IH.
Qed.
Lemma opens_paren t : opens (paren t) = S (opens t).
Proof. unfold paren. cbn [opens]. rewrite opens_app. cbn. lia. Qed.
Lemma opens_join c l : (c =? 40) = false -> opens (join c l) = list_sum (map opens l).
Proof.
  intros E. induction l as [|a l IH]; [reflexivity|]. rewrite join_cons, opens_app. cbn [map list_sum fold_right].
  f_equal. destruct l; [reflexivity|]. unfold more. cbn [opens]. rewrite E. exact IH.
Qed.

Lemma posn_bal p : Forall good p -> bal 0 (t_posn num p) /\ opens (t_posn num p) = 0%nat.
Proof.
  intros H.
  assert (HB : forall x, good x -> bal 0 (num x) /\ opens (num x) = 0%nat)
    by (intros x [F _]; now apply bal_chars, num_form_chars).
  split.
  - apply bal_join; try reflexivity. apply Forall_map. eapply Forall_impl; [|exact H]. intros x Gx. now apply HB.
  - unfold t_posn. rewrite opens_join by reflexivity. clear -H HB. induction H as [|x p Gx _ IH]; [reflexivity|].
    cbn [map list_sum fold_right]. fold (list_sum (map opens (map num p))). rewrite IH. now rewrite (proj2 (HB x Gx)).
Qed.

Lemma join_bal {A} (f : A -> list Z) (k : A -> nat) l :
  Forall (fun a => bal 0 (f a) /\ opens (f a) = k a) l ->
  bal 0 (join 44 (map f l)) /\ opens (join 44 (map f l)) = list_sum (map k l).
Proof.
  intros H. split.
  - apply bal_join; try reflexivity. apply Forall_map. eapply Forall_impl; [|exact H]. intros a [Ha _]. exact Ha.
  - rewrite opens_join by reflexivity. induction H as [|a l [_ Ha] _ IH]; [reflexivity|].
    cbn [map list_sum fold_right]. fold (list_sum (map opens (map f l))). fold (list_sum (map k l)). lia.
Qed.

Definition goods (ps : list posn) : Prop := Forall (Forall good) ps.
Lemma posns_bal ps : goods ps -> bal 0 (t_posns num ps) /\ opens (t_posns num ps) = 0%nat.
Proof.
  intros H. destruct (join_bal (t_posn num) (fun _ => 0%nat) ps) as [A B].
  { eapply Forall_impl; [|exact H]. intros p. apply posn_bal. }
  split; [exact A|]. unfold t_posns. rewrite B. clear. induction ps; cbn; auto.
Qed.
Lemma rings_bal rs : Forall goods rs ->
  bal 0 (t_rings num rs) /\ opens (t_rings num rs) = list_sum (map (fun _ => 1%nat) rs).
Proof.
  intros H. apply join_bal. eapply Forall_impl; [|exact H]. intros ps Hp.
  destruct (posns_bal ps Hp) as [A B]. split; [now apply bal_paren|]. now rewrite opens_paren, B.
Qed.
Lemma polys_bal ps : Forall (fun rs => rs <> [] /\ Forall goods rs) ps ->
  bal 0 (t_polys num ps) /\
  opens (t_polys num ps) = list_sum (map (fun rs => groups_in (fun _ => 1%nat) rs) ps).
Proof.
  intros H. apply join_bal. eapply Forall_impl; [|exact H]. intros rs [NE Hr].
  destruct (rings_bal rs Hr) as [A B]. split; [now apply bal_paren|]. rewrite opens_paren, B.
  destruct rs; [easy|reflexivity].
Qed.

(** ** Groups *)

Lemma groups_ok {A B} (f : nat -> list Z -> list Z -> out (nat * B * list f64))
  (text : A -> list Z) (res : A -> B) (ex : A -> list f64) (n : nat) t :
  forall l fuel dims, l <> [] ->
  (forall a d t', In a l -> (d = 0%nat \/ d = n) -> f d (text a) (41 :: t') = Ok (n, res a, ex a)) ->
  (forall a, In a l -> bal 0 (text a) /\ (opens (text a) <= 1023)%nat) ->
  (dims = 0%nat \/ dims = n) -> (length l < fuel)%nat ->
  wkt_groups f fuel dims (join 44 (map (fun a => paren (text a)) l)) t
  = Ok (n, map res l, concat (map ex l)).
Proof.
  induction l as [|a l IH]; intros fuel dims NE HF HB HD L; [easy|].
  destruct fuel as [|fuel]; [cbn in L; lia|]. cbn [map]. rewrite join_cons. unfold paren at 1. cbn [app].
  cbn [wkt_groups]. change (40 =? 40) with true. cbv iota.
  destruct (HB a (or_introl eq_refl)) as [B1 B2].
  rewrite <- app_assoc. cbn [app]. unfold wkt_balance_coords. rewrite balance_ok; [|assumption|lia].
  rewrite HF; [|now left|assumption]. cbn [obind].
  destruct l as [|a2 l]; [cbn; now rewrite app_nil_r|].
  unfold more. cbn [map]. change (wkt_trim_ws (44 :: ?x)) with (44 :: x). cbn [wkt_trim_ws].
  change (isws 44) with false. cbv iota. change (44 =? 44) with true. cbv iota.
  assert (HT : exists r, join 44 (paren (text a2) :: map (fun a => paren (text a)) l) = 40 :: r).
  { rewrite join_cons. unfold paren. cbn [app]. eexists. reflexivity. }
  destruct HT as [r HT]. rewrite HT. cbn [wkt_trim_ws]. change (isws 40) with false. cbv iota. rewrite <- HT.
  change (paren (text a2) :: map (fun a => paren (text a)) l) with (map (fun a => paren (text a)) (a2 :: l)).
  rewrite IH; [reflexivity|easy| | |now right|cbn in *; lia].
  - intros x d t' Hx. apply HF. now right.
  - intros x Hx. apply HB. now right.
Qed.

Lemma join_length {A} (text : A -> list Z) l :
  (length l <= length (join 44 (map (fun a => paren (text a)) l)))%nat.
Proof.
  induction l as [|a l IH]; [cbn; lia|]. cbn [map]. rewrite join_cons, app_length. unfold paren at 1.
  destruct l; cbn [length map more] in *; lia.
Qed.
Lemma trim_join {A} (text : A -> list Z) l :
  wkt_trim_ws (join 44 (map (fun a => paren (text a)) l)) = join 44 (map (fun a => paren (text a)) l).
Proof. destruct l as [|a l]; [reflexivity|]. cbn [map]. rewrite join_cons. reflexivity. Qed.
End parse.
