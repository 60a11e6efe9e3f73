(** * Consequences for counts, copies and failed allocations *)

From Coq Require Import ZArith Bool List Lia Arith Permutation.
From Verif Require Import F64 Geo Series Geom MultiIx MultiFacts Heap HeapGeom SpecHeap HeapHist HeapFacts HeapStep HeapFree HeapDen HeapNew HeapMake HeapCopy HeapCopyG HeapClone HeapBuild HeapHistF.
Import ListNotations.
Local Open Scope nat_scope.

(** ** The number of references *)
Lemma sumn_list {A} (f : option A -> nat) l : sumn (length l) (fun i => f (nth i l None)) = list_sum (map f l).
Proof.
  induction l as [|x l IH] using rev_ind; [reflexivity|]. rewrite app_length, map_app, list_sum_app. cbn [length map list_sum fold_right].
  replace (length l + 1) with (S (length l)) by lia. cbn [sumn]. rewrite app_nth2, Nat.sub_diag by lia. cbn [nth]. rewrite Nat.add_0_r. f_equal.
  rewrite <- IH. apply sumn_ext. intros i Hi. now rewrite app_nth1.
Qed.
Lemma total_spec h E p : cnt E p + total h [] p = nrefs h E p.
Proof. unfold nrefs, total. f_equal. rewrite <- sumn_list. reflexivity. Qed.

(** ** New blocks survive as long as the object they belong to *)
Lemma new_survive cp rk h E h' q h'' E'' : St cp rk h E [] h' [q] [] -> Fr [] h' h'' -> Inv cp h'' E'' [] -> In q E'' ->
  forall p, length (cells h) <= p -> keep h' h'' p.
Proof.
  intros A F I'' Hq. pose proof (st_inv0 _ _ _ _ _ _ _ _ A) as I. pose proof (st_inv _ _ _ _ _ _ _ _ A) as I'. cbn [app] in I'.
  destruct (st_rank _ _ _ _ _ _ _ _ A) as (rk' & R' & _). cbn [app] in R'. assert (R2 := Rank_norm _ _ _ _ _ I' R').
  assert (B := rnorm_lt rk' h'). set (r := rnorm rk' h') in *. clearbody r.
  assert (X : forall n p b, n + r p >= length (cells h') -> length (cells h) <= p -> get h' p = Some b -> get h'' p <> None).
  { induction n as [|n IH]; intros p b Hn Lp Gp; [specialize (B p b Gp); lia|].
    assert (NH : isnh b = false) by (eapply (fr_fresh _ _ _ (st_fr _ _ _ _ _ _ _ _ A)); eauto).
    destruct (inv_cnt _ _ _ _ I' p b Gp (@in_nil _ p) NH) as [C1 C2].
    destruct (Nat.eq_dec (cnt (q :: E) p) 0) as [e|ne].
    - assert (total h' [] p <> 0) as T by lia. apply total_pos in T. destruct T as (i & bi & Gi & Ni & Hi).
      pose proof (R2 i bi p Gi Ni Hi) as Lr. destruct (le_lt_dec (length (cells h)) i) as [Li|Li].
      + pose proof (IH i bi ltac:(lia) Li Gi) as Ai. destruct (fr_live _ _ _ F i bi Gi) as [G2|(b2 & G2 & S2)]; [contradiction|].
        apply (inv_owned _ _ _ _ i b2 p I'' G2 (@in_nil _ i)). now rewrite (strip_owned _ _ S2).
      + exfalso. destruct (get h i) as [bo|] eqn:Go.
        * destruct (fr_live _ _ _ (st_fr _ _ _ _ _ _ _ _ A) i bo Go) as [G1|(b1 & G1 & S1)]; [congruence|].
          assert (b1 = bi) by congruence. subst b1. rewrite (strip_owned _ _ S1) in Hi.
          apply (proj1 (inv_owned _ _ _ _ _ _ _ I Go (@in_nil _ i) Hi)), get_ge, Lp.
        * rewrite (fr_dead _ _ _ (st_fr _ _ _ _ _ _ _ _ A) i Li Go) in Gi. discriminate.
    - assert (Hp : In p (q :: E)) by (apply cnt_in; lia). destruct Hp as [<-|Hp]; [apply (inv_E _ _ _ _ q I'' Hq)|].
      exfalso. apply (proj1 (inv_E _ _ _ _ p I Hp)), get_ge, Lp. }
  intros p Lp b Gb. destruct (fr_live _ _ _ F p b Gb) as [G2|H]; [|assumption]. exfalso. apply (X (length (cells h')) p b); auto. lia.
Qed.
Lemma fresh_survive cp rk h E h' q h'' E'' : St cp rk h E [] h' [q] [] -> Fr [] h' h'' -> Inv cp h'' E'' [] -> In q E'' ->
  vle (fresh (length (cells h)) (get h')) (get h'').
Proof.
  intros A F I Hq x b G. unfold fresh in G. destruct (Nat.ltb_spec x (length (cells h))) as [L|L]; [discriminate|].
  exact (new_survive _ _ _ _ _ _ _ _ A F I Hq x L b G).
Qed.

(** ** A failed allocation is reported *)
Definition nn (h : heap) : Prop := forall p b, get h p = Some b -> isnh b = false.
Definition rep {A : Type} (P : A -> Prop) (m : M A) : Prop :=
  forall h x h', nn h -> m h = Some (x, h') -> nn h' /\ ok h' = ok h /\ calls h <= calls h' /\ (oom h h' -> P x).
Definition alw {A : Type} (P : A -> Prop) (m : M A) : Prop := forall h x h', m h = Some (x, h') -> P x.
Definition no {A : Type} (_ : A) : Prop := False.

Lemma alw_ret {A} (P : A -> Prop) x : P x -> alw P (ret x).
Proof. intros H h y h' [= <- <-]. exact H. Qed.
Lemma alw_bind {A B} (P : B -> Prop) (m : M A) k : (forall x, alw P (k x)) -> alw P (bind m k).
Proof. intros H h y h' E. unfold bind in E. destruct (m h) as [[x h1]|]; [|discriminate]. exact (H x _ _ _ E). Qed.
Lemma oom_nil h : ~ oom h h.
Proof. intros (k & L & _). lia. Qed.
Lemma rep_ret {A} (P : A -> Prop) x : rep P (ret x).
Proof. intros h y h' N [= <- <-]. repeat split; auto. intros O. exfalso. eapply oom_nil, O. Qed.
Lemma rep_ub {A} (P : A -> Prop) : rep P ub.
Proof. intros h y h' N [=]. Qed.
Lemma rep_imp {A} (P Q : A -> Prop) m : (forall x, P x -> Q x) -> rep P m -> rep Q m.
Proof. intros H R h x h' N E. destruct (R h x h' N E) as (A1 & A2 & A3 & A4). repeat split; auto. Qed.
Lemma rep_no {A} (Q : A -> Prop) m : rep no m -> rep Q m.
Proof. apply rep_imp. intros x []. Qed.
Lemma oom_split h h1 h2 : ok h1 = ok h -> calls h <= calls h1 <= calls h2 -> oom h h2 -> oom h h1 \/ oom h1 h2.
Proof.
  intros EO L (k & Lk & O). destruct (le_lt_dec (calls h1) k); [right|left]; exists k; (split; [lia|]); [now rewrite EO|assumption].
Qed.
Lemma rep_bind {A B} (P : A -> Prop) (Q : B -> Prop) (m : M A) k : rep P m -> (forall x, rep Q (k x)) -> (forall x, P x -> alw Q (k x)) -> rep Q (bind m k).
Proof.
  intros RM RK AK h y h' N E. unfold bind in E. destruct (m h) as [[x h1]|] eqn:EM; [|discriminate].
  destruct (RM h x h1 N EM) as (N1 & O1 & C1 & P1). destruct (RK x h1 y h' N1 E) as (N2 & O2 & C2 & P2).
  split; [assumption|]. split; [congruence|]. split; [lia|]. intros O. destruct (oom_split h h1 h' O1 (conj C1 C2) O) as [O'|O'].
  - exact (AK x (P1 O') _ _ _ E).
  - exact (P2 O').
Qed.
Lemma rep_seq {A B} (Q : B -> Prop) (m : M A) k : rep no m -> (forall x, rep Q (k x)) -> rep Q (bind m k).
Proof. intros RM RK. apply (rep_bind no); auto. intros x []. Qed.
Lemma rep_load {B} (Q : B -> Prop) p k : (forall b, isnh b = false -> rep Q (k b)) -> rep Q (bind (load p) k).
Proof.
  intros H h y h' N E. unfold bind, load in E. destruct (get h p) as [b|] eqn:G; [|discriminate]. exact (H b (N p b G) h y h' N E).
Qed.
Lemma get_upd' h p o x b : get h p = Some b -> get (upd h p o) x = if x =? p then o else get h x.
Proof. intros G. apply get_upd. eapply get_lt, G. Qed.
Lemma rep_store p b : isnh b = false -> rep no (store p b).
Proof.
  intros NB h x h' N E. unfold store in E. destruct (get h p) as [b0|] eqn:G; [|discriminate]. inversion E; subst. split; [|repeat split; auto].
  - intros q c Gq. rewrite (get_upd' _ _ _ _ _ G) in Gq. destruct (q =? p); [congruence|]. eauto.
  - intros (k & L & _). cbn in L. lia.
Qed.
Lemma rep_free p : rep no (tg_free p).
Proof.
  intros h x h' N E. unfold tg_free in E. destruct (get h p) as [b0|] eqn:G; [|discriminate]. inversion E; subst. split; [|repeat split; auto].
  - intros q c Gq. rewrite (get_upd' _ _ _ _ _ G) in Gq. destruct (q =? p); [discriminate|]. eauto.
  - intros (k & L & _). cbn in L. lia.
Qed.
Lemma rep_malloc b : (forall p, isnh (b p) = false) -> rep (fun r => r = None) (tg_malloc b).
Proof.
  intros NB h x h' N E. unfold tg_malloc in E. destruct (ok h (calls h)) eqn:OK; inversion E; subst; (split; [|cbn; repeat split; auto]).
  - intros q c Gq. change (get (alloc h (b (length (cells h)))) q = Some c) in Gq. rewrite get_alloc in Gq.
    destruct (q =? length (cells h)); [inversion Gq; subst; apply NB|eauto].
  - intros (k & L & O). cbn in L. assert (k = calls h) by lia. subst. congruence.
  - exact N.
Qed.
Lemma rep_free_opt o : rep no (free_opt o).
Proof. destruct o; [apply rep_free|apply rep_ret]. Qed.
Lemma isnh_set b hd hd' : isnh b = false -> head_of b = Some hd -> h_noheap hd' = h_noheap hd -> isnh (set_head hd' b) = false.
Proof. intros N H E. unfold isnh in *. rewrite H in N. destruct b; cbn in *; inversion H; subst; congruence. Qed.
Lemma rep_retain p : rep no (rc_retain p).
Proof.
  unfold rc_retain. apply rep_load. intros b N. destruct (head_of b) as [hd|] eqn:H; [|apply rep_ub]. apply rep_store. now apply (isnh_set b hd).
Qed.
Lemma rep_stays p : rep no (stays p).
Proof.
  unfold stays. apply rep_load. intros b N. destruct (head_of b) as [hd|] eqn:H; [|apply rep_ub]. destruct (h_noheap hd); [apply rep_ret|].
  apply rep_seq; [|intros; apply rep_ret]. unfold rc_release. apply rep_load. intros b' N'. destruct (head_of b') as [hd'|] eqn:H'; [|apply rep_ub].
  apply rep_seq; [|intros; apply rep_ret]. apply rep_store. now apply (isnh_set b' hd').
Qed.

Ltac qt tac := repeat first
  [ tac tt | apply rep_ret | apply rep_ub | apply rep_free | apply rep_free_opt | apply rep_stays | apply rep_retain
  | match goal with |- rep _ (bind (load _) _) => (apply rep_load; intros ? ?) end
  | match goal with |- rep _ (bind _ _) => (apply rep_seq; [|intros ?]) end
  | match goal with |- rep _ (match ?x with _ => _ end) => destruct x end
  | (apply rep_store; reflexivity) ].
Ltac qt0 := qt ltac:(fun _ => fail).
Lemma rep_ring_free p : rep no (tg_ring_free p).
Proof. destruct p; cbn [tg_ring_free]; qt0. Qed.
Lemma rep_free_each f l : (forall p, rep no (f p)) -> rep no (free_each f l).
Proof. intros H. induction l; cbn [free_each]; qt ltac:(fun _ => first [apply H|assumption]). Qed.
Lemma rep_poly_free p : rep no (tg_poly_free p).
Proof. destruct p; cbn [tg_poly_free]; qt ltac:(fun _ => first [apply rep_ring_free | apply rep_free_each, rep_ring_free]). Qed.
Lemma rep_geom_free_fuel n p : rep no (geom_free_fuel n p).
Proof.
  revert p. induction n as [|n IH]; intros p; cbn [geom_free_fuel]; unfold geom_free, boxed_point_free;
    qt ltac:(fun _ => first [apply rep_ring_free | apply rep_poly_free | apply rep_free_each, IH]).
Qed.
Lemma rep_geom_free p : rep no (tg_geom_free p).
Proof. intros h x h' N E. exact (rep_geom_free_fuel _ p h x h' N E). Qed.

Lemma rep_clone p (copy : M (option ptr)) : rep no (
  b <- load p ;;
  match head_of b with
  | Some h => if h_noheap h then copy else rc_retain p ;;; ret (Some p)
  | None => ub
  end).
Proof.
  apply rep_load. intros b N. destruct (head_of b) as [hd|] eqn:H; [|apply rep_ub]. unfold isnh in N. rewrite H in N. rewrite N.
  apply rep_seq; [apply rep_retain|intros; apply rep_ret].
Qed.
Lemma rep_ring_clone p : rep no (tg_ring_clone p).
Proof. destruct p; [apply rep_clone|apply rep_ret]. Qed.
Lemma rep_poly_clone p : rep no (tg_poly_clone p).
Proof. destruct p; [apply rep_clone|apply rep_ret]. Qed.
Lemma rep_geom_clone p : rep no (tg_geom_clone p).
Proof. destruct p; [apply rep_clone|]. intros h x h' N E. inversion E; subst. repeat split; auto. apply oom_nil. Qed.

(** the answer NULL *)
Notation isnull := (fun r => r = None).
Ltac aw := repeat first [apply alw_ret; reflexivity | (apply alw_bind; intros ?)].
Lemma rep_alloc {B} (Q : B -> Prop) b (k : option ptr -> M B) : (forall p, isnh (b p) = false) -> (forall p, rep Q (k (Some p))) -> rep Q (k None) ->
  alw Q (k None) -> rep Q (bind (tg_malloc b) k).
Proof.
  intros NB K1 K2 K3. apply (rep_bind (fun r => r = None)); [now apply rep_malloc|intros [p|]; auto|intros x ->; exact K3].
Qed.

Lemma rep_series ps closed kind spread : rep isnull (series_new_mem ps closed kind spread).
Proof.
  unfold series_new_mem. destruct (series_new ps closed kind spread) as [r|]; [|apply rep_ub]. apply rep_alloc; [reflexivity| |apply rep_ret|aw].
  intros p. destruct (r_ystripes r) as [y|]; [|apply rep_ret]. apply (rep_bind (fun d => d = false)).
  - unfold process_ystripes_mem. apply rep_alloc; [reflexivity| |apply rep_ret|aw]. intros yc.
    apply rep_alloc; [reflexivity| |apply rep_no; qt0|aw]. intros q. apply rep_no. apply rep_seq; [apply rep_free|]. intros _.
    apply rep_load. intros b N. destruct b; try apply rep_ub. apply rep_seq; [|intros; apply rep_ret]. now apply rep_store.
  - intros [|]; [apply rep_ret|apply rep_no; qt ltac:(fun _ => apply rep_ring_free)].
  - intros x ->. aw.
Qed.
Lemma rep_store_at a i v : rep no (store_at a i v).
Proof. unfold store_at. qt0. Qed.
Lemma rep_fill {T} (f : T -> M (option ptr)) must a l : (forall x, rep (fun r => r = None /\ must = true) (f x)) ->
  forall i, rep (fun b => b = false) (fill_array f must a i l).
Proof.
  intros H. induction l as [|x l IH]; intros i; cbn [fill_array]; [apply rep_ret|].
  apply (rep_bind (fun r => r = None /\ must = true)); [apply H| |].
  - intros q. apply rep_seq; [apply rep_store_at|]. intros _. destruct q; [apply IH|]. destruct must; [apply rep_ret|apply IH].
  - intros q [-> ->]. aw.
Qed.
Lemma rep_poly_new ext holes neg : rep isnull (tg_poly_new_mem ext holes neg).
Proof.
  unfold tg_poly_new_mem. destruct ext as [pe|]; [|apply rep_ret]. destruct (match holes with [] => negb neg | _ => false end).
  { apply rep_no, rep_ring_clone. }
  apply rep_alloc; [reflexivity| |apply rep_ret|aw]. intros p. apply rep_seq; [apply rep_ring_clone|]. intros e. apply rep_seq; [now apply rep_store|]. intros _.
  destruct neg; [apply rep_ret|]. apply rep_alloc; [reflexivity| |apply rep_no; qt ltac:(fun _ => apply rep_poly_free)|aw]. intros a.
  apply rep_seq; [now apply rep_store|]. intros _. apply rep_seq; [|intros; apply rep_ret].
  assert (F : forall l i, rep no (fill_array tg_ring_clone false a i l)); [|apply F].
  induction l as [|x l IH]; intros i; cbn [fill_array]; [apply rep_ret|]. apply rep_seq; [apply rep_ring_clone|]. intros q. apply rep_seq; [apply rep_store_at|].
  intros _. destruct q; apply IH.
Qed.
Lemma rep_geom_new f pl : rep isnull (geom_new f pl).
Proof. apply rep_malloc. reflexivity. Qed.
Lemma rep_fill_extra g coords f : rep isnull (fill_extra_coords g coords f).
Proof.
  unfold fill_extra_coords. apply rep_load. intros b N. destruct b as [| | | | |hd pl c nc xj| | | | |]; try apply rep_ub. unfold isnh in N. cbn in N.
  destruct coords.
  - apply rep_no. apply rep_seq; [apply rep_store; exact N|intros; apply rep_ret].
  - apply rep_seq; [apply rep_store; exact N|]. intros _. apply rep_alloc; [reflexivity| |apply rep_no; qt ltac:(fun _ => apply rep_geom_free)|aw].
    intros c'. apply rep_no. apply rep_seq; [apply rep_store; exact N|intros; apply rep_ret].
Qed.
Lemma rep_line_x zd md l coords : rep isnull (new_linestring_x_mem zd md l coords).
Proof.
  unfold new_linestring_x_mem, geom_new. apply rep_alloc; [reflexivity| |apply rep_ret|aw]. intros g. apply rep_seq; [apply rep_ring_clone|]. intros q.
  apply rep_seq; [now apply rep_store|]. intros _. apply rep_fill_extra.
Qed.
Lemma rep_poly_x zd md l coords : rep isnull (new_polygon_x_mem zd md l coords).
Proof.
  unfold new_polygon_x_mem, geom_new. apply rep_alloc; [reflexivity| |apply rep_ret|aw]. intros g. apply rep_seq; [apply rep_poly_clone|]. intros q.
  apply rep_seq; [now apply rep_store|]. intros _. apply rep_fill_extra.
Qed.
Lemma rep_error msg : rep isnull (make_parse_error_mem msg).
Proof.
  unfold make_parse_error_mem. apply rep_alloc; [reflexivity| |apply rep_ret|aw]. intros e. unfold geom_new_empty, geom_new.
  apply rep_alloc; [reflexivity| |apply rep_no; qt0|aw]. intros g. apply rep_no. qt0.
Qed.
Lemma rep_rects l : rep no (rects_mem l).
Proof.
  assert (RR : forall o, rep no (ring_rect_mem o)) by (intros [o|]; cbn [ring_rect_mem]; qt0).
  assert (PR : forall o, rep no (poly_rect_mem o)) by (intros [o|]; cbn [poly_rect_mem]; qt ltac:(fun _ => apply RR)).
  assert (GR : forall o, rep no (geom_rect_mem o)) by (intros [o|]; cbn [geom_rect_mem]; qt ltac:(fun _ => first [apply RR|apply PR])).
  induction l; cbn [rects_mem]; qt ltac:(fun _ => first [apply GR|assumption]).
Qed.
Lemma rep_inflate g m a ix : rep isnull (multi_geom_inflate_rect g m a ix).
Proof.
  unfold multi_geom_inflate_rect. apply rep_load. intros b N. destruct b; try apply rep_ub. apply rep_seq; [apply rep_rects|]. intros rs.
  destruct ix as [[ix ixg]|]; [|apply rep_no; qt0]. apply rep_seq; [now apply rep_store|]. intros _.
  apply rep_alloc; [reflexivity| |apply rep_no; qt ltac:(fun _ => apply rep_geom_free)|aw]. intros hs. apply rep_no. qt0.
Qed.
Lemma rep_new_multi t n : rep isnull (geom_new_multi t n).
Proof.
  unfold geom_new_multi, geom_new. apply rep_alloc; [reflexivity| |apply rep_ret|aw]. intros g.
  apply rep_alloc; [reflexivity| |apply rep_no; qt0|aw]. intros m. apply rep_seq; [now apply rep_store|]. intros _.
  apply rep_alloc; [reflexivity| |apply rep_no; qt0|aw]. intros a. apply rep_seq; [now apply rep_store|]. intros _.
  destruct (multi_spread * 2 <=? n); [|apply rep_ret].
  apply rep_alloc; [reflexivity| | |].
  - intros ix. apply rep_alloc; [reflexivity| |apply rep_no; qt0|aw]. intros ixg. apply rep_no. qt0.
  - apply rep_alloc; [reflexivity| |apply rep_no; qt0|aw]. intros ixg. apply rep_no. qt0.
  - apply alw_bind. intros [ixg|]; aw.
Qed.
Lemma rep_multi {T} t (f : T -> M (option ptr)) must l : (forall x, rep (fun r => r = None /\ must = true) (f x)) -> rep isnull (new_multi_mem t f must l).
Proof.
  intros H. unfold new_multi_mem. apply (rep_bind isnull); [apply rep_new_multi| |intros x ->; aw].
  intros [[[[g m] a] ix]|]; [|apply rep_ret]. apply (rep_bind (fun b => b = false)); [now apply rep_fill| |intros x ->; aw].
  intros [|]; [apply rep_inflate|apply rep_no; qt ltac:(fun _ => apply rep_geom_free)].
Qed.
Lemma rep_extras x c : rep isnull c -> rep isnull (extras x c).
Proof.
  intros H. destruct x as [[[zd md] coords]|]; [|exact H]. cbn [extras]. unfold with_coords. apply (rep_bind isnull); [exact H| |intros y ->; aw].
  intros [g|]; [apply rep_fill_extra|apply rep_ret].
Qed.

(** copies *)
Lemma rep_ring_copy p : rep isnull (tg_ring_copy p).
Proof.
  destruct p as [p|]; cbn [tg_ring_copy]; [|apply rep_ret]. apply rep_load. intros b N. destruct b as [hd r ix ys| | | | | | | | | |]; try apply rep_ub.
  apply rep_seq; [destruct ix; cbn [ring_alloc_size]; qt0|]. intros _. apply rep_alloc; [reflexivity| |apply rep_ret|aw]. intros p2.
  destruct ys as [q|]; [|apply rep_ret]. apply rep_load. intros b N'. destruct b; try apply rep_ub. apply rep_alloc; [reflexivity| | |aw].
  - intros q2. apply rep_no. apply rep_seq; [now apply rep_store|intros; apply rep_ret].
  - apply rep_no. qt0.
Qed.
Lemma rep_poly_copy p : rep isnull (tg_poly_copy p).
Proof.
  destruct p as [p|]; cbn [tg_poly_copy]; [|apply rep_ret]. apply rep_load. intros b N. destruct b as [hd r ix ys| |hd e n hs| | | | | | | |]; try apply rep_ub.
  { apply rep_ring_copy. }
  assert (FF : forall p2, rep no (tg_poly_free (Some p2) ;;; ret (@None ptr))) by (intros; qt ltac:(fun _ => apply rep_poly_free)).
  apply rep_alloc; [reflexivity| |apply rep_ret|aw]. intros p2. cbv zeta. apply (rep_bind isnull); [apply rep_ring_copy| |intros x ->; aw].
  intros e2. apply rep_seq; [now apply rep_store|]. intros _. destruct e2 as [e2|]; [|apply rep_no, FF]. destruct (0 <? n); [|apply rep_ret].
  destruct hs as [a|]; [|apply rep_ub]. apply rep_alloc; [reflexivity| |apply rep_no, FF|aw]. intros a2. apply rep_seq; [now apply rep_store|]. intros _.
  apply rep_load. intros b N'. destruct b; try apply rep_ub. destruct (n =? length l); [|apply rep_ub].
  apply (rep_bind (fun b => b = false)).
  - apply rep_fill. intros x. eapply rep_imp; [|apply rep_ring_copy]. auto.
  - intros [|]; [apply rep_ret|apply rep_no, FF].
  - intros x ->. aw.
Qed.
Lemma rep_copy_opt o k : rep isnull (copy_opt o k).
Proof.
  unfold copy_opt. destruct o as [q|]; [|apply rep_ret]. apply rep_load. intros b N. destruct (k b); [|apply rep_ub].
  apply rep_alloc; [intros; exact N|intros; apply rep_ret|apply rep_ret|aw].
Qed.
Lemma rep_multi_copy c g2 h2 t m : h_noheap h2 = false -> (forall o, rep isnull (c o)) -> rep (fun b => b = false) (multi_copy c g2 h2 t m).
Proof.
  intros NH RC. unfold multi_copy. apply rep_load. intros b N. destruct b; try apply rep_ub. apply rep_alloc; [reflexivity| |apply rep_ret|aw]. intros m2.
  apply rep_seq; [now apply rep_store|]. intros _. apply (rep_bind isnull).
  - destruct geoms as [a|]; [|apply rep_ret]. apply rep_load. intros b N'. destruct b; try apply rep_ub. destruct (ngeoms =? length l); [|apply rep_ub].
    apply rep_alloc; [reflexivity| |apply rep_ret|aw]. intros a2. apply rep_seq; [now apply rep_store|]. intros _. apply (rep_bind (fun b => b = false)).
    + apply rep_fill. intros x. eapply rep_imp; [|apply RC]. auto.
    + intros [|]; apply rep_ret.
    + intros x ->. aw.
  - intros [a2|]; [|apply rep_ret]. cbv zeta. apply (rep_bind isnull); [apply rep_copy_opt| |intros x ->; aw].
    intros [ix2|]; [|apply rep_ret]. apply rep_seq; [now apply rep_store|]. intros _. apply (rep_bind isnull); [apply rep_copy_opt| |intros x ->; aw].
    intros [ixg2|]; [|apply rep_ret]. apply rep_no. apply rep_seq; [now apply rep_store|intros; apply rep_ret].
  - intros x ->. aw.
Qed.
Lemma rep_geom_copy_fuel n p : rep isnull (geom_copy_fuel n p).
Proof.
  revert p. induction n as [|n IH]; intros p; cbn [geom_copy_fuel]; [apply rep_ub|]. destruct p as [p|]; [|apply rep_ret].
  apply rep_load. intros b N. destruct b; try apply rep_ub; [apply rep_ring_copy|apply rep_poly_copy| |].
  { unfold boxed_point_copy. apply rep_load. intros b N'. destruct b; try apply rep_ub. now apply rep_malloc. }
  unfold geom_copy. clear N. apply rep_load. intros b N. destruct b as [| | | | |hd q co nc xj'| | | | |]; try apply rep_ub. cbv zeta.
  apply rep_alloc; [reflexivity| |apply rep_ret|aw]. intros g2.
  assert (FF : forall g2, rep no (tg_geom_free (Some g2) ;;; ret (@None ptr))) by (intros; qt ltac:(fun _ => apply rep_geom_free)).
  apply (rep_bind (fun b => b = false)).
  - destruct q as [x z m|l|q|t [m|]].
    + apply rep_no. apply rep_seq; [now apply rep_store|intros; apply rep_ret].
    + apply (rep_bind isnull); [apply rep_ring_copy| |intros x ->; aw]. intros l2. apply rep_no. apply rep_seq; [now apply rep_store|intros; apply rep_ret].
    + apply (rep_bind isnull); [apply rep_poly_copy| |intros x ->; aw]. intros l2. apply rep_no. apply rep_seq; [now apply rep_store|intros; apply rep_ret].
    + now apply rep_multi_copy.
    + apply rep_ret.
  - intros [|]; [|apply rep_no, FF]. apply (rep_bind isnull); [destruct q; try apply rep_copy_opt; apply rep_ret| |intros x ->; aw].
    intros [co2|]; [|apply rep_no, FF]. apply rep_load. intros b N'. destruct b; try apply rep_ub. apply rep_seq; [now apply rep_store|]. intros _.
    apply (rep_bind isnull); [apply rep_copy_opt| |intros x ->; aw]. intros [xj2|]; [|apply rep_no, FF].
    apply rep_no. apply rep_seq; [now apply rep_store|intros; apply rep_ret].
  - intros x ->. aw.
Qed.
Lemma rep_geom_copy p : rep isnull (tg_geom_copy p).
Proof. intros h x h' N E. exact (rep_geom_copy_fuel _ p h x h' N E). Qed.

(** NULL or no call at all *)
Definition nullres (r : option (option ptr)) : Prop := r = None \/ r = Some None.
Lemma rep_eval held r : forall k, rep no (eval held r k).
Proof.
  assert (AA : forall a j, rep no (array_at a j)) by (intros [a|] j; cbn [array_at]; qt0).
  induction r; intros k; cbn [eval]; unfold poly_exterior_mem, poly_hole_mem, geom_line_mem, geom_poly_mem, geometry_at_mem;
    qt ltac:(fun _ => first [apply IHr|apply AA]).
Qed.
Lemma rep_evals held rs : forall k, rep no (evals held rs k).
Proof. induction rs; intros k; cbn [evals]; qt ltac:(fun _ => first [apply rep_eval|apply IHrs]). Qed.
Lemma rep_call0 c : rep isnull c -> rep nullres (call0 c).
Proof. intros H. unfold call0. apply (rep_bind isnull); [exact H|intros; apply rep_ret|]. intros x ->. apply alw_ret. now right. Qed.
Lemma rep_call1 held r k f : (forall o, rep isnull (f o)) -> rep nullres (call1 held r k f).
Proof. intros H. unfold call1. apply rep_seq; [apply rep_eval|]. intros [o|]; [|apply rep_ret]. apply (rep_call0 (f o)), H. Qed.
Lemma rep_calls held r k f : (forall o, rep isnull (f o)) -> rep nullres (calls_ held r k f).
Proof. intros H. unfold calls_. apply rep_seq; [apply rep_evals|]. intros [o|]; [|apply rep_ret]. apply (rep_call0 (f o)), H. Qed.
Lemma rep_build held b : rep nullres (run_build held b).
Proof.
  destruct b as [ps closed kind spread|ext holes neg|p|zd md p z m|e|l|p|zd md l co|zd md p co|ps x|ls x|ps x|gs x|msg|k r|k r]; cbn [run_build].
  - destruct (series_new ps closed kind spread); [|apply rep_ret]. apply rep_call0, rep_series.
  - apply rep_seq; [apply rep_eval|]. intros e. apply rep_seq; [apply rep_evals|]. intros hs.
    destruct e as [e|]; [|apply rep_ret]. destruct hs as [hs|]; [|apply rep_ret]. apply rep_call0, rep_poly_new.
  - apply rep_call0, rep_malloc. reflexivity.
  - apply rep_call0, rep_geom_new.
  - apply rep_call0, rep_geom_new.
  - apply rep_call1. intros o. apply rep_no, rep_ring_clone.
  - apply rep_call1. intros o. apply rep_no, rep_poly_clone.
  - apply rep_call1. intros o. apply rep_line_x.
  - apply rep_call1. intros o. apply rep_poly_x.
  - apply rep_call0, rep_extras, rep_multi. intros p. eapply rep_imp; [|apply rep_malloc; reflexivity]. cbn. auto.
  - apply rep_calls. intros o. apply rep_extras, rep_multi. intros p. apply rep_no, rep_ring_clone.
  - apply rep_calls. intros o. apply rep_extras, rep_multi. intros p. apply rep_no, rep_poly_clone.
  - apply rep_calls. intros o. apply rep_extras, rep_multi. intros p. apply rep_no, rep_geom_clone.
  - apply rep_call0, rep_error.
  - destruct k; apply rep_call1; intros o; apply rep_no; [apply rep_ring_clone|apply rep_poly_clone|apply rep_geom_clone].
  - destruct k; apply rep_call1; intros o; [apply rep_ring_copy|apply rep_poly_copy|apply rep_geom_copy].
Qed.

(** ** Histories *)
Definition quietop (o : op) : bool := match o with ONoheap _ => false | _ => true end.
Lemma rep_step held o : quietop o = true -> forall h x h', nn h -> step held o h = Some (x, h') -> nn h'.
Proof.
  intros Q h x h' N E. destruct o as [b|i|i]; [| |discriminate Q]; cbn [step] in E.
  - unfold bind in E. destruct (run_build held b h) as [[r h1]|] eqn:EB; [|discriminate]. destruct (rep_build held b h r h1 N EB) as [N1 _].
    destruct r as [[p|]|]; inversion E; subst; exact N1.
  - destruct (nth_error held i) as [[p k]|]; [|inversion E; now subst]. unfold bind in E. destruct (free_handle (p, k) h) as [[u h1]|] eqn:EF; [|discriminate].
    inversion E; subst. destruct k; cbn in EF; [apply (rep_ring_free (Some p) h u h' N EF)|apply (rep_poly_free (Some p) h u h' N EF)|apply (rep_geom_free (Some p) h u h' N EF)].
Qed.
Lemma nn_run os : forall held h held' h', forallb quietop os = true -> nn h -> run held os h = Some (held', h') -> nn h'.
Proof.
  induction os as [|o os IH]; intros held h held' h' Q N E; cbn [run] in E; [inversion E; now subst|]. cbn [forallb] in Q. apply andb_true_iff in Q as [Q1 Q2].
  unfold bind in E. destruct (step held o h) as [[held1 h1]|] eqn:ES; [|discriminate]. apply (IH held1 h1 held' h' Q2); [|exact E]. exact (rep_step held o Q1 h held1 h1 N ES).
Qed.
Lemma nn_start f : nn (start f).
Proof. intros p b G. unfold get in G. cbn in G. now destruct p. Qed.

Lemma step_fr cp held h o held' h' : Good cp held h -> allowed cp o = true -> quietop o = true -> step held o h = Some (held', h') -> Fr [] h h'.
Proof.
  intros G AL Q E. destruct (good_rank _ _ _ G) as [rk R]. destruct o as [b|i|i]; [| |discriminate Q]; cbn [step] in E.
  - unfold bind in E. pose proof (build_ok cp held h rk G R b AL) as W. unfold wp in W. destruct (run_build held b h) as [[r h1]|]; [|discriminate].
    destruct r as [[p|]|]; inversion E; subst; cbn [made] in W; [apply W|apply W|subst; apply Fr_refl].
  - destruct (nth_error held i) as [[p k]|] eqn:N; [|inversion E; subst; apply Fr_refl].
    assert (I1 : Inv cp h (p :: map fst (drop_nth i held)) []) by (apply (Inv_E cp h (map fst held)); [intros q; symmetry; now apply (cnt_drop _ _ _ k)|apply G]).
    assert (P : pk h (kof k) (Some p)) by (apply (good_kind _ _ _ G); eapply nth_error_In, N).
    pose proof (free_ok cp k h _ [] p I1 (ex_intro _ rk R) P) as W. replace (frees_of k (Some p)) with (free_handle (p, k)) in W by (now destruct k).
    unfold wp in W. unfold bind in E. destruct (free_handle (p, k) h) as [[u h1]|]; [|discriminate]. inversion E; subst. apply W.
Qed.
Lemma run_fr cp os : forall held h held' h', Good cp held h -> forallb (allowed cp) os = true -> forallb quietop os = true ->
  run held os h = Some (held', h') -> Fr [] h h'.
Proof.
  induction os as [|o os IH]; intros held h held' h' G AL Q E; cbn [run] in E; [inversion E; apply Fr_refl|].
  cbn [forallb] in AL, Q. apply andb_true_iff in AL as [A1 A2]. apply andb_true_iff in Q as [Q1 Q2].
  unfold bind in E. pose proof (step_ok cp held h o G A1) as W. unfold wp in W. destruct (step held o h) as [[held1 h1]|] eqn:ES; [|discriminate].
  apply (Fr_trans [] [] h h1 h'); [now apply (step_fr cp held h o held1)| |now intros x]. now apply (IH held1 h1 held' h').
Qed.
Lemma run_good cp os held h held' h' : Good cp held h -> forallb (allowed cp) os = true -> run held os h = Some (held', h') -> Good cp held' h'.
Proof. intros G AL E. pose proof (run_ok cp os held h G AL) as W. unfold wp in W. now rewrite E in W. Qed.

(** ** Copies of every type *)
Lemma copies_ok k : makes true (kof k) (argp (kof k) nobound) (copied den whole few) (copies_of k).
Proof.
  destruct k; [| |exact tg_geom_copy_ok]; intros rk h E D o I R AR; cbn [copies_of kof].
  - eapply wp_conseq; [exact (ring_copy_ok rk h E D o I R AR)|]. intros r h' (A & P & C). split; [exact A|]. split; [exact P|].
    assert (RG : forall p g, o = Some p -> den (get h) g p -> exists fl l, (g = GLine fl l \/ g = GPoly fl (PRing l)) /\ dring (get h) (fl, l) p).
    { intros p g -> Dg. destruct (AR p eq_refl) as ((b & Gb & Kb) & _). cbn [kof] in Kb.
      destruct g as [f x|f l|f [l|e hs]|f x z m xj|f l c xj|f po c xj|t f gs c xj]; cbn in Dg; try (exists f, l; auto; fail);
        repeat match goal with H : ex _ |- _ => destruct H | H : _ /\ _ |- _ => destruct H end;
        match goal with H : get h p = Some _ |- _ => rewrite H in Gb; inversion Gb; subst b; discriminate Kb end. }
    destruct r as [q|]; cbn [copied] in *.
    + destruct C as (p & -> & C). exists p. split; [reflexivity|]. intros g Dg _. destruct (RG p g eq_refl Dg) as (fl & l & X & Dr).
      specialize (C (fl, l) Dr eq_refl). destruct X as [->| ->]; exact C.
    + destruct C as [C|[C|(p & -> & C)]]; auto. right. right. exists p. split; [reflexivity|]. intros g Dg. destruct (RG p g eq_refl Dg) as (fl & l & X & Dr).
      specialize (C (fl, l) Dr). discriminate C.
  - eapply wp_conseq; [exact (poly_copy_ok rk h E D o I R AR)|]. intros r h' (A & P & C). split; [exact A|]. split; [exact P|].
    assert (RG : forall p g, o = Some p -> den (get h) g p -> exists fl po, (g = GPoly fl po \/ exists l, po = PRing l /\ g = GLine fl l) /\ dpoly (get h) (fl, po) p).
    { intros p g -> Dg. destruct (AR p eq_refl) as ((b & Gb & Kb) & _). cbn [kof] in Kb.
      destruct g as [f x|f l|f po|f x z m xj|f l c xj|f po c xj|t f gs c xj]; cbn [den] in Dg;
        [|exists f, (PRing l); split; [right; eauto|exact Dg]|exists f, po; auto| | | |];
        repeat match goal with H : ex _ |- _ => destruct H | H : _ /\ _ |- _ => destruct H end;
        match goal with H : get h p = Some _ |- _ => rewrite H in Gb; inversion Gb; subst b; discriminate Kb end. }
    destruct r as [q|]; cbn [copied] in *.
    + destruct C as (p & -> & C). exists p. split; [reflexivity|]. intros g Dg _. destruct (RG p g eq_refl Dg) as (fl & po & X & Dr).
      specialize (C (fl, po) Dr eq_refl). destruct X as [->|(l & -> & ->)]; exact C.
    + destruct C as [C|[C|(p & -> & C)]]; auto. right. right. exists p. split; [reflexivity|]. intros g Dg. destruct (RG p g eq_refl Dg) as (fl & po & X & Dr).
      specialize (C (fl, po) Dr). destruct X as [->|(l & -> & ->)]; [exact C|discriminate C].
Qed.
