(** * Every history keeps the invariant *)

From Coq Require Import ZArith Bool List Lia Arith Permutation.
From Verif Require Import F64 Geo Series Geom MultiIx MultiFacts Heap HeapGeom SpecHeap HeapHist HeapFacts HeapStep HeapFree HeapDen HeapNew HeapMake HeapCopy HeapCopyG HeapClone HeapBuild.
Import ListNotations.
Local Open Scope nat_scope.

Definition kof (k : okind) : block -> bool := match k with KRing => is_ring | KPoly => is_pol | KGeom => is_obj end.
Lemma st_kof k : stripped (kof k).
Proof. destruct k; [exact st_ring|exact st_pol|exact st_obj]. Qed.
Lemma kof_casts a b x : casts a b = true -> kof a x = true -> kof b x = true.
Proof. destruct a, b; try discriminate; intros _; destruct x; auto. Qed.
Lemma kof_obj k b : kof k b = true -> is_obj b = true.
Proof. destruct k; [now destruct b|now destruct b|exact id]. Qed.

Record Good (cp : bool) (held : list handle) (h : heap) : Prop := {
  good_inv : Inv cp h (map fst held) [];
  good_rank : exists rk, Rank rk h [];
  good_kind : forall p k, In (p, k) held -> pk h (kof k) (Some p)
}.

Definition reads {A : Type} (m : M A) (h : heap) (Q : A -> Prop) : Prop := wp m (fun x h' => h' = h /\ Q x) h.
Lemma reads_ret {A} (x : A) h (Q : A -> Prop) : Q x -> reads (ret x) h Q.
Proof. intros H. now split. Qed.
Lemma reads_bind {A B} (m : M A) (k : A -> M B) h (P : A -> Prop) (Q : B -> Prop) : reads m h P -> (forall x, P x -> reads (k x) h Q) -> reads (bind m k) h Q.
Proof. intros H K. apply wp_bind. eapply wp_conseq; [exact H|]. intros x h' [-> Px]. now apply K. Qed.
Lemma reads_load p b h (Q : block -> Prop) : get h p = Some b -> Q b -> reads (load p) h Q.
Proof. intros G H. unfold reads. apply (wp_load p b); auto. Qed.

(** an argument that can be used *)
Definition okarg (k : block -> bool) (h : heap) (o : option ptr) : Prop := pk h k o.
Section Eval.
Context (cp : bool) (h : heap) (E : list ptr) (I : Inv cp h E []).

Lemma ty p b : get h p = Some b -> typed cp h b.
Proof. intros G. exact (inv_ty _ _ _ _ I p b G (@in_nil _ p)). Qed.
Lemma array_at_ok k n a j : parr h k n a -> j < n -> reads (array_at a j) h (pk h k).
Proof.
  destruct a as [a|]; [|intros -> L; lia]. intros (l & G & L & F) Lj. cbn [array_at]. eapply reads_bind; [apply (reads_load a _ _ (fun b => b = BPtrs l) G eq_refl)|].
  intros ? ->. destruct (nth_error l j) as [o|] eqn:N; [|apply nth_error_None in N; lia].
  apply reads_ret. rewrite Forall_forall in F. apply F. eapply nth_error_In, N.
Qed.
Ltac ld b := eapply reads_bind; [match goal with G : get h _ = Some b |- _ => apply (reads_load _ _ _ (fun x => x = b) G eq_refl) end|]; intros ? ->.
Lemma exterior_ok o : pk h is_pol o -> reads (poly_exterior_mem o) h (pk h is_ring).
Proof.
  destruct o as [p|]; [|intros _; now apply reads_ret]. intros (b & G & K). cbn [poly_exterior_mem]. ld b. pose proof (ty p b G) as [_ T].
  destruct b; try discriminate K; apply reads_ret; [|apply T]. eexists. split; [exact G|reflexivity].
Qed.
Lemma hole_ok o j : pk h is_pol o -> reads (poly_hole_mem o j) h (pk h is_ring).
Proof.
  destruct o as [p|]; [|intros _; now apply reads_ret]. intros (b & G & K). cbn [poly_hole_mem]. ld b. pose proof (ty p b G) as [_ T].
  destruct b as [| |hd e n hs| | | | | | | |]; try discriminate K; [apply reads_ret; exact Logic.I|]. destruct (Nat.ltb_spec j n) as [L|]; [|apply reads_ret; exact Logic.I].
  apply (array_at_ok _ n); [apply T|assumption].
Qed.
Lemma line_ok o : pk h is_obj o -> reads (geom_line_mem o) h (pk h is_ring).
Proof.
  destruct o as [p|]; [|intros _; now apply reads_ret]. intros (b & G & K). cbn [geom_line_mem]. ld b. pose proof (ty p b G) as [_ T].
  destruct b as [hd r ix ys| |hd e n hs| |hd x|hd pl c nc xj| | | | |]; try discriminate K; try (apply reads_ret; exact Logic.I).
  - apply reads_ret. destruct (r_closed r); [exact Logic.I|]. eexists. split; [exact G|reflexivity].
  - destruct pl; apply reads_ret; try exact Logic.I. apply T.
Qed.
Lemma poly_ok o : pk h is_obj o -> reads (geom_poly_mem o) h (pk h is_pol).
Proof.
  destruct o as [p|]; [|intros _; now apply reads_ret]. intros (b & G & K). cbn [geom_poly_mem]. ld b. pose proof (ty p b G) as [_ T].
  destruct b as [hd r ix ys| |hd e n hs| |hd x|hd pl c nc xj| | | | |]; try discriminate K; try (apply reads_ret; exact Logic.I).
  - apply reads_ret. destruct (r_closed r); [|exact Logic.I]. eexists. split; [exact G|reflexivity].
  - apply reads_ret. eexists. split; [exact G|reflexivity].
  - destruct pl; apply reads_ret; try exact Logic.I. apply T.
Qed.
Lemma child_ok o j : pk h is_obj o -> reads (geometry_at_mem o j) h (pk h is_obj).
Proof.
  destruct o as [p|]; [|intros _; now apply reads_ret]. intros (b & G & K). cbn [geometry_at_mem]. ld b. pose proof (ty p b G) as [_ T].
  destruct b as [hd r ix ys| |hd e n hs| |hd x|hd pl c nc xj| | | | |]; try discriminate K; try (apply reads_ret; exact Logic.I).
  destruct pl as [| | |t m]; try (apply reads_ret; exact Logic.I). destruct t, m as [m|]; try (apply reads_ret; exact Logic.I).
  destruct T as [_ [_ (bm & Gm & Km)]]. destruct bm as [| | | | | |gs n r ix ixg| | | |] eqn:EM; try discriminate Km. rewrite <- EM in Gm. rewrite EM in Gm.
  eapply reads_bind; [apply (reads_load m _ _ (fun x => x = BMulti gs n r ix ixg) Gm eq_refl)|]. intros ? ->.
  destruct (Nat.ltb_spec j n) as [L|]; [|apply reads_ret; exact Logic.I]. apply (array_at_ok _ n); [apply (ty m _ Gm)|assumption].
Qed.

Definition okres (k : okind) (o : option (option ptr)) : Prop := match o with Some o => pk h (kof k) o | None => True end.
Lemma eval_ok (held : list handle) (HK : forall p k, In (p, k) held -> pk h (kof k) (Some p)) r : forall k, reads (eval held r k) h (okres k).
Proof.
  induction r as [|i|r IH|r IH j|r IH|r IH|r IH j]; intros k; cbn [eval].
  - apply reads_ret. exact Logic.I.
  - destruct (nth_error held i) as [[p k']|] eqn:N; [|exact (reads_ret None h (okres k) Logic.I)]. apply reads_ret. destruct (casts k' k) eqn:C; [|exact Logic.I].
    cbn [okres]. apply (pk_imp h (kof k')); [intros b; now apply kof_casts|]. apply HK. eapply nth_error_In, N.
  - destruct (okind_eqb KRing k) eqn:C; [|exact (reads_ret None h (okres _) Logic.I)]. destruct k; try discriminate C.
    eapply reads_bind; [apply (IH KPoly)|]. intros [o|] Ho; [|exact (reads_ret None h (okres _) Logic.I)]. eapply reads_bind; [apply exterior_ok, Ho|]. intros x Hx. now apply reads_ret.
  - destruct (okind_eqb KRing k) eqn:C; [|exact (reads_ret None h (okres _) Logic.I)]. destruct k; try discriminate C.
    eapply reads_bind; [apply (IH KPoly)|]. intros [o|] Ho; [|exact (reads_ret None h (okres _) Logic.I)]. eapply reads_bind; [apply hole_ok, Ho|]. intros x Hx. now apply reads_ret.
  - destruct (okind_eqb KRing k) eqn:C; [|exact (reads_ret None h (okres _) Logic.I)]. destruct k; try discriminate C.
    eapply reads_bind; [apply (IH KGeom)|]. intros [o|] Ho; [|exact (reads_ret None h (okres _) Logic.I)]. eapply reads_bind; [apply line_ok, Ho|]. intros x Hx. now apply reads_ret.
  - destruct (okind_eqb KPoly k) eqn:C; [|exact (reads_ret None h (okres _) Logic.I)]. destruct k; try discriminate C.
    eapply reads_bind; [apply (IH KGeom)|]. intros [o|] Ho; [|exact (reads_ret None h (okres _) Logic.I)]. eapply reads_bind; [apply poly_ok, Ho|]. intros x Hx. now apply reads_ret.
  - destruct (okind_eqb KGeom k) eqn:C; [|exact (reads_ret None h (okres _) Logic.I)]. destruct k; try discriminate C.
    eapply reads_bind; [apply (IH KGeom)|]. intros [o|] Ho; [|exact (reads_ret None h (okres _) Logic.I)]. eapply reads_bind; [apply child_ok, Ho|]. intros x Hx. now apply reads_ret.
Qed.
Lemma evals_ok (held : list handle) (HK : forall p k, In (p, k) held -> pk h (kof k) (Some p)) rs : forall k,
  reads (evals held rs k) h (fun o => match o with Some os => Forall (pk h (kof k)) os | None => True end).
Proof.
  induction rs as [|r rs IH]; intros k; cbn [evals]; [now apply reads_ret|].
  eapply reads_bind; [now apply (eval_ok held HK)|]. intros o Ho. eapply reads_bind; [apply IH|]. intros os Hos. apply reads_ret.
  destruct o as [o|], os as [os|]; try exact Logic.I. constructor; assumption.
Qed.
End Eval.

(** copies and setnoheap only together with unindexed rings *)
Definition allowed_build (cp : bool) (b : build) : bool :=
  match b with
  | MRing ps closed kind spread =>
      negb cp || match series_new ps closed kind spread with
                 | Some r => match r_index r, r_ystripes r with None, None => true | _, _ => false end
                 | None => true
                 end
  | MCopy _ _ => cp
  | _ => true
  end.
Definition allowed (cp : bool) (o : op) : bool :=
  match o with OBuild b => allowed_build cp b | OFree _ => true | ONoheap _ => cp end.

Definition made (cp : bool) (rk : ptr -> nat) (h : heap) (E : list ptr) (k : okind) (r : option (option ptr)) (h' : heap) : Prop :=
  match r with
  | None => h' = h
  | Some r => St cp rk h E [] h' (olist r) [] /\ pk h' (kof k) r
  end.

Lemma argp_pk k rk h o : pk h k o -> argp k nobound rk h [] o.
Proof. intros P q ->. repeat split; auto. Qed.

Lemma wp_reads {A} (m : M A) h (P : A -> Prop) {B} (k : A -> M B) (Q : B -> heap -> Prop) : reads m h P -> (forall x, P x -> wp (k x) Q h) -> wp (bind m k) Q h.
Proof. intros H K. apply wp_bind. eapply wp_conseq; [exact H|]. intros x h' [-> Px]. now apply K. Qed.

Section Build.
Context (cp : bool) (held : list handle) (h : heap) (rk : ptr -> nat) (G : Good cp held h) (R : Rank rk h []).
Let E := map fst held.
Let I : Inv cp h E [] := good_inv _ _ _ G.

Lemma b0 {T} k kk (arg : (ptr -> nat) -> heap -> list ptr -> T -> Prop) post (f : T -> M (option ptr)) (x : T) c :
  makes cp k arg post f -> arg rk h [] x -> (forall b, k b = true -> kof kk b = true) -> (forall h, c h = f x h) ->
  wp (call0 c) (made cp rk h E kk) h.
Proof.
  intros F AR K C. unfold call0. apply wp_bind. unfold wp. rewrite C. pose proof (F rk h E [] x I R AR) as W. unfold wp in W.
  destruct (f x h) as [[r h']|]; [|exact W]. destruct W as (A & P & _). apply wp_ret. split; [exact A|]. now apply (pk_imp h' k).
Qed.
Lemma b1 r ka k kk post (f : option ptr -> M (option ptr)) :
  makes cp k (argp (kof ka) nobound) post f -> (forall b, k b = true -> kof kk b = true) ->
  wp (call1 held r ka f) (made cp rk h E kk) h.
Proof.
  intros F K. unfold call1. eapply wp_reads; [apply (eval_ok cp h E I held (good_kind _ _ _ G))|]. intros [o|] Ho; [|now apply wp_ret].
  change (wp (call0 (f o)) (made cp rk h E kk) h). exact (b0 k kk _ post f o (f o) F (argp_pk _ _ _ _ Ho) K (fun _ => eq_refl)).
Qed.
Lemma bs rs ka k kk post (f : list (option ptr) -> M (option ptr)) :
  makes cp k (fun rk h D l => forall x, In x l -> argp (kof ka) nobound rk h D x) post f -> (forall b, k b = true -> kof kk b = true) ->
  wp (calls_ held rs ka f) (made cp rk h E kk) h.
Proof.
  intros F K. unfold calls_. eapply wp_reads; [apply (evals_ok cp h E I held (good_kind _ _ _ G))|]. intros [os|] Ho; [|now apply wp_ret].
  change (wp (call0 (f os)) (made cp rk h E kk) h). refine (b0 k kk _ post f os (f os) F _ K (fun _ => eq_refl)). intros x Hx. rewrite Forall_forall in Ho. exact (argp_pk _ _ _ _ (Ho x Hx)).
Qed.
Lemma extras_ok {T} (arg : (ptr -> nat) -> heap -> list ptr -> T -> Prop) t (f : T -> M (option ptr)) x :
  makes cp is_obj arg (fun h _ r h' => multi_post h t r h') f -> makes cp is_obj arg null_oom (fun l => extras x (f l)).
Proof.
  intros F. destruct x as [[[zd md] coords]|]; [now apply (with_coords_ok cp arg t)|]. intros rk' h1 E1 D1 y I1 R1 A1.
  eapply wp_conseq; [apply (F rk' h1 E1 D1 y I1 R1 A1)|]. intros r h' (A & P & PO). split; [assumption|]. split; [assumption|]. now intros ->.
Qed.

Lemma build_ok b : allowed_build cp b = true -> wp (run_build held b) (made cp rk h E (kind_of b)) h.
Proof.
  intros AL. destruct b as [ps closed kind spread|ext holes neg|p|zd md p z m|e|l|p|zd md l co|zd md p co|ps x|ls x|ps x|gs x|msg|k r|k r]; cbn [run_build kind_of].
  - destruct (series_new ps closed kind spread) as [r|] eqn:ES; [|now apply wp_ret].
    eapply (b0 is_ring KRing _ _ _ (ps, closed, kind, spread) _ (series_new_ok cp)); auto.
    exists r. split; [assumption|]. intros ->. cbn in AL. rewrite ES in AL. destruct (r_index r); [discriminate|]. destruct (r_ystripes r); [discriminate|auto].
  - eapply wp_reads; [apply (eval_ok cp h E I held (good_kind _ _ _ G))|]. intros e He.
    eapply wp_reads; [apply (evals_ok cp h E I held (good_kind _ _ _ G))|]. intros hs Hh.
    destruct e as [e|], hs as [hs|]; try now apply wp_ret.
    eapply (b0 is_pol KPoly _ _ _ (e, hs, neg) _ (poly_new_ok cp)); auto. split; [exact (argp_pk _ _ _ _ He)|]. intros o Ho. rewrite Forall_forall in Hh. exact (argp_pk _ _ _ _ (Hh o Ho)).
  - eapply (b0 is_obj KGeom _ _ _ p _ (new_point_ok cp)); auto. exact Logic.I.
  - eapply (b0 is_obj KGeom _ _ _ (fl_zm zd md, PlPoint p (if zd then z else f_zero) (if md then m else f_zero)) _ (geom_new_ok cp)); auto. exact Logic.I.
  - eapply (b0 is_obj KGeom _ _ _ (fl_empty, empty_payload e) _ (geom_new_ok cp)); auto. destruct e; cbn; auto.
  - eapply (b1 l KRing is_ring KGeom); [exact (ring_clone_ok cp)|now intros []].
  - eapply (b1 p KPoly is_pol KGeom); [exact (poly_clone_ok cp)|now intros []].
  - eapply (b1 l KRing is_obj KGeom); [|auto]. intros rk' h1 E1 D1 o I1 R1 A1. apply (new_linestring_x_ok cp zd md rk' h1 E1 D1 (o, co) I1 R1 A1).
  - eapply (b1 p KPoly is_obj KGeom); [|auto]. intros rk' h1 E1 D1 o I1 R1 A1. apply (new_polygon_x_ok cp zd md rk' h1 E1 D1 (o, co) I1 R1 A1).
  - eapply (b0 is_obj KGeom _ _ _ ps _ (extras_ok _ _ _ x (new_multipoint_ok cp))); auto.
  - eapply (bs ls KRing is_obj KGeom); [exact (extras_ok _ _ _ x (new_multilinestring_ok cp))|auto].
  - eapply (bs ps KPoly is_obj KGeom); [exact (extras_ok _ _ _ x (new_multipolygon_ok cp))|auto].
  - eapply (bs gs KGeom is_obj KGeom); [exact (extras_ok _ _ _ x (new_collection_ok cp))|auto].
  - eapply (b0 is_obj KGeom _ _ _ msg _ (parse_error_ok cp)); auto. exact Logic.I.
  - destruct k.
    + eapply (b1 r KRing is_ring KRing); [exact (ring_clone_ok cp)|auto].
    + eapply (b1 r KPoly is_pol KPoly); [exact (poly_clone_ok cp)|auto].
    + eapply (b1 r KGeom is_obj KGeom); [exact (geom_clone_ok cp)|auto].
  - cbn in AL. destruct k.
    + eapply (b1 r KRing is_ring KRing); [rewrite AL; exact ring_copy_ok|auto].
    + eapply (b1 r KPoly is_pol KPoly); [rewrite AL; exact poly_copy_ok|auto].
    + eapply (b1 r KGeom is_obj KGeom); [rewrite AL; exact tg_geom_copy_ok|auto].
Qed.
End Build.

(** the handles that are still held are still there *)
Lemma good_after cp held held' h h' rk x : Good cp held h -> St cp rk h (map fst held) [] h' x [] ->
  map fst held' = x ++ map fst held -> (forall p k, In (p, k) held' -> In (p, k) held \/ pk h' (kof k) (Some p)) -> Good cp held' h'.
Proof.
  intros G A EQ HK. constructor.
  - rewrite EQ. pose proof (st_inv _ _ _ _ _ _ _ _ A) as I. exact I.
  - destruct (st_rank _ _ _ _ _ _ _ _ A) as (r & R & _). now exists r.
  - intros p k Hp. destruct (HK p k Hp) as [H|H]; [|assumption]. apply (pk_keep h); [apply st_kof| |now apply (good_kind _ _ _ G)].
    intros q _. apply (St_keep h' x [] A). now intros [].
Qed.

Lemma cnt_drop (held : list handle) i p k : nth_error held i = Some (p, k) -> forall q, cnt (p :: map fst (drop_nth i held)) q = cnt (map fst held) q.
Proof.
  intros N q. unfold drop_nth. rewrite map_app, cnt_cons, cnt_app. revert i N.
  induction held as [|[p' k'] held IH]; intros [|i] N; try discriminate N.
  - inversion N; subst. cbn [firstn skipn map]. rewrite cnt_nil, cnt_cons. reflexivity.
  - cbn [nth_error] in N. specialize (IH i N). change (skipn (S (S i)) ((p', k') :: held)) with (skipn (S i) held).
    cbn [firstn map]. rewrite !cnt_cons. unfold handle in *. lia.
Qed.
Lemma in_drop {A} i (l : list A) x : In x (drop_nth i l) -> In x l.
Proof. unfold drop_nth. rewrite in_app_iff. intros [H|H]; [rewrite <- (firstn_skipn i l)|rewrite <- (firstn_skipn (S i) l)]; apply in_or_app; auto. Qed.

Definition frees_of (k : okind) : option ptr -> M unit := match k with KRing => tg_ring_free | KPoly => tg_poly_free | KGeom => tg_geom_free end.
Lemma free_ok cp k h E D p : Inv cp h (p :: E) D -> (exists rk, Rank rk h D) -> pk h (kof k) (Some p) ->
  wp (frees_of k (Some p)) (fun _ h' => Inv cp h' E D /\ Fr D h h' /\ length (cells h') = length (cells h)) h.
Proof.
  intros I [rk R] P. destruct k.
  - destruct (ring_free_ok cp rk) as [_ F]. eapply wp_conseq; [apply (F h E D p I R P Logic.I)|]. intros [] h' A. split; [apply A|]. split; apply A.
  - destruct (poly_free_ok cp rk) as [_ F]. eapply wp_conseq; [apply (F h E D p I R P Logic.I)|]. intros [] h' A. split; [apply A|]. split; apply A.
  - apply tg_geom_free_ok; auto. now exists rk.
Qed.
Lemma Rank_Fr rk h h' D : Rank rk h D -> Fr D h h' -> length (cells h') = length (cells h) -> Rank rk h' D.
Proof.
  intros R F L. apply (Rank_sub rk h _ D); [assumption|]. intros p c Gp Np.
  destruct (get h p) as [b|] eqn:Gb.
  - destruct (fr_live _ _ _ F p b Gb) as [G'|(b' & G' & S')]; [congruence|].
    exists b. repeat split; auto. assert (b' = c) by congruence. subst. now apply strip_owned.
  - rewrite (fr_dead _ _ _ F p) in Gp; [discriminate| |assumption]. rewrite <- L. eapply get_lt, Gp.
Qed.

Lemma step_ok cp held h o : Good cp held h -> allowed cp o = true -> wp (step held o) (fun held' h' => Good cp held' h') h.
Proof.
  intros G AL. destruct (good_rank _ _ _ G) as [rk R]. destruct o as [b|i|i]; cbn [step].
  - apply wp_bind. eapply wp_conseq; [apply (build_ok cp held h rk G R b AL)|]. intros r h' MD. destruct r as [[p|]|]; apply wp_ret.
    + destruct MD as [A P]. apply (good_after cp held _ h h' rk [p] G A); [reflexivity|]. intros q k [EQ|H]; [inversion EQ; subst; now right|now left].
    + destruct MD as [A P]. apply (good_after cp held _ h h' rk [] G A); [reflexivity|]. auto.
    + cbn in MD. now subst h'.
  - destruct (nth_error held i) as [[p k]|] eqn:N; [|now apply wp_ret]. apply wp_bind.
    assert (I1 : Inv cp h (p :: map fst (drop_nth i held)) []) by (apply (Inv_E cp h (map fst held)); [intros q; symmetry; now apply (cnt_drop _ _ _ k)|apply G]).
    assert (P : pk h (kof k) (Some p)) by (apply (good_kind _ _ _ G); eapply nth_error_In, N).
    eapply wp_conseq with (Q := fun _ h' => _).
    { replace (free_handle (p, k)) with (frees_of k (Some p)) by (now destruct k). apply (free_ok cp k h _ [] p I1 (ex_intro _ rk R) P). }
    intros [] h' (I' & F & L). apply wp_ret. constructor.
    + exact I'.
    + exists rk. now apply (Rank_Fr rk h).
    + intros q kq Hq. apply (Fr_pk [] h h' (kof kq) q F (st_kof kq)); [apply (good_kind _ _ _ G), (in_drop i), Hq|].
      apply (inv_E _ _ _ _ q I'). apply in_map_iff. now exists (q, kq).
  - destruct (nth_error held i) as [[p []]|] eqn:N; try now apply wp_ret. cbn in AL. subst cp.
    destruct (good_kind _ _ _ G p KGeom ltac:(eapply nth_error_In, N)) as (b & Gp & K). cbn [kof] in K.
    apply wp_bind. unfold tg_geom_setnoheap. apply wp_bind, (wp_load p _ _ _ Gp). unfold is_obj in K. destruct (head_of b) as [hd|] eqn:H; [|discriminate].
    apply wp_store; [congruence|]. apply wp_ret. set (b' := set_head _ b). constructor.
    + apply (Inv_set_nh h p b b' _ []); [apply G|assumption|auto|]. exists (Head 0 true (h_flags hd)). repeat split. congruence.
    + exists rk. apply (Rank_sub rk h _ []); [assumption|]. intros q c Gq Nq. rewrite get_upd in Gq by (eapply get_lt, Gp).
      destruct (Nat.eqb_spec q p) as [e|]; [|eauto]. subst q. inversion Gq; subst c. exists b. repeat split; auto. apply owned_set.
    + intros q k Hq. destruct (good_kind _ _ _ G q k Hq) as (c & Gc & Kc). unfold pk. rewrite get_upd by (eapply get_lt, Gp).
      destruct (Nat.eqb_spec q p) as [e|]; [|now exists c]. subst q. exists b'. split; [reflexivity|]. assert (c = b) by congruence. subst c.
      rewrite <- Kc. unfold b'. destruct k; now destruct b.
Qed.
Lemma run_ok cp os : forall held h, Good cp held h -> forallb (allowed cp) os = true -> wp (run held os) (fun held' h' => Good cp held' h') h.
Proof.
  induction os as [|o os IH]; intros held h G AL; cbn [run]; [now apply wp_ret|]. cbn [forallb] in AL. apply andb_true_iff in AL as [A1 A2].
  apply wp_bind. eapply wp_conseq; [apply (step_ok cp held h o G A1)|]. intros held' h' G'. now apply IH.
Qed.
Lemma Good_start cp f : Good cp [] (start f).
Proof.
  constructor.
  - constructor.
    + constructor.
    + intros p [].
    + intros p _. reflexivity.
    + intros p b G. unfold get in G. cbn in G. now destruct p.
    + intros p b G. unfold get in G. cbn in G. now destruct p.
  - exists (fun _ => 0). intros p b q G. unfold get in G. cbn in G. now destruct p.
  - intros p k [].
Qed.
