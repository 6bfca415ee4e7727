(** * ExThms: the hybrid controller of the examples (C57), proofs *)
From Coq Require Import ZArith String Classical Lra Lia.
From Verif Require Import Arr ArrFacts Spec SpecMpc SpecProg Numpy Pnnls PnnlsFacts QpFacts GeomUtils Polyhedron PolyThms Oracle SolverThms NullFacts PolySolveThms PolyMore SpecDyn Dynamics DynThms CondenseThms LqrThms McaisThms Mpqp MpqpThms Controllers CtrlThms Gurobi Programs ProgThms Hybrid HybridThms HybridOptThms ExampleCtrl.
Local Open Scope list_scope.

(** ** Expressions *)
Lemma ev_combine a c vs : ev a (combine c vs) = dot c (map a vs).
Proof. revert vs. induction c as [|x c IH]; intros [|v vs]; cbn; [reflexivity..|]. unfold ev in IH. rewrite IH. reflexivity. Qed.
Lemma d_app p1 p2 a : fold_right (fun t acc => let '(c, v, w) := t in c * a v * a w + acc) 0 (p1 ++ p2 : list (R * dvar * dvar)) =
  fold_right (fun t acc => let '(c, v, w) := t in c * a v * a w + acc) 0 p1 + fold_right (fun t acc => let '(c, v, w) := t in c * a v * a w + acc) 0 p2.
Proof. induction p1 as [|((c, v), w) p1 IH]; cbn; [lra|]. rewrite IH. lra. Qed.
Definition dval (a : dvar -> R) (l : list (R * dvar * dvar)) : R := fold_right (fun t acc => let '(c, v, w) := t in c * a v * a w + acc) 0 l.
Lemma quad_dot_ok a k M vs n : shape M n n -> length vs = n -> exists e, quad_dot k M vs = Ok e /\ dval a e = k * dot (map a vs) (mv M (map a vs)).
Proof.
  intros (LM & CM & FM) Lv. unfold quad_dot, nrows. rewrite LM, CM, Lv, Nat.eqb_refl. cbn [andb]. eexists. split; [reflexivity|].
  assert (R1 : forall v r ws, dval a (map (fun cw => (k * fst cw, v, snd cw)) (combine r ws)) = k * a v * dot r (map a ws)).
  { intros v r. induction r as [|c r IH]; intros [|w ws]; cbn; try lra. unfold dval in IH. rewrite IH. lra. }
  assert (R2 : forall vs1 rs, dval a (flat_map (fun vr => map (fun cw => (k * fst cw, fst vr, snd cw)) (combine (snd vr) vs)) (combine vs1 rs)) = k * dot (map a vs1) (map (fun r => dot r (map a vs)) rs)).
  { induction vs1 as [|v vs1 IH]; intros [|r rs]; cbn; try lra. unfold dval. rewrite d_app. fold (dval a (map (fun cw => (k * fst cw, v, snd cw)) (combine r vs))). rewrite R1. unfold dval in IH. rewrite IH. lra. }
  apply R2.
Qed.

(** ** The graphs *)
Lemma graph_ok nx nu D S mD meD : wf D mD meD (nx + nu) -> system_shape (aA S) (aB S) nx nu -> length (ac S) = nx ->
  exists G, graph_of nx D S = Ok G /\ shape (pA G) (mD + (nx + nx)) (nx + (nu + nx)) /\ length (pb G) = (mD + (nx + nx))%nat /\
  forall x u xp, length x = nx -> length u = nu -> length xp = nx ->
    vsub (mv (pA G) (x ++ u ++ xp)) (pb G) =
    vsub (mv (pA D) (x ++ u)) (pb D) ++ vsub (affine_step (aA S) (aB S) (ac S) x u) xp ++ vsub xp (affine_step (aA S) (aB S) (ac S) x u).
Proof.
  intros (WA & Wb & _) (SA & SB) Lc. unfold graph_of. pose proof SA as (LA & CA & _). pose proof SB as (LB & CB & _). unfold nrows. rewrite LA, LB, Nat.eqb_refl. cbn [andb negb].
  assert (S2 : shape (hstack (aA S) (hstack (aB S) (mneg (eye nx)))) nx (nx + (nu + nx))) by auto with shp.
  assert (S3 : shape (hstack (mneg (aA S)) (hstack (mneg (aB S)) (eye nx))) nx (nx + (nu + nx))) by auto with shp.
  assert (S1 : shape (hstack (pA D) (zmat (length (rows (pA D))) nx)) mD (nx + (nu + nx))). { rewrite (proj1 WA), Nat.add_assoc. auto with shp. }
  unfold np_vstack. rewrite (proj1 (proj2 S2)), (proj1 (proj2 S3)), Nat.eqb_refl. cbn [bind].
  pose proof (shape_vstack _ _ _ _ _ S2 S3) as S23. rewrite (proj1 (proj2 S1)), (proj1 (proj2 S23)), Nat.eqb_refl. cbn [bind].
  pose proof (shape_vstack _ _ _ _ _ S1 S23) as SG. set (AG := vstack _ _) in *.
  assert (LG : length (pb D ++ vneg (ac S) ++ ac S) = (mD + (nx + nx))%nat) by (rewrite !app_length, vneg_length; lia).
  unfold Polyhedron, same_number_rows, nrows. rewrite (proj1 SG). cbn [nd_size]. rewrite LG, Nat.eqb_refl. cbn [bind]. eexists. split; [reflexivity|]. cbn [pA pb]. split; [exact SG|]. split; [exact LG|].
  intros x u xp Lx Lu Lp. unfold AG. rewrite !mv_vstack.
  assert (E1 : mv (hstack (pA D) (zmat (length (rows (pA D))) nx)) (x ++ u ++ xp) = vadd (mv (pA D) (x ++ u)) (zeros mD)).
  { rewrite app_assoc, (mv_hstack (pA D) _ mD (nx + nu) nx); [rewrite mv_zmat, (proj1 WA); reflexivity|exact WA|rewrite (proj1 WA); auto with shp|rewrite app_length; lia]. }
  rewrite E1.
  rewrite (mv_hstack (aA S) _ nx nx (nu + nx)) by auto with shp. rewrite (mv_hstack (aB S) _ nx nu nx) by auto with shp. rewrite mv_mneg, mv_eye by exact Lp.
  rewrite (mv_hstack (mneg (aA S)) _ nx nx (nu + nx)) by auto with shp. rewrite (mv_hstack (mneg (aB S)) _ nx nu nx) by auto with shp. rewrite !mv_mneg, mv_eye by exact Lp.
  unfold affine_step. pose proof (mv_length (aA S) x) as L1. pose proof (mv_length (aB S) u) as L2. pose proof (mv_length (pA D) (x ++ u)) as L3. rewrite LA in L1. rewrite LB in L2. rewrite (proj1 WA) in L3.
  set (ax := mv (aA S) x) in *. set (bu := mv (aB S) u) in *. set (dxu := mv (pA D) (x ++ u)) in *.
  rewrite vsub_app by len. f_equal; [vring|]. rewrite vsub_app by len. f_equal; vring.
Qed.
Lemma vle_vsub u v : vle u v <-> length u = length v /\ forall i, (i < length u)%nat -> nth i (vsub u v) 0 <= 0.
Proof. rewrite vle_nth. split; intros (L & H); (split; [exact L|]); intros i Hi; specialize (H i Hi); [rewrite nth_vsub by lia; lra|rewrite nth_vsub in H by lia; lra]. Qed.

(** the constants of the big-M constraints: the largest violation over domain j of the constraints of mode i (k-th inequality of domain i, dynamics from both sides) *)
Definition violation (W : pwa) (nx i j : nat) (xu : vec) : vec :=
  vsub (mv (pA (dom_at W i)) xu) (pb (dom_at W i)) ++ vsub (f_at W nx i xu) (f_at W nx j xu) ++ vsub (f_at W nx j xu) (f_at W nx i xu).
(** none of them is positive and below the tolerance 1e-6 *)
Definition sharp_gaps (W : pwa) (nx : nat) : Prop := forall i j, (i < length (w_sys W))%nat -> (j < length (w_sys W))%nat -> forall v,
  (forall r, (r < length (pb (dom_at W i)))%nat -> greatest (in_poly (dom_at W j)) (fun xu => dot (row (pA (dom_at W i)) r) xu - nth r (pb (dom_at W i)) 0) v -> v <= 0 \/ tol6 <= v) /\
  (forall r, (r < nx)%nat -> greatest (in_poly (dom_at W j)) (fun xu => nth r (f_at W nx i xu) 0 - nth r (f_at W nx j xu) 0) v -> v <= 0 \/ tol6 <= v) /\
  (forall r, (r < nx)%nat -> greatest (in_poly (dom_at W j)) (fun xu => nth r (f_at W nx j xu) 0 - nth r (f_at W nx i xu) 0) v -> v <= 0 \/ tol6 <= v).
Lemma greatest_ext (S : vec -> Prop) g h v : (forall x, S x -> g x = h x) -> greatest S g v -> greatest S h v.
Proof. intros E ((x & Sx & Ex) & H). split; [exists x; split; [exact Sx|rewrite <- E; assumption]|]. intros y Sy. rewrite <- E by exact Sy. auto. Qed.
Lemma bounded_sub S g h : bounded_on S g -> bounded_on S h -> bounded_on S (fun x => g x - h x).
Proof. intros (M1 & H1) (M2 & H2). exists (M1 + M2). intros x Hx. specialize (H1 x Hx). specialize (H2 x Hx). unfold Rminus. apply Rle_trans with (Rabs (g x) + Rabs (- h x)); [apply Rabs_triang|]. rewrite Rabs_Ropp. lra. Qed.
Lemma f_at_length W nx nu i xu : hyb_data W nx nu -> (i < length (w_sys W))%nat -> length (f_at W nx i xu) = nx.
Proof.
  intros (_ & _ & (_ & HS) & _) Hi. destruct (HS (sys_at W i)) as (((LA & _) & (LB & _)) & Lc); [apply nth_In; exact Hi|]. unfold f_at, affine_step. unfold vadd. rewrite !map2_length, !mv_length, LA, LB, Lc. lia.
Qed.
Lemma Forall2_nth {A B} (Q : A -> B -> Prop) l l' da db : Forall2 Q l l' -> forall i, (i < length l)%nat -> Q (nth i l da) (nth i l' db).
Proof. induction 1 as [|a b l l' H F IH]; intros i Hi; cbn in *; [lia|]. destruct i; [exact H|]. apply IH. lia. Qed.
Section Ex.
Variables (np : numpy) (W : pwa) (nx nu : nat).
Hypothesis ENP : exact_np np.
Hypothesis HW : hyb_data W nx nu.
Hypothesis HD : hyb_domains W.
Hypothesis HE : forall D, In D (w_dom W) -> Polyhedron.pd D = [].
Let s := length (w_sys W).
Lemma dom_in i : (i < s)%nat -> In (dom_at W i) (w_dom W).
Proof. intros Hi. destruct HW as (_ & _ & _ & LD & _). apply nth_In. fold s in LD. lia. Qed.
Lemma dom_wf i : (i < s)%nat -> exists me, wf (dom_at W i) (length (pb (dom_at W i))) me (nx + nu).
Proof. intros Hi. destruct HW as (_ & _ & _ & _ & H). destruct (H _ (dom_in i Hi)) as (m & me & Wd). exists me. pose proof Wd as (_ & Lb & _). rewrite Lb. exact Wd. Qed.
Lemma dom_vle i xu : (i < s)%nat -> in_poly (dom_at W i) xu <-> length xu = (nx + nu)%nat /\ vle (mv (pA (dom_at W i)) xu) (pb (dom_at W i)).
Proof.
  intros Hi. destruct (dom_wf i Hi) as (me & Wd). unfold in_poly. rewrite in_set_vle, (proj1 (proj2 (proj1 Wd))). split; [tauto|]. intros (H1 & H2). split; [exact H1|]. split; [exact H2|]. rewrite (HE _ (dom_in i Hi)). destruct Wd as (_ & _ & (LC & _) & Ld). rewrite (HE _ (dom_in i Hi)) in Ld. cbn in Ld. apply length_zero_iff_nil. rewrite mv_length. lia.
Qed.
Lemma sys_ok i : (i < s)%nat -> system_shape (aA (sys_at W i)) (aB (sys_at W i)) nx nu /\ length (ac (sys_at W i)) = nx.
Proof. intros Hi. destruct HW as (_ & _ & (_ & H) & _). apply H. apply nth_In. exact Hi. Qed.
Definition gmat_ok (G : poly) (i : nat) : Prop := let k := (length (pb (dom_at W i)) + (nx + nx))%nat in
  shape (pA G) k (nx + (nu + nx)) /\ length (pb G) = k /\
  forall xu xp, length xu = (nx + nu)%nat -> length xp = nx ->
    vsub (mv (pA G) (xu ++ xp)) (pb G) = vsub (mv (pA (dom_at W i)) xu) (pb (dom_at W i)) ++ vsub (f_at W nx i xu) xp ++ vsub xp (f_at W nx i xu).
Lemma graphs_ok : exists Gs, graph_representation W = Ok Gs /\ length Gs = s /\ forall i, (i < s)%nat -> gmat_ok (nth i Gs poly0) i.
Proof.
  destruct HW as (EW & EU & _ & LD & _). fold s in LD.
  destruct (mapM_spec (fun i => match nth_error (w_dom W) i, nth_error (w_sys W) i with Some Di, Some Si => graph_of (w_nx W) Di Si | _, _ => Err IndexError end) (seq 0 s) (fun i G => gmat_ok G i)) as (Gs & E & F).
  - intros i Hi. apply in_seq in Hi. rewrite (nth_error_nth' _ poly0) by lia. rewrite (nth_error_nth' _ asys0) by (fold s; lia).
    destruct (dom_wf i ltac:(lia)) as (me & Wd). destruct (sys_ok i ltac:(lia)) as (SS & Lc). rewrite EW. destruct (graph_ok nx nu _ _ _ _ Wd SS Lc) as (G & EG & SG & LG & HG).
    exists G. split; [exact EG|]. split; [exact SG|]. split; [exact LG|]. intros xu xp Lxu Lxp. pose proof (HG (firstn nx xu) (skipn nx xu) xp) as Q. rewrite app_assoc, firstn_skipn in Q. rewrite Q; [reflexivity|rewrite firstn_length; lia|rewrite skipn_length; lia|exact Lxp].
  - exists Gs. split; [exact E|]. pose proof (Forall2_len _ _ _ F) as LG. rewrite seq_length in LG. split; [lia|]. intros i Hi. pose proof (Forall2_nth _ _ _ 0%nat poly0 F i ltac:(rewrite seq_length; lia)) as Q. rewrite seq_nth in Q by lia. exact Q.
Qed.
(** membership in a graph *)
Lemma graph_mem G j xu xp : (j < s)%nat -> gmat_ok G j -> length xu = (nx + nu)%nat -> length xp = nx -> vle (mv (pA G) (xu ++ xp)) (pb G) <-> in_poly (dom_at W j) xu /\ xp = f_at W nx j xu.
Proof.
  intros Hj (SG & LG & HG) Lxu Lxp. rewrite (dom_vle j xu Hj). rewrite vle_vsub. rewrite (HG xu xp Lxu Lxp). rewrite mv_length, (proj1 SG). destruct (dom_wf j Hj) as (me & WD). pose proof (f_at_length W nx nu j xu HW Hj) as Lf.
  set (m := length (pb (dom_at W j))) in *. assert (LM : length (mv (pA (dom_at W j)) xu) = m) by (rewrite mv_length; apply WD).
  assert (L1 : length (vsub (mv (pA (dom_at W j)) xu) (pb (dom_at W j))) = m) by (rewrite vsub_length; lia). rewrite vle_vsub, LM. split.
  - intros (_ & H). split.
    + split; [exact Lxu|]. split; [reflexivity|]. intros i Hi. specialize (H i ltac:(lia)). rewrite app_nth1 in H by lia. exact H.
    + apply vec_ext; [lia|]. intros i Hi. pose proof (H (m + i)%nat ltac:(lia)) as Q1. pose proof (H (m + (nx + i))%nat ltac:(lia)) as Q2. rewrite app_nth2 in Q1, Q2 by lia. rewrite L1 in Q1, Q2.
      replace (m + i - m)%nat with i in Q1 by lia. replace (m + (nx + i) - m)%nat with (nx + i)%nat in Q2 by lia. rewrite app_nth1 in Q1 by (rewrite vsub_length; lia). rewrite app_nth2 in Q2 by (rewrite vsub_length; lia). rewrite vsub_length, Lf, Lxp, Nat.min_id in Q2. replace (nx + i - nx)%nat with i in Q2 by lia. rewrite nth_vsub in Q1, Q2 by lia. lra.
  - intros ((_ & _ & H) & ->). split; [lia|]. intros i Hi. destruct (Nat.lt_ge_cases i m) as [H1|H1]; [rewrite app_nth1 by lia; auto|]. rewrite app_nth2 by lia. rewrite L1. destruct (Nat.lt_ge_cases (i - m) nx) as [H2|H2].
    + rewrite app_nth1 by (rewrite vsub_length; lia). rewrite nth_vsub by lia. lra.
    + rewrite app_nth2 by (rewrite vsub_length; lia). rewrite nth_vsub by lia. lra.
Qed.
Lemma viol_cases i j k (Q : (vec -> R) -> Prop) : (i < s)%nat -> (j < s)%nat -> (k < length (pb (dom_at W i)) + (nx + nx))%nat ->
  (forall g h, (forall xu, in_poly (dom_at W j) xu -> g xu = h xu) -> Q g -> Q h) ->
  (forall r, (r < length (pb (dom_at W i)))%nat -> Q (fun xu => dot (row (pA (dom_at W i)) r) xu - nth r (pb (dom_at W i)) 0)) ->
  (forall r, (r < nx)%nat -> Q (fun xu => nth r (f_at W nx i xu) 0 - nth r (f_at W nx j xu) 0)) ->
  (forall r, (r < nx)%nat -> Q (fun xu => nth r (f_at W nx j xu) 0 - nth r (f_at W nx i xu) 0)) ->
  Q (fun xu => nth k (violation W nx i j xu) 0).
Proof.
  intros Hi Hj Hk EXT H1 H2 H3. destruct (dom_wf i Hi) as (me & WD). set (m := length (pb (dom_at W i))) in *.
  assert (LM : forall xu, length (mv (pA (dom_at W i)) xu) = m) by (intros; rewrite mv_length; apply WD).
  assert (L1 : forall xu, length (vsub (mv (pA (dom_at W i)) xu) (pb (dom_at W i))) = m) by (intros; rewrite vsub_length, LM; unfold m; lia).
  pose proof (fun xu => f_at_length W nx nu i xu HW Hi) as L2. pose proof (fun xu => f_at_length W nx nu j xu HW Hj) as L3.
  destruct (Nat.lt_ge_cases k m) as [C1|C1]; [|destruct (Nat.lt_ge_cases (k - m) nx) as [C2|C2]].
  - eapply EXT; [|apply (H1 k C1)]. intros xu _. unfold violation. rewrite app_nth1 by (rewrite L1; exact C1). rewrite nth_vsub, nth_mv by (rewrite LM; reflexivity). reflexivity.
  - eapply EXT; [|apply (H2 (k - m)%nat C2)]. intros xu _. unfold violation. rewrite app_nth2 by (rewrite L1; exact C1). rewrite L1, app_nth1 by (rewrite vsub_length, L2, L3; lia). rewrite nth_vsub by (rewrite L2, L3; reflexivity). reflexivity.
  - eapply EXT; [|apply (H3 (k - m - nx)%nat ltac:(lia))]. intros xu _. unfold violation. rewrite app_nth2 by (rewrite L1; exact C1). rewrite L1, app_nth2 by (rewrite vsub_length, L2, L3; lia). rewrite vsub_length, L2, L3, Nat.min_id. rewrite nth_vsub by (rewrite L2, L3; reflexivity). reflexivity.
Qed.
Lemma viol_bounded i j k : (i < s)%nat -> (j < s)%nat -> (k < length (pb (dom_at W i)) + (nx + nx))%nat -> bounded_on (in_poly (dom_at W j)) (fun xu => nth k (violation W nx i j xu) 0).
Proof.
  intros Hi Hj Hk. pose proof (domains_bounded W nx nu HW HD i j Hi Hj) as (B1 & B2). pose proof (domains_bounded W nx nu HW HD j j Hj Hj) as (B3 & _). apply (viol_cases i j k); auto.
  - intros g h E (M & HM). exists M. intros xu Hx. rewrite <- E by exact Hx. auto.
  - intros r Hr. apply bounded_sub; [auto|]. exists (Rabs (nth r (pb (dom_at W i)) 0)). intros; lra.
  - intros r Hr. apply bounded_sub; auto.
  - intros r Hr. apply bounded_sub; auto.
Qed.
Lemma entry_ok i j k Gi Gj : (i < s)%nat -> (j < s)%nat -> (k < length (pb (dom_at W i)) + (nx + nx))%nat -> gmat_ok Gi i -> gmat_ok Gj j ->
  exists v, big_m_entry np Gi Gj k = Ok (if Rltb (Rabs v) tol6 then 0 else v) /\ greatest (in_poly (dom_at W j)) (fun xu => nth k (violation W nx i j xu) 0) v.
Proof.
  intros Hi Hj Hk OGi OGj. pose proof OGi as (SGi & LGi & HGi). pose proof OGj as (SGj & LGj & _).
  assert (EV : forall xu, in_poly (dom_at W j) xu -> dot (row (pA Gi) k) (xu ++ f_at W nx j xu) = nth k (violation W nx i j xu) 0 + nth k (pb Gi) 0).
  { intros xu Hx. apply (dom_vle j xu Hj) in Hx. destruct Hx as (Lx & _). unfold violation. rewrite <- (HGi xu (f_at W nx j xu) Lx (f_at_length W nx nu j xu HW Hj)). rewrite nth_vsub by (rewrite mv_length, (proj1 SGi), LGi; reflexivity). rewrite nth_mv. unfold row. lra. }
  assert (SPL : forall y, length y = (nx + (nu + nx))%nat -> vle (mv (pA Gj) y) (pb Gj) -> exists xu, y = xu ++ f_at W nx j xu /\ in_poly (dom_at W j) xu).
  { intros y Ly Hy. rewrite <- (firstn_skipn (nx + nu) y) in Hy. apply (graph_mem Gj j) in Hy; [|exact Hj|exact OGj|rewrite firstn_length; lia|rewrite skipn_length; lia]. destruct Hy as (H1 & H2). exists (firstn (nx + nu) y). split; [rewrite <- H2, firstn_skipn; reflexivity|exact H1]. }
  destruct (viol_bounded i j k Hi Hj Hk) as (M & HM). destruct (HD _ (dom_in j Hj)) as ((xu0 & I0) & _). pose proof (proj1 (proj1 (dom_vle j xu0 Hj) I0)) as L0. pose proof (f_at_length W nx nu j xu0 HW Hj) as Lf0.
  destruct (lp_solved np (vneg (row (pA Gi) k)) (pA Gj) (pb Gj) (length (pb (dom_at W j)) + (nx + nx)) (nx + (nu + nx)) (xu0 ++ f_at W nx j xu0) (- M - nth k (pb Gi) 0) ENP SGj LGj) as (sol & y & l & E & Em & _ & Ly & Vy & Opt & _).
  - rewrite vneg_length. apply (shape_row _ _ _ _ SGi). exact Hk.
  - rewrite app_length. lia.
  - apply (graph_mem Gj j); auto.
  - intros z Lz Vz. destruct (SPL z Lz Vz) as (xu & -> & Ix). rewrite dot_vneg_l, (EV xu Ix). pose proof (HM xu Ix) as Q. cbn beta in Q. pose proof (Rle_abs (nth k (violation W nx i j xu) 0)). lra.
  - destruct (SPL y Ly Vy) as (xu & Ey & Ix). exists (nth k (violation W nx i j xu) 0). unfold big_m_entry. rewrite E. cbn [bind]. rewrite Em. rewrite Ey, dot_vneg_l, (EV xu Ix). split.
    + replace (- - (nth k (violation W nx i j xu) 0 + nth k (pb Gi) 0) - nth k (pb Gi) 0) with (nth k (violation W nx i j xu) 0) by lra. reflexivity.
    + split; [exists xu; auto|]. intros xu' Ix'. assert (Lx' : length xu' = (nx + nu)%nat) by (apply (dom_vle j xu' Hj); exact Ix'). pose proof (f_at_length W nx nu j xu' HW Hj) as Lf'.
      pose proof (Opt (xu' ++ f_at W nx j xu') ltac:(rewrite app_length; lia) (proj2 (graph_mem Gj j xu' _ Hj OGj Lx' Lf') (conj Ix' eq_refl))) as Q. rewrite Ey, !dot_vneg_l, (EV xu Ix), (EV xu' Ix') in Q. lra.
Qed.
Lemma big_m_ok Gs : length Gs = s -> (forall i, (i < s)%nat -> gmat_ok (nth i Gs poly0) i) -> sharp_gaps W nx ->
  exists m, big_m np Gs = Ok m /\ forall i j k xu, (i < s)%nat -> (j < s)%nat -> (k < length (pb (dom_at W i)) + (nx + nx))%nat -> in_poly (dom_at W j) xu ->
    nth k (violation W nx i j xu) 0 <= nth k (nth j (nth i m []) []) 0.
Proof.
  intros LG HG SG.
  assert (E1 : forall i j, (i < s)%nat -> (j < s)%nat -> exists mij, mapM (big_m_entry np (nth i Gs poly0) (nth j Gs poly0)) (seq 0 (nrows (pA (nth i Gs poly0)))) = Ok mij /\
     forall k xu, (k < length (pb (dom_at W i)) + (nx + nx))%nat -> in_poly (dom_at W j) xu -> nth k (violation W nx i j xu) 0 <= nth k mij 0).
  { intros i j Hi Hj. destruct (HG i Hi) as ((LR & _) & _). unfold nrows. rewrite LR.
    destruct (mapM_spec (big_m_entry np (nth i Gs poly0) (nth j Gs poly0)) (seq 0 (length (pb (dom_at W i)) + (nx + nx))) (fun k v => forall xu, in_poly (dom_at W j) xu -> nth k (violation W nx i j xu) 0 <= v)) as (mij & E & F).
    - intros k Hk. apply in_seq in Hk. destruct (entry_ok i j k _ _ Hi Hj ltac:(lia) (HG i Hi) (HG j Hj)) as (v & Ev & Gv). eexists. split; [exact Ev|]. intros xu Hx. pose proof (proj2 Gv xu Hx) as Q.
      assert (NT : v <= 0 \/ tol6 <= v).
      { destruct (SG i j Hi Hj v) as (S1 & S2 & S3). revert Gv. apply (viol_cases i j k (fun g => greatest (in_poly (dom_at W j)) g v -> v <= 0 \/ tol6 <= v)); auto; [lia|]. intros g h EX H Gh. apply H. eapply greatest_ext; [|exact Gh]. intros; symmetry; auto. }
      destruct (Rltb (Rabs v) tol6) eqn:ER; [|exact Q]. apply Rltb_true in ER. apply Rabs_def2 in ER. lra.
    - exists mij. split; [exact E|]. intros k xu Hk Hx. pose proof (Forall2_nth _ _ _ 0%nat 0 F k ltac:(rewrite seq_length; lia)) as Q. rewrite seq_nth in Q by lia. apply Q. exact Hx. }
  assert (E2 : forall i, (i < s)%nat -> exists mi, mapM (fun Pj => mapM (big_m_entry np (nth i Gs poly0) Pj) (seq 0 (nrows (pA (nth i Gs poly0))))) Gs = Ok mi /\
     forall j k xu, (j < s)%nat -> (k < length (pb (dom_at W i)) + (nx + nx))%nat -> in_poly (dom_at W j) xu -> nth k (violation W nx i j xu) 0 <= nth k (nth j mi []) 0).
  { intros i Hi. destruct (mapM_spec (fun Pj => mapM (big_m_entry np (nth i Gs poly0) Pj) (seq 0 (nrows (pA (nth i Gs poly0))))) Gs (fun _ _ => True)) as (mi & E & F).
    - intros Pj Hj. apply (In_nth _ _ poly0) in Hj. destruct Hj as (j & Hj & <-). destruct (E1 i j Hi ltac:(lia)) as (mij & Q & _). eauto.
    - exists mi. split; [exact E|]. intros j k xu Hj Hk Hx. destruct (mapM_nth _ _ _ poly0 [] E) as (Lm & Hm). specialize (Hm j ltac:(lia)). destruct (E1 i j Hi Hj) as (mij & Q & B). cbn beta in Hm. rewrite Q in Hm. injection Hm as <-. apply B; assumption. }
  destruct (mapM_spec (fun Pi => mapM (fun Pj => mapM (big_m_entry np Pi Pj) (seq 0 (nrows (pA Pi)))) Gs) Gs (fun _ _ => True)) as (m & E & F).
  - intros Pi Hi. apply (In_nth _ _ poly0) in Hi. destruct Hi as (i & Hi & <-). destruct (E2 i ltac:(lia)) as (mi & Q & _). eauto.
  - exists m. split; [exact E|]. intros i j k xu Hi Hj Hk Hx. destruct (mapM_nth _ _ _ poly0 [] E) as (Lm & Hm). specialize (Hm i ltac:(lia)). destruct (E2 i Hi) as (mi & Q & B). cbn beta in Hm. rewrite Q in Hm. injection Hm as <-. apply B; assumption.
Qed.
End Ex.
(** ** The program *)
Definition Xa (nx : nat) (a : dvar -> R) (t : nat) : vec := map a (xvars nx t).
Definition Ua (nu : nat) (a : dvar -> R) (t : nat) : vec := map a (uvars nu t).
Definition Da (s : nat) (a : dvar -> R) (t : nat) : vec := map a (dvars s t).
Lemma Xa_length n a t : length (Xa n a t) = n. Proof. unfold Xa, xvars. now rewrite !map_length, seq_length. Qed.
Lemma Ua_length n a t : length (Ua n a t) = n. Proof. unfold Ua, uvars. now rewrite !map_length, seq_length. Qed.
Lemma Da_length n a t : length (Da n a t) = n. Proof. unfold Da, dvars. now rewrite !map_length, seq_length. Qed.
Lemma Da_nth n a t i : (i < n)%nat -> nth i (Da n a t) 0 = a (VD t i).
Proof. intros Hi. unfold Da, dvars. rewrite map_map. rewrite (nth_indep _ 0 (a (VD t 0))) by (rewrite map_length, seq_length; exact Hi). rewrite (map_nth (fun i => a (VD t i))). rewrite seq_nth by exact Hi. reflexivity. Qed.
Lemma ev_pick a t (c : nat -> R) q l : NoDup l -> (forall j, In j l -> a (VD t j) = if Nat.eqb j q then 1 else 0) ->
  ev a (map (fun j => (c j, VD t j)) l) = if in_dec Nat.eq_dec q l then c q else 0.
Proof.
  intros ND H. induction ND as [|j l Nj ND IH]; cbn [map ev fold_right fst snd]; [destruct (in_dec _ _ _) as [[]|]; reflexivity|].
  change (fold_right (fun t0 acc => fst t0 * a (snd t0) + acc) 0 (map (fun j0 => (c j0, VD t j0)) l)) with (ev a (map (fun j0 => (c j0, VD t j0)) l)).
  rewrite IH by (intros; apply H; right; assumption). rewrite (H j) by (left; reflexivity). destruct (Nat.eqb_spec j q) as [->|N].
  - destruct (in_dec _ q l) as [I|I]; [contradiction|]. destruct (in_dec _ q (q :: l)) as [|I']; [lra|]. exfalso. apply I'. left. reflexivity.
  - destruct (in_dec _ q l) as [I|I]; destruct (in_dec _ q (j :: l)) as [I'|I']; try lra.
    + exfalso. apply I'. right. exact I.
    + exfalso. destruct I' as [I'|I']; auto.
Qed.
Lemma concat_F2 {A} (H : A -> Prop) (K : nat -> Prop) N cons : Forall2 (fun t c => Forall H c <-> K t) (seq 0 N) cons -> Forall H (List.concat cons) <-> forall t, (t < N)%nat -> K t.
Proof.
  revert cons. induction N as [|N IH]; intros cons F.
  - inversion F; subst. cbn. split; [intros; lia|constructor].
  - rewrite seq_S in F. apply Forall2_app_inv_l in F. destruct F as (c1 & c2 & F1 & F2 & ->). inversion F2 as [|? c ? ? Hc F3]; subst. inversion F3; subst. rewrite concat_app, Forall_app, (IH _ F1). cbn [List.concat]. rewrite app_nil_r, Hc. cbn [Nat.add]. split.
    + intros (H1 & H2) t Ht. destruct (Nat.eq_dec t N) as [->|]; [exact H2|apply H1; lia].
    + intros Q. split; [intros; apply Q; lia|apply Q; lia].
Qed.
Lemma concat_dval a (g : nat -> R) N costs : Forall2 (fun t c => dval a c = g t) (seq 0 N) costs -> dval a (List.concat costs) = sum_upto g N.
Proof.
  revert costs. induction N as [|N IH]; intros costs F.
  - inversion F; subst. reflexivity.
  - rewrite seq_S in F. apply Forall2_app_inv_l in F. destruct F as (c1 & c2 & F1 & F2 & ->). inversion F2 as [|? c ? ? Hc F3]; subst. inversion F3; subst. rewrite concat_app. unfold dval in *. rewrite d_app, (IH _ F1). cbn [List.concat]. rewrite app_nil_r, Hc. reflexivity.
Qed.
Section Prog.
Variables (W : pwa) (nx nu : nat).
Let s := length (w_sys W).
Hypothesis HW : hyb_data W nx nu.
Hypothesis HE : forall D, In D (w_dom W) -> Polyhedron.pd D = [].
Hypothesis S2 : (2 <= s)%nat.
Variables (Gs : list poly) (m : list (list vec)).
Hypothesis HG : forall i, (i < s)%nat -> gmat_ok W nx nu (nth i Gs poly0) i.
Hypothesis HM : forall i j k xu, (i < s)%nat -> (j < s)%nat -> (k < length (pb (dom_at W i)) + (nx + nx))%nat -> in_poly (dom_at W j) xu -> nth k (violation W nx i j xu) 0 <= nth k (nth j (nth i m []) []) 0.
Definition others (i : nat) : list nat := filter (fun j => negb (Nat.eqb j i)) (seq 0 s).
Lemma others_in i j : In j (others i) <-> (j < s)%nat /\ j <> i.
Proof. unfold others. rewrite filter_In, in_seq, Bool.negb_true_iff, Nat.eqb_neq. lia. Qed.
Lemma mode_row_ok t i k : (i < s)%nat -> (k < length (pb (dom_at W i)) + (nx + nx))%nat ->
  mode_row nx nu s m t i (nth i Gs poly0) k = Ok (DLe (combine (row (pA (nth i Gs poly0)) k) (xvars nx t ++ uvars nu t ++ xvars nx (S t))) (nth k (pb (nth i Gs poly0)) 0) (map (fun j => (nth k (nth j (nth i m []) []) 0, VD t j)) (others i))).
Proof.
  intros Hi Hk. unfold mode_row, lin_dot. destruct (HG i Hi) as (SG & _). rewrite (shape_row _ _ _ _ SG Hk). unfold xvars, uvars. rewrite !app_length, !map_length, !seq_length, Nat.eqb_refl. cbn [bind]. fold (others i).
  destruct (others i) as [|o l] eqn:EO; [|reflexivity]. exfalso. pose proof (proj2 (others_in i (if Nat.eqb i 0 then 1 else 0)%nat)) as Q. rewrite EO in Q. apply Q. destruct (Nat.eqb_spec i 0); lia.
Qed.
(** the constraints of one step *)
Definition step_ok (a : dvar -> R) (t : nat) : Prop := exists q, (q < s)%nat /\ Da s a t = unit s q /\ in_poly (dom_at W q) (Xa nx a t ++ Ua nu a t) /\ Xa nx a (S t) = f_at W nx q (Xa nx a t ++ Ua nu a t).
Definition bin_ok (a : dvar -> R) (t : nat) : Prop := Forall (fun v => a v = 0 \/ a v = 1) (dvars s t).
Lemma step_constraints_ok t : exists cons, step_constraints nx nu s Gs m t = Ok cons /\ forall a, bin_ok a t -> Forall (con_holds a) cons <-> step_ok a t.
Proof.
  unfold step_constraints.
  destruct (mapM_spec (fun i => mapM (mode_row nx nu s m t i (nth i Gs poly0)) (seq 0 (nrows (pA (nth i Gs poly0))))) (seq 0 s)
    (fun i cs => forall a, Forall (con_holds a) cs <-> forall k, (k < length (pb (dom_at W i)) + (nx + nx))%nat ->
       dot (row (pA (nth i Gs poly0)) k) (Xa nx a t ++ Ua nu a t ++ Xa nx a (S t)) <= nth k (pb (nth i Gs poly0)) 0 + ev a (map (fun j => (nth k (nth j (nth i m []) []) 0, VD t j)) (others i)))) as (rs & ER & FR).
  { intros i Hi. apply in_seq in Hi. destruct (HG i ltac:(lia)) as ((LR & _) & _). unfold nrows. rewrite LR. eexists. split.
    - apply mapM_map. intros k Hk. apply in_seq in Hk. apply mode_row_ok; lia.
    - intros a. rewrite Forall_forall. split.
      + intros H k Hk. specialize (H _ (in_map _ _ k (proj2 (in_seq _ _ _) (conj (Nat.le_0_l k) Hk)))). cbn [con_holds] in H. rewrite ev_combine, !map_app in H. exact H.
      + intros H c Hc. apply in_map_iff in Hc. destruct Hc as (k & <- & Hk). apply in_seq in Hk. cbn [con_holds]. rewrite ev_combine, !map_app. apply H. lia. }
  change (Poly (Mat 0 []) [] (Mat 0 []) [] None None None None None) with poly0. rewrite ER. cbn [bind]. eexists. split; [reflexivity|]. intros a BA.
  rewrite Forall_app. rewrite (concat_F2 (con_holds a) (fun i => forall k, (k < length (pb (dom_at W i)) + (nx + nx))%nat ->
       dot (row (pA (nth i Gs poly0)) k) (Xa nx a t ++ Ua nu a t ++ Xa nx a (S t)) <= nth k (pb (nth i Gs poly0)) 0 + ev a (map (fun j => (nth k (nth j (nth i m []) []) 0, VD t j)) (others i))) s rs) by (eapply PolyMore.Forall2_impl; [|exact FR]; cbn beta; auto).
  assert (ES : ev a (map (fun v => (1, v)) (dvars s t)) = dot (ones s) (Da s a t)).
  { assert (G : forall vs, ev a (map (fun v => (1, v)) vs) = dot (ones (length vs)) (map a vs)). { induction vs as [|v vs IH]; [reflexivity|]. cbn. unfold ev in IH. rewrite IH. reflexivity. }
    rewrite G. unfold Da. f_equal. unfold dvars. now rewrite map_length, seq_length. }
  assert (SEL : forall q, (q < s)%nat -> Da s a t = unit s q -> forall i k, ev a (map (fun j => (nth k (nth j (nth i m []) []) 0, VD t j)) (others i)) = if Nat.eqb q i then 0 else nth k (nth q (nth i m []) []) 0).
  { intros q Hq EU i k. rewrite (ev_pick a t (fun j => nth k (nth j (nth i m []) []) 0) q).
    - destruct (in_dec Nat.eq_dec q (others i)) as [I|I]; destruct (Nat.eqb_spec q i) as [N|N]; auto; [apply others_in in I; tauto|]. exfalso. apply I, others_in. auto.
    - apply NoDup_filter, seq_NoDup.
    - intros j Hj. apply others_in in Hj. rewrite <- (Da_nth s a t j) by tauto. rewrite EU. unfold unit. rewrite (nth_indep _ 0 ((fun j => if Nat.eqb j q then 1 else 0) 0%nat)) by (rewrite map_length, seq_length; tauto). rewrite (map_nth (fun j => if Nat.eqb j q then 1 else 0)). rewrite seq_nth by tauto. reflexivity. }
  set (xu := Xa nx a t ++ Ua nu a t) in *. assert (Lxu : length xu = (nx + nu)%nat) by (unfold xu; rewrite app_length, Xa_length, Ua_length; reflexivity). pose proof (Xa_length nx a (S t)) as Lxp.
  assert (ROWS : forall i, (i < s)%nat -> forall k, (k < length (pb (dom_at W i)) + (nx + nx))%nat -> dot (row (pA (nth i Gs poly0)) k) (xu ++ Xa nx a (S t)) = nth k (vsub (mv (pA (nth i Gs poly0)) (xu ++ Xa nx a (S t))) (pb (nth i Gs poly0))) 0 + nth k (pb (nth i Gs poly0)) 0).
  { intros i Hi k Hk. destruct (HG i Hi) as (SG & LG & _). rewrite nth_vsub by (rewrite mv_length, (proj1 SG), LG; reflexivity). rewrite nth_mv. unfold row. lra. }
  split.
  - intros (H1 & H2). inversion H2 as [|? ? H3 _]; subst. cbn [con_holds] in H3. rewrite ES in H3.
    assert (BD : Forall (fun x => x = 0 \/ x = 1) (Da s a t)) by (unfold Da; rewrite Forall_map; exact BA).
    destruct (binary_sum (Da s a t) BD) as (q & Hq & EU); [rewrite Da_length; exact H3|]. rewrite Da_length in Hq, EU. exists q. split; [exact Hq|]. split; [exact EU|]. fold xu.
    apply (graph_mem W nx nu HW HE (nth q Gs poly0) q xu _ Hq (HG q Hq) Lxu Lxp). destruct (HG q Hq) as (SG & LG & _). apply vle_vsub. rewrite mv_length, (proj1 SG), LG. split; [reflexivity|]. intros k Hk.
    pose proof (H1 q Hq k Hk) as Q. rewrite (SEL q Hq EU), Nat.eqb_refl in Q. rewrite app_assoc in Q. fold xu in Q. rewrite (ROWS q Hq k Hk) in Q. lra.
  - intros (q & Hq & EU & IX & EX). fold xu in IX, EX. split.
    + intros i Hi k Hk. rewrite (SEL q Hq EU). rewrite app_assoc. fold xu. rewrite (ROWS i Hi k Hk). destruct (HG i Hi) as (SG & LG & HGi).
      destruct (Nat.eqb_spec q i) as [->|N].
      * pose proof (proj2 (graph_mem W nx nu HW HE _ i _ _ Hi (HG i Hi) Lxu Lxp) (conj IX EX)) as V. apply vle_vsub in V. destruct V as (_ & V). rewrite mv_length, (proj1 SG) in V. specialize (V k Hk). lra.
      * pose proof (HM i q k _ Hi Hq Hk IX) as V. unfold violation in V. rewrite <- EX in V. rewrite <- (HGi _ _ Lxu Lxp) in V. lra.
    + constructor; [|constructor]. cbn [con_holds]. rewrite ES, EU. rewrite dot_ones_unit by exact Hq. reflexivity.
Qed.
End Prog.

(** ** argmax *)
Lemma argmax_from_zero l : forall i b, argmax_from i b 1 (map (fun _ : nat => 0) l) = b.
Proof. induction l as [|x l IH]; intros i b; [reflexivity|]. cbn [map argmax_from]. assert (E : Rltb 1 0 = false) by (apply Rltb_false; lra). rewrite E. apply IH. Qed.
Lemma argmax_unit s q : (q < s)%nat -> argmax (unit s q) = Ok q.
Proof.
  intros Hq. destruct s as [|s]; [lia|]. unfold unit. cbn [seq map argmax]. f_equal. destruct q as [|q].
  - cbn [Nat.eqb]. rewrite (map_ext_in _ (fun _ => 0)) by (intros j Hj; apply in_seq in Hj; destruct (Nat.eqb_spec j 0); [lia|reflexivity]). apply argmax_from_zero.
  - cbn [Nat.eqb]. assert (G : forall n i b, (i <= S q < i + n)%nat -> argmax_from i b 0 (map (fun j => if Nat.eqb j (S q) then 1 else 0) (seq i n)) = S q).
    { induction n as [|n IH]; intros i b H; [lia|]. cbn [seq map argmax_from]. destruct (Nat.eqb_spec i (S q)) as [->|N].
      - assert (E : Rltb 0 1 = true) by (apply Rltb_true; lra). rewrite E. rewrite (map_ext_in _ (fun _ => 0)) by (intros j Hj; apply in_seq in Hj; destruct (Nat.eqb_spec j (S q)); [lia|reflexivity]). apply argmax_from_zero.
      - assert (E : Rltb 0 0 = false) by (apply Rltb_false; lra). rewrite E. apply IH. lia. }
    apply G. lia.
Qed.
(** what is assumed of drake's solver: it returns a minimizer, or there is none *)
Definition drake_ok (p : dprog) (r : option (dvar -> R)) : Prop :=
  match r with
  | Some a => d_feasible p a /\ forall a', d_feasible p a' -> d_objective p a <= d_objective p a'
  | None => ~ exists a, d_feasible p a /\ forall a', d_feasible p a' -> d_objective p a <= d_objective p a'
  end.
Definition example_data (W : pwa) (N : nat) (Q Rm P : mat) (X_N : poly) (nx nu mN meN : nat) : Prop :=
  hyb_data W nx nu /\ hyb_domains W /\ no_eqs W X_N /\ (2 <= length (w_sys W))%nat /\ sharp_gaps W nx /\ shape Q nx nx /\ shape P nx nx /\ shape Rm nu nu /\ wf X_N mN meN nx.
Definition cost_of (nx nu : nat) (Q Rm P : mat) (N : nat) (a : dvar -> R) : R :=
  sum_upto (fun t => / 2 * (dot (Xa nx a t) (mv Q (Xa nx a t)) + dot (Ua nu a t) (mv Rm (Ua nu a t)))) N + / 2 * dot (Xa nx a N) (mv P (Xa nx a N)).
Lemma built np W N Q Rm P X_N nx nu mN meN : exact_np np -> example_data W N Q Rm P X_N nx nu mN meN ->
  exists prog, ExampleController np W N Q Rm P X_N = Ok (ECtrl W N prog) /\
  forall x0, length x0 = nx -> exists prog', set_initial_condition (ECtrl W N prog) x0 = Ok prog' /\ forall a,
    (d_feasible prog' a <-> Xa nx a 0 = x0 /\ (forall t, (t < N)%nat -> step_ok W nx nu a t) /\ in_poly X_N (Xa nx a N)) /\
    d_objective prog' a = cost_of nx nu Q Rm P N a.
Proof.
  intros ENP (HW & HD & (HE & HX) & S2 & SG & SQ & SP & SR & WX). pose proof HW as (EW & EU & _).
  destruct (graphs_ok W nx nu HW) as (Gs & E1 & LG & HG). destruct (big_m_ok np W nx nu ENP HW HD HE Gs LG HG SG) as (m & E2 & HM).
  set (s := length (w_sys W)) in *.
  destruct (mapM_spec (step_constraints nx nu s Gs m) (seq 0 N) (fun t c => forall a, bin_ok W a t -> Forall (con_holds a) c <-> step_ok W nx nu a t)) as (cons & E3 & F3).
  { intros t _. apply (step_constraints_ok W nx nu HW HE S2 Gs m HG HM). }
  destruct (mapM_spec (step_cost nx nu Q Rm) (seq 0 N) (fun t c => forall a, dval a c = / 2 * (dot (Xa nx a t) (mv Q (Xa nx a t)) + dot (Ua nu a t) (mv Rm (Ua nu a t))))) as (costs & E4 & F4).
  { intros t _. unfold step_cost. destruct (quad_dot_ok (fun _ => 0) (/ 2) Rm (uvars nu t) nu SR) as (e1 & Q1 & _); [unfold uvars; now rewrite map_length, seq_length|]. destruct (quad_dot_ok (fun _ => 0) (/ 2) Q (xvars nx t) nx SQ) as (e2 & Q2 & _); [unfold xvars; now rewrite map_length, seq_length|].
    rewrite Q1. cbn [bind]. rewrite Q2. cbn [bind]. eexists. split; [reflexivity|]. intros a. destruct (quad_dot_ok a (/ 2) Rm (uvars nu t) nu SR) as (e1' & Q1' & V1); [unfold uvars; now rewrite map_length, seq_length|]. destruct (quad_dot_ok a (/ 2) Q (xvars nx t) nx SQ) as (e2' & Q2' & V2); [unfold xvars; now rewrite map_length, seq_length|].
    rewrite Q1 in Q1'. rewrite Q2 in Q2'. injection Q1' as <-. injection Q2' as <-. unfold dval in *. rewrite d_app, V1, V2. unfold Xa, Ua. lra. }
  set (TC := fun k => DLe (combine (row (pA X_N) k) (xvars nx N)) (nth k (pb X_N) 0) []).
  assert (E5 : mapM (fun k => e <- lin_dot (row (pA X_N) k) (xvars nx N) ;; Ok (DLe e (nth k (pb X_N) 0) [])) (seq 0 (nrows (pA X_N))) = Ok (map TC (seq 0 mN))).
  { unfold nrows. rewrite (proj1 (proj1 WX)). apply mapM_map. intros k Hk. apply in_seq in Hk. unfold lin_dot. rewrite (shape_row _ _ _ k (proj1 WX)) by lia. unfold xvars at 1. rewrite map_length, seq_length, Nat.eqb_refl. reflexivity. }
  destruct (quad_dot_ok (fun _ => 0) (/ 2) P (xvars nx N) nx SP) as (e5 & Q5 & _); [unfold xvars; now rewrite map_length, seq_length|].
  eexists. split.
  - unfold ExampleController. rewrite E1. cbn [bind]. rewrite E2. cbn [bind]. rewrite EW, EU. fold s. rewrite E3. cbn [bind]. rewrite E4. cbn [bind]. rewrite E5. cbn [bind]. rewrite Q5. cbn [bind]. reflexivity.
  - intros x0 Lx0. unfold set_initial_condition. cbn [ec_S ec_prog d_con d_bin d_obj]. rewrite EW, Lx0, Nat.ltb_irrefl. eexists. split; [reflexivity|]. intros a. split.
    + unfold d_feasible. cbn [d_con d_bin]. rewrite !Forall_app.
      assert (BIN : Forall (fun v => a v = 0 \/ a v = 1) (flat_map (dvars s) (seq 0 N)) <-> forall t, (t < N)%nat -> bin_ok W a t).
      { rewrite Forall_flat_map, Forall_forall. unfold bin_ok. fold s. split; [intros H t Ht; apply H; apply in_seq; lia|intros H t Ht; apply in_seq in Ht; apply H; lia]. }
      rewrite BIN.
      assert (INI : Forall (con_holds a) (map (fun k => DEq [(1, VX 0 k)] (nth k x0 0)) (seq 0 nx)) <-> Xa nx a 0 = x0).
      { rewrite Forall_map, Forall_forall. assert (XN : forall k, (k < nx)%nat -> nth k (Xa nx a 0) 0 = a (VX 0 k)).
        { intros k Hk. unfold Xa, xvars. rewrite map_map. rewrite (nth_indep _ 0 (a (VX 0 0))) by (rewrite map_length, seq_length; exact Hk). rewrite (map_nth (fun i => a (VX 0 i))). rewrite seq_nth by exact Hk. reflexivity. }
        split.
        - intros H. apply vec_ext; [rewrite Xa_length; lia|]. rewrite Xa_length. intros k Hk. specialize (H k ltac:(apply in_seq; lia)). cbn in H. rewrite XN by exact Hk. lra.
        - intros <- k Hk. apply in_seq in Hk. cbn. rewrite XN by lia. lra. }
      rewrite INI.
      assert (TER : Forall (con_holds a) (map TC (seq 0 mN)) <-> in_poly X_N (Xa nx a N)).
      { rewrite Forall_map, Forall_forall. unfold in_poly. rewrite in_set_vle, (proj1 (proj2 (proj1 WX))), vle_nth, mv_length, (proj1 (proj1 WX)). destruct WX as (WA & Wb & (LC & _) & Ld). split.
        - intros H. split; [apply Xa_length|]. split; [|rewrite HX in *; cbn in Ld; apply length_zero_iff_nil; rewrite mv_length; lia]. split; [lia|]. intros k Hk. specialize (H k ltac:(apply in_seq; lia)). cbn in H. rewrite ev_combine in H. rewrite nth_mv. unfold row in H. unfold Xa. lra.
        - intros (_ & (_ & H) & _) k Hk. apply in_seq in Hk. specialize (H k ltac:(lia)). cbn. rewrite ev_combine. rewrite nth_mv in H. unfold row. unfold Xa in H. lra. }
      rewrite TER. split.
      * intros ((H1 & H2 & H3) & HB). split; [exact H1|]. split; [|exact H3]. apply (concat_F2 (con_holds a) (step_ok W nx nu a) N cons); [|exact H2]. clear - F3 HB.
        assert (G : forall l cs, Forall2 (fun t c => forall a, bin_ok W a t -> Forall (con_holds a) c <-> step_ok W nx nu a t) l cs -> (forall t, In t l -> (t < N)%nat) -> Forall2 (fun t c => Forall (con_holds a) c <-> step_ok W nx nu a t) l cs).
        { induction 1 as [|t c l cs H F IH]; intros HL; constructor; [apply H, HB, HL; left; reflexivity|apply IH; intros; apply HL; right; assumption]. }
        apply G; [exact F3|]. intros t Ht. apply in_seq in Ht. lia.
      * intros (H1 & H2 & H3). assert (HB : forall t, (t < N)%nat -> bin_ok W a t).
        { intros t Ht. destruct (H2 t Ht) as (q & Hq & EQ & _). unfold bin_ok. fold s. assert (B : Forall (fun x => x = 0 \/ x = 1) (Da s a t)) by (change (Da s a t) with (Da (length (w_sys W)) a t); rewrite EQ; unfold unit; rewrite Forall_map, Forall_forall; intros j _; destruct (Nat.eqb j q); auto). unfold Da in B. rewrite Forall_map in B. exact B. }
        split; [|exact HB]. split; [exact H1|]. split; [|exact H3]. apply (concat_F2 (con_holds a) (step_ok W nx nu a) N cons); [|exact H2]. clear - F3 HB.
        assert (G : forall l cs, Forall2 (fun t c => forall a, bin_ok W a t -> Forall (con_holds a) c <-> step_ok W nx nu a t) l cs -> (forall t, In t l -> (t < N)%nat) -> Forall2 (fun t c => Forall (con_holds a) c <-> step_ok W nx nu a t) l cs).
        { induction 1 as [|t c l cs H F IH]; intros HL; constructor; [apply H, HB, HL; left; reflexivity|apply IH; intros; apply HL; right; assumption]. }
        apply G; [exact F3|]. intros t Ht. apply in_seq in Ht. lia.
    + unfold d_objective. cbn [d_obj]. rewrite d_app. fold (dval a (List.concat costs)). fold (dval a e5). destruct (quad_dot_ok a (/ 2) P (xvars nx N) nx SP) as (e5' & Q5' & V5); [unfold xvars; now rewrite map_length, seq_length|]. rewrite Q5 in Q5'. injection Q5' as <-. rewrite V5. unfold cost_of. f_equal.
      apply (concat_dval a). eapply PolyMore.Forall2_impl; [|exact F4]. cbn beta. auto.
Qed.

(** ** Runs *)
Definition modes_of (s : nat) (a : dvar -> R) (N : nat) : list nat := map (fun t => match argmax (Da s a t) with Ok q => q | Err _ => 0%nat end) (seq 0 N).
Definition us_of nu (a : dvar -> R) (N : nat) : list vec := map (Ua nu a) (seq 0 N).
Definition xs_of nx (a : dvar -> R) (N : nat) : list vec := map (Xa nx a) (seq 0 (S N)).
Lemma nth_map_seq' {A} (f : nat -> A) n d t : (t < n)%nat -> nth t (map f (seq 0 n)) d = f t.
Proof. intros H. rewrite (nth_indep _ d (f 0%nat)) by (rewrite map_length, seq_length; exact H). rewrite map_nth, seq_nth by exact H. reflexivity. Qed.
Definition run_of (W : pwa) (X_N : poly) (nu N : nat) := pwa_admissible (map aA (w_sys W)) (map aB (w_sys W)) (map ac (w_sys W)) (map in_poly (w_dom W)) (in_poly X_N) nu N.
Lemma f_step W nx q x u : (q < length (w_sys W))%nat -> length x = nx -> affine_step (nth q (map aA (w_sys W)) (Mat 0 [])) (nth q (map aB (w_sys W)) (Mat 0 [])) (nth q (map ac (w_sys W)) []) x u = f_at W nx q (x ++ u).
Proof.
  intros Hq Lx. unfold f_at, sys_at. rewrite firstn_app, skipn_app, Lx, Nat.sub_diag, firstn_O, skipn_O, app_nil_r. rewrite firstn_all2, skipn_all2 by lia. cbn [app].
  rewrite (nth_indep _ (Mat 0 []) (aA asys0)) by (rewrite map_length; exact Hq). rewrite (nth_indep (map aB (w_sys W)) (Mat 0 []) (aB asys0)) by (rewrite map_length; exact Hq). rewrite (nth_indep (map ac (w_sys W)) [] (ac asys0)) by (rewrite map_length; exact Hq). rewrite !map_nth. reflexivity.
Qed.
Lemma run_from W X_N nx nu N a : hyb_data W nx nu -> (forall t, (t < N)%nat -> step_ok W nx nu a t) -> in_poly X_N (Xa nx a N) ->
  run_of W X_N nu N (Xa nx a 0) (us_of nu a N) (modes_of (length (w_sys W)) a N) (xs_of nx a N) /\ mapM (fun t => argmax (map a (dvars (length (w_sys W)) t))) (seq 0 N) = Ok (modes_of (length (w_sys W)) a N).
Proof.
  intros HW HS HX. set (s := length (w_sys W)) in *. pose proof HW as (_ & _ & _ & LD & _). fold s in LD.
  assert (LU : length (us_of nu a N) = N) by (unfold us_of; now rewrite map_length, seq_length). assert (LM : length (modes_of s a N) = N) by (unfold modes_of; now rewrite map_length, seq_length).
  assert (MN : forall t, (t < N)%nat -> exists q, nth t (modes_of s a N) 0%nat = q /\ argmax (Da s a t) = Ok q /\ (q < s)%nat /\ in_poly (dom_at W q) (Xa nx a t ++ Ua nu a t) /\ Xa nx a (S t) = f_at W nx q (Xa nx a t ++ Ua nu a t)).
  { intros t Ht. destruct (HS t Ht) as (q & Hq & EU & H1 & H2). fold s in Hq, EU. exists q. assert (EQ : argmax (Da s a t) = Ok q) by (etransitivity; [apply f_equal; exact EU|apply argmax_unit; exact Hq]). unfold modes_of. rewrite nth_map_seq' by exact Ht. rewrite EQ. auto. }
  split.
  - split; [exact LU|]. split; [unfold us_of; rewrite Forall_map, Forall_forall; intros; apply Ua_length|]. split; [exact LM|]. split; [|split; [split; [|split]|split]].
    + intros q Hq. apply (In_nth _ _ 0%nat) in Hq. destruct Hq as (t & Ht & <-). rewrite LM in Ht. destruct (MN t Ht) as (q & -> & _ & Hq & _). rewrite map_length. exact Hq.
    + unfold xs_of. rewrite map_length, seq_length, LU. reflexivity.
    + reflexivity.
    + rewrite LU. intros t Ht. destruct (MN t Ht) as (q & -> & _ & Hq & _ & EX). cbv zeta. unfold xs_of, us_of. rewrite !nth_map_seq' by lia. rewrite (f_step W nx q) by (auto; apply Xa_length). exact EX.
    + rewrite LU. intros t Ht. destruct (MN t Ht) as (q & -> & _ & Hq & IX & _). unfold xs_of, us_of. rewrite !nth_map_seq' by lia. rewrite nth_doms by lia. exact IX.
    + rewrite LU. unfold xs_of. rewrite nth_map_seq' by lia. exact HX.
  - apply mapM_map. intros t Ht. apply in_seq in Ht. destruct (MN t ltac:(lia)) as (q & _ & EA & _). unfold Da in EA. unfold Da. rewrite EA. reflexivity.
Qed.
Definition assign (us : list vec) (modes : list nat) (xs : list vec) (v : dvar) : R :=
  match v with VX t k => nth k (nth t xs []) 0 | VU t k => nth k (nth t us []) 0 | VD t i => if Nat.eqb i (nth t modes 0%nat) then 1 else 0 end.
Lemma nth_seq_self (v : vec) n : length v = n -> map (fun k => nth k v 0) (seq 0 n) = v.
Proof. intros <-. apply vec_ext; [now rewrite map_length, seq_length|]. rewrite map_length, seq_length. intros i Hi. apply (nth_map_seq' (fun k => nth k v 0)). exact Hi. Qed.
Lemma run_to W X_N nx nu N x0 us modes xs : hyb_data W nx nu -> length x0 = nx -> run_of W X_N nu N x0 us modes xs -> let a := assign us modes xs in
  Xa nx a 0 = x0 /\ (forall t, (t < N)%nat -> step_ok W nx nu a t) /\ in_poly X_N (Xa nx a N) /\ us_of nu a N = us /\ xs_of nx a N = xs.
Proof.
  intros HW Lx0 (Lu & FU & Lm & HMo & (Lxs & E0 & TR) & (ST & TE)) a. pose proof HW as (_ & _ & (_ & HS) & LD & _). rewrite Lu in *. rewrite map_length in HMo.
  assert (HMt : forall t, (t < N)%nat -> (nth t modes 0%nat < length (w_sys W))%nat) by (intros t Ht; apply HMo, nth_In; lia).
  assert (XL : forall t, (t <= N)%nat -> length (nth t xs []) = nx).
  { intros [|t] Ht; [congruence|]. rewrite (TR t) by lia. cbv zeta. destruct (HS (sys_at W (nth t modes 0%nat)) ltac:(apply nth_In; apply HMt; lia)) as (((LA & _) & (LB & _)) & Lc). pose proof (HMt t ltac:(lia)) as Hm.
    rewrite (nth_indep _ (Mat 0 []) (aA asys0)) by (rewrite map_length; exact Hm). rewrite (nth_indep (map aB (w_sys W)) (Mat 0 []) (aB asys0)) by (rewrite map_length; exact Hm). rewrite (nth_indep (map ac (w_sys W)) [] (ac asys0)) by (rewrite map_length; exact Hm). rewrite !map_nth. fold (sys_at W (nth t modes 0%nat)).
    unfold affine_step, vadd. rewrite !map2_length, !mv_length, LA, LB, Lc. lia. }
  assert (UL : forall t, (t < N)%nat -> length (nth t us []) = nu) by (intros t Ht; rewrite Forall_forall in FU; apply FU, nth_In; lia).
  assert (XE : forall t, (t <= N)%nat -> Xa nx a t = nth t xs []) by (intros t Ht; unfold Xa, xvars; rewrite map_map; cbn [assign a]; apply nth_seq_self, XL, Ht).
  assert (UE : forall t, (t < N)%nat -> Ua nu a t = nth t us []) by (intros t Ht; unfold Ua, uvars; rewrite map_map; cbn [assign a]; apply nth_seq_self, UL, Ht).
  split; [rewrite XE by lia; exact E0|]. split; [|split; [rewrite XE by lia; exact TE|split]].
  - intros t Ht. exists (nth t modes 0%nat). split; [apply HMt, Ht|]. split; [unfold Da, dvars; rewrite map_map; reflexivity|]. rewrite !XE, UE by lia. specialize (ST t Ht). cbn beta in ST. rewrite nth_doms in ST by (rewrite LD; apply HMt, Ht). split; [exact ST|]. rewrite (TR t Ht). cbv zeta. apply f_step; [apply HMt, Ht|apply XL; lia].
  - apply nth_ext with (d := []) (d' := []); [unfold us_of; rewrite map_length, seq_length; lia|]. unfold us_of. rewrite map_length, seq_length. intros t Ht. rewrite nth_map_seq' by exact Ht. apply UE, Ht.
  - apply nth_ext with (d := []) (d' := []); [unfold xs_of; rewrite map_length, seq_length; lia|]. unfold xs_of. rewrite map_length, seq_length. intros t Ht. rewrite nth_map_seq' by exact Ht. apply XE. lia.
Qed.
Lemma cost_run nx nu Q Rm P N a : cost_of nx nu Q Rm P N a = trajectory_cost Q Rm P (us_of nu a N) (xs_of nx a N).
Proof.
  unfold trajectory_cost. assert (LU : length (us_of nu a N) = N) by (unfold us_of; now rewrite map_length, seq_length). rewrite LU. unfold cost_of. f_equal.
  - assert (G : forall n f g, (forall t, (t < n)%nat -> f t = g t) -> sum_upto f n = sum_upto g n). { induction n as [|n IH]; intros f g H; [reflexivity|]. cbn. rewrite (IH f g), (H n) by (auto with arith). reflexivity. }
    apply G. intros t Ht. unfold us_of, xs_of. rewrite !nth_map_seq' by lia. reflexivity.
  - unfold xs_of. rewrite nth_map_seq' by lia. reflexivity.
Qed.
(*@ Theorem C57_example_controller : the hybrid controller of the examples (drake version), for at least two modes, non-empty bounded domains without equalities, big-M constants that are not positive and below 1e-6: it is built; when drake solves its program exactly, feedforward returns inputs, states and modes of an admissible run whose cost with the terminal cost P -- the number returned -- is minimal over all input and mode sequences, or None when no run has minimal cost (with Q, P symmetric positive semidefinite and R positive definite: when there is no admissible run); feedback returns the first input. *)
Lemma example_optimal np drake W N Q Rm P X_N nx nu mN meN : exact_np np -> hyb_data W nx nu -> (0 < N)%nat -> hyb_domains W -> (2 <= length (w_sys W))%nat -> sharp_gaps W nx ->
  shape Q nx nx -> shape P nx nx -> shape Rm nu nu -> wf X_N mN meN nx -> no_eqs W X_N ->
  exists C, ExampleController np W N Q Rm P X_N = Ok C /\ forall x, length x = nx -> exists prog, set_initial_condition C x = Ok prog /\ (drake_ok prog (drake prog) ->
  let run := pwa_admissible (map aA (w_sys W)) (map aB (w_sys W)) (map ac (w_sys W)) (map in_poly (w_dom W)) (in_poly X_N) nu N x in
  let optimal := pwa_optimal (map aA (w_sys W)) (map aB (w_sys W)) (map ac (w_sys W)) (map in_poly (w_dom W)) (in_poly X_N) Q Rm P nu N x in
  (exists us xs modes, example_feedforward drake C x = Ok (Some (us, xs, modes, trajectory_cost Q Rm P us xs)) /\ optimal us modes xs /\ example_feedback drake C x = Ok (Some (nth 0 us []))) \/
  (example_feedforward drake C x = Ok None /\ example_feedback drake C x = Ok None /\ (forall us modes xs, ~ optimal us modes xs) /\
   (hyb_costs Q Rm P nx nu -> forall us modes xs, ~ run us modes xs))).
Proof.
  intros ENP HW HN HD S2 SG SQ SP SR WX NE. destruct (built np W N Q Rm P X_N nx nu mN meN ENP) as (prog & EC & HP); [unfold example_data; tauto|].
  exists (ECtrl W N prog). split; [exact EC|]. intros x Lx. destruct (HP x Lx) as (prog' & EI & HF). exists prog'. split; [exact EI|]. intros DO run optimal. pose proof HW as (EW & EU & _).
  unfold example_feedback, example_feedforward. rewrite EI. cbn [bind ec_S ec_N]. rewrite EW, EU. destruct (drake prog') as [a|]; cbn [drake_ok] in DO.
  - left. destruct DO as (FA & OA). destruct (HF a) as (F1 & F2). apply F1 in FA. destruct FA as (A0 & AS & AX). destruct (run_from W X_N nx nu N a HW AS AX) as (RN & EM). rewrite EM. cbn [bind].
    rewrite A0 in RN. exists (us_of nu a N), (xs_of nx a N), (modes_of (length (w_sys W)) a N). split; [|split; [split|]].
    + rewrite F2, cost_run. reflexivity.
    + exact RN.
    + intros us' modes' xs' R'. destruct (run_to W X_N nx nu N x us' modes' xs' HW Lx R') as (B0 & BS & BX & EUs & EXs). set (a' := assign us' modes' xs') in *. pose proof (OA a' (proj2 (proj1 (HF a')) (conj B0 (conj BS BX)))) as O. rewrite (proj2 (HF a)), (proj2 (HF a')), !cost_run, EUs, EXs in O. exact O.
    + unfold us_of. destruct N as [|N']; [lia|]. reflexivity.
  - right. split; [reflexivity|]. split; [reflexivity|]. assert (NO : forall us modes xs, ~ optimal us modes xs).
    { intros us modes xs (RN & OPT). apply DO. destruct (run_to W X_N nx nu N x us modes xs HW Lx RN) as (B0 & BS & BX & EUs & EXs). set (a := assign us modes xs) in *. exists a. split; [apply HF; auto|]. intros a' FA'. apply HF in FA'. destruct FA' as (A0' & AS' & AX'). destruct (run_from W X_N nx nu N a' HW AS' AX') as (RN' & _). rewrite A0' in RN'. rewrite (proj2 (HF a)), (proj2 (HF a')), !cost_run, EUs, EXs. apply (OPT _ _ _ RN'). }
    split; [exact NO|]. intros HC us modes xs A. destruct (optimal_run_exists W Q Rm P X_N N nx nu mN meN x HW WX HC NE HN Lx) as (us0 & ms0 & xs0 & A0 & M0); [exists us, modes, xs; unfold admissible; rewrite EU; exact A|].
    apply (NO us0 ms0 xs0). unfold admissible in A0, M0. rewrite EU in A0, M0. split; [exact A0|exact M0].
Qed.
(*@ Theorem C57_one_mode_refuted : for a system with a single mode (and a domain or a state) the program is never built: np.sum of no arrays is a scalar and indexing it raises IndexError *)
Lemma one_mode np W N Q Rm P X_N nx nu : exact_np np -> hyb_data W nx nu -> (0 < nx)%nat -> (0 < N)%nat -> hyb_domains W -> (forall D, In D (w_dom W) -> Polyhedron.pd D = []) -> sharp_gaps W nx -> length (w_sys W) = 1%nat ->
  ExampleController np W N Q Rm P X_N = Err IndexError.
Proof.
  intros ENP HW Hnx HN HD HE SG S1. pose proof HW as (EW & EU & _). destruct (graphs_ok W nx nu HW) as (Gs & E1 & LG & HG). destruct (big_m_ok np W nx nu ENP HW HD HE Gs LG HG SG) as (m & E2 & HM).
  unfold ExampleController. rewrite E1. cbn [bind]. rewrite E2. cbn [bind]. rewrite EW, EU, S1. destruct N as [|N']; [lia|]. cbn [seq mapM]. unfold step_constraints. cbn [seq mapM].
  change (Poly (Mat 0 []) [] (Mat 0 []) [] None None None None None) with poly0. destruct (HG 0%nat ltac:(lia)) as (SH & _). unfold nrows. rewrite (proj1 SH). destruct (length (pb (dom_at W 0)) + (nx + nx))%nat as [|k] eqn:EK; [lia|]. cbn [seq mapM].
  unfold mode_row, lin_dot. rewrite (shape_row _ _ _ 0 SH) by lia. assert (LV : length (xvars nx 0 ++ uvars nu 0 ++ xvars nx 1) = (nx + (nu + nx))%nat) by (unfold xvars, uvars; rewrite !app_length, !map_length, !seq_length; reflexivity). rewrite LV, Nat.eqb_refl. reflexivity.
Qed.
(*@ Theorem C57_uses_Q : whatever P is, Controller is the controller with terminal cost Q *)
Lemma controller_ignores_P np W N Q Rm P P' X_N : Controller np W N Q Rm P X_N = Controller np W N Q Rm P' X_N /\ Controller np W N Q Rm Q X_N = ExampleController np W N Q Rm Q X_N.
Proof. split; reflexivity. Qed.

(** ** An example: the system W2 with two modes *)
Lemma greatest_unique (S : vec -> Prop) g v w : greatest S g v -> greatest S g w -> v = w.
Proof. intros ((x & Sx & <-) & H1) ((y & Sy & <-) & H2). pose proof (H1 y Sy). pose proof (H2 x Sx). lra. Qed.
Lemma not_tiny S g v w : greatest S g w -> w <= 0 \/ tol6 <= w -> greatest S g v -> v <= 0 \/ tol6 <= v.
Proof. intros H1 H2 H3. rewrite (greatest_unique _ _ _ _ H3 H1). exact H2. Qed.
Lemma D_L_greatest g a c w : (forall x u, g [x; u] = a * x + c) -> w = Rmax c (c - a) -> greatest (in_poly D_L) g w.
Proof.
  intros E ->. split.
  - destruct (Rle_dec c (c - a)) as [L|L].
    + exists [-1; 0]. split; [apply in_D_L; eexists _, _; split; [reflexivity|lra]|]. rewrite E, Rmax_right by lra. lra.
    + exists [0; 0]. split; [apply in_D_L; eexists _, _; split; [reflexivity|lra]|]. rewrite E, Rmax_left by lra. lra.
  - intros xu I. apply in_D_L in I. destruct I as (x & u & -> & B & _). rewrite E. destruct (Rle_dec c (c - a)) as [L|L]; [rewrite Rmax_right by lra|rewrite Rmax_left by lra]; nra.
Qed.
Lemma D_R_greatest g a c w : (forall x u, g [x; u] = a * x + c) -> w = Rmax c (c + a) -> greatest (in_poly D_R) g w.
Proof.
  intros E ->. split.
  - destruct (Rle_dec c (c + a)) as [L|L].
    + exists [1; 0]. split; [apply in_D_R; eexists _, _; split; [reflexivity|lra]|]. rewrite E, Rmax_right by lra. lra.
    + exists [0; 0]. split; [apply in_D_R; eexists _, _; split; [reflexivity|lra]|]. rewrite E, Rmax_left by lra. lra.
  - intros xu I. apply in_D_R in I. destruct I as (x & u & -> & B & _). rewrite E. destruct (Rle_dec c (c + a)) as [L|L]; [rewrite Rmax_right by lra|rewrite Rmax_left by lra]; nra.
Qed.
Lemma W2_u_greatest g b c j w : (forall x u, g [x; u] = b * u + c) -> w = Rabs b + c -> greatest (in_poly (if Nat.eqb j 0 then D_L else D_R)) g w.
Proof.
  intros E ->. split.
  - destruct (Rle_dec 0 b) as [L|L].
    + exists [0; 1]. split; [destruct (Nat.eqb j 0); [apply in_D_L|apply in_D_R]; eexists _, _; (split; [reflexivity|lra])|]. rewrite E, Rabs_pos_eq by lra. lra.
    + exists [0; -1]. split; [destruct (Nat.eqb j 0); [apply in_D_L|apply in_D_R]; eexists _, _; (split; [reflexivity|lra])|]. rewrite E, Rabs_left by lra. lra.
  - intros xu I. assert (exists x u, xu = [x; u] /\ -1 <= u <= 1) as (x & u & -> & B) by (destruct (Nat.eqb j 0); [apply in_D_L in I|apply in_D_R in I]; destruct I as (x & u & -> & B); exists x, u; (split; [reflexivity|lra])). rewrite E. unfold Rabs. destruct (Rcase_abs b); nra.
Qed.
Lemma W2_gaps : sharp_gaps W2 1.
Proof.
  assert (T : 0 < tol6 <= 1) by (unfold tol6; lra).
  assert (KL : forall g a c v, (forall x u, g [x; u] = a * x + c) -> Rmax c (c - a) <= 0 \/ 1 <= Rmax c (c - a) -> greatest (in_poly D_L) g v -> v <= 0 \/ tol6 <= v).
  { intros g a c v E H G. rewrite (greatest_unique _ _ _ _ G (D_L_greatest g a c _ E eq_refl)). lra. }
  assert (KR : forall g a c v, (forall x u, g [x; u] = a * x + c) -> Rmax c (c + a) <= 0 \/ 1 <= Rmax c (c + a) -> greatest (in_poly D_R) g v -> v <= 0 \/ tol6 <= v).
  { intros g a c v E H G. rewrite (greatest_unique _ _ _ _ G (D_R_greatest g a c _ E eq_refl)). lra. }
  assert (KU : forall j g b c v, (forall x u, g [x; u] = b * u + c) -> Rabs b + c <= 0 \/ 1 <= Rabs b + c -> greatest (in_poly (if Nat.eqb j 0 then D_L else D_R)) g v -> v <= 0 \/ tol6 <= v).
  { intros j g b c v E H G. rewrite (greatest_unique _ _ _ _ G (W2_u_greatest g b c j _ E eq_refl)). lra. }
  intros i j Hi Hj v. cbn [W2 w_sys length] in Hi, Hj.
  assert (EF : forall i x u, (i < 2)%nat -> f_at W2 1 i [x; u] = [(if Nat.eqb i 0 then 1 else -1) * x + u]).
  { intros [|[|]] x u H; try lia; unfold f_at, affine_step; cbn; f_equal; ring. }
  assert (KX : forall g a c, (forall x u, g [x; u] = a * x + c) -> (Rmax c (c - a) <= 0 \/ 1 <= Rmax c (c - a)) -> (Rmax c (c + a) <= 0 \/ 1 <= Rmax c (c + a)) -> greatest (in_poly (dom_at W2 j)) g v -> v <= 0 \/ tol6 <= v).
  { intros g a c E H1 H2. destruct j as [|[|]]; [| |lia]; unfold dom_at; cbn [W2 w_dom nth]; [apply (KL g a c v E H1)|apply (KR g a c v E H2)]. }
  assert (KV : forall g b c, (forall x u, g [x; u] = b * u + c) -> Rabs b + c <= 0 \/ 1 <= Rabs b + c -> greatest (in_poly (dom_at W2 j)) g v -> v <= 0 \/ tol6 <= v).
  { intros g b c E H. destruct j as [|[|]]; [| |lia]; unfold dom_at; cbn [W2 w_dom nth]; [apply (KU 0%nat g b c v E H)|apply (KU 1%nat g b c v E H)]. }
  assert (A1 : Rabs 1 = 1) by (apply Rabs_R1). assert (A2 : Rabs (-1) = 1) by (rewrite Rabs_left; lra).
  split; [|split].
  - intros r Hr. destruct i as [|[|]]; [| |lia]; unfold dom_at at 1 in Hr; cbn in Hr; (destruct r as [|[|[|[|]]]]; [| | | |lia]).
    + apply (KX _ 1 0); [intros; cbn; ring|unfold Rmax; destruct (Rle_dec _ _); lra|unfold Rmax; destruct (Rle_dec _ _); lra].
    + apply (KX _ (-1) (-1)); [intros; cbn; ring|unfold Rmax; destruct (Rle_dec _ _); lra|unfold Rmax; destruct (Rle_dec _ _); lra].
    + apply (KV _ 1 (-1)); [intros; cbn; ring|lra].
    + apply (KV _ (-1) (-1)); [intros; cbn; ring|lra].
    + apply (KX _ 1 (-1)); [intros; cbn; ring|unfold Rmax; destruct (Rle_dec _ _); lra|unfold Rmax; destruct (Rle_dec _ _); lra].
    + apply (KX _ (-1) 0); [intros; cbn; ring|unfold Rmax; destruct (Rle_dec _ _); lra|unfold Rmax; destruct (Rle_dec _ _); lra].
    + apply (KV _ 1 (-1)); [intros; cbn; ring|lra].
    + apply (KV _ (-1) (-1)); [intros; cbn; ring|lra].
  - intros r Hr. replace r with 0%nat by lia. apply (KX _ ((if Nat.eqb i 0 then 1 else -1) - (if Nat.eqb j 0 then 1 else -1)) 0); [intros; rewrite !EF by assumption; cbn [nth]; ring|..]; destruct (Nat.eqb i 0), (Nat.eqb j 0); unfold Rmax; destruct (Rle_dec _ _); lra.
  - intros r Hr. replace r with 0%nat by lia. apply (KX _ ((if Nat.eqb j 0 then 1 else -1) - (if Nat.eqb i 0 then 1 else -1)) 0); [intros; rewrite !EF by assumption; cbn [nth]; ring|..]; destruct (Nat.eqb i 0), (Nat.eqb j 0); unfold Rmax; destruct (Rle_dec _ _); lra.
Qed.
Definition runW2 (x : vec) := pwa_admissible (map aA (w_sys W2)) (map aB (w_sys W2)) (map ac (w_sys W2)) (map in_poly (w_dom W2)) (in_poly X_int) 1 1 x.
Lemma W2_run u : 0 <= u <= 1 -> runW2 [-1] [[u]] [0%nat] [[-1]; [-1 + u]].
Proof.
  intros Hu. split; [reflexivity|]. split; [repeat constructor|]. split; [reflexivity|]. split; [intros m [<-|[]]; cbn; lia|]. split.
  - split; [reflexivity|]. split; [reflexivity|]. intros [|t] Ht; [|cbn in Ht; lia]. unfold affine_step. cbn. f_equal. lra.
  - split.
    + intros [|t] Ht; [|cbn in Ht; lia]. cbn [nth map w_dom W2]. apply in_D_L. eexists _, _. split; [reflexivity|]. lra.
    + cbn [length nth]. apply in_X_int. lra.
Qed.
Lemma W2_run_inv us modes xs : runW2 [-1] us modes xs -> exists u, us = [[u]] /\ xs = [[-1]; [-1 + u]].
Proof.
  intros (A1 & A2 & A3 & A4 & (A5 & A6 & A7) & (A8 & _)). destruct us as [|u [|]]; try discriminate. destruct u as [|u [|]]; try (inversion A2; discriminate). destruct modes as [|k [|]]; try discriminate. specialize (A4 k (or_introl eq_refl)). cbn in A4.
  destruct xs as [|x0 [|x1 [|]]]; try discriminate. cbn [nth] in A6. subst x0. specialize (A8 0%nat ltac:(cbn; lia)). specialize (A7 0%nat ltac:(cbn; lia)). cbn [nth] in A7, A8.
  assert (k = 0%nat). { destruct k as [|[|]]; [reflexivity| |lia]. exfalso. cbn [nth map w_dom W2] in A8. apply in_D_R in A8. destruct A8 as (x & v & E & B). injection E as E _. lra. } subst k.
  unfold affine_step in A7. cbn in A7. subst x1. exists u. split; [reflexivity|]. do 3 f_equal. ring.
Qed.
Lemma W2_costs : hyb_costs I_1 I_1 I_1 1 1.
Proof. destruct (hybrid_example np0 np0_exact) as (_ & _ & _ & H & _). exact H. Qed.
Lemma W2_eqs : no_eqs W2 X_int.
Proof. split; [intros D [<-|[<-|[]]]; reflexivity|reflexivity]. Qed.
(*@ Theorem C57_terminal_cost_refuted : Controller given the terminal cost P = 3 and Q = R = 1 for the system with two modes (horizon 1, from x = -1) returns the input 1/2, whatever exact solver drake uses; this is not optimal for P, whose optimal run has the input 3/4 *)
Lemma terminal_cost_refuted np drake : exact_np np -> let P := Mat 1 [[3]] in exists C prog, Controller np W2 1 I_1 I_1 P X_int = Ok C /\ set_initial_condition C [-1] = Ok prog /\
  (drake_ok prog (drake prog) -> exists us xs modes c, example_feedforward drake C [-1] = Ok (Some (us, xs, modes, c)) /\ us = [[/ 2]] /\
    let optimal := pwa_optimal (map aA (w_sys W2)) (map aB (w_sys W2)) (map ac (w_sys W2)) (map in_poly (w_dom W2)) (in_poly X_int) I_1 I_1 P 1 1 [-1] in
    ~ optimal us modes xs /\ optimal [[3 / 4]] [0%nat] [[-1]; [-1 + 3 / 4]]).
Proof.
  intros Hnp P. destruct W2_data as (HW & HD).
  destruct (example_optimal np drake W2 1 I_1 I_1 I_1 X_int 1 1 2 0 Hnp HW ltac:(lia) HD ltac:(cbn; lia) W2_gaps shape_I_1 shape_I_1 shape_I_1 wf_X_int W2_eqs) as (C & EC & HC). destruct (HC [-1] eq_refl) as (prog & EP & HP).
  exists C, prog. split; [exact EC|]. split; [exact EP|]. intros DO. destruct (HP DO) as [(us & xs & modes & EF & (RN & OPT) & _)|(_ & _ & _ & NR)]; [|exfalso; exact (NR W2_costs _ _ _ (W2_run (/ 2) ltac:(lra)))].
  exists us, xs, modes, (trajectory_cost I_1 I_1 I_1 us xs). split; [exact EF|]. destruct (W2_run_inv _ _ _ RN) as (u & -> & ->). pose proof (OPT _ _ _ (W2_run (/ 2) ltac:(lra))) as Q. unfold trajectory_cost in Q. cbn in Q. assert (SQ : (u - / 2) * (u - / 2) <= 0) by nra. assert (u = / 2) by nra. subst u. split; [reflexivity|]. split.
  - intros (_ & O). pose proof (O _ _ _ (W2_run (3 / 4) ltac:(lra))) as Q2. unfold trajectory_cost, P in Q2. cbn in Q2. lra.
  - split; [apply W2_run; lra|]. intros us' modes' xs' R'. destruct (W2_run_inv _ _ _ R') as (u & -> & ->). unfold trajectory_cost, P. cbn. pose proof (Rle_0_sqr (u - 3 / 4)) as SQ2. unfold Rsqr in SQ2. nra.
Qed.
(*@ Example C57_example : the system with two modes meets the hypotheses of C57_example_controller, there is an exact solver for its program, and with it feedback from x = -1 returns 1/2; a system with one mode meets those of C57_one_mode_refuted *)
Lemma example_example np : exact_np np -> hyb_data W2 1 1 /\ hyb_domains W2 /\ (2 <= length (w_sys W2))%nat /\ sharp_gaps W2 1 /\ no_eqs W2 X_int /\ hyb_costs I_1 I_1 I_1 1 1 /\
  (exists C prog drake, ExampleController np W2 1 I_1 I_1 I_1 X_int = Ok C /\ set_initial_condition C [-1] = Ok prog /\ drake_ok prog (drake prog) /\ example_feedback drake C [-1] = Ok (Some [/ 2])) /\
  let W1 := PWA 1 1 [Sys1 1] [D_L] in hyb_data W1 1 1 /\ hyb_domains W1 /\ sharp_gaps W1 1.
Proof.
  intros Hnp. destruct W2_data as (HW & HD). split; [exact HW|]. split; [exact HD|]. split; [cbn; lia|]. split; [exact W2_gaps|]. split; [exact W2_eqs|]. split; [exact W2_costs|]. split.
  - assert (GET : forall drake, exists C, ExampleController np W2 1 I_1 I_1 I_1 X_int = Ok C /\ exists prog, set_initial_condition C [-1] = Ok prog /\ (drake_ok prog (drake prog) -> example_feedback drake C [-1] = Ok (Some [/ 2]))).
    { intros drake. destruct (example_optimal np drake W2 1 I_1 I_1 I_1 X_int 1 1 2 0 Hnp HW ltac:(lia) HD ltac:(cbn; lia) W2_gaps shape_I_1 shape_I_1 shape_I_1 wf_X_int W2_eqs) as (C & EC & HC). destruct (HC [-1] eq_refl) as (prog & EP & HP). exists C. split; [exact EC|]. exists prog. split; [exact EP|].
      intros DO. destruct (HP DO) as [(us & xs & modes & _ & (RN & OPT) & EF)|(_ & _ & _ & NR)]; [|exfalso; exact (NR W2_costs _ _ _ (W2_run (/ 2) ltac:(lra)))]. rewrite EF. destruct (W2_run_inv _ _ _ RN) as (u & -> & ->). pose proof (OPT _ _ _ (W2_run (/ 2) ltac:(lra))) as Q. unfold trajectory_cost in Q. cbn in Q. assert (SQ : (u - / 2) * (u - / 2) <= 0) by nra. assert (u = / 2) by nra. subst u. reflexivity. }
    destruct (GET (fun _ => None)) as (C & EC & prog & EP & _).
    assert (exists r, drake_ok prog r) as (r & DR). { destruct (classic (exists a, d_feasible prog a /\ forall a', d_feasible prog a' -> d_objective prog a <= d_objective prog a')) as [(a & Ha)|N]; [exists (Some a); exact Ha|exists None; exact N]. }
    exists C, prog, (fun _ => r). split; [exact EC|]. split; [exact EP|]. split; [exact DR|]. destruct (GET (fun _ => r)) as (C' & EC' & prog' & EP' & H). assert (C' = C) by congruence. subst C'. assert (prog' = prog) by congruence. subst prog'. apply H, DR.
  - intros W1. assert (G : forall v r, (r < 1)%nat -> greatest (in_poly D_L) (fun xu => nth r (f_at W1 1 0 xu) 0 - nth r (f_at W1 1 0 xu) 0) v -> v <= 0 \/ tol6 <= v) by (intros v r _ ((x & _ & <-) & _); left; lra).
    pose proof HW as (_ & _ & (_ & HS) & _ & HWf). split; [|split].
    + split; [reflexivity|]. split; [reflexivity|]. split; [split; [discriminate|]; intros s [<-|[]]; apply HS; left; reflexivity|]. split; [reflexivity|]. intros D [<-|[]]. apply HWf. left. reflexivity.
    + intros D [<-|[]]. apply HD. left. reflexivity.
    + intros i j Hi Hj v. cbn in Hi, Hj. replace i with 0%nat by lia. replace j with 0%nat by lia. split; [|split; intros r Hr; apply G; exact Hr]. intros r Hr H. apply (proj1 (W2_gaps 0%nat 0%nat ltac:(cbn; lia) ltac:(cbn; lia) v) r Hr H).
Qed.
