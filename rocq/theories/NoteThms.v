(** * NoteThms: the notebooks on invariant sets and on hybrid MPC (C75, C76), proofs *)
From Coq Require Import ZArith Classical.
From Verif Require Import Arr ArrFacts Spec SpecMpc SpecProg SpecLoop Numpy Pnnls PnnlsFacts QpFacts GeomUtils Polyhedron PolyThms Oracle SolverThms NullFacts PolySolveThms PolyMore SpecDyn Dynamics DynThms CondenseThms LqrThms McaisThms Mpqp MpqpThms Controllers CtrlThms Gurobi Programs ProgThms Hybrid HybridThms HybridOptThms HybridLoopThms Workflow WorkThms Notebooks.

(** a linear system with an LQR problem that solve_dare accepts *)
Definition lqr_problem (np : numpy) (S : lsys) (Q Rm : mat) (nx nu : nat) : Prop :=
  exact_np np /\ shape (lA S) nx nx /\ shape (lB S) nx nu /\ shape Q nx nx /\ shape Rm nu nu /\ (0 < nx)%nat /\ Spec.pd Q nx /\ Spec.pd Rm nu /\
  l_controllable S = None /\ steerable (lA S) (lB S) nx nu nx /\
  riccati (lA S) (lB S) Q Rm (np_dare np (lA S) (lB S) Q Rm) nx nu /\ psd (np_dare np (lA S) (lB S) Q Rm) nx /\
  (forall K, shape K nu nx -> eig_max_ok np (A_closed S K) nx).

Lemma lqr_terminal np S Q Rm nx nu D m : lqr_problem np S Q Rm nx nu -> wf D m 0 (nx + nu) -> (0 < m)%nat -> (forall i, (i < m)%nat -> 0 < nth i (pb D) 0) -> bounded_set (in_poly D) ->
  exists P K fuel0 XN mN O1 mO, fst (solve_dare np S Q Rm) = Ok (P, K) /\ lqr_pair np S Q Rm P K nx nu /\ shape K nu nx /\ shape P nx nx /\ psd P nx /\
    (forall fuel, (fuel0 <= fuel)%nat -> lin_mcais np fuel S K D = Ok XN) /\ wf XN mN 0 nx /\ pd XN = [] /\
    wf O1 mO 0 nx /\ rows_of_flow (A_closed S K) (cl_poly S K D) O1 m mO nx /\
    (forall x, length x = nx -> (in_poly O1 x <-> forall t, let y := flow (A_closed S K) t x in in_poly D (y ++ mv K y))) /\
    (forall x, in_poly O1 x -> in_poly XN x) /\ (redundancy_gap O1 mO tol7 -> forall x, in_poly XN x -> in_poly O1 x) /\
    (redundancy_gap O1 mO tol7 -> terminal_invariant (lA S) (lB S) K (in_poly D) (in_poly XN)) /\
    (forall x, length x = nx -> forall eps, 0 < eps -> exists T, forall t, (T <= t)%nat -> norm (flow (A_closed S K) t x) <= eps).
Proof.
  intros (Hnp & SA & SB & SQ & SR & Hn & PQ & PR & FC & ST & RIC & PSD & EIG) WD Hm PBp BD.
  destruct (solve_dare_ok np S Q Rm nx nu Hnp SA SB SQ SR Hn FC PR RIC PSD) as (DS & _ & _). destruct (DS ST) as (P & K & ED). clear DS.
  assert (HL : lqr_pair np S Q Rm P K nx nu) by (split; [exact Hn|split; [exact FC|split; [exact RIC|split; [exact PSD|exact ED]]]]).
  destruct (lqr_identity np S Q Rm P K nx nu Hnp SA SB SQ SR PR HL) as (SK & PP & SP & _).
  pose proof (lqr_flow_converges np S Q Rm P K nx nu Hnp SA SB SQ SR PR PQ HL) as CONV.
  destruct (lin_mcais_ok np 0 S K D nx nu m 0 SA SB SK WD) as (_ & SAc & Wc & _ & HIN). specialize (HIN eq_refl).
  pose proof (eig_stable np (A_closed S K) nx SAc (EIG K SK) CONV) as HE.
  assert (Z : in_poly D (zeros (nx + nu))).
  { apply (in_X D m (nx + nu) WD). split; [len|]. rewrite mv_zeros. apply vle_nth. destruct WD as (WA & Wb & _). rewrite zeros_length. split; [rewrite (proj1 WA); auto|]. intros i Hi. rewrite nth_zeros. apply Rlt_le, PBp. rewrite <- (proj1 WA). exact Hi. }
  assert (Acc : accepted np (A_closed S K) (cl_poly S K D) m nx).
  { unfold accepted. repeat match goal with |- _ /\ _ => split end; auto.
    - apply HIN; [len|]. rewrite mv_zeros. replace (length (rows K)) with nu by (symmetry; apply SK). rewrite <- zeros_app. exact Z.
    - destruct BD as (M & HM). exists M. intros x Hx. assert (Lx : length x = nx) by (apply (in_X _ m nx Wc) in Hx; apply Hx). apply HIN in Hx; [|exact Lx]. pose proof (HM _ Hx). pose proof (norm_app_l x (mv K x)). lra. }
  destruct (stable_halts np (A_closed S K) (cl_poly S K D) m nx Hnp Acc PBp CONV) as (fuel0 & XN & X' & EM).
  destruct (mcais_checked np _ _ m nx Hnp Acc) as (X1 & _ & _ & _ & _ & _ & _ & _ & _ & _ & EMf).
  assert (EMA : forall fuel, (fuel0 <= fuel)%nat -> lin_mcais np fuel S K D = Ok XN).
  { intros fuel Hf. destruct (lin_mcais_ok np fuel S K D nx nu m 0 SA SB SK WD) as (-> & _). rewrite EMf. rewrite EMf in EM.
    destruct (mcais_loop np fuel0 1 (A_closed S K) X1 X1) as [O|e] eqn:EL; [|discriminate]. rewrite (loop_mono _ _ _ _ _ _ _ EL fuel Hf). cbn [bind fst] in *. injection EM as <- _. reflexivity. }
  destruct (mcais_ok np fuel0 _ _ m nx XN X' Hnp Acc EM) as (O3 & mO3 & mf3 & WO3 & RF3 & HO3 & A3 & B3 & C3 & D3 & R3 & IN3).
  assert (HINm : forall j, In j mf3 -> (j < mO3)%nat) by (intros j Hj; apply (removal_incl _ _ _ _ R3) in Hj; apply in_seq in Hj; lia).
  assert (WN : wf XN (length mf3) 0 nx).
  { unfold wf. rewrite A3, B3, C3, D3. split; [apply (shape_mtake _ mO3); [apply WO3|exact HINm]|]. split; [apply vtake_length|]. split; [|reflexivity]. unfold shape. cbn. auto. }
  assert (AD : forall x, length x = nx -> (in_poly O3 x <-> forall t, in_poly D (flow (A_closed S K) t x ++ mv K (flow (A_closed S K) t x)))).
  { intros x Lx. rewrite HO3. unfold admissible. split; intros H t; specialize (H t); apply HIN; auto; apply (flow_length _ nx); auto. }
  assert (SUB : redundancy_gap O3 mO3 tol7 -> forall x, in_poly XN x -> in_poly O3 x).
  { intros GAP x Hx. apply (sat_all O3 mO3 0 nx x WO3).
      apply (removal_exact O3 mO3 tol7 _ mf3); [intros j Hj; apply in_seq in Hj; lia|exact GAP|exact R3|].
      destruct (set_rows_poly O3 O3 mO3 0 nx mf3 WO3 (or_introl eq_refl) HINm) as (_ & H'). apply H'.
      unfold in_poly in *. cbn [pA pb pC pd set_A set_b]. rewrite A3, B3, C3, D3 in Hx.
      destruct WO3 as (_ & _ & (LC & CC & _) & Ld). destruct (pC O3) as [c rs]. cbn [ncols rows] in *. destruct rs; [|discriminate]. subst c. destruct (pd O3); [exact Hx|discriminate]. }
  exists P, K, fuel0, XN, (length mf3), O3, mO3. repeat match goal with |- _ /\ _ => split end; try assumption.
  - intros x Hx. apply IN3, HO3, Hx.
  - intros GAP x Hx. assert (Lx : length x = nx) by (rewrite (proj1 Hx); apply WN).
    assert (EXX : linear_step (lA S) (lB S) x (mv K x) = mv (A_closed S K) x).
    { unfold linear_step, A_closed. assert (SBK : shape (mm (lB S) K) nx nx) by eauto with shp. rewrite (mv_madd _ _ nx nx) by auto. rewrite (mv_mm _ K nu nx) by auto. reflexivity. }
    pose proof (proj1 (AD x Lx) (SUB GAP x Hx)) as T. split; [exact (T 0%nat)|]. rewrite EXX. apply IN3, HO3, AD.
    + rewrite <- EXX. apply (step_length _ _ nx nu); assumption.
    + intros t. rewrite <- flow_S. apply T.
Qed.

Lemma closed_loop_flow S nx nu K : shape (lA S) nx nx -> shape (lB S) nx nu -> shape K nu nx -> forall N x, length x = nx ->
  simulate_closed_loop S x N K = Ok (map (fun t => flow (A_closed S K) t x) (seq 0 (Datatypes.S N))).
Proof.
  intros SA SB SK. assert (SBK : shape (mm (lB S) K) nx nx) by eauto with shp. assert (SC : shape (A_closed S K) nx nx) by (unfold A_closed; eauto with shp).
  induction N as [|N IH]; intros x Lx; [reflexivity|]. cbn [simulate_closed_loop]. rewrite (np_dot_ok (lB S) K nx nu nx) by auto. cbn [bind]. rewrite (np_madd_ok (lA S) (mm (lB S) K) nx nx) by auto. cbn [bind]. fold (A_closed S K). rewrite (np_mv_ok _ nx nx) by auto. cbn [bind].
  rewrite IH by (rewrite mv_length; apply SC). cbn [bind]. change (seq 0 (Datatypes.S (Datatypes.S N))) with (0%nat :: seq 1 (Datatypes.S N)). rewrite <- seq_shift, map_cons, map_map. cbn [flow]. do 2 f_equal. apply map_ext. intros t. symmetry. apply flow_S.
Qed.

(*@ Theorem C75_mcais_demo_partial : The notebook on invariant sets, for box constraints with the origin inside, positive definite Q and R and a controllable system, with scipy returning a positive semidefinite solution of the Riccati equation: every step succeeds (mcais for every sufficiently large number of iterations); X_cl is the set of the x with x in X and K x in U; every trajectory drawn is that of the closed loop and converges to the origin; O_inf contains every state from which all the trajectories drawn (N = 0, 1, 2, ...) stay in X_cl, and unless a redundancy was decided by the tolerance 1e-7 it contains no others, so that it is inside X_cl and trajectories from it stay in it.
   Missing: redundancies decided by the tolerance (see C30). *)
Lemma mcais_notebook np S Q Rm x_min x_max u_min u_max nx nu : lqr_problem np S Q Rm nx nu ->
  length x_min = nx -> length x_max = nx -> length u_min = nu -> length u_max = nu ->
  Forall (fun a => a < 0) x_min -> Forall (fun a => 0 < a) x_max -> Forall (fun a => a < 0) u_min -> Forall (fun a => 0 < a) u_max ->
  exists fuel0 W O1 mO, (forall fuel, (fuel0 <= fuel)%nat -> mcais_demo np fuel S Q Rm x_min x_max u_min u_max = Ok W) /\
    (forall x, in_poly (o_X W) x <-> Forall2 Rle x_min x /\ Forall2 Rle x x_max) /\
    (forall x, in_poly (o_Xcl W) x <-> in_poly (o_X W) x /\ Forall2 Rle u_min (mv (o_K W) x) /\ Forall2 Rle (mv (o_K W) x) u_max) /\
    (forall x, length x = nx -> exists X : nat -> vec, (forall N, simulate_closed_loop S x N (o_K W) = Ok (map X (seq 0 (Datatypes.S N)))) /\ X 0%nat = x /\
       (forall t, X (Datatypes.S t) = linear_step (lA S) (lB S) (X t) (mv (o_K W) (X t))) /\
       (forall eps, 0 < eps -> exists T, forall t, (T <= t)%nat -> norm (X t) <= eps) /\
       ((forall t, in_poly (o_Xcl W) (X t)) -> in_poly (o_inf W) x) /\
       (redundancy_gap O1 mO tol7 -> in_poly (o_inf W) x -> forall t, in_poly (o_Xcl W) (X t) /\ in_poly (o_inf W) (X t))) /\
    wf O1 mO 0 nx /\ rows_of_flow (A_closed S (o_K W)) (cl_poly S (o_K W) (o_D W)) O1 (nx + nx + (nu + nu)) mO nx.
Proof.
  intros HP Lx1 Lx2 Lu1 Lu2 Bx1 Bx2 Bu1 Bu2. pose proof HP as (Hnp & SA & SB & SQ & SR & Hn & PQ & PR & _).
  destruct (from_bounds_ok x_min x_max ltac:(lia)) as (PX & EX & WX & IX). destruct (from_bounds_ok u_min u_max ltac:(lia)) as (PU & EU & WU & IU).
  rewrite Lx1 in WX. rewrite Lu1 in WU. destruct (cartesian_product_ok PX PU _ _ _ _ _ _ WX WU) as (D & EDp & WD & ID). cbn [Nat.add] in WD.
  assert (PB : pb D = (vneg x_min ++ x_max) ++ vneg u_min ++ u_max).
  { rewrite <- (bounds_rhs x_min x_max _ ltac:(lia) EX), <- (bounds_rhs u_min u_max _ ltac:(lia) EU). unfold cartesian_product, Polyhedron in EDp. destruct (same_number_rows _ _); [|discriminate]. cbn [bind] in EDp. destruct (same_number_rows _ _); [|discriminate]. cbn [bind] in EDp. injection EDp as <-. reflexivity. }
  assert (PBp : forall i, (i < nx + nx + (nu + nu))%nat -> 0 < nth i (pb D) 0).
  { intros i Hi. assert (F : Forall (fun a => 0 < a) (pb D)).
    { assert (F1 : forall v, Forall (fun a => a < 0) v -> Forall (fun a => 0 < a) (vneg v)). { intros v F. induction F; cbn; constructor; [lra|assumption]. }
      rewrite PB, !Forall_app. auto. }
    rewrite Forall_forall in F. apply F, nth_In. replace (length (pb D)) with (nx + nx + (nu + nu))%nat by (symmetry; apply WD). exact Hi. }
  assert (BND : bounded_set (in_poly D)).
  { destruct (box_bounded x_min x_max ltac:(lia)) as (M1 & P1 & H1). destruct (box_bounded u_min u_max ltac:(lia)) as (M2 & P2 & H2). exists (M1 + M2). intros w Iw.
    assert (Lw : length w = (nx + nu)%nat) by (rewrite (proj1 Iw); apply WD). rewrite <- (firstn_skipn nx w) in Iw |- *. apply ID in Iw; [|rewrite firstn_length; lia]. destruct Iw as (Q1 & Q2). apply IX in Q1. apply IU in Q2. pose proof (H1 _ (proj1 Q1) (proj2 Q1)) as N1. pose proof (H2 _ (proj1 Q2) (proj2 Q2)) as N2.
    set (a := firstn nx w) in *. set (b := skipn nx w) in *. pose proof (norm_nonneg a). pose proof (norm_nonneg b). unfold norm at 1. rewrite <- (sqrt_square (M1 + M2)) by lra. apply sqrt_le_1_alt. rewrite dot_app by reflexivity. rewrite <- (norm_sqr a), <- (norm_sqr b). nra. }
  destruct (lqr_terminal np S Q Rm nx nu D _ HP WD ltac:(lia) PBp BND) as (P & K & fuel0 & XN & mN & O1 & mO & ED & HL & SK & SP & PP & EM & WN & _ & WO & RF & HO & SUB & GAP & _ & CONV).
  destruct (dare_system np S Q Rm P K ED) as (cS & ES).
  assert (SUK : shape (mm (pA PU) K) (nu + nu) nx) by (apply (shape_mm _ _ _ nu); [apply WU|exact SK]).
  set (UC := Poly (mm (pA PU) K) (pb PU) (zmat 0 nx) (zeros 0) None None None None None).
  assert (EUC : Polyhedron (mm (pA PU) K) (D1 (pb PU)) None None = Ok UC). { unfold Polyhedron, same_number_rows, nd_size. rewrite (nrows_shape _ _ _ SUK), (proj1 (proj2 WU)), Nat.eqb_refl. cbn [bind]. rewrite (shape_cols _ _ _ SUK). reflexivity. }
  assert (WUC : wf UC (nu + nu) 0 nx) by (unfold wf; cbn [UC pA pb pC pd]; split; [exact SUK|]; split; [apply WU|]; split; [apply shape_zmat|reflexivity]).
  destruct (intersection_ok PX UC _ _ _ _ _ WX WUC) as (XC & EXC & WXC & HXC & _).
  exists fuel0, (McaisSets K PX D XN XC), O1, mO. cbn [o_X o_Xcl o_K o_inf o_D].
  assert (IUC : forall x, length x = nx -> (in_poly UC x <-> Forall2 Rle u_min (mv K x) /\ Forall2 Rle (mv K x) u_max)).
  { intros x Lx. rewrite <- IU. rewrite (in_X UC (nu + nu) nx WUC), (in_X PU (nu + nu) nu WU). cbn [UC pA pb]. rewrite (mv_mm _ K nu nx) by (assumption || exact SK). rewrite mv_length, (proj1 SK). tauto. }
  assert (LX : forall x, in_poly PX x -> length x = nx) by (intros x Hx; rewrite (proj1 Hx); apply WX).
  assert (CL : forall x, in_poly XC x <-> in_poly PX x /\ Forall2 Rle u_min (mv K x) /\ Forall2 Rle (mv K x) u_max).
  { intros x. rewrite HXC. split; intros (H1 & H2); (split; [exact H1|]); apply IUC; auto. }
  assert (DC : forall x, length x = nx -> (in_poly D (x ++ mv K x) <-> in_poly XC x)) by (intros x Lx; rewrite (ID x _ Lx), CL, IU; tauto).
  split; [|split; [exact IX|split; [exact CL|split; [|split; [exact WO|exact RF]]]]].
  - intros fuel Hf. unfold mcais_demo. destruct (solve_dare np S Q Rm) as [r S'] eqn:E. cbn [fst snd] in ED, ES. subst r S'. cbn [bind fst snd]. rewrite EX. cbn [bind]. rewrite EU. cbn [bind]. rewrite EDp. cbn [bind].
    change (lin_mcais np fuel (LSys (lA S) (lB S) cS) K D) with (lin_mcais np fuel S K D). rewrite (EM fuel Hf). cbn [bind]. rewrite (np_dot_ok (pA PU) K (nu + nu) nu nx) by (apply WU || exact SK). cbn [bind]. rewrite EUC. cbn [bind]. rewrite EXC. reflexivity.
  - intros x Lx. exists (fun t => flow (A_closed S K) t x). assert (SC : shape (A_closed S K) nx nx) by (unfold A_closed; eauto with shp). assert (LF : forall t, length (flow (A_closed S K) t x) = nx) by (intros t; apply (flow_length _ nx); assumption).
    split; [intros N; apply (closed_loop_flow S nx nu); assumption|]. split; [reflexivity|]. split; [|split; [apply CONV, Lx|split]].
    + intros t. cbn [flow]. unfold linear_step, A_closed. assert (SBK : shape (mm (lB S) K) nx nx) by eauto with shp. rewrite (mv_madd _ _ nx nx) by auto. rewrite (mv_mm _ K nu nx) by auto. reflexivity.
    + intros H. apply SUB, HO; [exact Lx|]. intros t. apply DC; auto.
    + intros G Hx t. pose proof (proj1 (HO x Lx) (GAP G x Hx)) as T. split; [apply DC; [apply LF|apply T]|]. apply SUB, HO; [apply LF|]. intros s. cbv zeta.
      assert (FA : flow (A_closed S K) s (flow (A_closed S K) t x) = flow (A_closed S K) (s + t) x). { induction s as [|s IHs]; [reflexivity|]. cbn [flow Nat.add]. rewrite IHs. reflexivity. } rewrite FA. apply T.
Qed.


Lemma scalar_lqr_problem : lqr_problem np_work S_1 (Mat 1 [[1]]) (Mat 1 [[2]]) 1 1.
Proof.
  destruct workflow_example as (H1 & H2 & H3 & H4 & H5 & H6 & H7 & _).
  split; [exact H1|]. split; [apply scalar_shape|]. split; [apply scalar_shape|]. split; [apply scalar_shape|]. split; [apply scalar_shape|]. split; [lia|]. split; [exact H2|]. split; [exact H3|]. split; [reflexivity|]. split; [exact H4|]. split; [exact H5|]. split; [exact H6|exact H7].
Qed.
Lemma scalar_gain P K : fst (solve_dare np_work S_1 (Mat 1 [[1]]) (Mat 1 [[2]])) = Ok (P, K) -> P = Mat 1 [[2]] /\ K = Mat 1 [[- (1 / 2)]].
Proof.
  intros ED. destruct scalar_lqr_problem as (Hnp & SA & SB & SQ & SR & Hn & PQ & PR & FC & ST & RIC & PSD & _).
  destruct (dare_returns np_work Hnp S_1 _ _ 1 1 SA SB SR Hn FC PR RIC PSD) as (_ & _ & R3). destruct (R3 _ _ ED) as (EP & Mi & SM & _ & HM & EK). split; [exact EP|]. rewrite EK.
  destruct Mi as [nc rs]. destruct SM as (L1 & L2 & L3). cbn in L1, L2, L3. subst nc.
  destruct rs as [|v [|]]; try discriminate L1. inversion L3 as [|? ? Lv _]; subst. destruct v as [|mi [|]]; try discriminate Lv.
  cbv -[Rplus Rmult IZR Rminus Ropp] in HM. injection HM as HM. assert (mi = / 4) by lra. subst mi.
  cbv -[Rplus Rmult IZR Rminus Ropp Rdiv Rinv]. f_equal. f_equal. f_equal. field.
Qed.
Lemma halving_flow t a : flow (A_closed S_1 (Mat 1 [[- (1 / 2)]])) t [a] = [(/ 2) ^ t * a].
Proof. revert a. induction t as [|t IH]; intros a; [cbn; f_equal; ring|]. cbn [flow]. rewrite IH. cbv -[Rplus Rmult Rinv Rdiv IZR pow Ropp]. cbn [pow]. f_equal. field. Qed.
(*@ Example C75_example : x+ = x + u with Q = 1, R = 2, |x| <= 1, |u| <= 1: the hypotheses hold, the notebook computes K = -1/2, and O_inf and X_cl are the interval [-1, 1]. *)
Lemma mcais_notebook_example : lqr_problem np_work S_1 (Mat 1 [[1]]) (Mat 1 [[2]]) 1 1 /\
  exists fuel W, mcais_demo np_work fuel S_1 (Mat 1 [[1]]) (Mat 1 [[2]]) [-1] [1] [-1] [1] = Ok W /\ o_K W = Mat 1 [[- (1 / 2)]] /\
    (forall a, in_poly (o_inf W) [a] <-> -1 <= a <= 1) /\ forall a, in_poly (o_Xcl W) [a] <-> -1 <= a <= 1.
Proof.
  split; [exact scalar_lqr_problem|].
  destruct (mcais_notebook np_work S_1 _ _ [-1] [1] [-1] [1] 1 1 scalar_lqr_problem eq_refl eq_refl eq_refl eq_refl) as (fuel & W & O1 & mO & EW & HX & HC & TR & WO & RF); try (repeat constructor; lra).
  specialize (EW fuel (le_n _)). exists fuel, W. split; [exact EW|].
  assert (EK : o_K W = Mat 1 [[- (1 / 2)]] /\ exists U, from_bounds (D1 [-1]) (D1 [1]) None None = Ok U /\ cartesian_product U U = Ok (o_D W)).
  { unfold mcais_demo in EW. pose proof scalar_gain as G. destruct (solve_dare np_work S_1 _ _) as [[(P & K)|] S'] eqn:E; [|discriminate]. destruct (G P K eq_refl) as (_ & ->). cbn [bind fst snd] in EW.
    destruct (from_bounds (D1 [-1]) (D1 [1]) None None) as [U|]; [|discriminate]. cbn [bind] in EW. destruct (cartesian_product U U) as [D|] eqn:ECP; [|discriminate]. cbn [bind] in EW. destruct (lin_mcais np_work fuel S' _ D) as [XN|]; [|discriminate]. cbn [bind] in EW.
    destruct (np_dot _ _); [|discriminate]. cbn [bind] in EW. destruct (Polyhedron _ _ _ _); [|discriminate]. cbn [bind] in EW. destruct (intersection _ _); [|discriminate]. cbn [bind] in EW. injection EW as <-. cbn [o_K o_D]. split; [reflexivity|]. exists U. auto. }
  destruct EK as (EK & U & EU & ED). split; [exact EK|].
  assert (GAP : redundancy_gap O1 mO tol7).
  { apply halving_gap; [exact WO|]. intros r Hr. destruct (RF r Hr) as (i & k & Hi & Hb & Hd). rewrite EK in Hb, Hd.
    cbv -[Rplus Rmult Ropp IZR] in EU. injection EU as <-. cbv -[Rplus Rmult Ropp IZR o_D] in ED. injection ED as ED. rewrite <- ED in Hb, Hd. cbn in Hi, Hb.
    destruct i as [|[|[|[|]]]]; [exists (-1), k|exists 1, k|exists 1, (S k)|exists (-1), (S k)|lia]; (split; [auto|]; split; [cbn in Hb; lra|]; intros a; rewrite (Hd [a] eq_refl), halving_flow; set (p := (/ 2) ^ k); cbn; unfold p; cbn; lra). }
  assert (XC : forall a, in_poly (o_Xcl W) [a] <-> -1 <= a <= 1).
  { intros a. rewrite HC, HX, EK. split.
    - intros ((F1 & F2) & _). inversion F1; inversion F2; subst. lra.
    - intros Ha. repeat split; (apply Forall2_cons; [cbn; lra|apply Forall2_nil]). }
  split; [|exact XC]. intros a. destruct (TR [a] eq_refl) as (X & _ & X0 & XS & _ & G1 & G2). specialize (G2 GAP).
  assert (EX : forall t, X t = [(/ 2) ^ t * a]). { induction t as [|t IH]; [rewrite X0; cbn; f_equal; ring|]. rewrite XS, EK, IH. cbv -[Rplus Rmult Rinv Rdiv IZR pow Ropp]. cbn [pow]. f_equal. field. }
  split.
  - intros H. apply XC. rewrite <- X0. apply (G2 H 0%nat).
  - intros H. apply G1. intros t. rewrite EX. apply XC. pose proof (pow_le1 (/ 2) t ltac:(lra)). nra.
Qed.

(** ** C76: hybrid MPC *)
(** the data of the notebooks: systems of the same sizes on bounded domains given by inequalities; the i-th one is the linear system S1 with an LQR problem
    that solve_dare accepts, and the origin is inside its domain D1 *)
Definition hybrid_problem (np : numpy) (S_list : list anysys) (D_list : list poly) (i : nat) (S1 : lsys) (D1 : poly) (N : nat) (Q Rm : mat) (nx nu : nat) : Prop :=
  lqr_problem np S1 Q Rm nx nu /\ (0 < N)%nat /\ length S_list = length D_list /\
  (forall s, In s S_list -> match s with Lin s => system_shape (lA s) (lB s) nx nu | Aff s => system_shape (aA s) (aB s) nx nu /\ length (ac s) = nx end) /\
  (forall D, In D D_list -> exists m, wf D m 0 (nx + nu) /\ (0 < m)%nat /\ (exists xu, in_poly D xu) /\ bounded_set (in_poly D)) /\
  nth_error S_list i = Some (Lin S1) /\ nth_error D_list i = Some D1 /\ Forall (fun a => 0 < a) (pb D1).
(** get_mode accepts points outside a domain by up to 1e-7 and takes the first domain in the list: wherever a mode that contains (x, u) and one that
    contains it up to the tolerance are both present, they give the same next state *)
Definition overlaps_agree (W : pwa) : Prop :=
  forall m m' x u, (m < length (w_dom W))%nat -> (m' < length (w_dom W))%nat -> in_poly (nth m (w_dom W) poly0) (x ++ u) -> DynThms.within (nth m' (w_dom W) poly0) (x ++ u) ->
    mode_step W m x u = mode_step W m' x u.

Lemma in_within D m n w : wf D m 0 n -> in_poly D w -> DynThms.within D w.
Proof.
  intros WD (_ & H1 & H2). assert (T : 0 < tol7) by (unfold tol7; lra). split.
  - unfold ineq_holds in H1. eapply Forall2_impl; [|exact H1]. cbn. intros. lra.
  - unfold eq_holds in H2. eapply Forall2_impl; [|exact H2]. cbn. intros a b E. rewrite E. unfold Rminus. rewrite Rplus_opp_r, Rabs_R0. lra.
Qed.
(** one step of simulate from a point of a domain *)
Lemma step_in_domain W nx nu m x u : pwa_wf W nx nu -> length x = nx -> length u = nu -> (m < length (w_dom W))%nat -> in_poly (nth m (w_dom W) poly0) (x ++ u) ->
  (forall D, In D (w_dom W) -> exists r, wf D r 0 (nx + nu)) -> overlaps_agree W ->
  exists m', pwa_simulate W x [u] = Ok ([x; mode_step W m x u], [m']).
Proof.
  intros (LW & HS & HD) Lx Lu Hm HI HW OA. cbn [pwa_simulate]. unfold get_mode.
  destruct (get_mode_from_ok (w_dom W) (nx + nu) (x ++ u) 0 ltac:(len) HD) as [(k & E & Fk)|(E & NM)].
  - rewrite E. cbn [bind Nat.add]. destruct Fk as (Hk & Wk & _). rewrite (nth_error_nth' (w_sys W) asys0) by lia. destruct (HS (nth k (w_sys W) asys0)) as ((SA & SB) & Lc); [apply nth_In; lia|].
    rewrite (np_mv_ok _ nx nx), (np_mv_ok _ nx nu) by auto. cbn [bind]. exists k. do 2 f_equal. f_equal. f_equal.
    rewrite (OA m k x u Hm Hk HI); [|apply Wk, nth_error_nth', Hk]. unfold mode_step, affine_step.
    rewrite !(nth_map_lt _ _ _ asys0) by lia. reflexivity.
  - exfalso. destruct (HW (nth m (w_dom W) poly0)) as (r & Wr); [apply nth_In, Hm|]. apply (NM (nth m (w_dom W) poly0)); [apply nth_In, Hm|]. apply (in_within _ r (nx + nu)); assumption.
Qed.

(*@ Theorem C76_design : The notebooks on hybrid MPC: for a piecewise affine system on bounded nonempty domains, of which one, with the origin inside, has a linear system with positive definite Q and R and a controllable pair, every step succeeds (mcais for every sufficiently large number of iterations): the PWA system, P and K, the terminal set and the controller. Unless a redundancy was decided by the tolerance 1e-7, the terminal set is invariant under u = K x within the domain, and it is a terminal set with a terminal cost in the sense of C69 for the whole PWA system. *)
Lemma hybrid_design np S_list D_list i S1 D1 N Q Rm nx nu : hybrid_problem np S_list D_list i S1 D1 N Q Rm nx nu ->
  exists fuel0 Y mN O1 mO, (forall fuel, (fuel0 <= fuel)%nat -> hybrid_mpc_design np fuel S_list D_list S1 D1 N Q Rm = Ok Y) /\
    y_S Y = PWA nx nu (map (as_affine nx) S_list) D_list /\ wf (y_XN Y) mN 0 nx /\ wf O1 mO 0 nx /\ rows_of_flow (A_closed S1 (y_K Y)) (cl_poly S1 (y_K Y) D1) O1 (length (pb D1)) mO nx /\
    (forall x, length x = nx -> (forall t, let y := flow (A_closed S1 (y_K Y)) t x in in_poly D1 (y ++ mv (y_K Y) y)) -> in_poly (y_XN Y) x) /\
    (redundancy_gap O1 mO tol7 -> terminal_invariant (lA S1) (lB S1) (y_K Y) (in_poly D1) (in_poly (y_XN Y))) /\
    (terminal_invariant (lA S1) (lB S1) (y_K Y) (in_poly D1) (in_poly (y_XN Y)) -> hyb_loop_setup np (y_S Y) N Q Rm (y_P Y) (y_XN Y) nx nu mN 0 (y_C Y)).
Proof.
  intros (HP & HN & LSD & HS & HD & ES1 & ED1 & PB1). pose proof HP as (Hnp & SA & SB & SQ & SR & Hn & PQ & PR & _).
  destruct (HD D1 (nth_error_In _ _ ED1)) as (m & WD & Hm & _ & BD). assert (Lm : length (pb D1) = m) by apply WD.
  assert (PBp : forall j, (j < m)%nat -> 0 < nth j (pb D1) 0) by (intros j Hj; rewrite Forall_forall in PB1; apply PB1, nth_In; lia).
  destruct (lqr_terminal np S1 Q Rm nx nu D1 m HP WD Hm PBp BD) as (P & K & fuel0 & XN & mN & O1 & mO & ED & HL & SK & SP & PP & EM & WN & PN & WO & RF & HO & SUB & GAP & TI & _).
  destruct (dare_system np S1 Q Rm P K ED) as (cS & ES).
  assert (NE : S_list <> []) by (intros ->; destruct i; discriminate).
  assert (CO : DynThms.coherent S_list D_list nx nu).
  { split; [exact LSD|]. split; [exact NE|]. split.
    - intros s Hs. specialize (HS s Hs). destruct s as [s|s]; cbn [sys_nx sys_nu]; unfold lnx, lnu, anx, anu.
      + destruct HS as (S1' & S2'). split; apply S2'.
      + destruct HS as ((S1' & S2') & _). split; apply S2'.
    - intros d Hd. destruct (HD d Hd) as (md & Wd & _). apply Wd. }
  assert (VS : forall s, In s S_list -> valid_system s).
  { intros s Hs. specialize (HS s Hs). destruct s as [s|s]; cbn [valid_system]; [|exact I]. destruct HS as (S1' & S2'). rewrite (nrows_shape _ _ _ S1'), (nrows_shape _ _ _ S2'), (shape_cols _ _ _ S1'). auto. }
  pose proof (proj1 (pwa_constructor S_list D_list VS) nx nu CO) as EW. set (W := PWA nx nu (map (as_affine nx) S_list) D_list) in *.
  assert (HW : hyb_data W nx nu).
  { split; [reflexivity|]. split; [reflexivity|]. split; [|split].
    - split; [cbn; intros E; apply NE; destruct S_list; [reflexivity|discriminate]|]. intros s Hs. cbn [w_sys W] in Hs. apply in_map_iff in Hs. destruct Hs as (s' & <- & Hs). specialize (HS s' Hs). destruct s' as [s'|s']; cbn [as_affine aA aB ac]; [split; [exact HS|len]|exact HS].
    - cbn [w_sys w_dom W]. rewrite map_length. symmetry. exact LSD.
    - intros D HDi. destruct (HD D HDi) as (md & Wd & _). eauto. }
  assert (HDm : hyb_domains W).
  { intros D HDi. destruct (HD D HDi) as (md & Wd & Pm & NEd & Bd). split; [exact NEd|]. split; [exact Bd|]. intros E. assert (length (pb D) = md) by apply Wd. rewrite E in H. cbn in H. lia. }
  destruct (hybrid_encoding np W N Q Rm P XN nx nu mN 0 Hnp HW Hn HN HDm SQ SP SR WN) as (C & EC & _).
  exists fuel0, (HybridSets W P K XN C), mN, O1, mO. cbn [y_S y_P y_K y_XN y_C].
  split; [|split; [reflexivity|split; [exact WN|split; [exact WO|split; [rewrite Lm; exact RF|split; [|split; [exact TI|]]]]]]].
  - intros fuel Hf. unfold hybrid_mpc_design. rewrite EW. cbn [bind]. destruct (solve_dare np S1 Q Rm) as [r S'] eqn:E. cbn [fst snd] in ED, ES. subst r S'. cbn [bind fst snd].
    change (lin_mcais np fuel (LSys (lA S1) (lB S1) cS) K D1) with (lin_mcais np fuel S1 K D1). rewrite (EM fuel Hf). cbn [bind]. rewrite EC. reflexivity.
  - intros x Lx H. apply SUB, HO; assumption.
  - intros T. split; [exact Hnp|]. split; [exact HW|]. split; [exact Hn|]. split; [exact HN|]. split; [exact HDm|]. split; [exact WN|]. split.
    { split; [|exact PN]. intros D HDi. destruct (HD D HDi) as (md & Wd & _). destruct Wd as (_ & _ & _ & L0). destruct (pd D); [reflexivity|discriminate]. }
    split. { split; [exact SQ|]. split; [exact SP|]. split; [exact SR|]. split; [apply pd_psd, PQ|]. split; [exact PP|]. split; [exact PR|]. split; [apply PQ|apply PP]. }
    split; [exact EC|]. intros x Hx. destruct (T x Hx) as (T1 & T2). assert (Lx : length x = nx) by (rewrite (proj1 Hx); apply WN).
    assert (Hi : (i < length S_list)%nat) by (apply nth_error_Some; rewrite ES1; discriminate).
    exists i, (mv K x). split; [cbn [w_sys W]; rewrite !map_length; exact Hi|]. split; [rewrite mv_length; apply SK|].
    assert (E1 : nth i (w_sys W) asys0 = ASys (lA S1) (lB S1) (zeros nx)). { cbn [w_sys W]. rewrite (nth_map_lt _ _ _ (Lin S1)) by exact Hi. rewrite (nth_error_nth _ _ _ ES1). reflexivity. }
    assert (E2 : nth i (w_dom W) poly0 = D1) by (cbn [w_dom W]; apply (nth_error_nth _ _ _ ED1)).
    assert (Li : (i < length (w_sys W))%nat) by (cbn [w_sys W]; rewrite map_length; exact Hi). assert (Ld : (i < length (w_dom W))%nat) by (cbn [w_dom W]; lia).
    rewrite (nth_map_lt in_poly _ _ poly0) by exact Ld. rewrite E2. split; [exact T1|]. rewrite !(nth_map_lt _ _ _ asys0) by exact Li. rewrite E1. cbn [aA aB ac].
    assert (ST : affine_step (lA S1) (lB S1) (zeros nx) x (mv K x) = linear_step (lA S1) (lB S1) x (mv K x)).
    { unfold affine_step, linear_step. apply vadd_zeros_r. rewrite vadd_length, mv_length, mv_length, (proj1 SA), (proj1 SB). apply Nat.min_id. }
    cbv zeta. rewrite ST. split; [exact T2|]. destruct (lqr_identity np S1 Q Rm P K nx nu Hnp SA SB SQ SR PR HL) as (_ & _ & _ & M & PM & ID).
    specialize (ID x (mv K x) Lx ltac:(rewrite mv_length; apply SK)). unfold stage_cost in ID.
    assert (Z : vsub (mv K x) (mv K x) = zeros nu) by (rewrite <- (proj1 SK : length (rows K) = nu); apply vec_ext; [len|]; intros j Hj; rewrite nth_zeros, nth_vsub by len; ring).
    rewrite Z, dot_zeros_l in ID. lra.
Qed.

(*@ Theorem C76_run_partial : The closed loop of the notebooks. If the terminal set is invariant (see C76_design) and the modes agree wherever get_mode could choose another one than the optimal run (overlaps, and strips of width 1e-7 along the boundaries), then from every state with an admissible run, as long as Gurobi solves the programs met, the loop "u = feedback(x), x = simulate(x, [u])[0][1]" never fails: every pair (x, u) is in a domain, the next state is that of this domain, and the cost accumulated before any of these states is at most the value of the controller at the initial state; if Gurobi solves the programs as long as the state is at a distance of at least eps from the origin, the loop enters the ball of radius eps.
   Missing: systems with modes that disagree along a boundary, where simulate may take the wrong mode (C76_mode_refuted). *)
Lemma hybrid_run np S_list D_list i S1 D1 N Q Rm nx nu : hybrid_problem np S_list D_list i S1 D1 N Q Rm nx nu ->
  exists fuel0 Y, (forall fuel, (fuel0 <= fuel)%nat -> hybrid_mpc_design np fuel S_list D_list S1 D1 N Q Rm = Ok Y) /\
    (terminal_invariant (lA S1) (lB S1) (y_K Y) (in_poly D1) (in_poly (y_XN Y)) -> overlaps_agree (y_S Y) ->
     forall grb x0, length x0 = nx -> (exists us modes xs, pwa_run_from (y_S Y) (y_XN Y) nu N x0 us modes xs) ->
     exists X U : nat -> vec, X 0%nat = x0 /\
       (forall T, (forall t, (t < T)%nat -> gurobi_solves grb (k_mpmiqp (y_C Y)) (X t)) ->
          run_hybrid grb (y_C Y) (y_S Y) T x0 = Ok (map U (seq 0 T), map X (seq 0 (S T))) /\
          (forall t, (t < T)%nat -> length (U t) = nu /\ exists m, (m < length S_list)%nat /\ in_poly (nth m D_list poly0) (X t ++ U t) /\ X (S t) = mode_step (y_S Y) m (X t) (U t)) /\
          forall us xs modes V0, hybrid_feedforward grb (y_C Y) x0 = Ok (Some (us, xs, modes, V0)) -> forall t, (t < T)%nat -> sum_upto (fun t => stage_cost Q Rm (X t) (U t)) t <= V0) /\
       forall eps, 0 < eps -> (forall t, (forall s, (s <= t)%nat -> eps <= norm (X s)) -> gurobi_solves grb (k_mpmiqp (y_C Y)) (X t)) -> exists T, norm (X T) < eps).
Proof.
  intros HP. destruct (hybrid_design np S_list D_list i S1 D1 N Q Rm nx nu HP) as (fuel0 & Y & mN & O1 & mO & EY & EW & WN & _ & _ & _ & _ & HSU).
  exists fuel0, Y. split; [exact EY|]. intros TI OA grb x0 Lx RUN. specialize (HSU TI). pose proof HP as (HL & HN & LSD & HS & HD & _). pose proof HL as (_ & _ & _ & _ & _ & _ & PQ & _).
  destruct (loop_exists grb (y_C Y) (y_S Y) x0) as (X & U & M & X0 & LOOP). exists X, U. split; [exact X0|].
  assert (LX0 : length (X 0%nat) = nx) by (rewrite X0; exact Lx). rewrite <- X0 in RUN.
  split.
  - intros T GS.
    assert (PW : pwa_wf (y_S Y) nx nu).
    { pose proof HSU as (_ & (_ & _ & (_ & CS) & LD & _) & _). split; [symmetry; exact LD|]. split; [exact CS|]. rewrite EW. cbn [w_dom]. intros D HDi. destruct (HD D HDi) as (m & Wm & Pm & _). exists m, 0%nat. auto. }
    assert (WD : forall D, In D (w_dom (y_S Y)) -> exists r, wf D r 0 (nx + nu)). { rewrite EW. cbn [w_dom]. intros D HDi. destruct (HD D HDi) as (m & Wm & _). eauto. }
    assert (LM : length (w_sys (y_S Y)) = length S_list) by (rewrite EW; cbn [w_sys]; apply map_length).
    assert (LD : length (w_dom (y_S Y)) = length S_list) by (rewrite EW; cbn [w_dom]; lia).
    assert (AT : forall n, (n < T)%nat -> exists V0, (exists us xs modes, hybrid_feedforward grb (y_C Y) (X 0%nat) = Ok (Some (us, xs, modes, V0))) /\ forall t, (t <= n)%nat ->
      length (X t) = nx /\ length (U t) = nu /\ hybrid_feedback grb (y_C Y) (X t) = Ok (Some (U t)) /\ (M t < length (w_sys (y_S Y)))%nat /\ in_poly (nth (M t) (w_dom (y_S Y)) poly0) (X t ++ U t) /\
      X (S t) = mode_step (y_S Y) (M t) (X t) (U t) /\ 0 <= / 2 * (dot (X t) (mv Q (X t)) + dot (U t) (mv Rm (U t))) /\
      exists us xs modes V, hybrid_feedforward grb (y_C Y) (X t) = Ok (Some (us, xs, modes, V)) /\ 0 <= V /\
        V + sum_upto (fun t => / 2 * (dot (X t) (mv Q (X t)) + dot (U t) (mv Rm (U t)))) t <= V0).
    { intros n Hn. apply (hybrid_closed_loop np grb (y_S Y) N Q Rm (y_P Y) (y_XN Y) nx nu mN 0 (y_C Y) X U M n HSU LX0 LOOP RUN). intros t Ht. apply GS. lia. }
    split; [|split].
    + assert (G : forall n s, (s + n <= T)%nat -> run_hybrid grb (y_C Y) (y_S Y) n (X s) = Ok (map U (seq s n), map X (seq s (Datatypes.S n)))).
      { induction n as [|n IH]; intros s Hs; [reflexivity|]. cbn [run_hybrid]. destruct (AT s ltac:(lia)) as (V0 & _ & H). destruct (H s (le_n _)) as (L1 & L2 & EF & LMs & HI & ES & _). rewrite EF. cbn [bind].
        destruct (step_in_domain (y_S Y) nx nu (M s) (X s) (U s) PW L1 L2 ltac:(lia) HI WD OA) as (m' & ESim). rewrite ESim. cbn [bind fst]. rewrite <- ES, IH by lia. reflexivity. }
      rewrite <- X0. apply (G T 0%nat). lia.
    + intros t Ht. destruct (AT t Ht) as (V0 & _ & H). destruct (H t (le_n _)) as (_ & L2 & _ & LMs & HI & ES & _). split; [exact L2|]. exists (M t). rewrite LM in LMs. split; [exact LMs|]. split; [|exact ES]. rewrite EW in HI. exact HI.
    + intros us xs modes V0 E0 t Ht. destruct (AT t Ht) as (V1 & (us1 & xs1 & modes1 & E1) & H). rewrite X0, E0 in E1. injection E1 as <- <- <- <-. destruct (H t (le_n _)) as (_ & _ & _ & _ & _ & _ & _ & us2 & xs2 & modes2 & V & _ & PV & HV). unfold stage_cost. lra.
  - intros eps He GS. apply (hybrid_practical np grb (y_S Y) N Q Rm (y_P Y) (y_XN Y) nx nu mN 0 (y_C Y) X U M eps HSU LX0 LOOP RUN PQ He GS).
Qed.

(** *** Examples *)
Lemma box_in_X A b x : in_poly (Poly A b (Mat (ncols A) []) [] None None None None None) x <-> length x = ncols A /\ ineq_holds A b x.
Proof. unfold in_poly, eq_holds. cbn [pA pb pC pd rows]. split; [intros (H1 & H2 & _); auto|intros (H1 & H2); split; [exact H1|split; [exact H2|constructor]]]. Qed.
(** the data of hybrid_mpc.ipynb, lines 110-199: h = 0.01, explicit Euler; D1 and D2 share the boundary x1 = 0.1 *)
Definition N_S1 : lsys := LSys (Mat 2 [[1; / 100]; [/ 10; 1]]) (Mat 1 [[0]; [/ 100]]) None.
Definition N_S2 : asys := ASys (Mat 2 [[1; / 100]; [- (9 / 10); 1]]) (Mat 1 [[0]; [/ 100]]) [0; / 10].
Definition N_dom (lo hi : R) : poly := Poly (Mat 3 [[-1; 0; 0]; [0; -1; 0]; [1; 0; 0]; [0; 1; 0]; [0; 0; -1]; [0; 0; 1]]) [- lo; 3 / 2; hi; 3 / 2; 4; 4] (Mat 3 []) [] None None None None None.
Definition N_W : pwa := PWA 2 1 [ASys (lA N_S1) (lB N_S1) [0; 0]; N_S2] [N_dom (- (1 / 5)) (/ 10); N_dom (/ 10) (1 / 5)].
Lemma N_dom_in lo hi a b u : in_poly (N_dom lo hi) [a; b; u] <-> lo <= a <= hi /\ - (3 / 2) <= b <= 3 / 2 /\ -4 <= u <= 4.
Proof.
  unfold N_dom. rewrite box_in_X. cbn [ncols]. unfold ineq_holds. cbn [rows]. split.
  - intros (_ & H). repeat match goal with H : Forall2 _ (_ :: _) (_ :: _) |- _ => inversion H; clear H; subst end. cbn in *. lra.
  - intros H. split; [reflexivity|]. repeat (apply Forall2_cons; [cbn; lra|]). apply Forall2_nil.
Qed.
(*@ Theorem C76_mode_refuted : The two modes of the system of the notebook agree on their common boundary x1 = 0.1, but 5e-8 beyond it, inside the second domain and outside the first, simulate still takes the first mode, and the next state is not that of the mode of the domain (the difference is below 1e-7). *)
Lemma notebook_mode : PieceWiseAffineSystem [Lin N_S1; Aff N_S2] [N_dom (- (1 / 5)) (/ 10); N_dom (/ 10) (1 / 5)] = Ok N_W /\
  (forall b u, in_poly (nth 0 (w_dom N_W) poly0) [/ 10; b; u] -> mode_step N_W 0 [/ 10; b] [u] = mode_step N_W 1 [/ 10; b] [u]) /\
  exists x u x', in_poly (nth 1 (w_dom N_W) poly0) (x ++ u) /\ ~ in_poly (nth 0 (w_dom N_W) poly0) (x ++ u) /\
    pwa_simulate N_W x [u] = Ok ([x; x'], [0%nat]) /\ x' = mode_step N_W 0 x u /\ x' <> mode_step N_W 1 x u.
Proof.
  assert (T : tol7 = / 10 ^ 7) by (unfold tol7; lra).
  assert (PW : pwa_wf N_W 2 1).
  { split; [reflexivity|]. split.
    - intros s [<-|[<-|[]]]; (split; [split; split; [reflexivity|split; [reflexivity|repeat constructor]|reflexivity|split; [reflexivity|repeat constructor]]|reflexivity]).
    - intros d [<-|[<-|[]]]; exists 6%nat, 0%nat; (split; [|lia]); (split; [split; [reflexivity|split; [reflexivity|repeat constructor]]|split; [reflexivity|split; [split; [reflexivity|split; [reflexivity|constructor]]|reflexivity]]]). }
  split; [reflexivity|]. split.
  - intros b u _. cbv -[Rplus Rmult Rinv Rdiv IZR Ropp]. apply vec_ext; [reflexivity|]. intros [|[|i]] Hi; cbn; try field.
  - exists [/ 10 + / 2 * / 10 ^ 7; 0], [0], (mode_step N_W 0 [/ 10 + / 2 * / 10 ^ 7; 0] [0]). cbn [w_dom N_W nth app]. rewrite !N_dom_in. split; [lra|]. split; [lra|]. split; [|split; [reflexivity|]].
    + apply (proj1 (pwa_simulation N_W 2 1 [/ 10 + / 2 * / 10 ^ 7; 0] [[0]] PW eq_refl ltac:(repeat constructor))). split; [reflexivity|]. split.
      * split; [reflexivity|]. split; [reflexivity|]. intros [|t] Ht; [reflexivity|cbn in Ht; lia].
      * intros [|t] Ht; [|cbn in Ht; lia]. split; [cbn; lia|]. split; [|intros k d Hk; cbn in Hk; lia]. intros d E. injection E as <-. split; [|constructor]. rewrite T. cbn [N_dom rows pA pb]. repeat (apply Forall2_cons; [cbn; lra|]). apply Forall2_nil.
    + intros E. apply (f_equal (fun v => nth 1 v 0)) in E. cbv -[Rplus Rmult Rinv Rdiv IZR Ropp pow] in E. lra.
Qed.

Definition D_far : poly := Poly (Mat 2 [[1; 0]; [-1; 0]; [0; 1]; [0; -1]]) [3; -2; 1; 1] (Mat 2 []) [] None None None None None.
(*@ Example C76_example : x+ = x + u for |x| <= 1 and x+ = x + u - 1 for 2 <= x <= 3, with |u| <= 1, Q = 1, R = 2 and N = 1: the hypotheses hold, the terminal set is [-1, 1] and invariant under K = -1/2, the modes agree, and x = 1 has an admissible run. (Gurobi's contract holds in C69_example.) *)
Lemma hybrid_notebook_example : let S_list := [Lin S_1; Aff (ASys (Mat 1 [[1]]) (Mat 1 [[1]]) [-1])] in let D_list := [D_box; D_far] in
  hybrid_problem np_work S_list D_list 0 S_1 D_box 1 (Mat 1 [[1]]) (Mat 1 [[2]]) 1 1 /\
  exists fuel Y, hybrid_mpc_design np_work fuel S_list D_list S_1 D_box 1 (Mat 1 [[1]]) (Mat 1 [[2]]) = Ok Y /\ y_K Y = Mat 1 [[- (1 / 2)]] /\
    terminal_invariant (lA S_1) (lB S_1) (y_K Y) (in_poly D_box) (in_poly (y_XN Y)) /\ overlaps_agree (y_S Y) /\ (forall a, in_poly (y_XN Y) [a] <-> -1 <= a <= 1) /\
    exists us modes xs, pwa_run_from (y_S Y) (y_XN Y) 1 1 [1] us modes xs.
Proof.
  intros S_list D_list.
  assert (IB : forall w, in_poly D_box w <-> exists a u, w = [a; u] /\ -1 <= a <= 1 /\ -1 <= u <= 1).
  { intros w. unfold D_box. rewrite box_in_X. cbn [ncols]. unfold ineq_holds. cbn [rows]. split.
    - intros (L & H). destruct w as [|a [|u [|]]]; try discriminate L. exists a, u. split; [reflexivity|]. repeat match goal with H : Forall2 _ (_ :: _) (_ :: _) |- _ => inversion H; clear H; subst end. cbn in *. lra.
    - intros (a & u & -> & H). split; [reflexivity|]. repeat (apply Forall2_cons; [cbn; lra|]). apply Forall2_nil. }
  assert (IF : forall w, in_poly D_far w <-> exists a u, w = [a; u] /\ 2 <= a <= 3 /\ -1 <= u <= 1).
  { intros w. unfold D_far. rewrite box_in_X. cbn [ncols]. unfold ineq_holds. cbn [rows]. split.
    - intros (L & H). destruct w as [|a [|u [|]]]; try discriminate L. exists a, u. split; [reflexivity|]. repeat match goal with H : Forall2 _ (_ :: _) (_ :: _) |- _ => inversion H; clear H; subst end. cbn in *. lra.
    - intros (a & u & -> & H). split; [reflexivity|]. repeat (apply Forall2_cons; [cbn; lra|]). apply Forall2_nil. }
  assert (NB : forall a u M, Rabs a <= M -> Rabs u <= M -> 0 <= M -> norm [a; u] <= 2 * M).
  { intros a u M Ha Hu HM. unfold norm. rewrite <- (sqrt_square (2 * M)) by lra. apply sqrt_le_1_alt. cbn. pose proof (Rsqr_abs a) as Qa. pose proof (Rsqr_abs u) as Qu. unfold Rsqr in Qa, Qu. pose proof (Rabs_pos a). pose proof (Rabs_pos u). nra. }
  assert (HP : hybrid_problem np_work S_list D_list 0 S_1 D_box 1 (Mat 1 [[1]]) (Mat 1 [[2]]) 1 1).
  { split; [exact scalar_lqr_problem|]. split; [lia|]. split; [reflexivity|]. split; [|split; [|split; [reflexivity|split; [reflexivity|repeat (apply Forall_cons; [lra|]); apply Forall_nil]]]].
    - intros s [<-|[<-|[]]]; [split; apply scalar_shape|split; [split; apply scalar_shape|reflexivity]].
    - intros D [<-|[<-|[]]]; exists 4%nat; (split; [split; [split; [reflexivity|split; [reflexivity|repeat constructor]]|split; [reflexivity|split; [split; [reflexivity|split; [reflexivity|constructor]]|reflexivity]]]|]); (split; [lia|]); split.
      + exists [0; 0]. apply IB. exists 0, 0. split; [reflexivity|lra].
      + exists (2 * 3). intros w Hw. apply IB in Hw. destruct Hw as (a & u & -> & Ha & Hu). apply NB; [apply Rabs_le; lra|apply Rabs_le; lra|lra].
      + exists [2; 0]. apply IF. exists 2, 0. split; [reflexivity|lra].
      + exists (2 * 3). intros w Hw. apply IF in Hw. destruct Hw as (a & u & -> & Ha & Hu). apply NB; [apply Rabs_le; lra|apply Rabs_le; lra|lra]. }
  split; [exact HP|]. destruct (hybrid_design _ _ _ _ _ _ _ _ _ _ _ HP) as (fuel & Y & mN & O1 & mO & EY & EW & WN & WO & RF & IN & TI & _). specialize (EY fuel (le_n _)).
  exists fuel, Y. split; [exact EY|].
  assert (EK : y_K Y = Mat 1 [[- (1 / 2)]]).
  { unfold hybrid_mpc_design in EY. destruct (PieceWiseAffineSystem S_list D_list) as [W|]; [|discriminate]. cbn [bind] in EY. pose proof scalar_gain as G. destruct (solve_dare np_work S_1 _ _) as [[(P & K)|] S'] eqn:E; [|discriminate]. destruct (G P K eq_refl) as (_ & ->). cbn [bind fst snd] in EY.
    destruct (lin_mcais np_work fuel S' _ D_box) as [XN|]; [|discriminate]. cbn [bind] in EY. destruct (HybridModelPredictiveController _ _ _ _ _ _ _); [|discriminate]. cbn [bind] in EY. injection EY as <-. reflexivity. }
  split; [exact EK|].
  assert (T : terminal_invariant (lA S_1) (lB S_1) (y_K Y) (in_poly D_box) (in_poly (y_XN Y))).
  { apply TI, halving_gap; [exact WO|]. intros r Hr. destruct (RF r Hr) as (j & k & Hj & Hb & Hd). rewrite EK in Hb, Hd. cbn in Hj, Hb.
    destruct j as [|[|[|[|]]]]; [exists 1, k|exists (-1), k|exists (-1), (S k)|exists 1, (S k)|lia]; (split; [auto|]; split; [cbn in Hb; lra|]; intros a; rewrite (Hd [a] eq_refl), halving_flow; set (p := (/ 2) ^ k); cbn; unfold p; cbn; lra). }
  assert (XN : forall a, in_poly (y_XN Y) [a] <-> -1 <= a <= 1).
  { intros a. split.
    - intros H. destruct (T [a] H) as (H1 & _). apply IB in H1. destruct H1 as (a' & u & E & H1). cbn [app] in E. injection E as <- _. lra.
    - intros Ha. apply IN; [reflexivity|]. intros t y. unfold y. clear y. rewrite EK, halving_flow. apply IB. exists ((/ 2) ^ t * a), (- (1 / 2) * ((/ 2) ^ t * a)). pose proof (pow_le1 (/ 2) t ltac:(lra)). split; [|nra]. cbn. do 2 f_equal. ring. }
  split; [exact T|]. split; [|split; [exact XN|]].
  - rewrite EW. assert (T7 : 0 < tol7 < 1 / 2) by (unfold tol7; lra).
    intros m m' x u Hm Hm' H1 H2. cbn [w_dom] in Hm, Hm', H1, H2. destruct m as [|[|m]]; [| |cbn in Hm; lia]; (destruct m' as [|[|m']]; [| |cbn in Hm'; lia]); try reflexivity; exfalso; cbn [nth D_list] in H1, H2.
    + apply IB in H1. destruct H1 as (a & v & E & Ha & _). rewrite E in H2. destruct H2 as (H2 & _). cbn [D_far pA pb rows] in H2. repeat match goal with H : Forall2 _ (_ :: _) (_ :: _) |- _ => inversion H; clear H; subst end. cbn in *. lra.
    + apply IF in H1. destruct H1 as (a & v & E & Ha & _). rewrite E in H2. destruct H2 as (H2 & _). cbn [D_box pA pb rows] in H2. repeat match goal with H : Forall2 _ (_ :: _) (_ :: _) |- _ => inversion H; clear H; subst end. cbn in *. lra.
  - exists [[- (1 / 2)]], [0%nat], [[1]; [1 / 2]]. rewrite EW. unfold pwa_run_from. cbn [w_sys w_dom S_list D_list map as_affine aA aB ac]. split; [reflexivity|]. split; [repeat constructor|]. split; [reflexivity|]. split; [intros m [<-|[]]; cbn; lia|]. split.
    + split; [reflexivity|]. split; [reflexivity|]. intros [|t] Ht; [|cbn in Ht; lia]. cbn. f_equal. field.
    + split; [|cbn; apply XN; lra]. intros [|t] Ht; [|cbn in Ht; lia]. cbn [nth]. apply IB. exists 1, (- (1 / 2)). split; [reflexivity|lra].
Qed.
