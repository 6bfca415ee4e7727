(** * PropsNote: the property theorems of this part, restated; proofs are in NoteThms.
    Generated by tools/gen_props.py: this file contains only statements, [exact] and Print Assumptions. *)
From Coq Require Import ZArith Classical.
From Verif Require Import Arr ArrFacts Spec SpecMpc SpecProg SpecLoop Numpy Pnnls PnnlsFacts QpFacts GeomUtils Polyhedron PolyThms Oracle SolverThms NullFacts PolySolveThms PolyMore SpecDyn Dynamics DynThms CondenseThms LqrThms McaisThms Mpqp MpqpThms Controllers CtrlThms Gurobi Programs ProgThms Hybrid HybridThms HybridOptThms HybridLoopThms Workflow WorkThms Notebooks.
From Verif Require Import NoteThms.

(** The notebook on invariant sets, for box constraints with the origin inside, positive definite Q and R and a controllable system, with scipy returning a positive semidefinite solution of the Riccati equation: every step succeeds (mcais for every sufficiently large number of iterations); X_cl is the set of the x with x in X and K x in U; every trajectory drawn is that of the closed loop and converges to the origin; O_inf contains every state from which all the trajectories drawn (N = 0, 1, 2, ...) stay in X_cl, and unless a redundancy was decided by the tolerance 1e-7 it contains no others, so that it is inside X_cl and trajectories from it stay in it.
   Missing: redundancies decided by the tolerance (see C30). *)
Theorem C75_mcais_demo_partial np S Q Rm x_min x_max u_min u_max nx nu :
  lqr_problem np S Q Rm nx nu ->
  length x_min = nx -> length x_max = nx -> length u_min = nu -> length u_max = nu ->
  Forall (fun a => a < 0) x_min -> Forall (fun a => 0 < a) x_max -> Forall (fun a => a < 0) u_min -> Forall (fun a => 0 < a) u_max ->
  exists fuel0 W O1 mO, (forall fuel, (fuel0 <= fuel)%nat -> mcais_demo np fuel S Q Rm x_min x_max u_min u_max = Ok W) /\
    (forall x, in_poly (o_X W) x <-> Forall2 Rle x_min x /\ Forall2 Rle x x_max) /\
    (forall x, in_poly (o_Xcl W) x <-> in_poly (o_X W) x /\ Forall2 Rle u_min (mv (o_K W) x) /\ Forall2 Rle (mv (o_K W) x) u_max) /\
    (forall x, length x = nx -> exists X : nat -> vec, (forall N, simulate_closed_loop S x N (o_K W) = Ok (map X (seq 0 (Datatypes.S N)))) /\ X 0%nat = x /\
       (forall t, X (Datatypes.S t) = linear_step (lA S) (lB S) (X t) (mv (o_K W) (X t))) /\
       (forall eps, 0 < eps -> exists T, forall t, (T <= t)%nat -> norm (X t) <= eps) /\
       ((forall t, in_poly (o_Xcl W) (X t)) -> in_poly (o_inf W) x) /\
       (redundancy_gap O1 mO tol7 -> in_poly (o_inf W) x -> forall t, in_poly (o_Xcl W) (X t) /\ in_poly (o_inf W) (X t))) /\
    wf O1 mO 0 nx /\ rows_of_flow (A_closed S (o_K W)) (cl_poly S (o_K W) (o_D W)) O1 (nx + nx + (nu + nu)) mO nx.
Proof. exact (mcais_notebook np S Q Rm x_min x_max u_min u_max nx nu). Qed.
Print Assumptions C75_mcais_demo_partial.

(** x+ = x + u with Q = 1, R = 2, |x| <= 1, |u| <= 1: the hypotheses hold, the notebook computes K = -1/2, and O_inf and X_cl are the interval [-1, 1]. *)
Example C75_example :
  lqr_problem np_work S_1 (Mat 1 [[1]]) (Mat 1 [[2]]) 1 1 /\
  exists fuel W, mcais_demo np_work fuel S_1 (Mat 1 [[1]]) (Mat 1 [[2]]) [-1] [1] [-1] [1] = Ok W /\ o_K W = Mat 1 [[- (1 / 2)]] /\
    (forall a, in_poly (o_inf W) [a] <-> -1 <= a <= 1) /\ forall a, in_poly (o_Xcl W) [a] <-> -1 <= a <= 1.
Proof. exact (mcais_notebook_example). Qed.

(** The notebooks on hybrid MPC: for a piecewise affine system on bounded nonempty domains, of which one, with the origin inside, has a linear system with positive definite Q and R and a controllable pair, every step succeeds (mcais for every sufficiently large number of iterations): the PWA system, P and K, the terminal set and the controller. Unless a redundancy was decided by the tolerance 1e-7, the terminal set is invariant under u = K x within the domain, and it is a terminal set with a terminal cost in the sense of C69 for the whole PWA system. *)
Theorem C76_design np S_list D_list i S1 D1 N Q Rm nx nu :
  hybrid_problem np S_list D_list i S1 D1 N Q Rm nx nu ->
  exists fuel0 Y mN O1 mO, (forall fuel, (fuel0 <= fuel)%nat -> hybrid_mpc_design np fuel S_list D_list S1 D1 N Q Rm = Ok Y) /\
    y_S Y = PWA nx nu (map (as_affine nx) S_list) D_list /\ wf (y_XN Y) mN 0 nx /\ wf O1 mO 0 nx /\ rows_of_flow (A_closed S1 (y_K Y)) (cl_poly S1 (y_K Y) D1) O1 (length (pb D1)) mO nx /\
    (forall x, length x = nx -> (forall t, let y := flow (A_closed S1 (y_K Y)) t x in in_poly D1 (y ++ mv (y_K Y) y)) -> in_poly (y_XN Y) x) /\
    (redundancy_gap O1 mO tol7 -> terminal_invariant (lA S1) (lB S1) (y_K Y) (in_poly D1) (in_poly (y_XN Y))) /\
    (terminal_invariant (lA S1) (lB S1) (y_K Y) (in_poly D1) (in_poly (y_XN Y)) -> hyb_loop_setup np (y_S Y) N Q Rm (y_P Y) (y_XN Y) nx nu mN 0 (y_C Y)).
Proof. exact (hybrid_design np S_list D_list i S1 D1 N Q Rm nx nu). Qed.
Print Assumptions C76_design.

(** The closed loop of the notebooks. If the terminal set is invariant (see C76_design) and the modes agree wherever get_mode could choose another one than the optimal run (overlaps, and strips of width 1e-7 along the boundaries), then from every state with an admissible run, as long as Gurobi solves the programs met, the loop "u = feedback(x), x = simulate(x, [u])[0][1]" never fails: every pair (x, u) is in a domain, the next state is that of this domain, and the cost accumulated before any of these states is at most the value of the controller at the initial state; if Gurobi solves the programs as long as the state is at a distance of at least eps from the origin, the loop enters the ball of radius eps.
   Missing: systems with modes that disagree along a boundary, where simulate may take the wrong mode (C76_mode_refuted). *)
Theorem C76_run_partial np S_list D_list i S1 D1 N Q Rm nx nu :
  hybrid_problem np S_list D_list i S1 D1 N Q Rm nx nu ->
  exists fuel0 Y, (forall fuel, (fuel0 <= fuel)%nat -> hybrid_mpc_design np fuel S_list D_list S1 D1 N Q Rm = Ok Y) /\
    (terminal_invariant (lA S1) (lB S1) (y_K Y) (in_poly D1) (in_poly (y_XN Y)) -> overlaps_agree (y_S Y) ->
     forall grb x0, length x0 = nx -> (exists us modes xs, pwa_run_from (y_S Y) (y_XN Y) nu N x0 us modes xs) ->
     exists X U : nat -> vec, X 0%nat = x0 /\
       (forall T, (forall t, (t < T)%nat -> gurobi_solves grb (k_mpmiqp (y_C Y)) (X t)) ->
          run_hybrid grb (y_C Y) (y_S Y) T x0 = Ok (map U (seq 0 T), map X (seq 0 (S T))) /\
          (forall t, (t < T)%nat -> length (U t) = nu /\ exists m, (m < length S_list)%nat /\ in_poly (nth m D_list poly0) (X t ++ U t) /\ X (S t) = mode_step (y_S Y) m (X t) (U t)) /\
          forall us xs modes V0, hybrid_feedforward grb (y_C Y) x0 = Ok (Some (us, xs, modes, V0)) -> forall t, (t < T)%nat -> sum_upto (fun t => stage_cost Q Rm (X t) (U t)) t <= V0) /\
       forall eps, 0 < eps -> (forall t, (forall s, (s <= t)%nat -> eps <= norm (X s)) -> gurobi_solves grb (k_mpmiqp (y_C Y)) (X t)) -> exists T, norm (X T) < eps).
Proof. exact (hybrid_run np S_list D_list i S1 D1 N Q Rm nx nu). Qed.
Print Assumptions C76_run_partial.

(** The two modes of the system of the notebook agree on their common boundary x1 = 0.1, but 5e-8 beyond it, inside the second domain and outside the first, simulate still takes the first mode, and the next state is not that of the mode of the domain (the difference is below 1e-7). *)
Theorem C76_mode_refuted :
  PieceWiseAffineSystem [Lin N_S1; Aff N_S2] [N_dom (- (1 / 5)) (/ 10); N_dom (/ 10) (1 / 5)] = Ok N_W /\
  (forall b u, in_poly (nth 0 (w_dom N_W) poly0) [/ 10; b; u] -> mode_step N_W 0 [/ 10; b] [u] = mode_step N_W 1 [/ 10; b] [u]) /\
  exists x u x', in_poly (nth 1 (w_dom N_W) poly0) (x ++ u) /\ ~ in_poly (nth 0 (w_dom N_W) poly0) (x ++ u) /\
    pwa_simulate N_W x [u] = Ok ([x; x'], [0%nat]) /\ x' = mode_step N_W 0 x u /\ x' <> mode_step N_W 1 x u.
Proof. exact (notebook_mode). Qed.
Print Assumptions C76_mode_refuted.

(** x+ = x + u for |x| <= 1 and x+ = x + u - 1 for 2 <= x <= 3, with |u| <= 1, Q = 1, R = 2 and N = 1: the hypotheses hold, the terminal set is [-1, 1] and invariant under K = -1/2, the modes agree, and x = 1 has an admissible run. (Gurobi's contract holds in C69_example.) *)
Example C76_example :
  let S_list := [Lin S_1; Aff (ASys (Mat 1 [[1]]) (Mat 1 [[1]]) [-1])] in let D_list := [D_box; D_far] in
  hybrid_problem np_work S_list D_list 0 S_1 D_box 1 (Mat 1 [[1]]) (Mat 1 [[2]]) 1 1 /\
  exists fuel Y, hybrid_mpc_design np_work fuel S_list D_list S_1 D_box 1 (Mat 1 [[1]]) (Mat 1 [[2]]) = Ok Y /\ y_K Y = Mat 1 [[- (1 / 2)]] /\
    terminal_invariant (lA S_1) (lB S_1) (y_K Y) (in_poly D_box) (in_poly (y_XN Y)) /\ overlaps_agree (y_S Y) /\ (forall a, in_poly (y_XN Y) [a] <-> -1 <= a <= 1) /\
    exists us modes xs, pwa_run_from (y_S Y) (y_XN Y) 1 1 [1] us modes xs.
Proof. exact (hybrid_notebook_example). Qed.
