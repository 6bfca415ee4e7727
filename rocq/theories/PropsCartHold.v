(** * PropsCartHold: the property theorems of this part, restated; proofs are in CartHoldThms.
    Generated by tools/gen_props.py: this file contains only statements, [exact] and Print Assumptions. *)
From Coq Require Import Lra Lia String.
From Verif Require Import Arr ArrFacts Spec SpecMpc SpecDyn SpecEig SpecRound SpecHold SpecCart Numpy Dynamics DynThms ZohThms OdeThms SampThms LqrThms QpFacts SolverThms Oracle CondenseThms McaisThms Mpqp Controllers Polyhedron PolyThms CtrlThms DareThms NoteThms SpectralThms RoundThms RoundSimThms Walls WallThms CartDyn LocalThms Gurobi Programs Hybrid HybridThms HybridOptThms HybridLoopThms PlantThms HoldThms.
From Verif Require Import CartHoldThms.
Local Open Scope list_scope.

(** For all positive masses, lengths, gravity and all steps h > 0 the zero-order hold of the linearized cart-pole (from_continuous with zero_order_hold, exact matrix exponential) is controllable: some four inputs lead from any state to any other *)
Theorem C97_cart_controllable np mc mp l g h S :
  0 < mc -> 0 < mp -> 0 < l -> 0 < g -> 0 < h ->
  is_expm (mscale h (zoh_matrix (cart_A_free mc mp l g) (cart_B mc l) (zeros 4))) (np_expm np (mscale h (zoh_matrix (cart_A_free mc mp l g) (cart_B mc l) (zeros 4)))) 6 -> lin_from_continuous np (cart_A_free mc mp l g) (cart_B mc l) h "zero_order_hold" = Ok S ->
  steerable (lA S) (lB S) 4 1 4.
Proof. exact (cart_hold_steerable np mc mp l g h S). Qed.
Print Assumptions C97_cart_controllable.

(** The nonlinear cart-pole of cart_pole_dynamics.m (free, or pushed back by one of the walls) in continuous time, for all positive parameters and steps: solve_dare succeeds for the zero-order hold of the linearization, and its gain K stabilizes the nonlinear plant: there are rho > 0 and constants c, m such that on all motions with u = K x(k h) for k h <= t < (k+1) h and |x(0)| <= rho, |x(t)| <= c (3/4)^(k / m) |x(0)| for all times t in [k h, (k+1) h] *)
Theorem C97_cart np mc mp l d k g h Q Rm :
  0 < mc -> 0 < mp -> 0 < l -> 0 < d -> 0 < g -> 0 < h -> shape Q 4 4 -> shape Rm 1 1 -> Spec.pd Q 4 -> Spec.pd Rm 1 -> exact_np np ->
  is_expm (mscale h (zoh_matrix (cart_A_free mc mp l g) (cart_B mc l) (zeros 4))) (np_expm np (mscale h (zoh_matrix (cart_A_free mc mp l g) (cart_B mc l) (zeros 4)))) 6 ->
  (forall S, lin_from_continuous np (cart_A_free mc mp l g) (cart_B mc l) h "zero_order_hold" = Ok S -> riccati (lA S) (lB S) Q Rm (np_dare np (lA S) (lB S) Q Rm) 4 1 /\ psd (np_dare np (lA S) (lB S) Q Rm) 4) ->
  exists S P K, lin_from_continuous np (cart_A_free mc mp l g) (cart_B mc l) h "zero_order_hold" = Ok S /\ fst (solve_dare np S Q Rm) = Ok (P, K) /\
  exists m c rho, (0 < m)%nat /\ 0 <= c /\ 0 < rho /\ forall phi, length (phi 0%nat 0) = 4%nat -> sup (phi 0%nat 0) <= rho -> (forall T, sampled_run (cart_field mc mp l d k g) (fun x u => u = mv K x) 4 h phi T) ->
  forall i t, 0 <= t <= h -> sup (phi i t) <= c * (3 / 4) ^ (i / m) * sup (phi 0%nat 0).
Proof. exact (cart_sampled_lqr np mc mp l d k g h Q Rm). Qed.
Print Assumptions C97_cart.

(** For the numbers of the script and the notebook and Q, R identities there are exact libraries that meet the hypotheses of C97_cart *)
Example C97_cart_example :
  exists np, exact_np np /\ is_expm (mscale (/ 20) (zoh_matrix (cart_A_free 1 1 1 10) (cart_B 1 1) (zeros 4))) (np_expm np (mscale (/ 20) (zoh_matrix (cart_A_free 1 1 1 10) (cart_B 1 1) (zeros 4)))) 6 /\
  forall S, lin_from_continuous np (cart_A_free 1 1 1 10) (cart_B 1 1) (/ 20) "zero_order_hold" = Ok S -> riccati (lA S) (lB S) (eye 4) (eye 1) (np_dare np (lA S) (lB S) (eye 4) (eye 1)) 4 1 /\ psd (np_dare np (lA S) (lB S) (eye 4) (eye 1)) 4.
Proof. exact (cart_hold_example). Qed.

(** dx/dt = (1 + x) u with h = 1: the zero-order hold of its linearization dx/dt = u is x + u; with Q = 1, R = 2, K = -1/2, horizon 1 and terminal set [-1, 1], all hypotheses of C97_lqr and C97_mpc hold, and from every state there is a run of the plant with the gain and, where the controller returns K x, with the controller: x(t) = (1 + x_k) exp(- x_k t / 2) - 1 between the samples *)
Example C97_example :
  exists np C, exact_np np /\ hold_model np bilinear (Mat 1 [[0]]) (Mat 1 [[1]]) 1 1 1 S_1 /\ mpc_data S_1 1 (Mat 1 [[1]]) (Mat 1 [[2]]) (Mat 1 [[2]]) D_box X_int 1 1 /\ ModelPredictiveController np S_1 1 (Mat 1 [[1]]) (Mat 1 [[2]]) (Mat 1 [[2]]) D_box X_int = Ok C /\
  lqr_pair np S_1 (Mat 1 [[1]]) (Mat 1 [[2]]) (Mat 1 [[2]]) (Mat 1 [[- (1 / 2)]]) 1 1 /\ Spec.pd (Mat 1 [[1]]) 1 /\ Spec.pd (Mat 1 [[2]]) 1 /\ terminal_invariant (lA S_1) (lB S_1) (Mat 1 [[- (1 / 2)]]) (in_poly D_box) (in_poly X_int) /\
  (forall x, length x = 1%nat -> sup x <= 1 -> in_poly X_int x) /\ forall z, bilinear_run z 0 0 = [z] /\ (forall T, sampled_run bilinear (fun x u => u = mv (Mat 1 [[- (1 / 2)]]) x) 1 1 (bilinear_run z) T) /\
  forall k, Rabs (bilinear_state z k) <= 1 -> feedback np C (bilinear_run z k 0) = Ok (Some (mv (Mat 1 [[- (1 / 2)]]) (bilinear_run z k 0))) /\ forall u, feedback np C (bilinear_run z k 0) = Ok (Some u) -> bilinear_run z (Datatypes.S k) 0 = bilinear_run z k 1 /\ held_solution bilinear u 1 1 (bilinear_run z k).
Proof. exact (hold_example). Qed.

(** With from_continuous(A, B, h, 'explicit_euler') the claim C97_lqr is false, even for a linear plant: dx/dt = x + u, h = 2, whose Euler model 3 x + 2 u is stabilized by the gain -15/11 of solve_dare (Q = 2/11, R = 2/5). On the plant, with the input held, |x(k h)| grows at least like 1.01^k from every initial state *)
Theorem C97_euler_refuted :
  exists np S Q Rm P K, exact_np np /\ field_derivative (fun x u => vadd x u) (Mat 1 [[1]]) (Mat 1 [[1]]) 1 1 /\ lin_from_continuous np (Mat 1 [[1]]) (Mat 1 [[1]]) 2 "explicit_euler" = Ok S /\
  shape Q 1 1 /\ shape Rm 1 1 /\ Spec.pd Q 1 /\ Spec.pd Rm 1 /\ lqr_pair np S Q Rm P K 1 1 /\ attractive (madd (lA S) (mm (lB S) K)) 1 /\
  forall z, exists phi, phi 0%nat 0 = [z] /\ (forall T, sampled_run (fun x u => vadd x u) (fun x u => u = mv K x) 1 2 phi T) /\ forall k, (101 / 100) ^ k * Rabs z <= sup (phi k 0).
Proof. exact (euler_refuted). Qed.
Print Assumptions C97_euler_refuted.

(** The plant dx/dt = (1 + x) u with h = 1 and the hybrid controller of C96_hybrid_example, whose mode of the origin is its zero-order hold x + u: all hypotheses of C97_hybrid hold, and for x(0) = 1 there is a Gurobi with which feedback returns K x(0) = -1/2 and the plant moves along 2 exp(- t / 2) - 1 until the next sample *)
Example C97_hybrid_example :
  exists np C, hold_model np bilinear (Mat 1 [[0]]) (Mat 1 [[1]]) 1 1 1 S_1 /\ hyb_controller np W_near 1 I_1 R_2 R_2 X_int 1 1 2 0 C /\ origin_mode W_near 0 S_1 D_box 1 2 /\
  lqr_pair np S_1 I_1 R_2 R_2 (Mat 1 [[- (1 / 2)]]) 1 1 /\ Spec.pd I_1 1 /\ terminal_invariant (lA S_1) (lB S_1) (Mat 1 [[- (1 / 2)]]) (in_poly D_box) (in_poly X_int) /\ (forall x, length x = 1%nat -> sup x <= 1 -> in_poly X_int x) /\
  exists grb, gurobi_solves grb (k_mpmiqp C) (bilinear_run 1 0 0) /\ forall k u, (k < 1)%nat -> hybrid_feedback grb C (bilinear_run 1 k 0) = Ok (Some u) -> u = [- (1 / 2)] /\ bilinear_run 1 (Datatypes.S k) 0 = bilinear_run 1 k 1 /\ held_solution bilinear u 1 1 (bilinear_run 1 k).
Proof. exact (hold_hybrid_example). Qed.
