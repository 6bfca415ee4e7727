(** * PropsCartOrigin: the property theorems of this part, restated; proofs are in CartOriginThms.
    Generated by tools/gen_props.py: this file contains only statements, [exact] and Print Assumptions. *)
From Coq Require Import Lra Lia String.
From Verif Require Import Arr ArrFacts Spec SpecMpc SpecProg SpecDyn SpecEig SpecRound SpecHold SpecOrigin SpecCart Numpy Dynamics DynThms ZohThms OdeThms SampThms LqrThms QpFacts SolverThms Oracle CondenseThms McaisThms Mpqp Controllers Polyhedron PolyThms CtrlThms HorizonThms DareThms NoteThms SpectralThms RoundThms RoundSimThms Walls WallThms CartDyn LocalThms Gurobi Programs Hybrid HybridThms HybridOptThms HybridLoopThms ExampleCtrl ExThms ExLoopThms CartPole CartThms PlantThms HoldThms CartHoldThms OriginThms.
From Verif Require Import CartOriginThms.
Local Open Scope list_scope.

(** The controller that the notebook builds for its piecewise affine model (linearizations of dx/dt = f(x, u) at several angles, zero-order hold h), on the nonlinear plant dx/dt = f(x, u) itself, its input held for h: let the origin be one of the linearization points, an equilibrium in the interior of the limits, whose linearization A, B is the derivative of f, and let the model of this linearization be able to reach the origin in N steps. There are rho > 0, a gain K and constants c, m such that on all runs with |x(0)| <= rho, as long as drake solves its programs, feedback returns K x and |x(t)| <= c (3/4)^(k / m) |x(0)| for all t in [k h, (k+1) h] *)
Theorem C98_notebook ridges np taylor nx k xlim ulim a b n h W N q r f A B S :
  exact_np np -> cart_setup np taylor nx k xlim ulim a b n h -> (exists j, (j < n)%nat /\ a + INR j * ((b - a) / (INR n - 1)) = 0) -> taylor (zeros nx) = (A, B, zeros nx) -> field_derivative f A B nx 1 ->
  (forall j, (j < nx)%nat -> j <> k -> 0 < nth j xlim 0) -> 0 < ulim -> cart_pole_pwa ridges np taylor nx k xlim ulim a b n h = Ok W -> sharp_gaps W nx -> (0 < N)%nat -> 0 < q -> 0 < r ->
  lin_from_continuous np A B h "zero_order_hold" = Ok S -> (forall x, length x = nx -> exists u, steers (lA S) (lB S) nx 1 N x u) ->
  exists C K m c rho, cart_pole_controller np W N q r = Ok C /\ shape K 1 nx /\ (0 < m)%nat /\ 0 <= c /\ 0 < rho /\ forall drake phi T, length (phi 0%nat 0) = nx -> sup (phi 0%nat 0) <= rho -> (forall t, (t < T)%nat -> drake_solves drake C (phi t 0)) ->
  (forall t u, (t < T)%nat -> example_feedback drake C (phi t 0) = Ok (Some u) -> phi (Datatypes.S t) 0 = phi t h /\ held_solution f u nx h (phi t)) ->
  forall t, (t < T)%nat -> example_feedback drake C (phi t 0) = Ok (Some (mv K (phi t 0))) /\ forall s, 0 <= s <= h -> sup (phi t s) <= c * (3 / 4) ^ (t / m) * sup (phi 0%nat 0).
Proof. exact (cart_nonlinear ridges np taylor nx k xlim ulim a b n h W N q r f A B S). Qed.
Print Assumptions C98_notebook.

(** In particular the cart-pole: for all masses, pole lengths, gravities, hold times h > 0 and horizons N >= 4, whatever the other linearization points and the springs of the walls, the controller of the notebook stabilizes the nonlinear cart-pole locally, with its input held for h *)
Theorem C98_cart ridges np taylor k xlim ulim a b n h W N q r mc mp l d ks g :
  exact_np np -> 0 < mc -> 0 < mp -> 0 < l -> 0 < d -> 0 < g -> 0 < h -> cart_setup np taylor 4 k xlim ulim a b n h -> (exists j, (j < n)%nat /\ a + INR j * ((b - a) / (INR n - 1)) = 0) -> taylor (zeros 4) = (cart_A_free mc mp l g, cart_B mc l, zeros 4) ->
  (forall j, (j < 4)%nat -> j <> k -> 0 < nth j xlim 0) -> 0 < ulim -> cart_pole_pwa ridges np taylor 4 k xlim ulim a b n h = Ok W -> sharp_gaps W 4 -> (4 <= N)%nat -> 0 < q -> 0 < r ->
  exists C K m c rho, cart_pole_controller np W N q r = Ok C /\ shape K 1 4 /\ (0 < m)%nat /\ 0 <= c /\ 0 < rho /\ forall drake phi T, length (phi 0%nat 0) = 4%nat -> sup (phi 0%nat 0) <= rho -> (forall t, (t < T)%nat -> drake_solves drake C (phi t 0)) ->
  (forall t u, (t < T)%nat -> example_feedback drake C (phi t 0) = Ok (Some u) -> phi (Datatypes.S t) 0 = phi t h /\ held_solution (cart_field mc mp l d ks g) u 4 h (phi t)) ->
  forall t, (t < T)%nat -> example_feedback drake C (phi t 0) = Ok (Some (mv K (phi t 0))) /\ forall s, 0 <= s <= h -> sup (phi t s) <= c * (3 / 4) ^ (t / m) * sup (phi 0%nat 0).
Proof. exact (cart_pole_nonlinear ridges np taylor k xlim ulim a b n h W N q r mc mp l d ks g). Qed.
Print Assumptions C98_cart.

(** dx/dt = (1 + x) u with h = 1: the zero-order hold of its linearization dx/dt = u is x + u; with Q = 1, R = P = 2, horizon 1 and the terminal set {0} all hypotheses of C98_law, C98_feedback and C98_sampled_mpc hold, the gain is -1 (u = - x), and from every state there is a run of the plant with the inputs of the controller: x(t) = (1 + x_k) exp(- x_k t) - 1 between the samples *)
Example C98_example :
  exists np C K c, exact_np np /\ hold_model np bilinear (Mat 1 [[0]]) (Mat 1 [[1]]) 1 1 1 S_1 /\ mpc_data S_1 1 (Mat 1 [[1]]) (Mat 1 [[2]]) (Mat 1 [[2]]) D_box (VorThms.seg 0 0) 1 1 /\ ModelPredictiveController np S_1 1 (Mat 1 [[1]]) (Mat 1 [[2]]) (Mat 1 [[2]]) D_box (VorThms.seg 0 0) = Ok C /\
  (forall x, in_poly (VorThms.seg 0 0) x <-> x = zeros 1) /\ Spec.pd (Mat 1 [[1]]) 1 /\ Spec.pd (Mat 1 [[2]]) 1 /\ (forall x, length x = 1%nat -> exists u, steers (lA S_1) (lB S_1) 1 1 1 x u) /\ origin_law (lA S_1) (lB S_1) (Mat 1 [[1]]) (Mat 1 [[2]]) 1 1 1 K c /\ (forall x, mv K [x] = [- x]) /\
  (forall xu, length xu = 2%nat -> sup xu <= 1 -> in_poly D_box xu) /\ feedback np C [1] = Ok (Some [-1]) /\
  forall z, home_run 1 z 0 0 = [z] /\ forall k u, feedback np C (home_run 1 z k 0) = Ok (Some u) -> home_run 1 z (Datatypes.S k) 0 = home_run 1 z k 1 /\ held_solution bilinear u 1 1 (home_run 1 z k).
Proof. exact (origin_example). Qed.

(** dx/dt = (1 + x) u with the linearization points 0 and 2 of C86_hold_refuted (both linearized as dx/dt = u), h = 1/20, one step of horizon, q = r = 1/100: all hypotheses of C98_notebook hold, and from every state of [-1, 1] there is a run of the plant with the inputs of the controller of the notebook, with a solver for the programs at all the samples *)
Example C98_notebook_example ridges :
  exists np W C S, exact_np np /\ cart_setup np int_taylor 1 0 [0] 100 0 2 2 (/ 20) /\ (exists j, (j < 2)%nat /\ 0 + INR j * ((2 - 0) / (INR 2 - 1)) = 0) /\ int_taylor (zeros 1) = (Mat 1 [[0]], Mat 1 [[1]], zeros 1) /\ field_derivative bilinear (Mat 1 [[0]]) (Mat 1 [[1]]) 1 1 /\
  (forall j, (j < 1)%nat -> j <> 0%nat -> 0 < nth j [0] 0) /\ cart_pole_pwa ridges np int_taylor 1 0 [0] 100 0 2 2 (/ 20) = Ok W /\ sharp_gaps W 1 /\ lin_from_continuous np (Mat 1 [[0]]) (Mat 1 [[1]]) (/ 20) "zero_order_hold" = Ok S /\ (forall x, length x = 1%nat -> exists u, steers (lA S) (lB S) 1 1 1 x u) /\
  cart_pole_controller np W 1 (/ 100) (/ 100) = Ok C /\ example_feedback int_drake C [/ 2] = Ok (Some [-10]) /\
  forall z, -1 <= z <= 1 -> home_run 20 z 0 0 = [z] /\ forall k, drake_solves int_drake C (home_run 20 z k 0) /\ forall u, example_feedback int_drake C (home_run 20 z k 0) = Ok (Some u) -> home_run 20 z (Datatypes.S k) 0 = home_run 20 z k (/ 20) /\ held_solution bilinear u 1 (/ 20) (home_run 20 z k).
Proof. exact (notebook_example ridges). Qed.

(** The same plant with a hybrid controller of two modes (x + u on [-1, 1] x [-1, 1] and x + u - 1 on [2, 3] x [-1, 1]), horizon 1 and the terminal set {0}: all hypotheses of C98_hybrid and C98_sampled_hybrid hold, and for x(0) = 1 there is a Gurobi with which feedback returns K x(0) = -1 and the plant moves along 2 exp(- t) - 1 until the next sample *)
Example C98_hybrid_example :
  exists np C K c, hold_model np bilinear (Mat 1 [[0]]) (Mat 1 [[1]]) 1 1 1 S_1 /\ hyb_controller np W_near 1 I_1 R_2 R_2 (VorThms.seg 0 0) 1 1 2 0 C /\ Spec.pd I_1 1 /\ origin_mode W_near 0 S_1 D_box 1 2 /\ (forall x, in_poly (VorThms.seg 0 0) x <-> x = zeros 1) /\
  origin_law (lA S_1) (lB S_1) I_1 R_2 1 1 1 K c /\ (forall xu, length xu = 2%nat -> sup xu <= 1 -> in_poly D_box xu) /\
  exists grb, gurobi_solves grb (k_mpmiqp C) (home_run 1 1 0 0) /\ hybrid_feedback grb C [1] = Ok (Some [-1]) /\ forall k u, (k < 1)%nat -> hybrid_feedback grb C (home_run 1 1 k 0) = Ok (Some u) -> home_run 1 1 (Datatypes.S k) 0 = home_run 1 1 k 1 /\ held_solution bilinear u 1 1 (home_run 1 1 k).
Proof. exact (origin_hybrid_example). Qed.
