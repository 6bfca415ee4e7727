(** * PropsPlant: the property theorems of this part, restated; proofs are in PlantThms.
    Generated by tools/gen_props.py: this file contains only statements, [exact] and Print Assumptions. *)
From Coq Require Import Lra Lia Classical.
From Verif Require Import Arr ArrFacts Spec SpecMpc SpecProg SpecDyn SpecEig SpecSym SpecRound SpecCart Numpy QpFacts Polyhedron PolyThms Dynamics DynThms CondenseThms LqrThms McaisThms Mpqp Controllers CtrlThms Gurobi Programs Hybrid HybridThms HybridOptThms HybridLoopThms Symbolic SymThms SpectralThms RoundThms RoundSimThms RoundPwaThms Notebooks NoteThms Walls WallThms CartDyn CartDynThms LocalThms.
From Verif Require Import PlantThms.

(** In a terminal set that is admissible and invariant under the gain K of solve_dare (with P as terminal cost), feedback returns exactly K x *)
Theorem C96_feedback np S N Q Rm P D X_N K nx nu C x :
  exact_np np -> mpc_data S N Q Rm P D X_N nx nu -> ModelPredictiveController np S N Q Rm P D X_N = Ok C ->
  lqr_pair np S Q Rm P K nx nu -> terminal_invariant (lA S) (lB S) K (in_poly D) (in_poly X_N) -> length x = nx -> in_poly X_N x -> feedback np C x = Ok (Some (mv K x)).
Proof. exact (mpc_feedback_lqr np S N Q Rm P D X_N K nx nu C x). Qed.
Print Assumptions C96_feedback.

(** A model predictive controller built for the linearization A, B of a nonlinear plant x+ = F(x, u) (terminal cost and gain of solve_dare, invariant terminal set with the origin inside) stabilizes the plant: there are a radius rho > 0 and constants c, m such that from all x(0) with |x(0)| <= rho feedback returns an input at all times, and |x(t)| <= c (3/4)^(t / m) |x(0)| *)
Theorem C96_mpc np S N Q Rm P D X_N K nx nu C sg (F : vec -> vec -> vec -> Prop) :
  exact_np np -> mpc_data S N Q Rm P D X_N nx nu -> ModelPredictiveController np S N Q Rm P D X_N = Ok C ->
  lqr_pair np S Q Rm P K nx nu -> Spec.pd Q nx -> terminal_invariant (lA S) (lB S) K (in_poly D) (in_poly X_N) -> 0 < sg -> (forall x, length x = nx -> sup x <= sg -> in_poly X_N x) ->
  (forall x u y, length x = nx -> length u = nu -> F x u y -> length y = nx) -> linearizes F (lA S) (lB S) nx nu ->
  exists m c rho, (0 < m)%nat /\ 0 <= c /\ 0 < rho /\ forall z : nat -> vec, length (z 0%nat) = nx -> sup (z 0%nat) <= rho -> (forall t u, feedback np C (z t) = Ok (Some u) -> F (z t) u (z (Datatypes.S t))) ->
  forall t, feedback np C (z t) = Ok (Some (mv K (z t))) /\ in_poly D (z t ++ mv K (z t)) /\ sup (z t) <= c * (3 / 4) ^ (t / m) * sup (z 0%nat).
Proof. exact (mpc_plant np S N Q Rm P D X_N K nx nu C sg F). Qed.
Print Assumptions C96_mpc.

(** The hybrid controller is the LQR gain on a whole region: let one mode be the linear system S (no offset) with terminal cost and gain of solve_dare for S, and let the terminal set be admissible and invariant under K for this mode. Whenever Gurobi solves the program at a state x of the terminal set with x'P x less than the stage cost (without the factor 1/2) at all points of the other domains, feedback returns K x, and feedforward returns this mode at all steps and the value 1/2 x'P x *)
Theorem C96_level np W N Q Rm P X_N nx nu mN meN C i S D K e :
  hyb_controller np W N Q Rm P X_N nx nu mN meN C -> linear_mode W i S D nx ->
  lqr_pair np S Q Rm P K nx nu -> terminal_invariant (lA S) (lB S) K (in_poly D) (in_poly X_N) ->
  (forall j x u, (j < length (w_sys W))%nat -> j <> i -> length x = nx -> length u = nu -> in_poly (nth j (w_dom W) poly0) (x ++ u) -> e <= dot x (mv Q x) + dot u (mv Rm u)) ->
  forall grb x, length x = nx -> in_poly X_N x -> dot x (mv P x) < e -> gurobi_solves grb (k_mpmiqp C) x ->
    hybrid_feedback grb C x = Ok (Some (mv K x)) /\ exists us xs, hybrid_feedforward grb C x = Ok (Some (us, xs, repeat i N, / 2 * dot x (mv P x))).
Proof. exact (hybrid_level np W N Q Rm P X_N nx nu mN meN C i S D K e). Qed.
Print Assumptions C96_level.

(** Near the origin the hybrid controller is the LQR gain: let the origin be in the interior of one domain (whose dynamics S has no offset) and away from the others, with terminal cost and gain of solve_dare for S and a terminal set, admissible and invariant under K, with the origin inside. There is a radius rho > 0 such that at all x with |x| <= rho, whenever Gurobi solves the program, feedback returns K x, and feedforward returns the modes of the origin only and the value 1/2 x'P x *)
Theorem C96_hybrid_feedback np W N Q Rm P X_N nx nu mN meN C i S D K dl sg :
  hyb_controller np W N Q Rm P X_N nx nu mN meN C -> origin_mode W i S D nx dl ->
  lqr_pair np S Q Rm P K nx nu -> Spec.pd Q nx -> terminal_invariant (lA S) (lB S) K (in_poly D) (in_poly X_N) -> 0 < sg -> (forall x, length x = nx -> sup x <= sg -> in_poly X_N x) ->
  exists rho, 0 < rho /\ rho <= sg /\ forall grb x, length x = nx -> sup x <= rho -> gurobi_solves grb (k_mpmiqp C) x ->
    hybrid_feedback grb C x = Ok (Some (mv K x)) /\ exists us xs, hybrid_feedforward grb C x = Ok (Some (us, xs, repeat i N, / 2 * dot x (mv P x))).
Proof. exact (hybrid_lqr np W N Q Rm P X_N nx nu mN meN C i S D K dl sg). Qed.
Print Assumptions C96_hybrid_feedback.

(** A hybrid controller as in C96_hybrid_feedback, built from a piecewise affine model, on a nonlinear plant x+ = F(x, u) whose linearization at the origin is the mode of the origin: there are a radius rho > 0 and constants c, m such that on all runs with |x(0)| <= rho, as long as Gurobi solves its programs, feedback returns K x and |x(t)| <= c (3/4)^(t / m) |x(0)| *)
Theorem C96_hybrid_loop np W N Q Rm P X_N nx nu mN meN C i S D K dl sg (F : vec -> vec -> vec -> Prop) :
  hyb_controller np W N Q Rm P X_N nx nu mN meN C -> origin_mode W i S D nx dl ->
  lqr_pair np S Q Rm P K nx nu -> Spec.pd Q nx -> terminal_invariant (lA S) (lB S) K (in_poly D) (in_poly X_N) -> 0 < sg -> (forall x, length x = nx -> sup x <= sg -> in_poly X_N x) ->
  (forall x u y, length x = nx -> length u = nu -> F x u y -> length y = nx) -> linearizes F (lA S) (lB S) nx nu ->
  exists m c rho, (0 < m)%nat /\ 0 <= c /\ 0 < rho /\ forall grb (z : nat -> vec) T, length (z 0%nat) = nx -> sup (z 0%nat) <= rho ->
  (forall t, (t <= T)%nat -> gurobi_solves grb (k_mpmiqp C) (z t)) -> (forall t u, (t <= T)%nat -> hybrid_feedback grb C (z t) = Ok (Some u) -> F (z t) u (z (Datatypes.S t))) ->
  forall t, (t <= T)%nat -> hybrid_feedback grb C (z t) = Ok (Some (mv K (z t))) /\ in_poly D (z t ++ mv K (z t)) /\ sup (z (Datatypes.S t)) <= c * (3 / 4) ^ (Datatypes.S t / m) * sup (z 0%nat).
Proof. exact (hybrid_plant np W N Q Rm P X_N nx nu mN meN C i S D K dl sg F). Qed.
Print Assumptions C96_hybrid_loop.

(** The design of the notebooks on hybrid MPC (C76_design), on a nonlinear plant x+ = F(x, u) that is differentiable at the origin with the derivative A, B of the mode of the origin, when the other domains stay away from the origin: if the terminal set is invariant (see C76_design), there are a radius rho > 0 and constants c, m such that on all runs of the plant with |x(0)| <= rho, as long as Gurobi solves its programs, feedback returns K x and |x(t)| <= c (3/4)^(t / m) |x(0)| *)
Theorem C96_notebook np S_list D_list i S1 D1 N Q Rm nx nu dl (F : vec -> vec -> vec -> Prop) :
  hybrid_problem np S_list D_list i S1 D1 N Q Rm nx nu -> 0 < dl ->
  (forall j D xu, j <> i -> nth_error D_list j = Some D -> in_poly D xu -> dl <= sup xu) -> (forall x u y, length x = nx -> length u = nu -> F x u y -> length y = nx) -> linearizes F (lA S1) (lB S1) nx nu ->
  exists fuel0 Y, (forall fuel, (fuel0 <= fuel)%nat -> hybrid_mpc_design np fuel S_list D_list S1 D1 N Q Rm = Ok Y) /\
    (terminal_invariant (lA S1) (lB S1) (y_K Y) (in_poly D1) (in_poly (y_XN Y)) ->
     exists m c rho, (0 < m)%nat /\ 0 <= c /\ 0 < rho /\ forall grb (z : nat -> vec) T, length (z 0%nat) = nx -> sup (z 0%nat) <= rho ->
     (forall t, (t <= T)%nat -> gurobi_solves grb (k_mpmiqp (y_C Y)) (z t)) -> (forall t u, (t <= T)%nat -> hybrid_feedback grb (y_C Y) (z t) = Ok (Some u) -> F (z t) u (z (S t))) ->
     forall t, (t <= T)%nat -> hybrid_feedback grb (y_C Y) (z t) = Ok (Some (mv (y_K Y) (z t))) /\ in_poly D1 (z t ++ mv (y_K Y) (z t)) /\ sup (z (S t)) <= c * (3 / 4) ^ (S t / m) * sup (z 0%nat)).
Proof. exact (design_plant np S_list D_list i S1 D1 N Q Rm nx nu dl F). Qed.
Print Assumptions C96_notebook.

(** The hybrid controller of hybrid_mpc_2.ipynb on the nonlinear cart-pole of cart_pole_dynamics.m (all three modes, explicit Euler steps), for all positive parameters: the controller is built, and if its terminal set is invariant (see C76_design), there are rho > 0, c and m such that on all runs with |x(0)| <= rho, as long as Gurobi solves its programs, feedback returns K x, the constraints of the mode between the walls hold, and |x(t)| <= c (3/4)^(t / m) |x(0)| *)
Theorem C96_cart np mc mp l d k g h th v w u N Q Rm S1 S2 S3 D1 D2 D3 :
  0 < mc -> 0 < mp -> 0 < l -> 0 < d -> 0 < k -> 0 < g -> 0 < h -> 0 < th -> 0 < v -> 0 < w -> 0 < u -> (0 < N)%nat ->
  shape Q 4 4 -> shape Rm 1 1 -> Spec.pd Q 4 -> Spec.pd Rm 1 ->
  cart_systems np mc mp l d k g h = Ok (S1, S2, S3) -> cart_domains np l d th v w u = Ok (D1, D2, D3) -> lqr_libraries np S2 Q Rm 4 1 ->
  exists fuel0 Y, (forall fuel, (fuel0 <= fuel)%nat -> hybrid_mpc_design np fuel [Aff S1; Lin S2; Aff S3] [D1; D2; D3] S2 D2 N Q Rm = Ok Y) /\
    (terminal_invariant (lA S2) (lB S2) (y_K Y) (in_poly D2) (in_poly (y_XN Y)) ->
     exists m c rho, (0 < m)%nat /\ 0 <= c /\ 0 < rho /\ forall grb (z : nat -> vec) T, length (z 0%nat) = 4%nat -> sup (z 0%nat) <= rho ->
     (forall t, (t <= T)%nat -> gurobi_solves grb (k_mpmiqp (y_C Y)) (z t)) ->
     (forall t ut, (t <= T)%nat -> hybrid_feedback grb (y_C Y) (z t) = Ok (Some ut) -> exists f, cart_flow mc mp l d k g (z t) ut = Ok f /\ z (S t) = vadd (z t) (vscale h f)) ->
     forall t, (t <= T)%nat -> hybrid_feedback grb (y_C Y) (z t) = Ok (Some (mv (y_K Y) (z t))) /\ in_poly D2 (z t ++ mv (y_K Y) (z t)) /\ sup (z (S t)) <= c * (3 / 4) ^ (S t / m) * sup (z 0%nat)).
Proof. exact (cart_mpc_plant np mc mp l d k g h th v w u N Q Rm S1 S2 S3 D1 D2 D3). Qed.
Print Assumptions C96_cart.

(** x+ = x + u + x^2, with the controller of C44_example for its linearization x + u (Q = 1, R = 2, K = -1/2, horizon 1, terminal set [-1, 1]): all hypotheses of C96_mpc hold, and one step from 1/4 leads with u = -1/8 to 3/16 *)
Example C96_example :
  let np := np_dare_const (Mat 1 [[2]]) in exists C,
  exact_np np /\ mpc_data S_1 1 (Mat 1 [[1]]) (Mat 1 [[2]]) (Mat 1 [[2]]) D_box X_int 1 1 /\ ModelPredictiveController np S_1 1 (Mat 1 [[1]]) (Mat 1 [[2]]) (Mat 1 [[2]]) D_box X_int = Ok C /\
  lqr_pair np S_1 (Mat 1 [[1]]) (Mat 1 [[2]]) (Mat 1 [[2]]) (Mat 1 [[- (1 / 2)]]) 1 1 /\ Spec.pd (Mat 1 [[1]]) 1 /\ terminal_invariant (lA S_1) (lB S_1) (Mat 1 [[- (1 / 2)]]) (in_poly D_box) (in_poly X_int) /\
  (forall x, length x = 1%nat -> sup x <= 1 -> in_poly X_int x) /\ (forall x u y, length x = 1%nat -> length u = 1%nat -> quadratic_plant x u y -> length y = 1%nat) /\ linearizes quadratic_plant (lA S_1) (lB S_1) 1 1 /\
  feedback np C [/ 4] = Ok (Some [- / 8]) /\ quadratic_plant [/ 4] [- / 8] [3 / 16].
Proof. exact (mpc_plant_example). Qed.

(** The system of C76_example (x+ = x + u for |x| <= 1, x+ = x + u - 1 for 2 <= x <= 3, |u| <= 1), Q = 1, R = P = 2, N = 1: all hypotheses of C96_level and C96_hybrid_loop hold with e = 4 and dl = 2, there is a Gurobi that solves the program at x = 1, and there feedback returns K x = -1/2 and feedforward the first mode and the value 1 *)
Example C96_hybrid_example :
  let np := np_dare_const (Mat 1 [[2]]) in exists C, hyb_controller np W_near 1 I_1 R_2 R_2 X_int 1 1 2 0 C /\ origin_mode W_near 0 S_1 D_box 1 2 /\
  lqr_pair np S_1 I_1 R_2 R_2 (Mat 1 [[- (1 / 2)]]) 1 1 /\ Spec.pd I_1 1 /\ terminal_invariant (lA S_1) (lB S_1) (Mat 1 [[- (1 / 2)]]) (in_poly D_box) (in_poly X_int) /\
  (forall x, length x = 1%nat -> sup x <= 1 -> in_poly X_int x) /\
  (forall j x u, (j < 2)%nat -> j <> 0%nat -> length x = 1%nat -> length u = 1%nat -> in_poly (nth j (w_dom W_near) poly0) (x ++ u) -> 4 <= dot x (mv I_1 x) + dot u (mv R_2 u)) /\
  exists grb, gurobi_solves grb (k_mpmiqp C) [1] /\ hybrid_feedback grb C [1] = Ok (Some [- (1 / 2)]) /\ exists us xs, hybrid_feedforward grb C [1] = Ok (Some (us, xs, [0%nat], 1)).
Proof. exact (hybrid_level_example). Qed.
