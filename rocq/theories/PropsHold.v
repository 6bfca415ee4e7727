(** * PropsHold: the property theorems of this part, restated; proofs are in HoldThms.
    Generated by tools/gen_props.py: this file contains only statements, [exact] and Print Assumptions. *)
From Coq Require Import Lra Lia String.
From Verif Require Import Arr ArrFacts Spec SpecMpc SpecDyn SpecEig SpecRound SpecHold SpecLoop SpecProg SpecCart Numpy Dynamics DynThms ZohThms OdeThms SampThms LqrThms Oracle QpFacts Polyhedron PolyThms CondenseThms McaisThms Mpqp Controllers CtrlThms Gurobi Hybrid HybridThms HybridOptThms HybridLoopThms RoundThms RoundSimThms Symbolic Walls WallThms CartDyn LocalThms PlantThms.
From Verif Require Import HoldThms.
Local Open Scope list_scope.

(** Between the samples: let the origin be an equilibrium at which f is differentiable, and h >= 0. There are rho > 0 and C such that the solutions of dx/dt = f(x, u) on [0, h], u constant, with |x(0)| <= rho and |u| <= rho satisfy |x(t)| <= C (|x(0)| + |u|) for all t in [0, h] *)
Theorem C97_between f A B nx nu h :
  system_shape A B nx nu -> 0 <= h -> field_derivative f A B nx nu ->
  exists rho C, 0 < rho /\ 1 <= C /\ forall u phi, length u = nu -> held_solution f u nx h phi -> sup (phi 0) <= rho -> sup u <= rho -> forall t, 0 <= t <= h -> sup (phi t) <= C * (sup (phi 0) + sup u).
Proof. exact (held_bound f A B nx nu h). Qed.
Print Assumptions C97_between.

(** The error of the linearization over a step: for every eps > 0 there is dl > 0 such that the solutions of dx/dt = f(x, u) and of dx/dt = A x + B u on [0, h] with the same initial state and the same constant input, |x(0)| <= dl, |u| <= dl, differ by at most eps (|x(0)| + |u|) on [0, h] *)
Theorem C97_error f A B nx nu h :
  system_shape A B nx nu -> 0 <= h -> field_derivative f A B nx nu -> forall eps, 0 < eps -> exists dl, 0 < dl /\ forall u phi psi, length u = nu -> held_solution f u nx h phi -> ode_solution A B (zeros nx) u nx h psi -> psi 0 = phi 0 ->
  sup (phi 0) <= dl -> sup u <= dl -> forall t, 0 <= t <= h -> sup (vsub (phi t) (psi t)) <= eps * (sup (phi 0) + sup u).
Proof. exact (held_error f A B nx nu h). Qed.
Print Assumptions C97_error.

(** The linear system that LinearSystem.from_continuous(A, B, h, 'zero_order_hold') returns (exact matrix exponential) is the derivative at the origin of the sampled plant: the state x(h) of the solution of dx/dt = f(x, u), with u held, differs from A_d x(0) + B_d u by o(|x(0)| + |u|) *)
Theorem C97_sampled np f A B nx nu h S :
  system_shape A B nx nu -> 0 <= h -> field_derivative f A B nx nu -> is_expm (mscale h (zoh_matrix A B (zeros nx))) (np_expm np (mscale h (zoh_matrix A B (zeros nx)))) (nx + nu + 1) ->
  lin_from_continuous np A B h "zero_order_hold" = Ok S -> system_shape (lA S) (lB S) nx nu /\ linearizes (sampled_plant f nx h) (lA S) (lB S) nx nu.
Proof. exact (sampled_linearizes np f A B nx nu h S). Qed.
Print Assumptions C97_sampled.

(** Any gain K for which A_d + B_d K is attractive (all trajectories of x+ = (A_d + B_d K) x converge to 0), with the matrices of zero_order_hold, stabilizes the continuous-time nonlinear plant: there are rho > 0 and constants c, m such that on all runs of dx/dt = f(x, u) with u = K x(k h) for k h <= t < (k+1) h and |x(0)| <= rho, |x(t)| <= c (3/4)^(k / m) |x(0)| for all times t in [k h, (k+1) h], not only at the samples *)
Theorem C97_gain np f A B nx nu h S K :
  hold_model np f A B nx nu h S -> shape K nu nx -> attractive (madd (lA S) (mm (lB S) K)) nx ->
  exists m c rho, (0 < m)%nat /\ 0 <= c /\ 0 < rho /\ forall phi, length (phi 0%nat 0) = nx -> sup (phi 0%nat 0) <= rho -> (forall T, sampled_run f (fun x u => u = mv K x) nx h phi T) ->
  forall k t, 0 <= t <= h -> sup (phi k t) <= c * (3 / 4) ^ (k / m) * sup (phi 0%nat 0).
Proof. exact (sampled_gain np f A B nx nu h S K). Qed.
Print Assumptions C97_gain.

(** In particular (C97_gain) the gain K that solve_dare computes for the system of from_continuous(A, B, h, 'zero_order_hold'), for positive definite weights *)
Theorem C97_lqr np f A B nx nu h S Q Rm P K :
  exact_np np -> hold_model np f A B nx nu h S -> shape Q nx nx -> shape Rm nu nu -> Spec.pd Q nx -> Spec.pd Rm nu -> lqr_pair np S Q Rm P K nx nu ->
  exists m c rho, (0 < m)%nat /\ 0 <= c /\ 0 < rho /\ forall phi, length (phi 0%nat 0) = nx -> sup (phi 0%nat 0) <= rho -> (forall T, sampled_run f (fun x u => u = mv K x) nx h phi T) ->
  forall k t, 0 <= t <= h -> sup (phi k t) <= c * (3 / 4) ^ (k / m) * sup (phi 0%nat 0).
Proof. exact (sampled_lqr np f A B nx nu h S Q Rm P K). Qed.
Print Assumptions C97_lqr.

(** A model predictive controller for this system (terminal cost and gain of solve_dare, invariant terminal set around the origin), evaluated at the samples of the continuous-time nonlinear plant: there are rho > 0 and constants c, m such that for |x(0)| <= rho, feedback returns an input at all samples, state and input satisfy the constraints there, and |x(t)| <= c (3/4)^(k / m) |x(0)| for all t in [k h, (k+1) h] *)
Theorem C97_mpc np f A B nx nu h S N Q Rm P D X_N K C sg :
  exact_np np -> hold_model np f A B nx nu h S -> mpc_data S N Q Rm P D X_N nx nu -> ModelPredictiveController np S N Q Rm P D X_N = Ok C ->
  lqr_pair np S Q Rm P K nx nu -> Spec.pd Q nx -> terminal_invariant (lA S) (lB S) K (in_poly D) (in_poly X_N) -> 0 < sg -> (forall x, length x = nx -> sup x <= sg -> in_poly X_N x) ->
  exists m c rho, (0 < m)%nat /\ 0 <= c /\ 0 < rho /\ forall phi, length (phi 0%nat 0) = nx -> sup (phi 0%nat 0) <= rho ->
  (forall k u, feedback np C (phi k 0) = Ok (Some u) -> phi (Datatypes.S k) 0 = phi k h /\ held_solution f u nx h (phi k)) ->
  forall k, feedback np C (phi k 0) = Ok (Some (mv K (phi k 0))) /\ in_poly D (phi k 0 ++ mv K (phi k 0)) /\ forall t, 0 <= t <= h -> sup (phi k t) <= c * (3 / 4) ^ (k / m) * sup (phi 0%nat 0).
Proof. exact (sampled_mpc np f A B nx nu h S N Q Rm P D X_N K C sg). Qed.
Print Assumptions C97_mpc.

(** The hybrid controller, whose mode of the origin is this system, on the continuous-time nonlinear plant: there are rho > 0 and constants c, m such that on all runs with |x(0)| <= rho, as long as Gurobi solves its programs, feedback returns K x, the pair is in the domain of the mode, and |x(t)| <= c (3/4)^(k / m) |x(0)| for all t in [k h, (k+1) h] *)
Theorem C97_hybrid np f A B nx nu h S W N Q Rm P X_N mN meN C i D K dl sg :
  hold_model np f A B nx nu h S -> hyb_controller np W N Q Rm P X_N nx nu mN meN C -> origin_mode W i S D nx dl ->
  lqr_pair np S Q Rm P K nx nu -> Spec.pd Q nx -> terminal_invariant (lA S) (lB S) K (in_poly D) (in_poly X_N) -> 0 < sg -> (forall x, length x = nx -> sup x <= sg -> in_poly X_N x) ->
  exists m c rho, (0 < m)%nat /\ 0 <= c /\ 0 < rho /\ forall grb phi T, length (phi 0%nat 0) = nx -> sup (phi 0%nat 0) <= rho -> (forall k, (k < T)%nat -> gurobi_solves grb (k_mpmiqp C) (phi k 0)) ->
  (forall k u, (k < T)%nat -> hybrid_feedback grb C (phi k 0) = Ok (Some u) -> phi (Datatypes.S k) 0 = phi k h /\ held_solution f u nx h (phi k)) ->
  forall k, (k < T)%nat -> hybrid_feedback grb C (phi k 0) = Ok (Some (mv K (phi k 0))) /\ in_poly D (phi k 0 ++ mv K (phi k 0)) /\ forall t, 0 <= t <= h -> sup (phi k t) <= c * (3 / 4) ^ (k / m) * sup (phi 0%nat 0).
Proof. exact (sampled_hybrid np f A B nx nu h S W N Q Rm P X_N mN meN C i D K dl sg). Qed.
Print Assumptions C97_hybrid.
