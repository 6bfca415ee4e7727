(** * PropsOrigin: the property theorems of this part, restated; proofs are in OriginThms.
    Generated by tools/gen_props.py: this file contains only statements, [exact] and Print Assumptions. *)
From Coq Require Import Lra Lia Classical ClassicalChoice.
From Verif Require Import Arr ArrFacts Spec SpecMpc SpecProg SpecDyn SpecEig SpecRound SpecHold SpecOrigin Numpy QpFacts Polyhedron PolyThms Oracle SolverThms Dynamics DynThms CondenseThms LqrThms McaisThms Mpqp MpqpThms Controllers CtrlThms HorizonThms Gurobi Programs Hybrid HybridThms HybridOptThms HybridLoopThms RoundThms RoundSimThms RoundPwaThms ExampleCtrl ExThms ExLoopThms LocalThms PolySolveThms TolThms CartPole CartThms PlantThms HoldThms.
From Verif Require Import OriginThms.
Local Open Scope list_scope.

(** If every state can be steered to the origin in N > 0 steps, the finite-horizon problem with terminal constraint x(N) = 0 (Q, R positive definite) has a linear solution: there is a gain K such that the unique optimal run from x starts with the input K x, stays within a multiple of |x|, costs at most a multiple of |x|^2, and x+ = (A + B K) x converges to the origin *)
Theorem C98_law A B Q Rm nx nu N :
  shape A nx nx -> shape B nx nu -> shape Q nx nx -> shape Rm nu nu -> Spec.pd Q nx -> Spec.pd Rm nu -> (0 < N)%nat -> (forall x, length x = nx -> exists u, steers A B nx nu N x u) -> exists K c, origin_law A B Q Rm nx nu N K c.
Proof. exact (law_exists A B Q Rm nx nu N). Qed.
Print Assumptions C98_law.

(** The linear model predictive controller with the origin as terminal set, when D contains a neighbourhood of the origin: there is rho > 0 such that feedback returns exactly K x, with the K of C98_law, wherever |x| <= rho *)
Theorem C98_feedback np S N Q Rm P D X_N nx nu C K c sg :
  exact_np np -> mpc_data S N Q Rm P D X_N nx nu -> ModelPredictiveController np S N Q Rm P D X_N = Ok C -> (forall x, in_poly X_N x <-> x = zeros nx) ->
  origin_law (lA S) (lB S) Q Rm nx nu N K c -> 0 < sg -> (forall xu, length xu = (nx + nu)%nat -> sup xu <= sg -> in_poly D xu) ->
  exists rho, 0 < rho /\ rho <= sg /\ forall x, length x = nx -> sup x <= rho -> feedback np C x = Ok (Some (mv K x)) /\ in_poly D (x ++ mv K x).
Proof. exact (mpc_origin np S N Q Rm P D X_N nx nu C K c sg). Qed.
Print Assumptions C98_feedback.

(** The hybrid controller with the origin as terminal set, when the origin is in the interior of one domain (whose dynamics S has no offset) and away from the others, Q positive definite: there is rho > 0 such that at all x with |x| <= rho, whenever Gurobi solves the program, feedback returns K x, with the K of C98_law for S, and feedforward returns the mode of the origin at all steps *)
Theorem C98_hybrid np W N Q Rm P X_N nx nu mN meN C i S D dl sg K c :
  (0 < nx)%nat -> hyb_controller np W N Q Rm P X_N nx nu mN meN C -> Spec.pd Q nx -> origin_mode W i S D nx dl -> (forall x, in_poly X_N x <-> x = zeros nx) ->
  origin_law (lA S) (lB S) Q Rm nx nu N K c -> 0 < sg -> (forall xu, length xu = (nx + nu)%nat -> sup xu <= sg -> in_poly D xu) ->
  exists rho, 0 < rho /\ rho <= sg /\ forall grb x, length x = nx -> sup x <= rho -> gurobi_solves grb (k_mpmiqp C) x ->
    hybrid_feedback grb C x = Ok (Some (mv K x)) /\ in_poly D (x ++ mv K x) /\ exists us xs V, hybrid_feedforward grb C x = Ok (Some (us, xs, repeat i N, V)).
Proof. exact (hybrid_origin np W N Q Rm P X_N nx nu mN meN C i S D dl sg K c). Qed.
Print Assumptions C98_hybrid.

(** The same for the controller of the examples (drake version): there is rho > 0 such that at all x with |x| <= rho, whenever drake solves the program, feedback returns K x and feedforward the mode of the origin at all steps *)
Theorem C98_drake np W N Q Rm P X_N nx nu mN meN C i S D dl sg K c :
  exact_np np -> example_data W N Q Rm P X_N nx nu mN meN -> (0 < N)%nat -> hyb_costs Q Rm P nx nu -> ExampleController np W N Q Rm P X_N = Ok C -> Spec.pd Q nx -> origin_mode W i S D nx dl -> (forall x, in_poly X_N x <-> x = zeros nx) ->
  origin_law (lA S) (lB S) Q Rm nx nu N K c -> 0 < sg -> (forall xu, length xu = (nx + nu)%nat -> sup xu <= sg -> in_poly D xu) ->
  exists rho, 0 < rho /\ rho <= sg /\ forall drake x, length x = nx -> sup x <= rho -> drake_solves drake C x ->
    example_feedback drake C x = Ok (Some (mv K x)) /\ in_poly D (x ++ mv K x) /\ exists us xs V, example_feedforward drake C x = Ok (Some (us, xs, repeat i N, V)).
Proof. exact (drake_origin np W N Q Rm P X_N nx nu mN meN C i S D dl sg K c). Qed.
Print Assumptions C98_drake.

(** The linear controller of C98_feedback, for the system of from_continuous(A, B, h, 'zero_order_hold'), on the nonlinear plant dx/dt = f(x, u) with derivative A, B at the origin, its input held for h: there are rho > 0 and constants c, m such that for |x(0)| <= rho, feedback returns an input at all samples, state and input satisfy the constraints there, and |x(t)| <= c (3/4)^(k / m) |x(0)| for all t in [k h, (k+1) h] *)
Theorem C98_sampled_mpc np f A B nx nu h S N Q Rm P D X_N C K c sg :
  exact_np np -> hold_model np f A B nx nu h S -> mpc_data S N Q Rm P D X_N nx nu -> ModelPredictiveController np S N Q Rm P D X_N = Ok C -> (forall x, in_poly X_N x <-> x = zeros nx) ->
  origin_law (lA S) (lB S) Q Rm nx nu N K c -> 0 < sg -> (forall xu, length xu = (nx + nu)%nat -> sup xu <= sg -> in_poly D xu) ->
  exists m c rho, (0 < m)%nat /\ 0 <= c /\ 0 < rho /\ forall phi, length (phi 0%nat 0) = nx -> sup (phi 0%nat 0) <= rho ->
  (forall k u, feedback np C (phi k 0) = Ok (Some u) -> phi (Datatypes.S k) 0 = phi k h /\ held_solution f u nx h (phi k)) ->
  forall k, feedback np C (phi k 0) = Ok (Some (mv K (phi k 0))) /\ in_poly D (phi k 0 ++ mv K (phi k 0)) /\ forall t, 0 <= t <= h -> sup (phi k t) <= c * (3 / 4) ^ (k / m) * sup (phi 0%nat 0).
Proof. exact (sampled_mpc_origin np f A B nx nu h S N Q Rm P D X_N C K c sg). Qed.
Print Assumptions C98_sampled_mpc.

(** The hybrid controller of C98_hybrid, whose mode of the origin is this system, on the same plant: there are rho > 0 and constants c, m such that on all runs with |x(0)| <= rho, as long as Gurobi solves its programs, feedback returns K x and |x(t)| <= c (3/4)^(k / m) |x(0)| for all t in [k h, (k+1) h] *)
Theorem C98_sampled_hybrid np f A B nx nu h S W N Q Rm P X_N mN meN C i D K c dl sg :
  (0 < nx)%nat -> hold_model np f A B nx nu h S -> hyb_controller np W N Q Rm P X_N nx nu mN meN C -> Spec.pd Q nx -> origin_mode W i S D nx dl -> (forall x, in_poly X_N x <-> x = zeros nx) ->
  origin_law (lA S) (lB S) Q Rm nx nu N K c -> 0 < sg -> (forall xu, length xu = (nx + nu)%nat -> sup xu <= sg -> in_poly D xu) ->
  exists m c rho, (0 < m)%nat /\ 0 <= c /\ 0 < rho /\ forall grb phi T, length (phi 0%nat 0) = nx -> sup (phi 0%nat 0) <= rho -> (forall k, (k < T)%nat -> gurobi_solves grb (k_mpmiqp C) (phi k 0)) ->
  (forall k u, (k < T)%nat -> hybrid_feedback grb C (phi k 0) = Ok (Some u) -> phi (Datatypes.S k) 0 = phi k h /\ held_solution f u nx h (phi k)) ->
  forall k, (k < T)%nat -> hybrid_feedback grb C (phi k 0) = Ok (Some (mv K (phi k 0))) /\ in_poly D (phi k 0 ++ mv K (phi k 0)) /\ forall t, 0 <= t <= h -> sup (phi k t) <= c * (3 / 4) ^ (k / m) * sup (phi 0%nat 0).
Proof. exact (sampled_hybrid_origin np f A B nx nu h S W N Q Rm P X_N mN meN C i D K c dl sg). Qed.
Print Assumptions C98_sampled_hybrid.
