(** * PropsHorizon: the property theorems of this part, restated; proofs are in HorizonThms.
    Generated by tools/gen_props.py: this file contains only statements, [exact] and Print Assumptions. *)
From Coq Require Import ZArith Classical.
From Verif Require Import Arr ArrFacts Spec SpecMpc Numpy Pnnls PnnlsFacts QpFacts GeomUtils Polyhedron PolyThms Oracle SolverThms NullFacts PolySolveThms PolyMore SpecDyn Dynamics DynThms CondenseThms LqrThms Mpqp MpqpThms Controllers CtrlThms.
From Verif Require Import HorizonThms.

(** With P, K of solve_dare, Q positive definite and a terminal set invariant under u = K x, a value V returned by feedforward is an infinite-horizon cost although only N steps are optimized: following the returned inputs and then u = K x keeps all pairs in D forever, ends in the terminal set, and costs exactly V in the limit; and V is the least such cost over all signals that keep D forever and are in X_N at some time M <= N. *)
Theorem C80_infinite_horizon np S N Q Rm P D X_N K nx nu C x us V :
  mpc_setup np S N Q Rm P D X_N K nx nu C -> lqr_pair np S Q Rm P K nx nu -> Spec.pd Q nx -> length x = nx ->
  feedforward np C x = Ok (Some us, Some V) ->
  (exists u, (forall t, (t < N)%nat -> u t = nth t us []) /\ (forall t, (N <= t)%nat -> u t = mv K (state (lA S) (lB S) x u t) /\ in_poly X_N (state (lA S) (lB S) x u t)) /\
     runs_in (lA S) (lB S) nu (in_poly D) x u /\ Un_cv (lq_cost (lA S) (lB S) Q Rm x u) V) /\
  least_cost (lA S) (lB S) Q Rm x (fun u => runs_in (lA S) (lB S) nu (in_poly D) x u /\ exists M, (M <= N)%nat /\ in_poly X_N (state (lA S) (lB S) x u M)) V.
Proof. exact (infinite_horizon np S N Q Rm P D X_N K nx nu C x us V). Qed.
Print Assumptions C80_infinite_horizon.

(** Let the terminal set be invariant under some u = K x. Every state that can be steered to it admissibly in N steps can be in N' >= N steps; and with P, K of solve_dare, wherever the controller with horizon N returns inputs of cost V the one with horizon N' returns inputs too, of cost at most V. *)
Theorem C80_longer_horizon np S N N' Q Rm P D X_N K nx nu C C' x :
  mpc_setup np S N Q Rm P D X_N K nx nu C -> (N <= N')%nat -> ModelPredictiveController np S N' Q Rm P D X_N = Ok C' -> length x = nx ->
  ((exists us xs, mpc_admissible (lA S) (lB S) nu N (in_poly D) (in_poly X_N) x us xs) -> exists us xs, mpc_admissible (lA S) (lB S) nu N' (in_poly D) (in_poly X_N) x us xs) /\
  (lqr_pair np S Q Rm P K nx nu -> forall us V, feedforward np C x = Ok (Some us, Some V) -> exists us' V', feedforward np C' x = Ok (Some us', Some V') /\ V' <= V).
Proof. exact (longer_horizon np S N N' Q Rm P D X_N K nx nu C C' x). Qed.
Print Assumptions C80_longer_horizon.

(** If moreover the terminal set contains a neighbourhood of the origin and x has some input signal that keeps D forever at a finite cost W (below 1/2 x'P x + 5e13), then there is a least infinite-horizon cost V, and a horizon N0 from which on every controller returns exactly V at x: its optimum is the constrained infinite-horizon optimum, and its feedback is the first input of an optimal signal. *)
Theorem C80_exact_horizon np S Q Rm P D X_N K nx nu x r w W :
  exact_np np -> mpc_data S 1 Q Rm P D X_N nx nu -> terminal_invariant (lA S) (lB S) K (in_poly D) (in_poly X_N) ->
  lqr_pair np S Q Rm P K nx nu -> Spec.pd Q nx -> length x = nx -> 0 < r -> (forall y, length y = nx -> norm y < r -> in_poly X_N y) ->
  runs_in (lA S) (lB S) nu (in_poly D) x w -> (forall T, lq_cost (lA S) (lB S) Q Rm x w T <= W) -> W < / 2 * dot x (mv P x) + far ->
  exists N0 V, least_cost (lA S) (lB S) Q Rm x (runs_in (lA S) (lB S) nu (in_poly D) x) V /\
    forall N C, (N0 <= N)%nat -> (0 < N)%nat -> ModelPredictiveController np S N Q Rm P D X_N = Ok C ->
      exists us u, feedforward np C x = Ok (Some us, Some V) /\ feedback np C x = Ok (Some (u 0%nat)) /\ runs_in (lA S) (lB S) nu (in_poly D) x u /\ Un_cv (lq_cost (lA S) (lB S) Q Rm x u) V.
Proof. exact (exact_horizon np S Q Rm P D X_N K nx nu x r w W). Qed.
Print Assumptions C80_exact_horizon.

(** x+ = x + u, Q = 1, R = 2, |x| <= 1, |u| <= 1 and terminal set |x| <= 1/4, a neighbourhood of the origin: from x = 1 the signal u = - x / 2 satisfies the hypotheses of the theorem about exact horizons with W = 1. *)
Example C80_example :
  let np := np_dare_const (Mat 1 [[2]]) in
  exact_np np /\ mpc_data S_1 1 (Mat 1 [[1]]) (Mat 1 [[2]]) (Mat 1 [[2]]) D_box X_small 1 1 /\ terminal_invariant (lA S_1) (lB S_1) (Mat 1 [[- (1 / 2)]]) (in_poly D_box) (in_poly X_small) /\
  lqr_pair np S_1 (Mat 1 [[1]]) (Mat 1 [[2]]) (Mat 1 [[2]]) (Mat 1 [[- (1 / 2)]]) 1 1 /\ Spec.pd (Mat 1 [[1]]) 1 /\
  (forall y, length y = 1%nat -> norm y < 1 / 4 -> in_poly X_small y) /\
  exists w, runs_in (lA S_1) (lB S_1) 1 (in_poly D_box) [1] w /\ (forall T, lq_cost (lA S_1) (lB S_1) (Mat 1 [[1]]) (Mat 1 [[2]]) [1] w T <= 1) /\ 1 < / 2 * dot [1] (mv (Mat 1 [[2]]) [1]) + far.
Proof. exact (horizon_example). Qed.

(** A short horizon is not enough: in this example the controller with N = 1 returns the input -3/4 with V = 9/8, although the least infinite-horizon cost is 1. *)
Theorem C80_short_horizon_refuted :
  exists np S Q Rm P D X_N K nx nu C x us V V', mpc_setup np S 1 Q Rm P D X_N K nx nu C /\ lqr_pair np S Q Rm P K nx nu /\ Spec.pd Q nx /\ length x = nx /\
  feedforward np C x = Ok (Some us, Some V) /\ least_cost (lA S) (lB S) Q Rm x (runs_in (lA S) (lB S) nu (in_poly D) x) V' /\ V' < V.
Proof. exact (short_horizon). Qed.
Print Assumptions C80_short_horizon_refuted.
