(** * PropsExpl: the property theorems of this part, restated; proofs are in ExplThms.
    Generated by tools/gen_props.py: this file contains only statements, [exact] and Print Assumptions. *)
From Coq Require Import ZArith Classical.
From Verif Require Import Arr ArrFacts Spec SpecMpc Numpy Pnnls PnnlsFacts QpFacts GeomUtils Polyhedron PolyThms Oracle SolverThms NullFacts PolySolveThms PolyMore SpecDyn Dynamics DynThms CondenseThms LqrThms McaisThms Mpqp MpqpThms NeighThms TermThms Controllers CtrlThms.
From Verif Require Import ExplThms.

(** Where the region found by the lookup contains x, feedforward_explicit and feedback_explicit return exactly what feedforward and feedback return, unless the on-line solver gives up (None), which it does only for optimal costs at least 5e13 above the unconstrained optimum. *)
Theorem C78_agreement np S N Q Rm P D X_N nx nu C fuel step crs cr x :
  exact_np np -> mpc_data S N Q Rm P D X_N nx nu -> ModelPredictiveController np S N Q Rm P D X_N = Ok C ->
  store_explicit_solution np fuel step C = Ok crs -> length x = nx -> get_critical_region crs x = Ok (Some cr) -> in_poly (cr_poly cr) x ->
  (feedforward_explicit C (Some crs) x = feedforward np C x /\ feedback_explicit C (Some crs) x = feedback np C x) \/
  (feedforward np C x = Ok (None, None) /\ exists us xs us0 xs0, feedforward_explicit C (Some crs) x = Ok (Some us, Some (trajectory_cost Q Rm P us xs)) /\
     mpc_optimal (lA S) (lB S) Q Rm P nu N (in_poly D) (in_poly X_N) x us xs /\ mpc_optimal (lA S) (lB S) Q Rm P nu N (fun _ => True) (fun _ => True) x us0 xs0 /\
     trajectory_cost Q Rm P us0 xs0 + (10 ^ 14 - 1) / 2 <= trajectory_cost Q Rm P us xs).
Proof. exact (explicit_agreement np S N Q Rm P D X_N nx nu C fuel step crs cr x). Qed.
Print Assumptions C78_agreement.

(** If the explicit solution found contains every state with an admissible input sequence, then with P, K of solve_dare and an invariant terminal set the loop u = feedback_explicit(x), x+ = A x + B u runs forever from every such state, without failing and without limit on the cost: all pairs are in D, each input is the first one of the optimal sequence, the optimal costs decrease by the stage costs, and, if Q is positive definite, x(t) converges to the origin.
   Missing: the regions found need not cover the feasible states (C43_cover_refuted) and the lookup has a tolerance (C78_outside_refuted). *)
Theorem C78_explicit_loop_partial np S N Q Rm P D X_N K nx nu C fuel step crs x us xs :
  mpc_setup np S N Q Rm P D X_N K nx nu C -> lqr_pair np S Q Rm P K nx nu ->
  store_explicit_solution np fuel step C = Ok crs ->
  (forall y us xs, length y = nx -> mpc_admissible (lA S) (lB S) nu N (in_poly D) (in_poly X_N) y us xs -> exists cr, get_critical_region crs y = Ok (Some cr) /\ in_poly (cr_poly cr) y) ->
  length x = nx -> mpc_admissible (lA S) (lB S) nu N (in_poly D) (in_poly X_N) x us xs ->
  exists X U : nat -> vec, X 0%nat = x /\
    (forall t, feedback_explicit C (Some crs) (X t) = Ok (Some (U t)) /\ X (Datatypes.S t) = linear_step (lA S) (lB S) (X t) (U t) /\ in_poly D (X t ++ U t)) /\
    (forall T, exists us' xs', mpc_optimal (lA S) (lB S) Q Rm P nu N (in_poly D) (in_poly X_N) (X T) us' xs' /\ U T = nth 0 us' [] /\ 0 <= trajectory_cost Q Rm P us' xs' /\
       trajectory_cost Q Rm P us' xs' + sum_upto (fun t => / 2 * (dot (X t) (mv Q (X t)) + dot (U t) (mv Rm (U t)))) T <= trajectory_cost Q Rm P us xs) /\
    (Spec.pd Q nx -> forall eps, 0 < eps -> exists T, forall t, (T <= t)%nat -> norm (X t) < eps).
Proof. exact (explicit_loop_runs np S N Q Rm P D X_N K nx nu C fuel step crs x us xs). Qed.
Print Assumptions C78_explicit_loop_partial.

(** x+ = x + u with Q = 1, R = 2, P = 2 and K = -1/2 from solve_dare, |x| <= 1, |u| <= 1, terminal set |x| <= 1: explicit_solve returns one region, which contains every feasible state; at x = 1 both controllers return u = -1/2. *)
Example C78_example :
  let np := np_dare_const (Mat 1 [[2]]) in exists C c,
  mpc_setup np S_1 1 (Mat 1 [[1]]) (Mat 1 [[2]]) (Mat 1 [[2]]) D_box X_int (Mat 1 [[- (1 / 2)]]) 1 1 C /\
  lqr_pair np S_1 (Mat 1 [[1]]) (Mat 1 [[2]]) (Mat 1 [[2]]) (Mat 1 [[- (1 / 2)]]) 1 1 /\ Spec.pd (Mat 1 [[1]]) 1 /\
  store_explicit_solution np 4 (/ 100000) C = Ok [c] /\
  (forall y us xs, length y = 1%nat -> mpc_admissible (lA S_1) (lB S_1) 1 1 (in_poly D_box) (in_poly X_int) y us xs -> get_critical_region [c] y = Ok (Some c) /\ in_poly (cr_poly c) y) /\
  mpc_admissible (lA S_1) (lB S_1) 1 1 (in_poly D_box) (in_poly X_int) [1] [[- (1 / 2)]] [[1]; [1 + - (1 / 2)]] /\
  feedback_explicit C (Some [c]) [1] = Ok (Some [- (1 / 2)]).
Proof. exact (explicit_loop_example). Qed.

(** Without the region containing x the controllers disagree: for the system of the example and x = 1 + 5e-8 (infeasible: |x| <= 1 is violated) the lookup still finds the region, within its tolerance 1e-7, and feedback_explicit returns an input, while feedback returns None. *)
Theorem C78_outside_refuted :
  exists S Q Rm P D X_N x, mpc_data S 1 Q Rm P D X_N 1 1 /\ (forall us xs, ~ mpc_admissible (lA S) (lB S) 1 1 (in_poly D) (in_poly X_N) x us xs) /\
  forall np fuel, exact_np np -> exists C crs u, ModelPredictiveController np S 1 Q Rm P D X_N = Ok C /\ store_explicit_solution np (4 + fuel) (/ 100000) C = Ok crs /\
    feedback_explicit C (Some crs) x = Ok (Some u) /\ feedback np C x = Ok None.
Proof. exact (explicit_outside_refuted). Qed.
Print Assumptions C78_outside_refuted.
