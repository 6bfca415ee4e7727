(** * PropsRobust: the property theorems of this part, restated; proofs are in RobustThms.
    Generated by tools/gen_props.py: this file contains only statements, [exact] and Print Assumptions. *)
From Coq Require Import Lra Lia Classical.
From Verif Require Import Arr ArrFacts Spec SpecMpc SpecDyn SpecEig SpecRound Numpy QpFacts Polyhedron PolyThms Dynamics DynThms CondenseThms LqrThms McaisThms SpectralThms Mpqp MpqpThms Controllers CtrlThms ContThms Round RoundThms RoundSimThms RoundPwaThms LocalThms PlantThms HoldThms CartHoldThms.
From Verif Require Import RobustThms.

(** The linear model predictive controller (terminal cost and gain of solve_dare, invariant terminal set that contains a neighbourhood of the origin, Q positive definite) tolerates disturbances. Let every state within r of a state of optimal cost at most rho have an admissible sequence of cost at most M (below the 5e13 of the solver). Then there are th in (0, 1] and d0 > 0 such that on every run of x+ = A x + B u + w with |w| <= dl <= d0 from a state of cost at most rho (as long as the disturbances are bounded so), feedback returns an input at all times, the constraints hold, and the values satisfy, if 1/2 x'Q x >= q |x|^2, q |x(t)|^2 <= V(t) <= (1 - th)^t V(0) + M dl / (r th), V(t) <= rho *)
Theorem C100_robust np S N Q Rm P D X_N K nx nu C sg r M rho q :
  mpc_setup np S N Q Rm P D X_N K nx nu C -> lqr_pair np S Q Rm P K nx nu -> 0 < q -> (forall x, length x = nx -> q * (sup x * sup x) <= / 2 * dot x (mv Q x)) -> 0 < sg -> (forall x, length x = nx -> sup x <= sg -> in_poly X_N x) ->
  0 < r -> 0 < rho -> 0 < M < (10 ^ 14 - 1) / 2 ->
  (forall x us xs, length x = nx -> mpc_admissible (lA S) (lB S) nu N (in_poly D) (in_poly X_N) x us xs -> trajectory_cost Q Rm P us xs <= rho ->
     forall y, length y = nx -> sup (vsub y x) <= r -> exists us' xs', mpc_admissible (lA S) (lB S) nu N (in_poly D) (in_poly X_N) y us' xs' /\ trajectory_cost Q Rm P us' xs' <= M) ->
  exists th d0, 0 < th <= 1 /\ 0 < d0 /\ forall dl (z : nat -> vec) T us0 xs0, 0 <= dl <= d0 -> (forall t, length (z t) = nx) ->
    mpc_admissible (lA S) (lB S) nu N (in_poly D) (in_poly X_N) (z 0%nat) us0 xs0 -> trajectory_cost Q Rm P us0 xs0 <= rho ->
    (forall t u, (t < T)%nat -> feedback np C (z t) = Ok (Some u) -> sup (vsub (z (Datatypes.S t)) (linear_step (lA S) (lB S) (z t) u)) <= dl) ->
    forall t, (t <= T)%nat -> exists us V, feedforward np C (z t) = Ok (Some us, Some V) /\ feedback np C (z t) = Ok (Some (nth 0 us [])) /\ in_poly D (z t ++ nth 0 us []) /\
      q * (sup (z t) * sup (z t)) <= V /\ V <= rho /\ V <= (1 - th) ^ t * trajectory_cost Q Rm P us0 xs0 + M / (r * th) * dl.
Proof. exact (mpc_robust np S N Q Rm P D X_N K nx nu C sg r M rho q). Qed.
Print Assumptions C100_robust.

(** Without any hypothesis on margins: there are a radius rho0 > 0 and constants th, q, c, d0 such that on every run of x+ = A x + B u + w with |w| <= dl <= d0 and |x(0)| <= rho0, feedback returns an input at all times, the constraints hold, |x(t)| <= sg, and q |x(t)|^2 <= (1 - th)^t c |x(0)|^2 + c dl *)
Theorem C100_local np S N Q Rm P D X_N K nx nu C sg :
  mpc_setup np S N Q Rm P D X_N K nx nu C -> lqr_pair np S Q Rm P K nx nu -> Spec.pd Q nx -> 0 < sg -> (forall x, length x = nx -> sup x <= sg -> in_poly X_N x) ->
  exists rho0 th q c d0, 0 < rho0 /\ 0 < th <= 1 /\ 0 < q /\ 0 <= c /\ 0 < d0 /\ forall dl (z : nat -> vec) T, 0 <= dl <= d0 -> (forall t, length (z t) = nx) -> sup (z 0%nat) <= rho0 ->
    (forall t u, (t < T)%nat -> feedback np C (z t) = Ok (Some u) -> sup (vsub (z (Datatypes.S t)) (linear_step (lA S) (lB S) (z t) u)) <= dl) ->
    forall t, (t <= T)%nat -> exists u, feedback np C (z t) = Ok (Some u) /\ in_poly D (z t ++ u) /\ sup (z t) <= sg /\ q * (sup (z t) * sup (z t)) <= (1 - th) ^ t * (c * (sup (z 0%nat) * sup (z 0%nat))) + c * dl.
Proof. exact (mpc_robust_local np S N Q Rm P D X_N K nx nu C sg). Qed.
Print Assumptions C100_local.

(** x+ = x + u with Q = 1, R = 2, P = 2, K = -1/2, |x| <= 1, |u| <= 1, horizon 1, terminal set [-1, 1]: the hypotheses of C100_robust and C100_local hold with sg = 1, r = 1/2, rho = 1/4, M = 1, q = 1/2; and under the constant disturbance w = dl <= 1/8 the loop stays at x = 2 dl, so the bound cannot tend to 0 *)
Example C100_example :
  exists np C, mpc_setup np S_1 1 (Mat 1 [[1]]) (Mat 1 [[2]]) (Mat 1 [[2]]) D_box X_int (Mat 1 [[- (1 / 2)]]) 1 1 C /\ lqr_pair np S_1 (Mat 1 [[1]]) (Mat 1 [[2]]) (Mat 1 [[2]]) (Mat 1 [[- (1 / 2)]]) 1 1 /\ Spec.pd (Mat 1 [[1]]) 1 /\ (forall x, length x = 1%nat -> / 2 * (sup x * sup x) <= / 2 * dot x (mv (Mat 1 [[1]]) x)) /\
  (forall x, length x = 1%nat -> sup x <= 1 -> in_poly X_int x) /\
  (forall x us xs, length x = 1%nat -> mpc_admissible (lA S_1) (lB S_1) 1 1 (in_poly D_box) (in_poly X_int) x us xs -> trajectory_cost (Mat 1 [[1]]) (Mat 1 [[2]]) (Mat 1 [[2]]) us xs <= / 4 ->
     forall y, length y = 1%nat -> sup (vsub y x) <= / 2 -> exists us' xs', mpc_admissible (lA S_1) (lB S_1) 1 1 (in_poly D_box) (in_poly X_int) y us' xs' /\ trajectory_cost (Mat 1 [[1]]) (Mat 1 [[2]]) (Mat 1 [[2]]) us' xs' <= 1) /\
  forall dl, 0 <= dl <= / 8 -> (exists us xs, mpc_admissible (lA S_1) (lB S_1) 1 1 (in_poly D_box) (in_poly X_int) [2 * dl] us xs /\ trajectory_cost (Mat 1 [[1]]) (Mat 1 [[2]]) (Mat 1 [[2]]) us xs <= / 4) /\
    feedback np C [2 * dl] = Ok (Some [- dl]) /\ sup (vsub [2 * dl] (linear_step (lA S_1) (lB S_1) [2 * dl] [- dl])) <= dl.
Proof. exact (robust_example). Qed.
