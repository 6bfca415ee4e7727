(** * PropsRoundLoop: the property theorems of this part, restated; proofs are in RoundLoopThms.
    Generated by tools/gen_props.py: this file contains only statements, [exact] and Print Assumptions. *)
From Coq Require Import Lra Lia Classical.
From Verif Require Import Arr ArrFacts Spec SpecMpc SpecDyn SpecEig SpecRound Numpy Pnnls QpFacts Polyhedron PolyThms Dynamics DynThms CondenseThms LqrThms McaisThms SpectralThms Mpqp MpqpThms Controllers CtrlThms ContThms ExplThms Round RoundExpl RoundThms RoundSimThms RoundPwaThms LocalThms PlantThms HoldThms CartHoldThms RoundExplThms RobustThms.
From Verif Require Import RoundLoopThms.
Local Open Scope list_scope.

(** The first region of every stored explicit solution of the controller with terminal cost and gain of solve_dare and an invariant terminal set that contains the origin: it is that of the empty active set, it consists of exactly the states from which u = K x is admissible over the horizon -- so it contains the terminal set --, and its input sequence is the one of u = K x. In particular there is a first region, and the program has constraints (without any, store_explicit_solution raises) *)
Theorem C101_first np S N Q Rm P D X_N K nx nu C fuel step crs :
  mpc_setup np S N Q Rm P D X_N K nx nu C -> lqr_pair np S Q Rm P K nx nu -> in_poly X_N (zeros nx) -> store_explicit_solution np fuel step C = Ok crs ->
  (0 < length (q_b (c_mpqp C)))%nat /\ exists c0 crs', crs = c0 :: crs' /\ cr_active c0 = [] /\
  (forall x us xs, length x = nx -> length us = N -> Forall (fun v => length v = nu) us -> is_trajectory (linear_step (lA S) (lB S)) x us xs -> (forall t, (t < N)%nat -> nth t us [] = mv K (nth t xs [])) ->
     cr_u c0 x = List.concat us /\ (in_poly (cr_poly c0) x <-> mpc_admissible (lA S) (lB S) nu N (in_poly D) (in_poly X_N) x us xs)) /\
  (forall x, in_poly X_N x -> in_poly (cr_poly c0) x).
Proof. exact (stored_first np S N Q Rm P D X_N K nx nu C fuel step crs). Qed.
Print Assumptions C101_first.

(** The closed loop in rounded arithmetic: the explicit controller (terminal cost and gain of solve_dare, invariant terminal set, Q positive definite), with lookup, input law and state update rounded and summed in any order, with a neighbourhood of the origin in the terminal set. There are a radius rho0, a precision u0 and constants th, q, c of the problem such that for every arithmetic with relative error u and absolute error eta per operation, u + eta <= u0, and every run with |x(0)| <= rho0: the controller always answers, its input is within c (u + eta) of the exact K x, which meets the constraints, and q |x(t)|^2 <= (1 - th)^t c |x(0)|^2 + c (u + eta) *)
Theorem C101_loop np S N Q Rm P D X_N K nx nu C sg fuel step crs :
  mpc_setup np S N Q Rm P D X_N K nx nu C -> lqr_pair np S Q Rm P K nx nu -> Spec.pd Q nx -> 0 < sg -> (forall x, length x = nx -> sup x <= sg -> in_poly X_N x) ->
  store_explicit_solution np fuel step C = Ok crs ->
  exists rho0 th q c u0, 0 < rho0 /\ 0 < th <= 1 /\ 0 < q /\ 0 <= c /\ 0 < u0 /\ forall u eta rnd (z : nat -> vec) (r : nat -> res (option vec)), rounding u eta rnd -> u + eta <= u0 -> (forall t, length (z t) = nx) -> sup (z 0%nat) <= rho0 ->
    (forall t, fl_feedback_explicit rnd C (Some crs) (z t) (r t)) -> (forall t v, r t = Ok (Some v) -> fl_lin_step rnd S (z t) v (z (Datatypes.S t))) ->
    forall t, exists v, r t = Ok (Some v) /\ length v = nu /\ feedback np C (z t) = Ok (Some (mv K (z t))) /\ in_poly D (z t ++ mv K (z t)) /\ sup (vsub v (mv K (z t))) <= c * (u + eta) /\
      q * (sup (z t) * sup (z t)) <= (1 - th) ^ t * (c * (sup (z 0%nat) * sup (z 0%nat))) + c * (u + eta).
Proof. exact (explicit_loop_rounded np S N Q Rm P D X_N K nx nu C sg fuel step crs). Qed.
Print Assumptions C101_loop.

(** Such runs exist: for every arithmetic of this kind, every state and every stored table, the rounded controller returns some result, and for every input there is a rounded next state *)
Theorem C101_runs np S N Q Rm P D X_N K nx nu C fuel step crs u eta rnd x :
  mpc_setup np S N Q Rm P D X_N K nx nu C -> lqr_pair np S Q Rm P K nx nu -> in_poly X_N (zeros nx) -> store_explicit_solution np fuel step C = Ok crs ->
  rounding u eta rnd -> length x = nx -> (exists r, fl_feedback_explicit rnd C (Some crs) x r) /\ forall v, length v = nu -> exists y, fl_lin_step rnd S x v y /\ length y = nx.
Proof. exact (rounded_runs np S N Q Rm P D X_N K nx nu C fuel step crs u eta rnd x). Qed.
Print Assumptions C101_runs.

(** x+ = x + u with Q = 1, R = 2, P = 2, K = -1/2, |x| <= 1, |u| <= 1, horizon 1, terminal set [-1, 1]: all hypotheses of C101_loop hold with sg = 1, and the stored table has one region *)
Example C101_example :
  exists np C c0, mpc_setup np S_1 1 (Mat 1 [[1]]) (Mat 1 [[2]]) (Mat 1 [[2]]) D_box X_int (Mat 1 [[- (1 / 2)]]) 1 1 C /\ lqr_pair np S_1 (Mat 1 [[1]]) (Mat 1 [[2]]) (Mat 1 [[2]]) (Mat 1 [[- (1 / 2)]]) 1 1 /\ Spec.pd (Mat 1 [[1]]) 1 /\ (forall x, length x = 1%nat -> sup x <= 1 -> in_poly X_int x) /\ in_poly X_int (zeros 1) /\ store_explicit_solution np 4 (/ 100000) C = Ok [c0] /\ cr_u c0 [1] = [- (1 / 2)].
Proof. exact (loop_rounded_example). Qed.
