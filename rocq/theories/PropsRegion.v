(** * PropsRegion: the property theorems of this part, restated; proofs are in RegionThms.
    Generated by tools/gen_props.py: this file contains only statements, [exact] and Print Assumptions. *)
From Coq Require Import ZArith Classical Lra Lia.
From Verif Require Import Arr ArrFacts Spec SpecGeom SpecMpc Numpy Pnnls PnnlsFacts QpFacts GeomUtils Polyhedron PolyThms Oracle SolverThms NullFacts PolySolveThms PolyMore SpecDyn Dynamics DynThms CondenseThms LqrThms Mpqp MpqpThms Controllers CtrlThms McaisThms HullOracle Projection ProjThms.
From Verif Require Import RegionThms.

(** Linear MPC with P, K of solve_dare, Q positive definite, an invariant terminal set around the origin, a bounded domain and costs below the threshold of the solver, two or more states. Whatever polyhedron p get_feasible_set returns: from every state of p the closed loop runs forever inside D, through states that can be steered to the terminal set, and converges to the origin; and at every state that violates a row of p by more than the error of the projection, feedback returns None.
   Missing: states outside p but within that error (the loop may start there), costs above the threshold, and the exceptions of get_feasible_set (C54). *)
Theorem C88_region_partial np S N Q Rm P D X_N K nx nu C dia :
  mpc_setup np S N Q Rm P D X_N K nx nu C -> lqr_pair np S Q Rm P K nx nu -> Spec.pd Q nx -> in_poly X_N (zeros nx) -> bounded_set (in_poly D) -> cheap S N nu Q Rm P D X_N nx ->
  hull_ok np -> hull_total np -> rand_ok np -> (2 <= nx)%nat -> (forall y y', length y = nx -> length y' = nx -> can_reach S N nu D X_N y -> can_reach S N nu D X_N y' -> norm (vsub y y') <= dia) ->
  forall fuel p, get_feasible_set np fuel (c_mpqp C) = Ok p -> exists k vs, wf p k 0 nx /\ p_vertices p = Some vs /\ (forall x, in_poly p x <-> length x = nx /\ in_hull nx vs x) /\
    (forall x, in_poly p x -> attracted np C S D (fun y => length y = nx /\ can_reach S N nu D X_N y) x) /\
    forall x i, length x = nx -> (i < k)%nat -> nth i (pb p) 0 + (tol7 + (/ 100000 + INR nx * / 100000000) * dia) < dot (row (pA p) i) x -> feedback np C x = Ok None.
Proof. exact (region np S N Q Rm P D X_N K nx nu C dia). Qed.
Print Assumptions C88_region_partial.

(** With one state get_feasible_set returns a polyhedron p, and p is exactly the region of attraction: from every state of p the closed loop runs forever without leaving p and converges to the origin, and at every other state feedback returns None. *)
Theorem C88_interval np S N Q Rm P D X_N K nu C fuel :
  mpc_setup np S N Q Rm P D X_N K 1 nu C -> lqr_pair np S Q Rm P K 1 nu -> Spec.pd Q 1 -> in_poly X_N (zeros 1) -> bounded_set (in_poly D) -> cheap S N nu Q Rm P D X_N 1 ->
  exists p, get_feasible_set np fuel (c_mpqp C) = Ok p /\ (forall x, in_poly p x <-> length x = 1%nat /\ can_reach S N nu D X_N x) /\ (forall x, in_poly p x -> attracted np C S D (in_poly p) x) /\
    forall x, length x = 1%nat -> ~ in_poly p x -> feedback np C x = Ok None.
Proof. exact (interval_region np S N Q Rm P D X_N K nu C fuel). Qed.
Print Assumptions C88_interval.

(** x+ = x + u with Q = 1, R = 2, P = 2 and K = -1/2 from solve_dare, |x| <= 1, |u| <= 1, N = 1 and terminal set |x| <= 1: all hypotheses of C88_interval hold; the state 1/2 is attracted, and at x = 3 feedback returns None. *)
Example C88_interval_example fuel :
  let np := np_dare_const (Mat 1 [[2]]) in exists C,
  mpc_setup np S_1 1 (Mat 1 [[1]]) (Mat 1 [[2]]) (Mat 1 [[2]]) D_box X_int (Mat 1 [[- (1 / 2)]]) 1 1 C /\
  lqr_pair np S_1 (Mat 1 [[1]]) (Mat 1 [[2]]) (Mat 1 [[2]]) (Mat 1 [[- (1 / 2)]]) 1 1 /\ Spec.pd (Mat 1 [[1]]) 1 /\
  in_poly X_int (zeros 1) /\ bounded_set (in_poly D_box) /\ cheap S_1 1 1 (Mat 1 [[1]]) (Mat 1 [[2]]) (Mat 1 [[2]]) D_box X_int 1 /\
  exists p, get_feasible_set np fuel (c_mpqp C) = Ok p /\ attracted np C S_1 D_box (in_poly p) [/ 2] /\ feedback np C [3] = Ok None.
Proof. exact (interval_example fuel). Qed.

(** x+ = x + u in the plane, Q = I, R = 2I, P = 2I and K = -1/2 I from solve_dare, boxes of half width 1 for state, input and terminal set, N = 1, random offset (0, 10): all hypotheses of C88_region_partial hold with diameter 4; with enough fuel get_feasible_set returns a polyhedron, the vertices of which are not on a line, and at (2, 0) feedback returns None. *)
Example C88_example :
  exists C, mpc_setup np_2 S_2 1 (diag2 1) (diag2 2) (diag2 2) D_2 X_2 (diag2 (- (1 / 2))) 2 2 C /\ lqr_pair np_2 S_2 (diag2 1) (diag2 2) (diag2 2) (diag2 (- (1 / 2))) 2 2 /\ Spec.pd (diag2 1) 2 /\
  in_poly X_2 (zeros 2) /\ bounded_set (in_poly D_2) /\ cheap S_2 1 2 (diag2 1) (diag2 2) (diag2 2) D_2 X_2 2 /\ hull_ok np_2 /\ hull_total np_2 /\ rand_ok np_2 /\
  (forall y y', length y = 2%nat -> length y' = 2%nat -> can_reach S_2 1 2 D_2 X_2 y -> can_reach S_2 1 2 D_2 X_2 y' -> norm (vsub y y') <= 4) /\
  exists F, forall fuel, (F <= fuel)%nat -> exists p vs, get_feasible_set np_2 fuel (c_mpqp C) = Ok p /\ p_vertices p = Some vs /\ (forall a d, length a = 2%nat -> Forall (fun v => dot a v = d) vs -> a = zeros 2) /\ feedback np_2 C [2; 0] = Ok None.
Proof. exact (region_example). Qed.
