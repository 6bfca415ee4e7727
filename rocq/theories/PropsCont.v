(** * PropsCont: the property theorems of this part, restated; proofs are in ContThms.
    Generated by tools/gen_props.py: this file contains only statements, [exact] and Print Assumptions. *)
From Coq Require Import ZArith Classical.
From Verif Require Import Arr ArrFacts Spec SpecMpc Numpy Pnnls PnnlsFacts QpFacts GeomUtils Polyhedron PolyThms Oracle SolverThms NullFacts PolySolveThms PolyMore PolyChebThms SpecDyn Dynamics DynThms CondenseThms LqrThms Mpqp MpqpThms Controllers CtrlThms.
From Verif Require Import ContThms.

(** Regions of the explicit solution agree where they overlap: the same minimizer, the same value. *)
Theorem C79_single_valued np Huu Hux Hxx fu fx g Au Ax b nu nx m q fuel step crs c c' x :
  exact_np np -> mp_data Huu Hux Hxx fu fx Au Ax b nu nx m -> MultiParametricQuadraticProgram np Huu Hux Hxx fu fx g Au Ax b = Ok q -> explicit_solve np fuel step q = Ok crs ->
  In c crs -> In c' crs -> in_poly (cr_poly c) x -> in_poly (cr_poly c') x -> cr_u c x = cr_u c' x /\ cr_V c x = cr_V c' x.
Proof. exact (single_valued np Huu Hux Hxx fu fx g Au Ax b nu nx m q fuel step crs c c' x). Qed.
Print Assumptions C79_single_valued.

(** The minimizer and the value given by the regions are continuous on their union. *)
Theorem C79_continuous np Huu Hux Hxx fu fx g Au Ax b nu nx m q fuel step crs c x eps :
  exact_np np -> mp_data Huu Hux Hxx fu fx Au Ax b nu nx m -> MultiParametricQuadraticProgram np Huu Hux Hxx fu fx g Au Ax b = Ok q -> explicit_solve np fuel step q = Ok crs ->
  In c crs -> in_poly (cr_poly c) x -> 0 < eps ->
  exists d, 0 < d /\ forall c' y, In c' crs -> in_poly (cr_poly c') y -> norm (vsub y x) < d -> norm (vsub (cr_u c' y) (cr_u c x)) <= eps /\ Rabs (cr_V c' y - cr_V c x) <= eps.
Proof. exact (explicit_continuous np Huu Hux Hxx fu fx g Au Ax b nu nx m q fuel step crs c x eps). Qed.
Print Assumptions C79_continuous.

(** If the objective is convex in (x, u) jointly, the value is a convex function on the union of the regions. Missing: without joint convexity it need not be (C79_convex_refuted). *)
Theorem C79_value_convex_partial np Huu Hux Hxx fu fx g Au Ax b nu nx m q fuel step crs c1 x1 c2 x2 c t :
  exact_np np -> mp_data Huu Hux Hxx fu fx Au Ax b nu nx m -> MultiParametricQuadraticProgram np Huu Hux Hxx fu fx g Au Ax b = Ok q -> explicit_solve np fuel step q = Ok crs ->
  (forall x u, length x = nx -> length u = nu -> 0 <= dot u (mv Huu u) + 2 * dot u (mv Hux x) + dot x (mv Hxx x)) ->
  In c1 crs -> in_poly (cr_poly c1) x1 -> In c2 crs -> in_poly (cr_poly c2) x2 -> 0 <= t <= 1 -> let x := vadd (vscale (1 - t) x1) (vscale t x2) in
  In c crs -> in_poly (cr_poly c) x -> cr_V c x <= (1 - t) * cr_V c1 x1 + t * cr_V c2 x2.
Proof. exact (explicit_convex np Huu Hux Hxx fu fx g Au Ax b nu nx m q fuel step crs c1 x1 c2 x2 c t). Qed.
Print Assumptions C79_value_convex_partial.

(** For the linear MPC controller: the set of states with an admissible input sequence is convex, and the optimal cost is convex in the state: between two states at which feedforward answers with costs V1 and V2 there is an admissible sequence with cost at most (1-t) V1 + t V2, and feedforward, if it answers there, answers with no larger a cost. *)
Theorem C79_mpc_convex np S N Q Rm P D X_N nx nu C x1 x2 us1 us2 V1 V2 t :
  exact_np np -> mpc_data S N Q Rm P D X_N nx nu -> ModelPredictiveController np S N Q Rm P D X_N = Ok C ->
  length x1 = nx -> length x2 = nx -> feedforward np C x1 = Ok (Some us1, Some V1) -> feedforward np C x2 = Ok (Some us2, Some V2) -> 0 <= t <= 1 ->
  let x := vadd (vscale (1 - t) x1) (vscale t x2) in
  (exists us xs, mpc_admissible (lA S) (lB S) nu N (in_poly D) (in_poly X_N) x us xs /\ trajectory_cost Q Rm P us xs <= (1 - t) * V1 + t * V2) /\
  forall us V, feedforward np C x = Ok (Some us, Some V) -> V <= (1 - t) * V1 + t * V2.
Proof. exact (mpc_convex np S N Q Rm P D X_N nx nu C x1 x2 us1 us2 V1 V2 t). Qed.
Print Assumptions C79_mpc_convex.

(** Without joint convexity the value need not be convex: min 1/2 u^2 - x^2 s.t. x <= u is accepted by the constructor and by explicit_solve; its value at -1 is larger than the mean of its values at -2 and 0. *)
Theorem C79_convex_refuted :
  exists Huu Hux Hxx fu fx g Au Ax b, mp_data Huu Hux Hxx fu fx Au Ax b 1 1 1 /\
  forall np, exact_np np -> exists q fuel step crs c x1 x2, MultiParametricQuadraticProgram np Huu Hux Hxx fu fx g Au Ax b = Ok q /\ explicit_solve np fuel step q = Ok crs /\
    In c crs /\ in_poly (cr_poly c) x1 /\ in_poly (cr_poly c) x2 /\ let x := vadd (vscale (1 - / 2) x1) (vscale (/ 2) x2) in in_poly (cr_poly c) x /\ (1 - / 2) * cr_V c x1 + / 2 * cr_V c x2 < cr_V c x.
Proof. exact (convex_refuted). Qed.
Print Assumptions C79_convex_refuted.

(** The function ExplicitSolution.u itself is not continuous: the lookup keeps the first region within 1e-7 of x, so for min 1/2 u^2 s.t. x <= u it answers 0 at x = 1e-7 and x just above. *)
Theorem C79_lookup_refuted :
  exists Huu Hux Hxx fu fx g Au Ax b, mp_data Huu Hux Hxx fu fx Au Ax b 1 1 1 /\
  forall np, exact_np np -> exists q fuel step crs x eps, MultiParametricQuadraticProgram np Huu Hux Hxx fu fx g Au Ax b = Ok q /\ explicit_solve np fuel step q = Ok crs /\ 0 < eps /\
    forall d, 0 < d -> exists y ux uy, norm (vsub y x) < d /\ es_u crs x = Ok (Some ux) /\ es_u crs y = Ok (Some uy) /\ eps <= norm (vsub uy ux).
Proof. exact (lookup_refuted). Qed.
Print Assumptions C79_lookup_refuted.

(** min 1/2 u^2 s.t. x <= u: the hypotheses of all C79 theorems hold (the objective is jointly convex), the two regions share the point 0, and their value is V(x) = 0 for x <= 0 and 1/2 x^2 for x >= 0. *)
Example C79_example np :
  exact_np np -> exists q crs c0 c1, 
  mp_data (Mat 1 [[1]]) (Mat 1 [[0]]) (Mat 1 [[0]]) [0] [0] (Mat 1 [[-1]]) (Mat 1 [[1]]) [0] 1 1 1 /\
  MultiParametricQuadraticProgram np (Mat 1 [[1]]) (Mat 1 [[0]]) (Mat 1 [[0]]) [0] [0] 0 (Mat 1 [[-1]]) (Mat 1 [[1]]) [0] = Ok q /\
  explicit_solve np 3 (/ 100000) q = Ok crs /\ crs = [c0; c1] /\
  (forall x u, length x = 1%nat -> length u = 1%nat -> 0 <= dot u (mv (Mat 1 [[1]]) u) + 2 * dot u (mv (Mat 1 [[0]]) x) + dot x (mv (Mat 1 [[0]]) x)) /\
  in_poly (cr_poly c0) [0] /\ in_poly (cr_poly c1) [0] /\ in_poly (cr_poly c0) [-2] /\ in_poly (cr_poly c1) [2] /\ cr_V c0 [-2] = 0 /\ cr_V c1 [2] = 2 /\ cr_u c1 [2] = [2].
Proof. exact (cont_example np). Qed.

(** x+ = x + u with Q = R = P = 1, N = 1, |x| <= 1, |u| <= 1, |x(1)| <= 1: the hypotheses of C79_mpc_convex hold at x1 = 1, x2 = -1, where feedforward answers with V = 3/4. *)
Example C79_mpc_example np :
  exact_np np -> mpc_data S_1 1 I_1 I_1 I_1 D_box X_int 1 1 /\
  exists C us2, ModelPredictiveController np S_1 1 I_1 I_1 I_1 D_box X_int = Ok C /\
    feedforward np C [1] = Ok (Some [[- (1 / 2)]], Some (3 / 4)) /\ feedforward np C [-1] = Ok (Some us2, Some (3 / 4)).
Proof. exact (cont_mpc_example np). Qed.
