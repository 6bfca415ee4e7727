(** * PropsExplGap: the property theorems of this part, restated; proofs are in ExplGapThms.
    Generated by tools/gen_props.py: this file contains only statements, [exact] and Print Assumptions. *)
From Coq Require Import Lra Lia Classical.
From Verif Require Import Arr ArrFacts Spec SpecMpc SpecDyn SpecEig SpecRound Numpy Pnnls PnnlsFacts QpFacts Polyhedron PolyThms Dynamics DynThms CondenseThms LqrThms McaisThms SpectralThms Mpqp MpqpThms TolThms Controllers CtrlThms ContThms ExplThms HoldThms CartHoldThms LawThms RobustThms Round RoundExpl RoundThms RoundSimThms RoundPwaThms LocalThms PlantThms RoundExplThms.
From Verif Require Import ExplGapThms.
Local Open Scope list_scope.

(** For every table stored by explicit_solve there is one constant c such that wherever a region of the table contains the parameter up to tau, its input is within c tau of the minimizer *)
Theorem C102_program np Huu Hux Hxx fu fx g Au Ax b nu nx m q fuel step crs :
  exact_np np -> mp_data Huu Hux Hxx fu fx Au Ax b nu nx m -> MultiParametricQuadraticProgram np Huu Hux Hxx fu fx g Au Ax b = Ok q -> explicit_solve np fuel step q = Ok crs ->
  exists c, 0 <= c /\ forall cr tau x w, In cr crs -> 0 < tau -> length x = nx -> MpqpThms.within tau (cr_poly cr) x -> mp_minimizer Huu Hux Hxx fu fx g Au Ax b x w -> norm (vsub (cr_u cr x) w) <= c * tau.
Proof. exact (explicit_gap np Huu Hux Hxx fu fx g Au Ax b nu nx m q fuel step crs). Qed.
Print Assumptions C102_program.

(** For every table stored by a linear model predictive controller there is one constant c such that at every state that has an admissible sequence, an input returned by feedback_explicit -- also in rounded arithmetic, with E bounding the rounding errors of the residuals and F those of the input -- differs from the first input of the optimal sequence by at most c (1e-7 + E) + F *)
Theorem C102_controller np S N Q Rm P D X_N nx nu C fuel step crs :
  exact_np np -> mpc_data S N Q Rm P D X_N nx nu -> ModelPredictiveController np S N Q Rm P D X_N = Ok C -> store_explicit_solution np fuel step C = Ok crs ->
  exists c, 0 <= c /\ forall u eta rnd x E F us xs v, rounding u eta rnd -> length x = nx -> 0 <= E ->
    (forall cr, In cr crs -> residual_bound u eta E (pA (cr_poly cr)) (pb (cr_poly cr)) x /\ forall i, (i < nu)%nat -> rounding_error u eta (nx + 1) (SpecRound.abs_dot (row (cr_ux cr) i) x + Rabs (nth i (cr_u0 cr) 0)) <= F) ->
    mpc_optimal (lA S) (lB S) Q Rm P nu N (in_poly D) (in_poly X_N) x us xs -> fl_feedback_explicit rnd C (Some crs) x (Ok (Some v)) ->
    length v = nu /\ forall i, (i < nu)%nat -> Rabs (nth i v 0 - nth i (nth 0 us []) 0) <= c * (tol7 + E) + F.
Proof. exact (controller_gap np S N Q Rm P D X_N nx nu C fuel step crs). Qed.
Print Assumptions C102_controller.

(** In exact arithmetic: wherever both controllers return an input, the two inputs differ by at most c 1e-7 in every component, with c a constant of the controller and its table *)
Theorem C102_exact np S N Q Rm P D X_N nx nu C fuel step crs :
  exact_np np -> mpc_data S N Q Rm P D X_N nx nu -> ModelPredictiveController np S N Q Rm P D X_N = Ok C -> store_explicit_solution np fuel step C = Ok crs ->
  exists c, 0 <= c /\ forall x v w, length x = nx -> feedback_explicit C (Some crs) x = Ok (Some v) -> feedback np C x = Ok (Some w) -> length v = nu /\ length w = nu /\ sup (vsub v w) <= c * tol7.
Proof. exact (exact_gap np S N Q Rm P D X_N nx nu C fuel step crs). Qed.
Print Assumptions C102_exact.

(** The explicit controller in the loop, under the hypotheses of C100_robust: there are th in (0, 1], d0 > 0 and constants b, c such that, as long as it answers, every run from a state of cost at most rho, with residual and input rounding errors at most E and F and a plant error at most w, stays within q |x(t)|^2 <= (1 - th)^t V(0) + M dl / (r th) with dl = b (c (1e-7 + E) + F) + w, if dl <= d0; and each input it applies is within c (1e-7 + E) + F of the one of the on-line controller, which meets the constraints *)
Theorem C102_loop np S N Q Rm P D X_N K nx nu C fuel step crs sg r M rho q :
  mpc_setup np S N Q Rm P D X_N K nx nu C -> lqr_pair np S Q Rm P K nx nu -> store_explicit_solution np fuel step C = Ok crs ->
  0 < q -> (forall x, length x = nx -> q * (sup x * sup x) <= / 2 * dot x (mv Q x)) -> 0 < sg -> (forall x, length x = nx -> sup x <= sg -> in_poly X_N x) -> 0 < r -> 0 < rho -> 0 < M < (10 ^ 14 - 1) / 2 ->
  (forall x us xs, length x = nx -> mpc_admissible (lA S) (lB S) nu N (in_poly D) (in_poly X_N) x us xs -> trajectory_cost Q Rm P us xs <= rho ->
     forall y, length y = nx -> sup (vsub y x) <= r -> exists us' xs', mpc_admissible (lA S) (lB S) nu N (in_poly D) (in_poly X_N) y us' xs' /\ trajectory_cost Q Rm P us' xs' <= M) ->
  exists th d0 b c, 0 < th <= 1 /\ 0 < d0 /\ 0 <= b /\ 0 <= c /\ forall u eta rnd E F w (z v : nat -> vec) T us0 xs0, let dl := b * (c * (tol7 + E) + F) + w in rounding u eta rnd -> 0 <= E -> 0 <= F -> 0 <= w -> dl <= d0 -> (forall t, length (z t) = nx) ->
    mpc_admissible (lA S) (lB S) nu N (in_poly D) (in_poly X_N) (z 0%nat) us0 xs0 -> trajectory_cost Q Rm P us0 xs0 <= rho ->
    (forall t cr, (t < T)%nat -> In cr crs -> residual_bound u eta E (pA (cr_poly cr)) (pb (cr_poly cr)) (z t) /\ forall i, (i < nu)%nat -> rounding_error u eta (nx + 1) (SpecRound.abs_dot (row (cr_ux cr) i) (z t) + Rabs (nth i (cr_u0 cr) 0)) <= F) ->
    (forall t, (t < T)%nat -> fl_feedback_explicit rnd C (Some crs) (z t) (Ok (Some (v t))) /\ sup (vsub (z (Datatypes.S t)) (linear_step (lA S) (lB S) (z t) (v t))) <= w) ->
    forall t, (t <= T)%nat -> exists uo, feedback np C (z t) = Ok (Some uo) /\ in_poly D (z t ++ uo) /\ q * (sup (z t) * sup (z t)) <= (1 - th) ^ t * trajectory_cost Q Rm P us0 xs0 + M / (r * th) * dl /\
      q * (sup (z t) * sup (z t)) <= rho /\ ((t < T)%nat -> sup (vsub (v t) uo) <= c * (tol7 + E) + F).
Proof. exact (explicit_gap_loop np S N Q Rm P D X_N K nx nu C fuel step crs sg r M rho q). Qed.
Print Assumptions C102_loop.

(** The rate is attained: min 1/2 u^2 s.t. x <= u. At every x in (0, 1e-7] the table answers 0 and the minimizer is x, so c is at least 1 *)
Example C102_example np :
  exact_np np -> exists q crs, MultiParametricQuadraticProgram np (Mat 1 [[1]]) (Mat 1 [[0]]) (Mat 1 [[0]]) [0] [0] 0 (Mat 1 [[-1]]) (Mat 1 [[1]]) [0] = Ok q /\ explicit_solve np 3 (/ 100000) q = Ok crs /\
  forall x, 0 < x <= tol7 -> es_u crs [x] = Ok (Some [0]) /\ mp_minimizer (Mat 1 [[1]]) (Mat 1 [[0]]) (Mat 1 [[0]]) [0] [0] 0 (Mat 1 [[-1]]) (Mat 1 [[1]]) [0] [x] [x] /\ sup (vsub [0] [x]) = x.
Proof. exact (gap_example np). Qed.

(** x+ = x + u with Q = 1, R = 2, P = 2, K = -1/2, |x| <= 1, |u| <= 1, horizon 1, terminal set [-1, 1]: all hypotheses of C102_loop hold with sg = 1, r = 1/2, rho = 1/4, M = 1, q = 1/2, and the stored table of one region answers in every admissible state *)
Example C102_loop_example :
  exists np C c0, mpc_setup np S_1 1 (Mat 1 [[1]]) (Mat 1 [[2]]) (Mat 1 [[2]]) D_box X_int (Mat 1 [[- (1 / 2)]]) 1 1 C /\ lqr_pair np S_1 (Mat 1 [[1]]) (Mat 1 [[2]]) (Mat 1 [[2]]) (Mat 1 [[- (1 / 2)]]) 1 1 /\ store_explicit_solution np 4 (/ 100000) C = Ok [c0] /\
  (forall x, length x = 1%nat -> / 2 * (sup x * sup x) <= / 2 * dot x (mv (Mat 1 [[1]]) x)) /\ (forall x, length x = 1%nat -> sup x <= 1 -> in_poly X_int x) /\
  (forall x us xs, length x = 1%nat -> mpc_admissible (lA S_1) (lB S_1) 1 1 (in_poly D_box) (in_poly X_int) x us xs -> trajectory_cost (Mat 1 [[1]]) (Mat 1 [[2]]) (Mat 1 [[2]]) us xs <= / 4 ->
     forall y, length y = 1%nat -> sup (vsub y x) <= / 2 -> exists us' xs', mpc_admissible (lA S_1) (lB S_1) 1 1 (in_poly D_box) (in_poly X_int) y us' xs' /\ trajectory_cost (Mat 1 [[1]]) (Mat 1 [[2]]) (Mat 1 [[2]]) us' xs' <= 1) /\
  (forall y us xs, length y = 1%nat -> mpc_admissible (lA S_1) (lB S_1) 1 1 (in_poly D_box) (in_poly X_int) y us xs -> get_critical_region [c0] y = Ok (Some c0)) /\
  feedback_explicit C (Some [c0]) [1] = Ok (Some [- (1 / 2)]).
Proof. exact (explicit_gap_loop_example). Qed.
