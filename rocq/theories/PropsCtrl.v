(** * PropsCtrl: the property theorems of this part, restated; proofs are in CtrlThms.
    Generated by tools/gen_props.py: this file contains only statements, [exact] and Print Assumptions. *)
From Coq Require Import ZArith Classical.
From Verif Require Import Arr ArrFacts Spec SpecMpc Numpy Pnnls PnnlsFacts QpFacts GeomUtils Polyhedron PolyThms Oracle SolverThms NullFacts PolySolveThms PolyMore SpecDyn Dynamics DynThms CondenseThms LqrThms McaisThms Mpqp MpqpThms Controllers.
From Verif Require Import CtrlThms.

(** For symmetric Q and P, the objective of the mpQP built for a mode sequence equals, at every initial state and inputs, the cost 1/2 sum x'Qx + u'Ru + 1/2 xN'P xN of the trajectory; with Q, P positive semidefinite and R positive definite the program is always built.
   Missing: Q or P not symmetric, for which the claim is false (see the refutation). *)
Theorem C37_condensed_cost_partial np W Q Rm P X_N modes nx nu :
  exact_np np -> ocp_data W Q Rm P X_N modes nx nu -> tr Q = Q -> tr P = P ->
  (psd Q nx -> psd P nx -> Spec.pd Rm nu -> exists q, condense_optimal_control_problem np W Q Rm P X_N modes = Ok q) /\
  forall q, condense_optimal_control_problem np W Q Rm P X_N modes = Ok q ->
  forall x0 us xs, length x0 = nx -> length us = length modes -> Forall (fun v => length v = nu) us ->
    is_switched_trajectory (map aA (w_sys W)) (map aB (w_sys W)) (map ac (w_sys W)) modes x0 us xs ->
    mp_cost (q_Huu q) (q_Hux q) (q_Hxx q) (q_fu q) (q_fx q) (q_g q) x0 (List.concat us) = trajectory_cost Q Rm P us xs.
Proof. exact (condensed_cost np W Q Rm P X_N modes nx nu). Qed.
Print Assumptions C37_condensed_cost_partial.

(** The inequalities of the mpQP hold at (x0, u) iff every (x(t), u(t)) satisfies the inequalities of its domain and x(N) those of the terminal set; if the sets have no equalities: iff all of them are in their sets.
   Missing: domains with equalities, for which the claim is false (C50_equalities_refuted). *)
Theorem C38_condensed_constraints_partial np W Q Rm P X_N modes nx nu :
  exact_np np -> ocp_data W Q Rm P X_N modes nx nu ->
  forall q, condense_optimal_control_problem np W Q Rm P X_N modes = Ok q ->
  forall x0 us xs, length x0 = nx -> length us = length modes -> Forall (fun v => length v = nu) us ->
    is_switched_trajectory (map aA (w_sys W)) (map aB (w_sys W)) (map ac (w_sys W)) modes x0 us xs ->
    let dom t := nth (nth t modes 0%nat) (w_dom W) poly0 in
    (mp_feasible (q_Au q) (q_Ax q) (q_b q) x0 (List.concat us) <->
     stage_constraints (fun t xu => ineq_holds (pA (dom t)) (pb (dom t)) xu) (fun x => ineq_holds (pA X_N) (pb X_N) x) us xs) /\
    ((forall D, In D (w_dom W) -> pd D = []) -> pd X_N = [] ->
     (mp_feasible (q_Au q) (q_Ax q) (q_b q) x0 (List.concat us) <-> stage_constraints (fun t => in_poly (dom t)) (in_poly X_N) us xs)).
Proof. exact (condensed_constraints np W Q Rm P X_N modes nx nu). Qed.
Print Assumptions C38_condensed_constraints_partial.

(** Sets without equalities, Q and P positive semidefinite, R positive definite: the controller is built, and feedforward(x) returns N inputs whose trajectory is admissible and is the unique one of smallest cost, with V that cost, and feedback(x) the first input -- except that (None, None) is returned when no admissible sequence costs less than 5e13 above the unconstrained optimum.
   Missing: that exception is not part of the claim (see C39_far_refuted); sets with equalities (see C50_equalities_refuted). *)
Theorem C39_feedforward_partial np S N Q Rm P D X_N nx nu :
  exact_np np -> mpc_data S N Q Rm P D X_N nx nu ->
  exists C, ModelPredictiveController np S N Q Rm P D X_N = Ok C /\ forall x, length x = nx ->
  exists us0 xs0, mpc_optimal (lA S) (lB S) Q Rm P nu N (fun _ => True) (fun _ => True) x us0 xs0 /\
   ((feedforward np C x = Ok (None, None) /\ feedback np C x = Ok None /\
     forall us xs, mpc_admissible (lA S) (lB S) nu N (in_poly D) (in_poly X_N) x us xs -> trajectory_cost Q Rm P us0 xs0 + (10 ^ 14 - 1) / 2 <= trajectory_cost Q Rm P us xs) \/
    (exists us xs, feedforward np C x = Ok (Some us, Some (trajectory_cost Q Rm P us xs)) /\ feedback np C x = Ok (Some (nth 0 us [])) /\
       mpc_optimal (lA S) (lB S) Q Rm P nu N (in_poly D) (in_poly X_N) x us xs /\
       trajectory_cost Q Rm P us xs < trajectory_cost Q Rm P us0 xs0 + (10 ^ 14 - 1) / 2)).
Proof. exact (feedforward_ok np S N Q Rm P D X_N nx nu). Qed.
Print Assumptions C39_feedforward_partial.

(** x+ = x + u with Q = R = P = 1, N = 1, |x| <= 1, |u| <= 1, |x(1)| <= 1: all hypotheses hold, and at x = 1 feedforward returns u = -1/2 and V = 3/4. *)
Example C39_example np :
  exact_np np -> mpc_data S_1 1 I_1 I_1 I_1 D_box X_int 1 1 /\
  exists C, ModelPredictiveController np S_1 1 I_1 I_1 I_1 D_box X_int = Ok C /\
    feedforward np C [1] = Ok (Some [[- (1 / 2)]], Some (3 / 4)) /\ feedback np C [1] = Ok (Some [- (1 / 2)]).
Proof. exact (mpc_example np). Qed.

(** x+ = x + u, Q = P = 0, R = 1, N = 1, D = {x <= u}: at x = 2e7 the input u = 2e7 is admissible, but feedforward returns (None, None). *)
Theorem C39_far_refuted :
  exists S N Q Rm P D X_N x us xs, mpc_data S N Q Rm P D X_N 1 1 /\
  mpc_admissible (lA S) (lB S) 1 N (in_poly D) (in_poly X_N) x us xs /\
  forall np, exact_np np -> exists C, ModelPredictiveController np S N Q Rm P D X_N = Ok C /\ feedforward np C x = Ok (None, None).
Proof. exact (mpc_far_refuted). Qed.
Print Assumptions C39_far_refuted.

(** The controller built from D and X_N is the controller built from their inequalities alone, whatever their equalities. *)
Theorem C50_equalities_ignored np S N Q Rm P D X_N nx nu :
  mpc_shapes S N Q Rm P D X_N nx nu ->
  ModelPredictiveController np S N Q Rm P D X_N = ModelPredictiveController np S N Q Rm P (without_equalities D) (without_equalities X_N).
Proof. exact (equalities_ignored np S N Q Rm P D X_N nx nu). Qed.
Print Assumptions C50_equalities_ignored.

(** x+ = x + u, Q = R = P = 1, N = 1, D = {|x| <= 1, |u| <= 1, u = 0}: at x = 1, where u = 0 is admissible, feedforward returns u = -1/2, and (1, -1/2) is not in D. *)
Theorem C50_equalities_refuted :
  exists S N Q Rm P D X_N x u, mpc_shapes S N Q Rm P D X_N 1 1 /\ psd Q 1 /\ psd P 1 /\ Spec.pd Rm 1 /\
  (exists us xs, mpc_admissible (lA S) (lB S) 1 N (in_poly D) (in_poly X_N) x us xs) /\
  forall np, exact_np np -> exists C V, ModelPredictiveController np S N Q Rm P D X_N = Ok C /\ feedforward np C x = Ok (Some [u], Some V) /\ ~ in_poly D (x ++ u).
Proof. exact (equalities_refuted). Qed.
Print Assumptions C50_equalities_refuted.

(** The controller of C39_example is the mpQP of x+ = x + u with domain |x| <= 1, |u| <= 1 and the mode sequence (0): at x0 = 1 the input -1/2 satisfies its inequalities, the input 2 does not. *)
Example C38_example np :
  exact_np np -> ocp_data (lin_pwa S_1 D_box 1 1) I_1 I_1 I_1 X_int [0%nat] 1 1 /\ tr I_1 = I_1 /\
  exists q, condense_optimal_control_problem np (lin_pwa S_1 D_box 1 1) I_1 I_1 I_1 X_int [0%nat] = Ok q /\
    mp_feasible (q_Au q) (q_Ax q) (q_b q) [1] [- (1 / 2)] /\ ~ mp_feasible (q_Au q) (q_Ax q) (q_b q) [1] [2] /\
    mp_cost (q_Huu q) (q_Hux q) (q_Hxx q) (q_fu q) (q_fx q) (q_g q) [1] [- (1 / 2)] = 3 / 4.
Proof. exact (condensed_example np). Qed.

(** x+ = x + (u, 0), Q = 0, R = 1, P = [[0,1],[0,0]] (not symmetric), N = 1: the objective of the mpQP at x0 = (0,1), u = 1 is 3/2, the cost of the trajectory is 1. *)
Theorem C37_asymmetric_refuted :
  exists W Q Rm P X_N modes x0 us xs, ocp_data W Q Rm P X_N modes 2 1 /\ switched W modes x0 us xs /\ length us = length modes /\
  trajectory_cost Q Rm P us xs = 1 /\
  forall np, exact_np np -> exists q, condense_optimal_control_problem np W Q Rm P X_N modes = Ok q /\
    mp_cost (q_Huu q) (q_Hux q) (q_Hxx q) (q_fu q) (q_fx q) (q_g q) x0 (List.concat us) = 3 / 2.
Proof. exact (asymmetric_refuted). Qed.
Print Assumptions C37_asymmetric_refuted.

(** If the terminal set is invariant and admissible under some gain K and feedback(x) returns u, the optimal control problem at A x + B u is feasible; hence it is feasible at every state of every run of the closed loop that starts at a feasible state. *)
Theorem C44_recursive_feasibility np S N Q Rm P D X_N K nx nu C x :
  mpc_setup np S N Q Rm P D X_N K nx nu C -> length x = nx ->
  (forall u, feedback np C x = Ok (Some u) -> exists us xs, mpc_admissible (lA S) (lB S) nu N (in_poly D) (in_poly X_N) (linear_step (lA S) (lB S) x u) us xs) /\
  (forall U X, (exists us xs, mpc_admissible (lA S) (lB S) nu N (in_poly D) (in_poly X_N) x us xs) -> is_trajectory (linear_step (lA S) (lB S)) x U X ->
     (forall t, (t < length U)%nat -> feedback np C (nth t X []) = Ok (Some (nth t U []))) ->
     forall t, (t <= length U)%nat -> exists us xs, mpc_admissible (lA S) (lB S) nu N (in_poly D) (in_poly X_N) (nth t X []) us xs).
Proof. exact (recursive_feasibility np S N Q Rm P D X_N K nx nu C x). Qed.
Print Assumptions C44_recursive_feasibility.

(** With terminal cost P and gain K of solve_dare and an invariant terminal set, the value returned at the next state is at most the value returned at x minus the stage cost; and whenever the value is below 5e13, feedforward does return a solution at the next state. *)
Theorem C45_decrease np S N Q Rm P D X_N K nx nu C x us V :
  mpc_setup np S N Q Rm P D X_N K nx nu C -> lqr_pair np S Q Rm P K nx nu -> length x = nx ->
  feedforward np C x = Ok (Some us, Some V) ->
  let u := nth 0 us [] in
  let x' := linear_step (lA S) (lB S) x u in
  let stage := / 2 * (dot x (mv Q x) + dot u (mv Rm u)) in
  0 <= stage /\ 0 <= V /\ feedback np C x = Ok (Some u) /\
  (forall us' V', feedforward np C x' = Ok (Some us', Some V') -> V' <= V - stage) /\
  (V < (10 ^ 14 - 1) / 2 -> exists us' V', feedforward np C x' = Ok (Some us', Some V')).
Proof. exact (cost_decrease np S N Q Rm P D X_N K nx nu C x us V). Qed.
Print Assumptions C45_decrease.

(** With P, K of solve_dare and an invariant terminal set, from every state where the returned value V is below 5e13 the closed loop runs forever without failing, all its pairs (x(t), u(t)) are in D, the values decrease by at least the stage costs, the stage costs sum up to at most V, and, if Q is positive definite, x(t) converges to the origin. *)
Theorem C58_closed_loop np S N Q Rm P D X_N K nx nu C x us V :
  mpc_setup np S N Q Rm P D X_N K nx nu C -> lqr_pair np S Q Rm P K nx nu -> length x = nx ->
  feedforward np C x = Ok (Some us, Some V) -> V < (10 ^ 14 - 1) / 2 ->
  exists X U : nat -> vec, X 0%nat = x /\
    (forall t, feedback np C (X t) = Ok (Some (U t)) /\ X (Datatypes.S t) = linear_step (lA S) (lB S) (X t) (U t) /\ in_poly D (X t ++ U t)) /\
    (forall T, exists us' V', feedforward np C (X T) = Ok (Some us', Some V') /\ 0 <= V' /\
       V' + sum_upto (fun t => / 2 * (dot (X t) (mv Q (X t)) + dot (U t) (mv Rm (U t)))) T <= V) /\
    (Spec.pd Q nx -> forall eps, 0 < eps -> exists T, forall t, (T <= t)%nat -> norm (X t) < eps).
Proof. exact (closed_loop np S N Q Rm P D X_N K nx nu C x us V). Qed.
Print Assumptions C58_closed_loop.

(** With P, K of solve_dare every value returned by feedforward is at least 1/2 x'P x; and at every x whose N-step trajectory under u = K x is admissible (in particular in an invariant terminal set) feedforward returns exactly that input sequence with V = 1/2 x'P x. *)
Theorem C46_lqr_bound np S N Q Rm P D X_N K nx nu C x :
  exact_np np -> mpc_data S N Q Rm P D X_N nx nu -> ModelPredictiveController np S N Q Rm P D X_N = Ok C ->
  lqr_pair np S Q Rm P K nx nu -> length x = nx ->
  (forall us V, feedforward np C x = Ok (Some us, Some V) -> / 2 * dot x (mv P x) <= V) /\
  (forall us xs, mpc_admissible (lA S) (lB S) nu N (in_poly D) (in_poly X_N) x us xs -> (forall t, (t < N)%nat -> nth t us [] = mv K (nth t xs [])) ->
     feedforward np C x = Ok (Some us, Some (/ 2 * dot x (mv P x))) /\ feedback np C x = Ok (Some (mv K x))) /\
  (terminal_invariant (lA S) (lB S) K (in_poly D) (in_poly X_N) -> in_poly X_N x -> exists us xs, mpc_admissible (lA S) (lB S) nu N (in_poly D) (in_poly X_N) x us xs /\
     forall t, (t < N)%nat -> nth t us [] = mv K (nth t xs [])).
Proof. exact (mpc_lqr np S N Q Rm P D X_N K nx nu C x). Qed.
Print Assumptions C46_lqr_bound.

(** The set O returned by LinearSystem.mcais(K, D) (D given by inequalities) is admissible and invariant under u = K x, so it is a terminal set as required by C44_recursive_feasibility, provided no redundancy of the accumulated inequalities is decided by less than the solver tolerance 1e-7.
   Missing: redundancies within the tolerance, in which case O is larger than the invariant set. *)
Theorem C44_mcais_terminal_partial np fuel S K D nx nu m O :
  exact_np np ->
  shape (lA S) nx nx -> shape (lB S) nx nu -> shape K nu nx -> wf D m 0 (nx + nu) -> (0 < m)%nat -> (0 < nx)%nat -> np_eig_max np (A_closed S K) <= 1 ->
  in_poly D (zeros (nx + nu)) -> bounded_set (fun x => in_poly D (x ++ mv K x) /\ length x = nx) -> lin_mcais np fuel S K D = Ok O ->
  exists O1 mO, wf O1 mO 0 nx /\
    (forall x, length x = nx -> (in_poly O1 x <-> forall t, in_poly D (flow (A_closed S K) t x ++ mv K (flow (A_closed S K) t x)))) /\
    (redundancy_gap O1 mO tol7 -> terminal_invariant (lA S) (lB S) K (in_poly D) (in_poly O)).
Proof. exact (mcais_terminal np fuel S K D nx nu m O). Qed.
Print Assumptions C44_mcais_terminal_partial.

(** x+ = x + u with Q = 1, R = 2, P = 2 and K = -1/2 from solve_dare, |x| <= 1, |u| <= 1 and terminal set |x| <= 1: all hypotheses of C44, C45, C46 and C58 hold, and at x = 1 feedforward returns u = -1/2 and V = 1 = 1/2 x'P x. *)
Example C44_example :
  let np := np_dare_const (Mat 1 [[2]]) in exists C,
  mpc_setup np S_1 1 (Mat 1 [[1]]) (Mat 1 [[2]]) (Mat 1 [[2]]) D_box X_int (Mat 1 [[- (1 / 2)]]) 1 1 C /\
  lqr_pair np S_1 (Mat 1 [[1]]) (Mat 1 [[2]]) (Mat 1 [[2]]) (Mat 1 [[- (1 / 2)]]) 1 1 /\ Spec.pd (Mat 1 [[1]]) 1 /\
  feedforward np C [1] = Ok (Some [[- (1 / 2)]], Some 1) /\ 1 < (10 ^ 14 - 1) / 2.
Proof. exact (closed_loop_example). Qed.

(** feedforward_explicit and feedback_explicit raise ValueError before store_explicit_solution; afterwards, where the region found by the lookup contains x, they return the unique optimal input sequence with its cost, and its first input; where no region is found they return (None, None) and None. *)
Theorem C59_explicit_mpc np S N Q Rm P D X_N nx nu C fuel step crs x :
  exact_np np -> mpc_data S N Q Rm P D X_N nx nu -> ModelPredictiveController np S N Q Rm P D X_N = Ok C ->
  store_explicit_solution np fuel step C = Ok crs -> length x = nx ->
  feedforward_explicit C None x = Err ValueError /\ feedback_explicit C None x = Err ValueError /\
  (forall cr, get_critical_region crs x = Ok (Some cr) -> in_poly (cr_poly cr) x ->
     exists us xs, feedforward_explicit C (Some crs) x = Ok (Some us, Some (trajectory_cost Q Rm P us xs)) /\ feedback_explicit C (Some crs) x = Ok (Some (nth 0 us [])) /\
       mpc_optimal (lA S) (lB S) Q Rm P nu N (in_poly D) (in_poly X_N) x us xs) /\
  (get_critical_region crs x = Ok None -> feedforward_explicit C (Some crs) x = Ok (None, None) /\ feedback_explicit C (Some crs) x = Ok None).
Proof. exact (explicit_mpc np S N Q Rm P D X_N nx nu C fuel step crs x). Qed.
Print Assumptions C59_explicit_mpc.
