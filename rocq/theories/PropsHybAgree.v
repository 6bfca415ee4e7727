(** * PropsHybAgree: the property theorems of this part, restated; proofs are in HybAgreeThms.
    Generated by tools/gen_props.py: this file contains only statements, [exact] and Print Assumptions. *)
From Coq Require Import ZArith String Classical.
From Verif Require Import Arr ArrFacts Spec SpecMpc SpecProg SpecLoop SpecHyb Numpy Pnnls PnnlsFacts QpFacts GeomUtils Polyhedron PolyThms Oracle SolverThms NullFacts PolySolveThms PolyMore SpecDyn Dynamics DynThms CondenseThms LqrThms McaisThms Mpqp MpqpThms Controllers CtrlThms Gurobi Programs ProgThms Hybrid HybridThms HybridOptThms HybridLoopThms VertThms ContThms LawThms EquivThms HybLinThms HybEquivThms ExampleCtrl ExThms ExLoopThms.
From Verif Require Import HybAgreeThms.

(** Two optimal runs of a piecewise affine system (Q, P positive semidefinite, R positive definite) with the same sequence of modes have the same inputs and states: the modes are the only freedom that the solvers of the hybrid controllers have *)
Theorem C105_one_per_modes np W N Q Rm P X_N nx nu x us us' modes xs xs' :
  exact_np np -> pwa_problem W N Q Rm P X_N nx nu -> length x = nx ->
  pwa_optimal (map aA (w_sys W)) (map aB (w_sys W)) (map ac (w_sys W)) (map in_poly (w_dom W)) (in_poly X_N) Q Rm P nu N x us modes xs ->
  pwa_optimal (map aA (w_sys W)) (map aB (w_sys W)) (map ac (w_sys W)) (map in_poly (w_dom W)) (in_poly X_N) Q Rm P nu N x us' modes xs' -> us = us' /\ xs = xs'.
Proof. exact (one_run_per_modes np W N Q Rm P X_N nx nu x us us' modes xs xs'). Qed.
Print Assumptions C105_one_per_modes.

(** HybridModelPredictiveController (big-M constants for domains and dynamics, states eliminated, Gurobi) and the controller of the examples (big-M constants for the graphs, states kept, drake), built from the same system, horizon, weights and terminal set: at every state whose programs the solvers solve, both return None, or both return the same cost; when they also select the same modes, inputs, states and feedback are the same *)
Theorem C105_agree np np' grb drake W N Q Rm P X_N nx nu C C' x :
  exact_np np -> exact_np np' -> pwa_problem W N Q Rm P X_N nx nu -> (2 <= length (w_sys W))%nat -> sharp_gaps W nx ->
  HybridModelPredictiveController np W N Q Rm P X_N = Ok C -> ExampleController np' W N Q Rm P X_N = Ok C' -> length x = nx -> gurobi_solves grb (k_mpmiqp C) x -> drake_solves drake C' x ->
  (hybrid_feedforward grb C x = Ok None /\ example_feedforward drake C' x = Ok None /\ hybrid_feedback grb C x = Ok None /\ example_feedback drake C' x = Ok None) \/
  exists us xs modes us' xs' modes' V, hybrid_feedforward grb C x = Ok (Some (us, xs, modes, V)) /\ example_feedforward drake C' x = Ok (Some (us', xs', modes', V)) /\
    hybrid_feedback grb C x = Ok (Some (nth 0 us [])) /\ example_feedback drake C' x = Ok (Some (nth 0 us' [])) /\ (modes = modes' -> us = us' /\ xs = xs').
Proof. exact (controllers_agree np np' grb drake W N Q Rm P X_N nx nu C C' x). Qed.
Print Assumptions C105_agree.

(** The same for two Gurobis (and two exact numerical libraries), and for two drakes: the answers of a hybrid controller depend on its solver only through the selected modes *)
Theorem C105_solvers np np' W N Q Rm P X_N nx nu x :
  exact_np np -> exact_np np' -> pwa_problem W N Q Rm P X_N nx nu -> length x = nx ->
  (forall grb grb' C C', HybridModelPredictiveController np W N Q Rm P X_N = Ok C -> HybridModelPredictiveController np' W N Q Rm P X_N = Ok C' -> gurobi_solves grb (k_mpmiqp C) x -> gurobi_solves grb' (k_mpmiqp C') x ->
    (hybrid_feedforward grb C x = Ok None /\ hybrid_feedforward grb' C' x = Ok None) \/
    exists us xs modes us' xs' modes' V, hybrid_feedforward grb C x = Ok (Some (us, xs, modes, V)) /\ hybrid_feedforward grb' C' x = Ok (Some (us', xs', modes', V)) /\ (modes = modes' -> us = us' /\ xs = xs' /\ hybrid_feedback grb C x = hybrid_feedback grb' C' x)) /\
  ((2 <= length (w_sys W))%nat -> sharp_gaps W nx -> forall drake drake' C C', ExampleController np W N Q Rm P X_N = Ok C -> ExampleController np' W N Q Rm P X_N = Ok C' -> drake_solves drake C x -> drake_solves drake' C' x ->
    (example_feedforward drake C x = Ok None /\ example_feedforward drake' C' x = Ok None) \/
    exists us xs modes us' xs' modes' V, example_feedforward drake C x = Ok (Some (us, xs, modes, V)) /\ example_feedforward drake' C' x = Ok (Some (us', xs', modes', V)) /\ (modes = modes' -> us = us' /\ xs = xs' /\ example_feedback drake C x = example_feedback drake' C' x)).
Proof. exact (solvers_agree np np' W N Q Rm P X_N nx nu x). Qed.
Print Assumptions C105_solvers.

(** Hence the loops closed with the two controllers from the same state are the same as long as both answer with the same modes: same states, inputs and costs *)
Theorem C105_loop np np' grb drake W N Q Rm P X_N nx nu C C' X U M X' U' M' T :
  exact_np np -> exact_np np' -> pwa_problem W N Q Rm P X_N nx nu -> (2 <= length (w_sys W))%nat -> sharp_gaps W nx ->
  HybridModelPredictiveController np W N Q Rm P X_N = Ok C -> ExampleController np' W N Q Rm P X_N = Ok C' -> length (X 0%nat) = nx -> X' 0%nat = X 0%nat -> hybrid_loop grb C W X U M -> answer_loop (example_feedforward drake C') W X' U' M' ->
  (forall t, (t < T)%nat -> gurobi_solves grb (k_mpmiqp C) (X t) /\ drake_solves drake C' (X' t)) ->
  (forall t, (t < T)%nat -> exists us xs modes V, hybrid_feedforward grb C (X t) = Ok (Some (us, xs, modes, V)) /\ forall us' xs' modes' V', example_feedforward drake C' (X' t) = Ok (Some (us', xs', modes', V')) -> modes' = modes) ->
  forall t, (t <= T)%nat -> X' t = X t /\ ((t < T)%nat -> U' t = U t /\ M' t = M t /\ example_feedforward drake C' (X' t) = hybrid_feedforward grb C (X t)).
Proof. exact (loops_agree np np' grb drake W N Q Rm P X_N nx nu C C' X U M X' U' M' T). Qed.
Print Assumptions C105_loop.

(** x+ = x + u for x <= 0, x+ = -x + u for x >= 0, Q = 1, R = P = 2, N = 1: all hypotheses of C105_agree (hence of C105_one_per_modes and C105_solvers) hold at x = -1 with suitable Gurobi and drake, both controllers return 1/2 with the modes [0] and the cost 1; and the hypotheses of C105_loop hold for one step *)
Example C105_example np :
  exact_np np -> pwa_problem W2 1 I_1 R_2 R_2 X_int 1 1 /\ (2 <= length (w_sys W2))%nat /\ sharp_gaps W2 1 /\ exists C C' grb drake X U M X' U' M',
  HybridModelPredictiveController np W2 1 I_1 R_2 R_2 X_int = Ok C /\ ExampleController np W2 1 I_1 R_2 R_2 X_int = Ok C' /\ gurobi_solves grb (k_mpmiqp C) [-1] /\ drake_solves drake C' [-1] /\
  hybrid_feedforward grb C [-1] = Ok (Some ([[/ 2]], [[-1]; [- / 2]], [0%nat], 1)) /\ example_feedforward drake C' [-1] = Ok (Some ([[/ 2]], [[-1]; [- / 2]], [0%nat], 1)) /\
  X 0%nat = [-1] /\ X' 0%nat = [-1] /\ hybrid_loop grb C W2 X U M /\ answer_loop (example_feedforward drake C') W2 X' U' M'.
Proof. exact (agree_example np). Qed.
