(** * PropsExLoop: the property theorems of this part, restated; proofs are in ExLoopThms.
    Generated by tools/gen_props.py: this file contains only statements, [exact] and Print Assumptions. *)
From Coq Require Import ZArith Classical.
From Verif Require Import Arr ArrFacts Spec SpecMpc SpecProg SpecLoop Numpy Pnnls PnnlsFacts QpFacts GeomUtils Polyhedron PolyThms Oracle SolverThms NullFacts PolySolveThms PolyMore SpecDyn Dynamics DynThms CondenseThms LqrThms McaisThms Mpqp MpqpThms Controllers CtrlThms Gurobi Programs ProgThms Hybrid HybridThms HybridOptThms HybridLoopThms ExampleCtrl ExThms.
From Verif Require Import ExLoopThms.

(** The hybrid controller of the examples (drake version), with a terminal set and terminal cost as in SpecLoop, is built; started in a state with an admissible run, the loop closed with it never fails as long as drake solves its programs: feedback always returns an input, the pairs (x(t), u(t)) are in the domains of the selected modes, and the values decrease by at least the stage costs. *)
Theorem C85_closed_loop np drake W N Q Rm P X_N nx nu mN meN :
  ex_loop_setup np W N Q Rm P X_N nx nu mN meN ->
  exists C, ExampleController np W N Q Rm P X_N = Ok C /\ forall X U M T, length (X 0%nat) = nx -> answer_loop (example_feedforward drake C) W X U M ->
  (exists us modes xs, pwa_run_from W X_N nu N (X 0%nat) us modes xs) -> (forall t, (t <= T)%nat -> drake_solves drake C (X t)) ->
  exists V0, (exists us xs modes, example_feedforward drake C (X 0%nat) = Ok (Some (us, xs, modes, V0))) /\ forall t, (t <= T)%nat ->
    length (X t) = nx /\ length (U t) = nu /\ example_feedback drake C (X t) = Ok (Some (U t)) /\ (M t < length (w_sys W))%nat /\ in_poly (nth (M t) (w_dom W) poly0) (X t ++ U t) /\
    X (Datatypes.S t) = mode_step W (M t) (X t) (U t) /\ 0 <= / 2 * (dot (X t) (mv Q (X t)) + dot (U t) (mv Rm (U t))) /\
    exists us xs modes V, example_feedforward drake C (X t) = Ok (Some (us, xs, modes, V)) /\ 0 <= V /\
      V + sum_upto (fun t => / 2 * (dot (X t) (mv Q (X t)) + dot (U t) (mv Rm (U t)))) t <= V0.
Proof. exact (example_closed_loop np drake W N Q Rm P X_N nx nu mN meN). Qed.
Print Assumptions C85_closed_loop.

(** If moreover Q is positive definite and drake solves the program at every state of the loop, the state converges to the origin. *)
Theorem C85_convergence np drake W N Q Rm P X_N nx nu mN meN C X U M :
  ex_loop_setup np W N Q Rm P X_N nx nu mN meN -> ExampleController np W N Q Rm P X_N = Ok C -> length (X 0%nat) = nx -> answer_loop (example_feedforward drake C) W X U M ->
  (exists us modes xs, pwa_run_from W X_N nu N (X 0%nat) us modes xs) -> (forall t, drake_solves drake C (X t)) -> Spec.pd Q nx ->
  forall eps, 0 < eps -> exists T, forall t, (T <= t)%nat -> norm (X t) < eps.
Proof. exact (example_convergence np drake W N Q Rm P X_N nx nu mN meN C X U M). Qed.
Print Assumptions C85_convergence.

(** x+ = x + u for -1 <= x <= 0, x+ = -x + u for 0 <= x <= 1, |u| <= 1, with Q = 1, R = 2, P = 2, horizon 1 and terminal set |x| <= 1: the hypotheses hold, with a solver that solves the programs of all the states of the loop from -1; these are -1, -1/2, -1/4, ... *)
Example C85_example np :
  exact_np np -> ex_loop_setup np W2 1 I_1 R_2 R_2 X_int 1 1 2 0 /\ Spec.pd I_1 1 /\
  exists C X U M, ExampleController np W2 1 I_1 R_2 R_2 X_int = Ok C /\ answer_loop (example_feedforward half_drake C) W2 X U M /\ (forall t, X t = [- (/ 2) ^ t]) /\ (forall t, drake_solves half_drake C (X t)) /\
    (exists us modes xs, pwa_run_from W2 X_int 1 1 (X 0%nat) us modes xs) /\ example_feedforward half_drake C [-1] = Ok (Some ([[/ 2]], [[-1]; [- / 2]], [0%nat], 1)).
Proof. exact (example_loop_example np). Qed.
