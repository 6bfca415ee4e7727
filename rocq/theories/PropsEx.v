(** * PropsEx: the property theorems of this part, restated; proofs are in ExThms.
    Generated by tools/gen_props.py: this file contains only statements, [exact] and Print Assumptions. *)
From Coq Require Import ZArith String Classical Lra Lia.
From Verif Require Import Arr ArrFacts Spec SpecMpc SpecProg Numpy Pnnls PnnlsFacts QpFacts GeomUtils Polyhedron PolyThms Oracle SolverThms NullFacts PolySolveThms PolyMore SpecDyn Dynamics DynThms CondenseThms LqrThms McaisThms Mpqp MpqpThms Controllers CtrlThms Gurobi Programs ProgThms Hybrid HybridThms HybridOptThms ExampleCtrl.
From Verif Require Import ExThms.
Local Open Scope list_scope.

(** the hybrid controller of the examples (drake version), for at least two modes, non-empty bounded domains without equalities, big-M constants that are not positive and below 1e-6: it is built; when drake solves its program exactly, feedforward returns inputs, states and modes of an admissible run whose cost with the terminal cost P -- the number returned -- is minimal over all input and mode sequences, or None when no run has minimal cost (with Q, P symmetric positive semidefinite and R positive definite: when there is no admissible run); feedback returns the first input. *)
Theorem C57_example_controller np drake W N Q Rm P X_N nx nu mN meN :
  exact_np np -> hyb_data W nx nu -> (0 < N)%nat -> hyb_domains W -> (2 <= length (w_sys W))%nat -> sharp_gaps W nx ->
  shape Q nx nx -> shape P nx nx -> shape Rm nu nu -> wf X_N mN meN nx -> no_eqs W X_N ->
  exists C, ExampleController np W N Q Rm P X_N = Ok C /\ forall x, length x = nx -> exists prog, set_initial_condition C x = Ok prog /\ (drake_ok prog (drake prog) ->
  let run := pwa_admissible (map aA (w_sys W)) (map aB (w_sys W)) (map ac (w_sys W)) (map in_poly (w_dom W)) (in_poly X_N) nu N x in
  let optimal := pwa_optimal (map aA (w_sys W)) (map aB (w_sys W)) (map ac (w_sys W)) (map in_poly (w_dom W)) (in_poly X_N) Q Rm P nu N x in
  (exists us xs modes, example_feedforward drake C x = Ok (Some (us, xs, modes, trajectory_cost Q Rm P us xs)) /\ optimal us modes xs /\ example_feedback drake C x = Ok (Some (nth 0 us []))) \/
  (example_feedforward drake C x = Ok None /\ example_feedback drake C x = Ok None /\ (forall us modes xs, ~ optimal us modes xs) /\
   (hyb_costs Q Rm P nx nu -> forall us modes xs, ~ run us modes xs))).
Proof. exact (example_optimal np drake W N Q Rm P X_N nx nu mN meN). Qed.
Print Assumptions C57_example_controller.

(** for a system with a single mode (and a domain or a state) the program is never built: np.sum of no arrays is a scalar and indexing it raises IndexError *)
Theorem C57_one_mode_refuted np W N Q Rm P X_N nx nu :
  exact_np np -> hyb_data W nx nu -> (0 < nx)%nat -> (0 < N)%nat -> hyb_domains W -> (forall D, In D (w_dom W) -> Polyhedron.pd D = []) -> sharp_gaps W nx -> length (w_sys W) = 1%nat ->
  ExampleController np W N Q Rm P X_N = Err IndexError.
Proof. exact (one_mode np W N Q Rm P X_N nx nu). Qed.
Print Assumptions C57_one_mode_refuted.

(** whatever P is, Controller is the controller with terminal cost Q *)
Theorem C57_uses_Q np W N Q Rm P P' X_N :
  Controller np W N Q Rm P X_N = Controller np W N Q Rm P' X_N /\ Controller np W N Q Rm Q X_N = ExampleController np W N Q Rm Q X_N.
Proof. exact (controller_ignores_P np W N Q Rm P P' X_N). Qed.
Print Assumptions C57_uses_Q.

(** Controller given the terminal cost P = 3 and Q = R = 1 for the system with two modes (horizon 1, from x = -1) returns the input 1/2, whatever exact solver drake uses; this is not optimal for P, whose optimal run has the input 3/4 *)
Theorem C57_terminal_cost_refuted np drake :
  exact_np np -> let P := Mat 1 [[3]] in exists C prog, Controller np W2 1 I_1 I_1 P X_int = Ok C /\ set_initial_condition C [-1] = Ok prog /\
  (drake_ok prog (drake prog) -> exists us xs modes c, example_feedforward drake C [-1] = Ok (Some (us, xs, modes, c)) /\ us = [[/ 2]] /\
    let optimal := pwa_optimal (map aA (w_sys W2)) (map aB (w_sys W2)) (map ac (w_sys W2)) (map in_poly (w_dom W2)) (in_poly X_int) I_1 I_1 P 1 1 [-1] in
    ~ optimal us modes xs /\ optimal [[3 / 4]] [0%nat] [[-1]; [-1 + 3 / 4]]).
Proof. exact (terminal_cost_refuted np drake). Qed.
Print Assumptions C57_terminal_cost_refuted.

(** the system with two modes meets the hypotheses of C57_example_controller, there is an exact solver for its program, and with it feedback from x = -1 returns 1/2; a system with one mode meets those of C57_one_mode_refuted *)
Example C57_example np :
  exact_np np -> hyb_data W2 1 1 /\ hyb_domains W2 /\ (2 <= length (w_sys W2))%nat /\ sharp_gaps W2 1 /\ no_eqs W2 X_int /\ hyb_costs I_1 I_1 I_1 1 1 /\
  (exists C prog drake, ExampleController np W2 1 I_1 I_1 I_1 X_int = Ok C /\ set_initial_condition C [-1] = Ok prog /\ drake_ok prog (drake prog) /\ example_feedback drake C [-1] = Ok (Some [/ 2])) /\
  let W1 := PWA 1 1 [Sys1 1] [D_L] in hyb_data W1 1 1 /\ hyb_domains W1 /\ sharp_gaps W1 1.
Proof. exact (example_example np). Qed.
