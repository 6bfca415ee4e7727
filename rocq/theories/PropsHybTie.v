(** * PropsHybTie: the property theorems of this part, restated; proofs are in HybTieThms.
    Generated by tools/gen_props.py: this file contains only statements, [exact] and Print Assumptions. *)
From Coq Require Import ZArith String Classical.
From Verif Require Import Arr ArrFacts Spec SpecMpc SpecProg SpecLoop SpecHyb Numpy Pnnls PnnlsFacts QpFacts GeomUtils Polyhedron PolyThms Oracle SolverThms NullFacts PolySolveThms PolyMore SpecDyn Dynamics DynThms CondenseThms LqrThms McaisThms Mpqp MpqpThms Controllers CtrlThms Gurobi Programs ProgThms Hybrid HybridThms HybridOptThms HybridLoopThms VertThms ContThms LawThms EquivThms HybLinThms HybEquivThms ExampleCtrl ExThms ExLoopThms CartHoldThms HybAgreeThms.
From Verif Require Import HybTieThms.

(** Without equal modes the inputs may differ although everything else is exact: x+ = x + u for -1 <= u <= 0, x+ = x - u for 0 <= u <= 1, |x| <= 1, Q = 1, R = P = 2, N = 1, terminal set |x| <= 1. All hypotheses of C105_solvers hold at x = 1, and of two drakes that both solve its program one makes feedback return -1/2 and the other 1/2. *)
Theorem C105_tie_refuted np :
  exact_np np -> pwa_problem W_tie 1 I_1 R_2 R_2 X_int 1 1 /\ (2 <= length (w_sys W_tie))%nat /\ sharp_gaps W_tie 1 /\ exists C drake drake', ExampleController np W_tie 1 I_1 R_2 R_2 X_int = Ok C /\
  drake_solves drake C [1] /\ drake_solves drake' C [1] /\ example_feedback drake C [1] = Ok (Some [- / 2]) /\ example_feedback drake' C [1] = Ok (Some [/ 2]).
Proof. exact (tie_refuted np). Qed.
Print Assumptions C105_tie_refuted.
