(** * PropsExState: the property theorems of this part, restated; proofs are in ExStateThms.
    Generated by tools/gen_props.py: this file contains only statements, [exact] and Print Assumptions. *)
From Coq Require Import Lra Lia.
From Verif Require Import Arr ArrFacts Spec SpecLoop Numpy Pnnls Polyhedron PolyThms Dynamics Hybrid ExampleCtrl ExampleState Oracle.
From Verif Require Import DynThms CtrlThms HybridThms HybridOptThms HybridLoopThms ExThms ExLoopThms.
From Verif Require Import ExStateThms.

(** Whatever calls of feedforward and feedback were made before on a controller of the examples, also ones that raised half-way through set_initial_condition, its answers are those of the model in which each call builds its program from scratch (ExampleCtrl): they depend on the state passed and on nothing else *)
Theorem C87_history np drake W N Q Rm P X_N :
  (forall C, ExampleController np W N Q Rm P X_N = Ok C -> exists s0, new_controller np W N Q Rm P X_N = Ok s0 /\ forall cs x0,
    fst (st_feedforward drake x0 (calls drake cs s0)) = example_feedforward drake C x0 /\ fst (st_feedback drake x0 (calls drake cs s0)) = example_feedback drake C x0) /\
  forall e, ExampleController np W N Q Rm P X_N = Err e -> new_controller np W N Q Rm P X_N = Err e.
Proof. exact (history np drake W N Q Rm P X_N). Qed.
Print Assumptions C87_history.

(** A state with too few entries raises, and its entries have been written into the program *)
Theorem C87_rejected drake C x0 s :
  good_state C s -> (length x0 < w_nx (ec_S C))%nat -> exists s', st_feedforward drake x0 s = (Err ValueError, s') /\ 
  forall j, (j < w_nx (ec_S C))%nat -> nth j (st_lb s') 0 = (if (j <? length x0)%nat then nth j x0 0 else nth j (st_lb s) 0) /\ nth j (st_ub s') 0 = (if (j <? length x0)%nat then nth j x0 0 else nth j (st_ub s) 0).
Proof. exact (rejected drake C x0 s). Qed.
Print Assumptions C87_rejected.

(** The controller of C85_example: it is built, and after calls at 1, at the empty state (which raises) and at -1/2 it returns the plan 1/2 at -1 *)
Example C87_example np :
  exact_np np -> exists s0, new_controller np W2 1 I_1 R_2 R_2 X_int = Ok s0 /\
  let s := calls half_drake [Feedforward [1]; Feedback []; Feedback [- / 2]] s0 in
  fst (st_feedback half_drake [] s0) = Err ValueError /\ fst (st_feedforward half_drake [-1] s) = Ok (Some ([[/ 2]], [[-1]; [- / 2]], [0%nat], 1)) /\ fst (st_feedback half_drake [-1] s) = Ok (Some [/ 2]) /\
  held_program (snd (st_feedback half_drake [-1] s0)) <> held_program (snd (st_feedback half_drake [- / 2] s0)).
Proof. exact (history_example np). Qed.
