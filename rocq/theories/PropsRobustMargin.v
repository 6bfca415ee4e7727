(** * PropsRobustMargin: the property theorems of this part, restated; proofs are in RobustMarginThms.
    Generated by tools/gen_props.py: this file contains only statements, [exact] and Print Assumptions. *)
From Coq Require Import Lra Lia.
From Verif Require Import Arr ArrFacts Spec SpecMpc SpecDyn SpecEig SpecRound Numpy QpFacts Polyhedron PolyThms Dynamics DynThms CondenseThms LqrThms McaisThms SpectralThms Mpqp MpqpThms Controllers CtrlThms ContThms Round RoundThms RoundSimThms RoundPwaThms LocalThms PlantThms HoldThms CartHoldThms RobustThms.
From Verif Require Import RobustMarginThms.

(** The margin of C100_robust cannot be dropped: x+ = -x + u with Q = 1, R = 2, the P = 2 and K = 1/2 of solve_dare, -1 <= x <= 1/2, |u| <= 1, horizon 1 and the invariant terminal set [-1, 1/2], which contains a ball. From x = -1 (optimal cost 1) the controller goes to x = 1/2, on the boundary of the set of states with a solution, so for every dl > 0 a disturbance of size dl leads to a state where feedback returns None *)
Theorem C100_margin_refuted :
  exists np S Q Rm P D X_N K C us0 xs0, mpc_setup np S 1 Q Rm P D X_N K 1 1 C /\ lqr_pair np S Q Rm P K 1 1 /\ Spec.pd Q 1 /\ (forall x, length x = 1%nat -> sup x <= / 2 -> in_poly X_N x) /\
  mpc_admissible (lA S) (lB S) 1 1 (in_poly D) (in_poly X_N) [-1] us0 xs0 /\ trajectory_cost Q Rm P us0 xs0 <= 1 /\
  forall dl, 0 < dl -> exists z : nat -> vec, (forall t, length (z t) = 1%nat) /\ z 0%nat = [-1] /\
    (exists u, feedback np C (z 0%nat) = Ok (Some u) /\ sup (vsub (z 1%nat) (linear_step (lA S) (lB S) (z 0%nat) u)) <= dl) /\ feedback np C (z 1%nat) = Ok None.
Proof. exact (margin_needed). Qed.
Print Assumptions C100_margin_refuted.
