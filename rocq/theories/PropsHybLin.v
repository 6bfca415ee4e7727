(** * PropsHybLin: the property theorems of this part, restated; proofs are in HybLinThms.
    Generated by tools/gen_props.py: this file contains only statements, [exact] and Print Assumptions. *)
From Coq Require Import ZArith String Classical.
From Verif Require Import Arr ArrFacts Spec SpecMpc SpecProg Numpy Pnnls PnnlsFacts QpFacts GeomUtils Polyhedron PolyThms Oracle SolverThms NullFacts PolySolveThms PolyMore SpecDyn Dynamics DynThms CondenseThms LqrThms McaisThms Mpqp MpqpThms Controllers CtrlThms Gurobi Programs ProgThms Hybrid HybridThms HybridOptThms VertThms ContThms LawThms EquivThms.
From Verif Require Import HybLinThms.

(** If all modes of a PWA system have the same linear dynamics and their domains together are D, the hybrid controller answers as the linear one for D: where the linear one returns inputs, the hybrid one returns the same inputs, the same cost and the same feedback; where the hybrid one returns None, so does the linear one; and where only the linear one returns None, the cost exceeds that of the unconstrained optimum by 5e13. *)
Theorem C84_one_dynamics np np' grb W S N Q Rm P D X_N nx nu C C' x :
  exact_np np -> exact_np np' -> mpc_data S N Q Rm P D X_N nx nu -> hyb_data W nx nu -> (0 < nx)%nat -> hyb_domains W -> no_eqs W X_N -> splits W S D nx nu ->
  ModelPredictiveController np S N Q Rm P D X_N = Ok C -> HybridModelPredictiveController np' W N Q Rm P X_N = Ok C' -> length x = nx -> gurobi_solves grb (k_mpmiqp C') x ->
  (forall us V, feedforward np C x = Ok (Some us, Some V) -> (exists xs modes, is_trajectory (linear_step (lA S) (lB S)) x us xs /\ hybrid_feedforward grb C' x = Ok (Some (us, xs, modes, V))) /\ hybrid_feedback grb C' x = feedback np C x) /\
  (hybrid_feedforward grb C' x = Ok None -> feedforward np C x = Ok (None, None)) /\
  (feedforward np C x = Ok (None, None) -> hybrid_feedforward grb C' x = Ok None \/
     exists us xs modes V us0 xs0, hybrid_feedforward grb C' x = Ok (Some (us, xs, modes, V)) /\ mpc_optimal (lA S) (lB S) Q Rm P nu N (in_poly D) (in_poly X_N) x us xs /\
       mpc_optimal (lA S) (lB S) Q Rm P nu N (fun _ => True) (fun _ => True) x us0 xs0 /\ trajectory_cost Q Rm P us0 xs0 + (10 ^ 14 - 1) / 2 <= V).
Proof. exact (hybrid_one_dynamics np np' grb W S N Q Rm P D X_N nx nu C C' x). Qed.
Print Assumptions C84_one_dynamics.

(** x+ = x + u on |x| <= 1, |u| <= 1, split at x = 0 into two modes, Q = R = P = 1, N = 1: the hypotheses of C84_one_dynamics hold at x = 1 for a suitable Gurobi, and both controllers return u = -1/2 and the cost 3/4. *)
Example C84_example np :
  exact_np np -> mpc_data S_1 1 I_1 I_1 I_1 D_box X_int 1 1 /\ hyb_data W_split 1 1 /\ hyb_domains W_split /\ no_eqs W_split X_int /\ splits W_split S_1 D_box 1 1 /\
  exists C C' grb, ModelPredictiveController np S_1 1 I_1 I_1 I_1 D_box X_int = Ok C /\ HybridModelPredictiveController np W_split 1 I_1 I_1 I_1 X_int = Ok C' /\ gurobi_solves grb (k_mpmiqp C') [1] /\
    feedforward np C [1] = Ok (Some [[- (1 / 2)]], Some (3 / 4)) /\ exists xs modes, hybrid_feedforward grb C' [1] = Ok (Some ([[- (1 / 2)]], xs, modes, 3 / 4)).
Proof. exact (split_example np). Qed.
