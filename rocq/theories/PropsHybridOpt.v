(** * PropsHybridOpt: the property theorems of this part, restated; proofs are in HybridOptThms.
    Generated by tools/gen_props.py: this file contains only statements, [exact] and Print Assumptions. *)
From Coq Require Import ZArith String Classical.
From Verif Require Import Arr ArrFacts Spec SpecMpc SpecProg Numpy Pnnls PnnlsFacts QpFacts GeomUtils Polyhedron PolyThms Oracle SolverThms NullFacts PolySolveThms PolyMore SpecDyn Dynamics DynThms CondenseThms LqrThms McaisThms Mpqp MpqpThms Controllers CtrlThms Gurobi Programs ProgThms Hybrid HybridThms.
From Verif Require Import HybridOptThms.

(** For non-empty bounded domains without equalities, when Gurobi solves the (sharp) mixed-integer program exactly, feedforward returns inputs, states and modes of an admissible run of the system whose cost -- the number returned -- is minimal over all input and mode sequences, or None when no run has minimal cost; with Q, P symmetric positive semidefinite and R positive definite, None means that there is no admissible run; feedback returns the first input.
   Missing: domains with equalities (C47_equalities_refuted); entries below Gurobi's cut of 1e-9. *)
Theorem C48_feedforward_partial np grb W N Q Rm P X_N nx nu mN meN C :
  exact_np np -> hyb_data W nx nu -> (0 < nx)%nat -> (0 < N)%nat -> hyb_domains W ->
  shape Q nx nx -> shape P nx nx -> shape Rm nu nu -> wf X_N mN meN nx -> no_eqs W X_N ->
  HybridModelPredictiveController np W N Q Rm P X_N = Ok C -> forall x, length x = nx -> gurobi_solves grb (k_mpmiqp C) x ->
  let run := pwa_admissible (map aA (w_sys W)) (map aB (w_sys W)) (map ac (w_sys W)) (map in_poly (w_dom W)) (in_poly X_N) nu N x in
  let optimal := pwa_optimal (map aA (w_sys W)) (map aB (w_sys W)) (map ac (w_sys W)) (map in_poly (w_dom W)) (in_poly X_N) Q Rm P nu N x in
  (exists us xs modes, hybrid_feedforward grb C x = Ok (Some (us, xs, modes, trajectory_cost Q Rm P us xs)) /\ optimal us modes xs /\ hybrid_feedback grb C x = Ok (Some (nth 0 us []))) \/
  (hybrid_feedforward grb C x = Ok None /\ hybrid_feedback grb C x = Ok None /\ (forall us modes xs, ~ optimal us modes xs) /\
   (hyb_costs Q Rm P nx nu -> forall us modes xs, ~ run us modes xs)).
Proof. exact (hybrid_optimal np grb W N Q Rm P X_N nx nu mN meN C). Qed.
Print Assumptions C48_feedforward_partial.

(** With horizon 0, feedback raises IndexError wherever feedforward finds a solution. *)
Theorem C48_horizon_zero grb C x sol :
  k_N C = 0%nat -> hybrid_feedforward grb C x = Ok (Some sol) -> hybrid_feedback grb C x = Err IndexError.
Proof. exact (feedback_horizon_zero grb C x sol). Qed.
Print Assumptions C48_horizon_zero.

(** The inputs of an optimal run are the one and only minimizer of the mpQP of its mode sequence (get_mpqp), with the same cost. *)
Theorem C48_mpqp np W N Q Rm P X_N nx nu mN meN C x us modes xs :
  exact_np np -> hyb_data W nx nu -> (0 < N)%nat -> wf X_N mN meN nx -> no_eqs W X_N -> hyb_costs Q Rm P nx nu ->
  HybridModelPredictiveController np W N Q Rm P X_N = Ok C -> length x = nx ->
  pwa_optimal (map aA (w_sys W)) (map aB (w_sys W)) (map ac (w_sys W)) (map in_poly (w_dom W)) (in_poly X_N) Q Rm P nu N x us modes xs ->
  exists q, get_mpqp np C modes = Ok q /\
    mp_minimizer (q_Huu q) (q_Hux q) (q_Hxx q) (q_fu q) (q_fx q) (q_g q) (q_Au q) (q_Ax q) (q_b q) x (List.concat us) /\
    mp_cost (q_Huu q) (q_Hux q) (q_Hxx q) (q_fu q) (q_fx q) (q_g q) x (List.concat us) = trajectory_cost Q Rm P us xs.
Proof. exact (hybrid_mpqp np W N Q Rm P X_N nx nu mN meN C x us modes xs). Qed.
Print Assumptions C48_mpqp.

(** The system with two modes, horizon 1, from x = -1: the hypotheses of C48_feedforward_partial hold for a suitable Gurobi, and feedforward returns the input 1/2, the states -1, -1/2, mode 0 and the cost 3/4. *)
Example C48_example np :
  exact_np np -> hyb_data W2 1 1 /\ hyb_domains W2 /\ no_eqs W2 X_int /\ hyb_costs I_1 I_1 I_1 1 1 /\
  exists C, HybridModelPredictiveController np W2 1 I_1 I_1 I_1 X_int = Ok C /\ exists grb, gurobi_solves grb (k_mpmiqp C) [-1] /\
    hybrid_feedforward grb C [-1] = Ok (Some ([[/ 2]], [[-1]; [- / 2]], [0%nat], 3 / 4)).
Proof. exact (hybrid_example np). Qed.

(** The controller of C48_example with its horizon set to 0: feedforward returns no inputs, feedback raises IndexError. *)
Example C48_horizon_zero_example np :
  exact_np np -> exists C grb, k_N C = 0%nat /\ hybrid_feedforward grb C [-1] = Ok (Some ([], [[-1]], [], 3 / 4)) /\ hybrid_feedback grb C [-1] = Err IndexError.
Proof. exact (horizon_zero_example np). Qed.
