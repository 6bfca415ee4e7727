(** * PropsDare: the property theorems of this part, restated; proofs are in DareThms.
    Generated by tools/gen_props.py: this file contains only statements, [exact] and Print Assumptions. *)
From Coq Require Import ZArith Classical FunctionalExtensionality.
From Verif Require Import Arr ArrFacts Spec SpecMpc SpecProg Numpy Pnnls PnnlsFacts QpFacts GeomUtils Polyhedron PolyThms Oracle SolverThms NullFacts PolySolveThms PolyMore SpecDyn Dynamics DynThms CondenseThms LqrThms McaisThms.
From Verif Require Import DareThms.

(** For every controllable system, positive semidefinite Q and positive definite R the Riccati equation has a positive semidefinite solution, so the contract assumed of scipy can be met. The least one gives the optimal value over infinite horizons, even when Q is only semidefinite: some input signal keeps the cost of every prefix at or below 1/2 x0'P x0, and none keeps it below a smaller value. *)
Theorem C32_exists A B Q Rm nx nu :
  shape A nx nx -> shape B nx nu -> shape Q nx nx -> shape Rm nu nu -> psd Q nx -> Spec.pd Rm nu -> steerable A B nx nu nx ->
  exists P, riccati A B Q Rm P nx nu /\ psd P nx /\
    (forall P', riccati A B Q Rm P' nx nu -> psd P' nx -> forall x, length x = nx -> dot x (mv P x) <= dot x (mv P' x)) /\
    (forall x0, length x0 = nx -> exists u, (forall t, length (u t) = nu) /\ forall N, lq_cost A B Q Rm x0 u N <= / 2 * dot x0 (mv P x0)) /\
    (forall x0 u V, length x0 = nx -> (forall t, length (u t) = nu) -> (forall N, lq_cost A B Q Rm x0 u N <= V) -> / 2 * dot x0 (mv P x0) <= V).
Proof. exact (dare_exists A B Q Rm nx nu). Qed.
Print Assumptions C32_exists.

(** When Q is positive definite too, the positive semidefinite solution is unique: whatever scipy returns under its contract is the same matrix. *)
Theorem C32_unique A B Q Rm nx nu P1 P2 :
  shape A nx nx -> shape B nx nu -> shape Q nx nx -> shape Rm nu nu -> Spec.pd Q nx -> Spec.pd Rm nu -> steerable A B nx nu nx ->
  riccati A B Q Rm P1 nx nu -> psd P1 nx -> riccati A B Q Rm P2 nx nu -> psd P2 nx -> P1 = P2.
Proof. exact (dare_unique A B Q Rm nx nu P1 P2). Qed.
Print Assumptions C32_unique.

(** The hypotheses of both hold for x+ = 2x + u with Q = R = 1, an unstable system. *)
Example C32_exists_example :
  shape (Mat 1 [[2]]) 1 1 /\ shape (Mat 1 [[1]]) 1 1 /\ Spec.pd (Mat 1 [[1]]) 1 /\ psd (Mat 1 [[1]]) 1 /\ steerable (Mat 1 [[2]]) (Mat 1 [[1]]) 1 1 1 /\
  riccati (Mat 1 [[2]]) (Mat 1 [[1]]) (Mat 1 [[1]]) (Mat 1 [[1]]) (Mat 1 [[2 + sqrt 5]]) 1 1 /\ psd (Mat 1 [[2 + sqrt 5]]) 1.
Proof. exact (dare_exists_example). Qed.

(** x+ = 2x + u, Q = 0, R = 1 of C32_semidefinite_refuted has the two positive semidefinite solutions 0 and 3: 0 is the optimal value, 3 the one scipy documents (the stabilizing solution). *)
Example C32_minimal_example :
  riccati (Mat 1 [[2]]) (Mat 1 [[1]]) (Mat 1 [[0]]) (Mat 1 [[1]]) (Mat 1 [[0]]) 1 1 /\ riccati (Mat 1 [[2]]) (Mat 1 [[1]]) (Mat 1 [[0]]) (Mat 1 [[1]]) (Mat 1 [[3]]) 1 1 /\
  psd (Mat 1 [[0]]) 1 /\ psd (Mat 1 [[3]]) 1.
Proof. exact (dare_two_solutions). Qed.
