(** * PropsTerm: the property theorems of this part, restated; proofs are in TermThms.
    Generated by tools/gen_props.py: this file contains only statements, [exact] and Print Assumptions. *)
From Coq Require Import ZArith Classical Permutation Sorted.
From Verif Require Import Arr ArrFacts Spec SpecMpc Numpy Pnnls PnnlsFacts QpFacts GeomUtils Polyhedron PolyThms Oracle SolverThms NullFacts PolySolveThms PolyMore PolyChebThms PolyCacheThms GeomThms SpecDyn Dynamics DynThms CondenseThms LqrThms Mpqp MpqpThms NeighThms.
From Verif Require Import TermThms.

(** If at the origin and at the points beyond the facets of the regions every multiplier computed by the QP solver is zero or larger than 1e-7, then explicit_solve ends within 2 + 2^m (m+1) iterations, whatever the step: with a list of at most 2^m regions with pairwise different active sets, or with a TypeError or ValueError raised for a region without facets or a facet without center. Missing: the loop need not end otherwise (C77_terminates_refuted). *)
Theorem C77_terminates_partial np Huu Hux Hxx fu fx g Au Ax b nu nx m q step fuel :
  exact_np np -> mp_data Huu Hux Hxx fu fx Au Ax b nu nx m -> (0 < m)%nat ->
  MultiParametricQuadraticProgram np Huu Hux Hxx fu fx g Au Ax b = Ok q ->
  (forall x, exploration_point np q step x -> clear_multipliers np q x) -> (2 + 2 ^ m * (m + 1) <= fuel)%nat ->
  (exists crs, explicit_solve np fuel step q = Ok crs /\ (length crs <= 2 ^ m)%nat /\ NoDup (map cr_active crs) /\
     forall c, In c crs -> StronglySorted lt (cr_active c) /\ forall i, In i (cr_active c) -> (i < m)%nat) \/
  explicit_solve np fuel step q = Err TypeError \/ explicit_solve np fuel step q = Err ValueError.
Proof. exact (explicit_terminates np Huu Hux Hxx fu fx g Au Ax b nu nx m q step fuel). Qed.
Print Assumptions C77_terminates_partial.

(** explicit_solve does not end for min 1/2000 u^2 s.t. u >= x, u >= 3 x - 2e-6: the step of 1e-5 beyond the region {x <= 0} jumps over the region of the guess; at x = 1e-5 the multiplier 2.8e-8 is below the tolerance 1e-7 of the QP solver, so the active set it reports is the one of the region just left, which is added to the list once more, together with the same point. *)
Theorem C77_terminates_refuted :
  exists Huu Hux Hxx fu fx g Au Ax b, mp_data Huu Hux Hxx fu fx Au Ax b 1 1 2 /\
  forall np fuel, exact_np np -> exists q, MultiParametricQuadraticProgram np Huu Hux Hxx fu fx g Au Ax b = Ok q /\ explicit_solve np fuel (/ 100000) q = Err OutOfFuel.
Proof. exact (terminates_refuted). Qed.
Print Assumptions C77_terminates_refuted.

(** The hypotheses are met by min 1/2 u^2 s.t. x <= u, with the default step: the points explored are 0, 1e-5 and -1e-5; the run ends with two regions. *)
Example C77_example np :
  exact_np np -> exists q crs,
  mp_data (Mat 1 [[1]]) (Mat 1 [[0]]) (Mat 1 [[0]]) [0] [0] (Mat 1 [[-1]]) (Mat 1 [[1]]) [0] 1 1 1 /\
  MultiParametricQuadraticProgram np (Mat 1 [[1]]) (Mat 1 [[0]]) (Mat 1 [[0]]) [0] [0] 0 (Mat 1 [[-1]]) (Mat 1 [[1]]) [0] = Ok q /\
  (forall x, exploration_point np q (/ 100000) x -> clear_multipliers np q x) /\
  explicit_solve np (2 + 2 ^ 1 * (1 + 1)) (/ 100000) q = Ok crs /\ map cr_active crs = [[]; [0%nat]].
Proof. exact (terminates_example np). Qed.
