(** * PropsProjIndex: the property theorems of this part, restated; proofs are in ProjIndexThms.
    Generated by tools/gen_props.py: this file contains only statements, [exact] and Print Assumptions. *)
From Coq Require Import ZArith Classical.
From Verif Require Import Arr ArrFacts Spec SpecGeom Numpy Pnnls PnnlsFacts QpFacts GeomUtils Polyhedron PolyThms Oracle SolverThms NullFacts PolySolveThms PolySetThms PolyBoundThms PolyCacheThms Mpqp MpqpThms GeomThms HullOracle Projection ProjThms ProjIndex.
From Verif Require Import ProjIndexThms.

(** For nonnegative dimensions the model with integers is the one of the other theorems *)
Theorem C17_indices np fuel ds p :
  project_to_z np fuel (map Z.of_nat ds) p = project_to np fuel ds p.
Proof. exact (project_to_nat np fuel ds p). Qed.
Print Assumptions C17_indices.

(** project_to on a polytope with dimensions of which one is out of range raises IndexError; if the first dimension is negative (a valid Python index), or its column is selected again, it raises TypeError *)
Theorem C17_index_errors np fuel p m N dims :
  exact_np np -> wf p m 0 N -> cache_ok np p -> (exists x, in_poly p x /\ near x) -> bounded_set (in_poly p) ->
  ((exists z, In z dims /\ ~ (- Z.of_nat N <= z < Z.of_nat N)%Z) -> fst (project_to_z np fuel dims p) = Err IndexError) /\
  (forall z0 zs, dims = z0 :: zs -> (forall z, In z dims -> (- Z.of_nat N <= z < Z.of_nat N)%Z) -> (z0 < 0)%Z \/ In z0 zs \/ In (z0 - Z.of_nat N)%Z zs -> fst (project_to_z np fuel dims p) = Err TypeError).
Proof. exact (index_errors np fuel p m N dims). Qed.
Print Assumptions C17_index_errors.

(** "every choice of residual dimensions" is false for Python's negative indices: for the box [-1,1] x [3,5] x [0,1] and the last dimension, written -1, every exact library raises TypeError; written 2, the interval [0,1] is returned. Twice the same dimension raises TypeError as well. *)
Theorem C17_negative_refuted :
  exists p, wf p 6 0 3 /\ (exists x, in_poly p x /\ near x) /\ bounded_set (in_poly p) /\ forall np fuel, exact_np np ->
  fst (project_to_z np fuel [-1]%Z p) = Err TypeError /\ fst (project_to_z np fuel [0; 0]%Z p) = Err TypeError /\ fst (project_to_z np fuel [3]%Z p) = Err IndexError /\
  exists q, fst (project_to_z np fuel [2]%Z p) = Ok q /\ forall y, in_poly q y <-> exists a, y = [a] /\ 0 <= a <= 1.
Proof. exact (negative_refuted). Qed.
Print Assumptions C17_negative_refuted.
