(** * PropsProjSkip: the property theorems of this part, restated; proofs are in ProjSkipThms.
    Generated by tools/gen_props.py: this file contains only statements, [exact] and Print Assumptions. *)
From Coq Require Import ZArith Permutation Classical.
From Verif Require Import Arr ArrFacts Spec SpecGeom Numpy Pnnls PnnlsFacts QpFacts GeomUtils Polyhedron PolyThms Oracle SolverThms NullFacts PolySolveThms PolyCacheThms GeomThms HullOracle Projection ProjThms.
From Verif Require Import ProjSkipThms.

(** the error is not bounded by tol: there are a polygon of diameter below 6 and a library meeting all the contracts for which project_to (onto all the dimensions) returns a polygon that a point of the projection violates by more than tol (by more than ten times tol) *)
Theorem C17_skip_refuted :
  exists np p y, (exact_np np /\ hull_ok np /\ hull_total np /\ rand_ok np) /\ wf p 5 0 2 /\ cache_ok np p /\
  (exists x, in_poly p x /\ near x) /\ bounded_set (in_poly p) /\ projection (in_poly p) [0%nat; 1%nat] y /\
  forall fuel, (2 <= fuel)%nat -> exists q, fst (project_to np fuel [0%nat; 1%nat] p) = Ok q /\ nth 0 (pb q) 0 + 10 * tol7 < dot (row (pA q) 0) y.
Proof. exact (skip_refuted). Qed.
Print Assumptions C17_skip_refuted.
