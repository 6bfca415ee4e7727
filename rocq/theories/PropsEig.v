(** * PropsEig: the property theorems of this part, restated; proofs are in EigThms.
    Generated by tools/gen_props.py: this file contains only statements, [exact] and Print Assumptions. *)
From Coq Require Import ZArith Classical.
From Verif Require Import Arr ArrFacts Spec SpecDyn SpecEig FtaThms Numpy Pnnls PnnlsFacts QpFacts GeomUtils Polyhedron PolyThms Oracle SolverThms NullFacts PolySolveThms GeomThms VertThms Dynamics DynThms McaisThms.
From Verif Require Import EigThms.
Local Open Scope list_scope.
