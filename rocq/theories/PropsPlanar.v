(** * PropsPlanar: the property theorems of this part, restated; proofs are in PlanarThms.
    Generated by tools/gen_props.py: this file contains only statements, [exact] and Print Assumptions. *)
From Coq Require Import ZArith Classical Sorted Permutation.
From Verif Require Import Arr ArrFacts Spec SpecVert SpecPlot Numpy HullOracle VertFacts Plots PolyPlotThms.
From Verif Require Import PlanarThms.

(** The contract of ConvexHull(points).vertices in the plane assumed in C72 and C73 can be met for every list of points: unless they are on one line, some of them in some order form a closed path that goes around exactly their convex hull. *)
Theorem C72_contract pts :
  Forall (fun v => length v = 2%nat) pts -> exists r, hull2_ok pts r.
Proof. exact (hull2_satisfiable pts). Qed.
Print Assumptions C72_contract.
