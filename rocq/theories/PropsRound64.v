(** * PropsRound64: the property theorems of this part, restated; proofs are in Round64Thms.
    Generated by tools/gen_props.py: this file contains only statements, [exact] and Print Assumptions. *)
From Flocq Require Import Core Relative.
From Coq Require Import ZArith Permutation.
From Verif Require Import Arr ArrFacts Spec SpecRound Pnnls Polyhedron PolyThms Dynamics Round Round64 RoundThms.
From Verif Require Import Round64Thms.

(** rounding to nearest in float64 meets the assumption on rounding with u = 2^-53 and eta = 2^-1075 *)
Theorem C93_binary64 :
  rounding u64 eta64 binary64.
Proof. exact (binary64_rounding). Qed.
Print Assumptions C93_binary64.

(** in float64, with the default tolerance, up to 999 dimensions and residuals whose terms add up to at most 10^5 in absolute value: every point of the polyhedron is accepted, however the sums are evaluated, and every accepted point violates each inequality by at most 1.125e-7 *)
Theorem C93_float64 p x m n r :
  wf p m 0 n -> (0 < m)%nat -> length x = n -> (n < 1000)%nat -> (forall i, (i < m)%nat -> abs_dot (row (pA p) i) x + Rabs (nth i (pb p) 0) <= 10 ^ 5) ->
  fl_contains binary64 tol7 p x r -> exists c, r = Ok c /\ (in_poly p x -> c = true) /\ (c = true -> forall i, (i < m)%nat -> dot (row (pA p) i) x <= nth i (pb p) 0 + 9 / 8 / 10 ^ 7).
Proof. exact (fl_contains_64 p x m n r). Qed.
Print Assumptions C93_float64.

(** in float64, points with large coordinates are misjudged: with floats as data a point of the polyhedron is rejected, and a point that violates the inequality by 1 is accepted *)
Theorem C93_far_refuted :
  exists a x1 x2, Forall float64 [a; x1; x2] /\
  (let P := Poly (Mat 2 [[- a; 1]]) [-1] (Mat 2 []) [] None None None None None in wf P 1 0 2 /\ in_poly P [x1; x2] /\ contains tol7 P [x1; x2] = Ok true /\ fl_contains binary64 tol7 P [x1; x2] (Ok false)) /\
  (let P := Poly (Mat 2 [[a; -1]]) [0] (Mat 2 []) [] None None None None None in wf P 1 0 2 /\ dot [a; -1] [x1; x2] = 0 + 1 /\ contains tol7 P [x1; x2] = Ok false /\ fl_contains binary64 tol7 P [x1; x2] (Ok true)).
Proof. exact (fl_far). Qed.
Print Assumptions C93_far_refuted.
