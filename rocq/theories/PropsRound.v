(** * PropsRound: the property theorems of this part, restated; proofs are in RoundThms.
    Generated by tools/gen_props.py: this file contains only statements, [exact] and Print Assumptions. *)
From Coq Require Import Permutation.
From Verif Require Import Arr ArrFacts Spec SpecRound Pnnls Polyhedron PolyThms MembThms Dynamics Round.
From Verif Require Import RoundThms.

(** contains evaluated with rounded operations, summed in any order, does not raise; if E bounds the rounding errors of the residuals, the result is True whenever exact evaluation with the tolerance tol - E gives True, and if it is True exact evaluation with tol + E gives True *)
Theorem C93_membership u eta rnd tol p x E m me n :
  rounding u eta rnd -> wf p m me n -> (0 < m)%nat -> length x = n ->
  residual_bound u eta E (pA p) (pb p) x -> residual_bound u eta E (pC p) (pd p) x ->
  (exists r, fl_contains rnd tol p x r) /\
  forall r, fl_contains rnd tol p x r -> exists c, r = Ok c /\ (contains (tol - E) p x = Ok true -> c = true) /\ (c = true -> contains (tol + E) p x = Ok true).
Proof. exact (fl_contains_sandwich u eta rnd tol p x E m me n). Qed.
Print Assumptions C93_membership.

(** for polyhedra without equalities: a point of the polyhedron is accepted if the rounding errors of its residuals are at most tol, and an accepted point violates each inequality by at most tol plus these errors *)
Theorem C93_points u eta rnd tol p x E m n r :
  rounding u eta rnd -> wf p m 0 n -> (0 < m)%nat -> length x = n -> residual_bound u eta E (pA p) (pb p) x ->
  fl_contains rnd tol p x r -> exists c, r = Ok c /\ (in_poly p x -> E <= tol -> c = true) /\ (c = true -> forall i, (i < m)%nat -> dot (row (pA p) i) x <= nth i (pb p) 0 + tol + E).
Proof. exact (fl_contains_points u eta rnd tol p x E m n r). Qed.
Print Assumptions C93_points.
