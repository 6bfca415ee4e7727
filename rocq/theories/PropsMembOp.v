(** * PropsMembOp: the property theorems of this part, restated; proofs are in MembOpThms.
    Generated by tools/gen_props.py: this file contains only statements, [exact] and Print Assumptions. *)
From Coq Require Import ZArith Lra Lia.
From Verif Require Import Arr ArrFacts Spec Numpy Pnnls GeomUtils Polyhedron PolyThms PolyMore PolySetThms SpecDyn Dynamics DynThms SolverThms PolySolveThms MembThms.
From Verif Require Import MembOpThms.
Open Scope R_scope.

(** Membership in the intersection of two polyhedra that have an inequality each: a point accepted by both is accepted; if at most one of the two has equalities, a point is accepted iff both accept it. *)
Theorem C89_intersection p1 p2 m1 me1 m2 me2 n x tol :
  wf p1 m1 me1 n -> wf p2 m2 me2 n -> (0 < m1)%nat -> (0 < m2)%nat -> length x = n ->
  exists p3 r1 r2 r3, intersection p1 p2 = Ok p3 /\ contains tol p1 x = Ok r1 /\ contains tol p2 x = Ok r2 /\ contains tol p3 x = Ok r3 /\
    (r1 = true -> r2 = true -> r3 = true) /\ (me1 = 0%nat \/ me2 = 0%nat -> r3 = andb r1 r2).
Proof. exact (contains_intersection p1 p2 m1 me1 m2 me2 n x tol). Qed.
Print Assumptions C89_intersection.

(** P1 = {x <= 100, x = 0} and P2 = {x <= 100, x = 10}: the intersection is empty, P2 does not accept x = 0, but the intersection of both accepts it. *)
Theorem C89_intersection_refuted :
  exists p1 p2 p3 x, wf p1 1 1 1 /\ wf p2 1 1 1 /\ intersection p1 p2 = Ok p3 /\ (forall y, ~ in_poly p3 y) /\
  contains tol7 p1 x = Ok true /\ contains tol7 p2 x = Ok false /\ contains tol7 p3 x = Ok true.
Proof. exact (contains_intersection_refuted). Qed.
Print Assumptions C89_intersection_refuted.

(** The same for the cartesian product of two polyhedra that have an inequality each. *)
Theorem C89_product p1 p2 m1 me1 n1 m2 me2 n2 x y tol :
  wf p1 m1 me1 n1 -> wf p2 m2 me2 n2 -> (0 < m1)%nat -> (0 < m2)%nat -> length x = n1 -> length y = n2 ->
  exists p3 r1 r2 r3, cartesian_product p1 p2 = Ok p3 /\ contains tol p1 x = Ok r1 /\ contains tol p2 y = Ok r2 /\ contains tol p3 (x ++ y) = Ok r3 /\
    (r1 = true -> r2 = true -> r3 = true) /\ (me1 = 0%nat \/ me2 = 0%nat -> r3 = andb r1 r2).
Proof. exact (contains_product p1 p2 m1 me1 n1 m2 me2 n2 x y tol). Qed.
Print Assumptions C89_product.

(** A larger tolerance accepts more, for every polyhedron: whatever is accepted with tol is accepted with tol' >= tol, and the test raises with one tolerance iff it does with the other. *)
Theorem C89_tolerance p m me n x tol tol' :
  wf p m me n -> length x = n -> tol <= tol' ->
  (contains tol p x = Ok true -> contains tol' p x = Ok true) /\ forall e, contains tol p x = Err e <-> contains tol' p x = Err e.
Proof. exact (contains_monotone p m me n x tol tol'). Qed.
Print Assumptions C89_tolerance.

(** Every point of a polyhedron with an inequality is accepted, for every tol >= 0, before and after normalize. *)
Theorem C89_members p m me n x tol tol' :
  wf p m me n -> (0 < m)%nat -> 0 <= tol -> 0 <= tol' -> in_poly p x -> contains tol p x = Ok true /\ contains tol (normalize tol' p) x = Ok true.
Proof. exact (contains_members p m me n x tol tol'). Qed.
Print Assumptions C89_members.

(** normalize changes the answer for other points: {1e6 x <= 0} does not accept 1e-7, the normalised polyhedron {x <= 0} does; and {1e-6 x <= 0} accepts 1/100, the normalised one does not. *)
Theorem C89_normalize_refuted :
  exists p1 x1 p2 x2, wf p1 1 0 1 /\ wf p2 1 0 1 /\ contains tol7 p1 x1 = Ok false /\ contains tol7 (normalize tol7 p1) x1 = Ok true /\ contains tol7 p2 x2 = Ok true /\ contains tol7 (normalize tol7 p2) x2 = Ok false.
Proof. exact (contains_normalize_refuted). Qed.
Print Assumptions C89_normalize_refuted.

(** If P1 is non-empty and bounded and is_included_in(P2) returned True, then P2 (with an inequality and at most one equality) accepts every point of P1 with the same tolerance; if it returned False, P1 has a point that P2 rejects. *)
Theorem C89_inclusion np tol p1 p2 m1 me1 m2 me2 n :
  exact_np np -> wf p1 m1 me1 n -> wf p2 m2 me2 n -> (exists x, in_poly p1 x) -> bounded_set (in_poly p1) -> (0 < m2)%nat -> (me2 <= 1)%nat ->
  (is_included_in np tol p1 p2 = Ok true -> forall x, in_poly p1 x -> contains tol p2 x = Ok true) /\
  (is_included_in np tol p1 p2 = Ok false -> exists x, in_poly p1 x /\ contains tol p2 x = Ok false).
Proof. exact (contains_inclusion np tol p1 p2 m1 me1 m2 me2 n). Qed.
Print Assumptions C89_inclusion.

(** For two polyhedra with equalities the product can accept a pair of which one component is rejected: {x <= 100, x = 0} and {x <= 100, x = 10} with the pair (0, 0). *)
Theorem C89_product_refuted :
  exists p1 p2 p3, wf p1 1 1 1 /\ wf p2 1 1 1 /\ cartesian_product p1 p2 = Ok p3 /\
  contains tol7 p2 [0] = Ok false /\ contains tol7 p3 [0; 0] = Ok true.
Proof. exact (contains_product_refuted). Qed.
Print Assumptions C89_product_refuted.

(** The segment [0, 1] and {x <= 5, x = 1}: the hypotheses of C89_intersection and C89_product hold, both accept 1, the second rejects 0 and so do intersection and product. *)
Example C89_example :
  let p1 := Poly (Mat 1 [[1]; [-1]]) [1; 0] (Mat 1 []) [] None None None None None in let p2 := Poly (Mat 1 [[1]]) [5] (Mat 1 [[1]]) [1] None None None None None in
  wf p1 2 0 1 /\ wf p2 1 1 1 /\ exists pi pp, intersection p1 p2 = Ok pi /\ cartesian_product p1 p2 = Ok pp /\
    contains tol7 p1 [1] = Ok true /\ contains tol7 p2 [1] = Ok true /\ contains tol7 pi [1] = Ok true /\ contains tol7 pp [1; 1] = Ok true /\
    contains tol7 p1 [0] = Ok true /\ contains tol7 p2 [0] = Ok false /\ contains tol7 pi [0] = Ok false /\ contains tol7 pp [0; 0] = Ok false.
Proof. exact (contains_ops_example). Qed.

(** [0, 1] is non-empty and bounded; its inclusion in [0, 2] makes [0, 2] accept its points, and its non-inclusion in [0, 1/2] gives a point that is rejected. *)
Example C89_inclusion_example :
  let seg a := Poly (Mat 1 [[1]; [-1]]) [a; 0] (Mat 1 []) [] None None None None None in
  (exists x, in_poly (seg 1) x) /\ bounded_set (in_poly (seg 1)) /\ is_included_in np0 tol7 (seg 1) (seg 2) = Ok true /\ is_included_in np0 tol7 (seg 1) (seg (/ 2)) = Ok false /\
  contains tol7 (seg 2) [1] = Ok true /\ exists x, in_poly (seg 1) x /\ contains tol7 (seg (/ 2)) x = Ok false.
Proof. exact (contains_inclusion_example). Qed.
