(** * PropsPolyBound: the property theorems of this part, restated; proofs are in PolyBoundThms.
    Generated by tools/gen_props.py: this file contains only statements, [exact] and Print Assumptions. *)
From Coq Require Import ZArith.
From Verif Require Import Arr ArrFacts Spec Numpy Pnnls PnnlsFacts QpFacts GeomUtils Polyhedron PolyThms Oracle SolverThms NullFacts PolySolveThms PolySetThms.
From Verif Require Import PolyBoundThms.

(** On a fresh polyhedron: False is returned only for non-empty unbounded polyhedra; True only if there is no point of norm below 10^7, or if the kernel is trivial and along every recession direction d every inequality is almost constant, |A_i d| <= 2 tol |d|_1.
   Missing: True implies bounded, which is false because of the tolerance of the LP solver (see the refutation). *)
Theorem C09_bounded_partial np p m me n :
  exact_np np -> wf p m me n -> p_empty p = None -> p_bounded p = None ->
  exists r p', get_bounded np p = (Ok r, p') /\
    (r = false -> (exists x, in_poly p x) /\ ~ bounded_set (in_poly p)) /\
    (r = true -> (forall x, in_poly p x -> ~ near x) \/
       ((exists x, in_poly p x) /\ (forall d, length d = n -> mv (pA p) d = zeros m -> mv (pC p) d = zeros me -> d = zeros n) /\
        forall d, recession p d -> forall i, (i < m)%nat -> Rabs (dot (row (pA p) i) d) <= 2 * tol7 * norm1 d)).
Proof. exact (get_bounded_ok np p m me n). Qed.
Print Assumptions C09_bounded_partial.

(** A polyhedron contained in a ball is always reported bounded. *)
Theorem C09_polytope_is_bounded np p m me n :
  exact_np np -> wf p m me n -> p_empty p = None -> p_bounded p = None ->
  bounded_set (in_poly p) -> exists p', get_bounded np p = (Ok true, p').
Proof. exact (polytope_is_bounded np p m me n). Qed.
Print Assumptions C09_polytope_is_bounded.

(** The half line {10^-9 x <= 1} is reported bounded, with whatever exact library. *)
Theorem C09_bounded_refuted :
  exists p, wf p 1 0 1 /\ ~ bounded_set (in_poly p) /\
  forall np, exact_np np -> exists p', get_bounded np p = (Ok true, p').
Proof. exact (bounded_refuted). Qed.
Print Assumptions C09_bounded_refuted.

(** The segment {x <= 1, -x <= 1} is contained in a ball (and reported bounded); the half line {x >= 0} is not, and is reported unbounded. *)
Example C09_example :
  let p := Poly (Mat 1 [[1]; [-1]]) [1; 1] (Mat 1 []) [] None None None None None in
  let q := Poly (Mat 1 [[-1]]) [0] (Mat 1 []) [] None None None None None in
  bounded_set (in_poly p) /\ (exists p', get_bounded np0 p = (Ok true, p')) /\
  ~ bounded_set (in_poly q) /\ (exists q', get_bounded np0 q = (Ok false, q')).
Proof. exact (bounded_example). Qed.
