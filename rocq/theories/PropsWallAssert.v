(** * PropsWallAssert: the property theorems of this part, restated; proofs are in WallAssertThms.
    Generated by tools/gen_props.py: this file contains only statements, [exact] and Print Assumptions. *)
From Coq Require Import ZArith Classical.
From Verif Require Import Arr ArrFacts Spec SpecDyn Numpy Pnnls PnnlsFacts QpFacts GeomUtils Polyhedron PolyThms Oracle SolverThms NullFacts PolySolveThms PolySetThms PolyBoundThms PolyMore Dynamics Walls.
From Verif Require Import WallAssertThms.

(** "assert X.bounded" on a new polyhedron: it passes, leaving the constraints as they are, for every bounded set, and raises AssertionError, and no other exception, only for nonempty unbounded ones; it does raise if the set has a point of norm below 10^7 and a direction of recession d along which all constraints are constant (d not zero), or one of them changes by more than 2 tol |d|_1 *)
Theorem C91_assert np p m me n :
  exact_np np -> wf p m me n -> p_empty p = None -> p_bounded p = None ->
  (bounded_set (in_poly p) -> exists p', assert_bounded np p = Ok p' /\ pA p' = pA p /\ pb p' = pb p /\ pC p' = pC p /\ pd p' = pd p) /\
  (forall e, assert_bounded np p = Err e -> e = AssertionError /\ (exists x, in_poly p x) /\ ~ bounded_set (in_poly p)) /\
  (forall x d, in_poly p x -> near x -> (length d = n /\ d <> zeros n /\ mv (pA p) d = zeros m /\ mv (pC p) d = zeros me) \/ (recession p d /\ exists i, (i < m)%nat /\ 2 * tol7 * norm1 d < Rabs (dot (row (pA p) i) d)) -> assert_bounded np p = Err AssertionError).
Proof. exact (assert_spec np p m me n). Qed.
Print Assumptions C91_assert.

(** The half line x >= 0 has no bound and the assertion fails, with whatever exact library. *)
Example C91_assert_example np :
  exact_np np -> wf p_half 1 0 1 /\ ~ bounded_set (in_poly p_half) /\ assert_bounded np p_half = Err AssertionError.
Proof. exact (assert_example np). Qed.
