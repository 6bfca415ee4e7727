(** * PropsPolySolve: the property theorems of this part, restated; proofs are in PolySolveThms.
    Generated by tools/gen_props.py: this file contains only statements, [exact] and Print Assumptions. *)
From Coq Require Import ZArith.
From Verif Require Import Arr ArrFacts Spec Numpy Pnnls PnnlsFacts QpFacts GeomUtils Polyhedron PolyThms Oracle SolverThms NullFacts.
From Verif Require Import PolySolveThms.

(** On a fresh polyhedron, empty is True iff there is no point of norm below sqrt(1/tol^2 - 1) = 10^7. *)
Theorem C08_empty_criterion np p m me n :
  exact_np np -> wf p m me n -> p_empty p = None ->
  exists e, get_empty np p = (Ok e, set_empty p e) /\ (e = true <-> ~ exists x, in_poly p x /\ near x).
Proof. exact (get_empty_ok np p m me n). Qed.
Print Assumptions C08_empty_criterion.

(** empty is False only if there is a point, and if there is a point of norm at most 9999999 it is False.
   Missing: polyhedra whose points are all further than 10^7 from the origin, for which True is returned (see the refutation). *)
Theorem C08_empty_partial np p m me n :
  exact_np np -> wf p m me n -> p_empty p = None ->
  exists e p', get_empty np p = (Ok e, p') /\ (e = false -> exists x, in_poly p x) /\
    ((exists x, in_poly p x /\ norm x <= 9999999) -> e = false).
Proof. exact (empty_partial np p m me n). Qed.
Print Assumptions C08_empty_partial.

(** {x >= 10^8} is not empty but reported empty, with whatever exact library. *)
Theorem C08_empty_refuted :
  exists p x, wf p 1 0 1 /\ in_poly p x /\
  forall np, exact_np np -> exists p', get_empty np p = (Ok true, p').
Proof. exact (empty_refuted). Qed.
Print Assumptions C08_empty_refuted.

(** For independent equalities (fewer than the dimension) the map z -> N z + R r is a bijection from {E z <= f} to the polyhedron, and preserves distances. *)
Theorem C14_elimination np p m me n :
  svd_ok np -> inv_ok np -> wf p m me n -> (me < n)%nat -> indep_rows (pC p) me ->
  exists E f N R X, remove_equalities np (pA p) (pb p) (pC p) (pd p) = Ok (E, f, N, R) /\ np_inv np (mm (pC p) R) = Ok X /\
    let x_of z := vadd (mv N z) (mv R (mv X (pd p))) in
    shape E m (n - me) /\ length f = m /\ shape N n (n - me) /\ shape R n me /\
    (forall z, length z = (n - me)%nat -> ineq_holds E f z <-> in_poly p (x_of z)) /\
    (forall x, in_poly p x -> exists z, length z = (n - me)%nat /\ ineq_holds E f z /\ x = x_of z) /\
    (forall z z', length z = (n - me)%nat -> length z' = (n - me)%nat -> dist2 (x_of z) (x_of z') = dist2 z z') /\
    (forall z z', length z = (n - me)%nat -> length z' = (n - me)%nat -> x_of z = x_of z' -> z = z').
Proof. exact (elimination np p m me n). Qed.
Print Assumptions C14_elimination.

(** Otherwise (dependent equalities, or as many as variables) it raises ValueError. *)
Theorem C14_elimination_rejects np p m me n :
  svd_ok np -> inv_ok np -> wf p m me n -> ~ ((me < n)%nat /\ indep_rows (pC p) me) ->
  remove_equalities np (pA p) (pb p) (pC p) (pd p) = Err ValueError.
Proof. exact (elimination_rejects np p m me n). Qed.
Print Assumptions C14_elimination_rejects.

(** Every facet index returned by minimal_facets(tol) is irredundant by at least tol: some point satisfies all the other returned facets (and the equalities) and violates this one by tol or more. *)
Theorem C11_minimality np p m me n tol :
  exact_np np -> wf p m me n -> tol <= 1 ->
  (me = 0%nat \/ ((me < n)%nat /\ indep_rows (pC p) me)) ->
  p_empty p <> Some true -> (exists x, in_poly p x /\ near x) ->
  exists mf p1, minimal_facets np tol p = (Ok (Some mf), p1) /\ NoDup mf /\
    forall i, In i mf -> (i < m)%nat /\
      exists x, sat p (remove Nat.eq_dec i mf) x /\ nth i (pb p) 0 + tol <= dot (row (pA p) i) x.
Proof. exact (minimality np p m me n tol). Qed.
Print Assumptions C11_minimality.

(** On a non-empty polyhedron (with no or independent equalities) remove_redundant_inequalities() succeeds, keeps every point, and what it drops is implied, one row after the other, up to less than tol. *)
Theorem C10_redundancy_removal np p m me n :
  exact_np np -> wf p m me n ->
  (me = 0%nat \/ ((me < n)%nat /\ indep_rows (pC p) me)) ->
  p_empty p <> Some true -> (exists x, in_poly p x /\ near x) ->
  exists p' mf, remove_redundant_inequalities np p = (Ok tt, p') /\ wf p' (length mf) me n /\
    pA p' = mtake (pA p) mf /\ pb p' = vtake (pb p) mf /\ pC p' = pC p /\ pd p' = pd p /\
    removal p tol7 (seq 0 m) mf /\
    (forall x, in_poly p x -> in_poly p' x).
Proof. exact (redundancy_removal np p m me n). Qed.
Print Assumptions C10_redundancy_removal.

(** If no inequality is redundant by less than tol, the set is exactly the same.
   Missing: polyhedra with inequalities that are redundant by less than tol, for which the set can grow (see the refutation). *)
Theorem C10_redundancy_exact_partial np p m me n :
  exact_np np -> wf p m me n ->
  (me = 0%nat \/ ((me < n)%nat /\ indep_rows (pC p) me)) ->
  p_empty p <> Some true -> (exists x, in_poly p x /\ near x) -> redundancy_gap p m tol7 ->
  exists p', remove_redundant_inequalities np p = (Ok tt, p') /\ forall x, in_poly p' x <-> in_poly p x.
Proof. exact (redundancy_exact np p m me n). Qed.
Print Assumptions C10_redundancy_exact_partial.

(** With tol <= 0 minimal_facets() never changes the set. *)
Theorem C10_strict_tolerance np p m me n tol :
  exact_np np -> wf p m me n -> tol <= 0 ->
  (me = 0%nat \/ ((me < n)%nat /\ indep_rows (pC p) me)) ->
  p_empty p <> Some true -> (exists x, in_poly p x /\ near x) ->
  exists mf p1, minimal_facets np tol p = (Ok (Some mf), p1) /\ forall x, sat p mf x <-> in_poly p x.
Proof. exact (strict_tolerance np p m me n tol). Qed.
Print Assumptions C10_strict_tolerance.
