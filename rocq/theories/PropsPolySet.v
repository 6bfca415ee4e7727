(** * PropsPolySet: the property theorems of this part, restated; proofs are in PolySetThms.
    Generated by tools/gen_props.py: this file contains only statements, [exact] and Print Assumptions. *)
From Coq Require Import ZArith.
From Verif Require Import Arr ArrFacts Spec Numpy Pnnls PnnlsFacts QpFacts GeomUtils Polyhedron PolyThms Oracle SolverThms NullFacts PolySolveThms.
From Verif Require Import PolySetThms.

(** {x <= 0, x <= tol/2} becomes {x <= tol/2}: a point is added. *)
Theorem C10_tolerance_refuted np :
  exact_np np ->
  exists p p' x, wf p 2 0 1 /\ remove_redundant_inequalities np p = (Ok tt, p') /\ in_poly p' x /\ ~ in_poly p x.
Proof. exact (tolerance_refuted np). Qed.
Print Assumptions C10_tolerance_refuted.

(** {x <= 1, x <= 3} has no almost redundant inequality, and removing redundant inequalities keeps {x <= 1}. *)
Example C10_example :
  let p := Poly (Mat 1 [[1]; [1]]) [1; 3] (Mat 1 []) [] None None None None None in
  redundancy_gap p 2 tol7 /\ exists p', remove_redundant_inequalities np0 p = (Ok tt, p') /\ forall x, in_poly p' x <-> in_poly p x.
Proof. exact (redundancy_example). Qed.

(** For P1 non-empty and contained in some ball, is_included_in returns a boolean, and True iff every point of P1 satisfies every constraint of P2 within tol.
   Missing: empty P1 and P1 unbounded in the direction of a facet of P2, for which it raises (see the refutations). *)
Theorem C12_inclusion_partial np tol p1 p2 m1 me1 m2 me2 n :
  exact_np np -> wf p1 m1 me1 n -> wf p2 m2 me2 n ->
  (exists x, in_poly p1 x) -> bounded_set (in_poly p1) ->
  exists r, is_included_in np tol p1 p2 = Ok r /\ (r = true <-> forall x, in_poly p1 x -> in_poly_tol p2 tol x).
Proof. exact (inclusion np tol p1 p2 m1 me1 m2 me2 n). Qed.
Print Assumptions C12_inclusion_partial.

(** A non-empty (possibly unbounded) P1 included in P2 is always recognized, for every tol >= 0. *)
Theorem C12_included_true np tol p1 p2 m1 me1 m2 me2 n :
  exact_np np -> wf p1 m1 me1 n -> wf p2 m2 me2 n -> 0 <= tol ->
  (exists x, in_poly p1 x) -> (forall x, in_poly p1 x -> in_poly p2 x) -> is_included_in np tol p1 p2 = Ok true.
Proof. exact (included_true np tol p1 p2 m1 me1 m2 me2 n). Qed.
Print Assumptions C12_included_true.

(** {x <= -1, x >= 0} is included in everything, but the test raises TypeError. *)
Theorem C12_empty_refuted :
  exists p1 p2, wf p1 2 0 1 /\ wf p2 1 0 1 /\ (forall x, ~ in_poly p1 x) /\
    forall np, exact_np np -> is_included_in np tol7 p1 p2 = Err TypeError.
Proof. exact (inclusion_empty_refuted). Qed.
Print Assumptions C12_empty_refuted.

(** {x >= 0} is not included in {x <= 1}, but the test raises TypeError instead of returning False. *)
Theorem C12_unbounded_refuted :
  exists p1 p2, wf p1 1 0 1 /\ wf p2 1 0 1 /\ (exists x, in_poly p1 x /\ ~ in_poly p2 x) /\
    forall np, exact_np np -> is_included_in np tol7 p1 p2 = Err TypeError.
Proof. exact (inclusion_unbounded_refuted). Qed.
Print Assumptions C12_unbounded_refuted.

(** [0,1] is included in [0,2] and not in [0,1/2]. *)
Example C12_example :
  let seg a := Poly (Mat 1 [[1]; [-1]]) [a; 0] (Mat 1 []) [] None None None None None in
  is_included_in np0 tol7 (seg 1) (seg 2) = Ok true /\ is_included_in np0 tol7 (seg 1) (seg (/2)) = Ok false.
Proof. exact (inclusion_example). Qed.
