(** * PropsPolyVert: the property theorems of this part, restated; proofs are in PolyVertThms.
    Generated by tools/gen_props.py: this file contains only statements, [exact] and Print Assumptions. *)
From Coq Require Import ZArith.
From Verif Require Import Arr ArrFacts Spec Numpy Pnnls PnnlsFacts QpFacts GeomUtils Polyhedron PolyThms Oracle SolverThms NullFacts PolySolveThms PolySetThms PolyBoundThms PolyChebThms PolyCacheThms.
From Verif Require Import PolyVertThms.

(** For a segment lo < hi of length at least 2 tol, given by any inequalities none of which is redundant by less than tol (and with a point of norm below 10^7), vertices are exactly the two endpoints. *)
Theorem C16_segment np p m lo hi :
  exact_np np -> wf p m 0 1 -> fresh p = p -> 2 * tol7 <= hi - lo ->
  (forall a, in_poly p [a] <-> lo <= a <= hi) -> (exists x, in_poly p x /\ near x) -> redundancy_gap p m tol7 ->
  exists v p', get_vertices np p = (Ok (Some v), p') /\ (v = [[hi]; [lo]] \/ v = [[lo]; [hi]]).
Proof. exact (segment_vertices np p m lo hi). Qed.
Print Assumptions C16_segment.

(** {x <= 3, -x <= 1, x <= 7}: the hypotheses hold, and the vertices are 3 and -1. *)
Example C16_example :
  let p := Poly (Mat 1 [[1]; [-1]; [1]]) [3; 1; 7] (Mat 1 []) [] None None None None None in
  exists v p', get_vertices np0 p = (Ok (Some v), p') /\ (v = [[3]; [-1]] \/ v = [[-1]; [3]]).
Proof. exact (vertices_example). Qed.

(** For the segment [0,1] given as {x <= 1, x <= 1 + tol/2, -x <= 0} the upper vertex is 1 + tol/2, which is not an endpoint. *)
Theorem C16_tolerance_refuted np :
  exact_np np ->
  exists p, wf p 3 0 1 /\ (forall a, in_poly p [a] <-> 0 <= a <= 1) /\ exists p', get_vertices np p = (Ok (Some [[1 + tol7 / 2]; [0]]), p').
Proof. exact (vertices_refuted np). Qed.
Print Assumptions C16_tolerance_refuted.
