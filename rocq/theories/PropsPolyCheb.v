(** * PropsPolyCheb: the property theorems of this part, restated; proofs are in PolyChebThms.
    Generated by tools/gen_props.py: this file contains only statements, [exact] and Print Assumptions. *)
From Coq Require Import ZArith.
From Verif Require Import Arr ArrFacts Spec Numpy Pnnls PnnlsFacts QpFacts GeomUtils Polyhedron PolyThms Oracle SolverThms NullFacts PolySolveThms PolySetThms PolyBoundThms.
From Verif Require Import PolyChebThms.

(** For a non-empty polyhedron (no or independent equalities) in which balls of arbitrary radius do not fit, radius and center are those of a largest ball of the polyhedron (in the affine hull of the equalities). *)
Theorem C13_chebyshev np p m me n :
  exact_np np -> wf p m me n -> good_eqs p me n -> p_radius p = None -> p_center p = None ->
  (exists x, in_poly p x) -> radii_bounded p ->
  exists r c p', get_radius np p = (Ok (Some r), p') /\ get_center np p = (Ok (Some c), p') /\
    get_radius np p' = (Ok (Some r), p') /\ get_center np p' = (Ok (Some c), p') /\ largest_ball p c r.
Proof. exact (chebyshev_ok np p m me n). Qed.
Print Assumptions C13_chebyshev.

(** In particular for every non-empty polytope, when the equalities leave at least one degree of freedom. *)
Theorem C13_polytope np p m me n :
  exact_np np -> wf p m me n -> good_eqs p me n -> (me < n)%nat -> p_radius p = None ->
  (exists x, in_poly p x) -> bounded_set (in_poly p) ->
  exists r c p', get_radius np p = (Ok (Some r), p') /\ p_center p' = Some c /\ largest_ball p c r.
Proof. exact (chebyshev_polytope np p m me n). Qed.
Print Assumptions C13_polytope.

(** For an empty polyhedron none of whose inequalities is constant on the solutions of its equalities the radius is negative. *)
Theorem C13_empty_negative np p m me n :
  exact_np np -> wf p m me n -> good_eqs p me n -> p_radius p = None ->
  (forall x, ~ in_poly p x) ->
  (forall i, (i < m)%nat -> exists x y, length x = n /\ length y = n /\ eq_holds (pC p) (pd p) x /\ eq_holds (pC p) (pd p) y /\
     dot (row (pA p) i) x <> dot (row (pA p) i) y) ->
  exists r p', get_radius np p = (Ok (Some r), p') /\ r < 0.
Proof. exact (chebyshev_empty np p m me n). Qed.
Print Assumptions C13_empty_negative.

(** The radius of the empty polyhedron {0 x <= -1} is None, not negative. *)
Theorem C13_zero_row_refuted :
  exists p, wf p 1 0 1 /\ (forall x, ~ in_poly p x) /\
  forall np, exact_np np -> exists p', get_radius np p = (Ok None, p').
Proof. exact (zero_row_refuted). Qed.
Print Assumptions C13_zero_row_refuted.

(** The half line {x >= 0} has radius and center None. *)
Theorem C13_unbounded_none np :
  exact_np np ->
  let p := Poly (Mat 1 [[-1]]) [0] (Mat 1 []) [] None None None None None in
  get_radius np p = (Ok None, p) /\ get_center np p = (Ok None, p).
Proof. exact (unbounded_none np). Qed.
Print Assumptions C13_unbounded_none.

(** With an equality the same half line, {x0 = 0, x1 >= 0}, makes radius raise ValueError (np.concatenate of None). *)
Theorem C13_unbounded_equalities_refuted np :
  exact_np np ->
  exists p, wf p 1 1 2 /\ good_eqs p 1 2 /\ (exists x, in_poly p x) /\ fst (get_radius np p) = Err ValueError.
Proof. exact (unbounded_equalities_refuted np). Qed.
Print Assumptions C13_unbounded_equalities_refuted.

(** The segment {x <= 3, -x <= 1} has radius 2 and center 1. *)
Example C13_example :
  let p := Poly (Mat 1 [[1]; [-1]]) [3; 1] (Mat 1 []) [] None None None None None in
  exists p', get_radius np0 p = (Ok (Some 2), p') /\ p_center p' = Some [1].
Proof. exact (chebyshev_example). Qed.
