(** * PropsVert: the property theorems of this part, restated; proofs are in VertThms.
    Generated by tools/gen_props.py: this file contains only statements, [exact] and Print Assumptions. *)
From Coq Require Import ZArith Classical.
From Verif Require Import Arr ArrFacts Spec SpecVert Numpy Pnnls PnnlsFacts QpFacts GeomUtils Polyhedron PolyThms Oracle SolverThms NullFacts PolySolveThms PolyMore PolySetThms PolyBoundThms PolyChebThms PolyCacheThms PolyVertThms GeomThms HullOracle VertOracle VertFacts.
From Verif Require Import VertThms.

(** For a polytope with independent equalities (or none) leaving two or more degrees of freedom, with a ball of radius tol and every inequality strict at some point, vertices are exactly the extreme points, and the polytope is their convex hull. *)
Theorem C68_vertices np p m me n :
  exact_np np -> halfspaces_ok np -> wf p m me n -> good_eqs p me n -> (me + 2 <= n)%nat -> fresh p = p ->
  bounded_set (in_poly p) -> (exists c, ball_in p c tol7) -> (forall i, (i < m)%nat -> exists x, in_poly p x /\ dot (row (pA p) i) x < nth i (pb p) 0) ->
  exists V p', get_vertices np p = (Ok (Some V), p') /\ (forall v, In v V <-> extreme (in_poly p) v) /\ (forall x, in_poly p x <-> in_hull n V x).
Proof. exact (polytope_vertices np p m me n). Qed.
Print Assumptions C68_vertices.

(** If instead some inequality holds with equality on the whole polytope (as the row 0 x <= 0 does), vertices raises QhullError: no center is strictly inside. *)
Theorem C68_implicit_refuted np p m me n i :
  exact_np np -> halfspaces_ok np -> wf p m me n -> good_eqs p me n -> (me + 2 <= n)%nat -> fresh p = p ->
  bounded_set (in_poly p) -> (exists c, ball_in p c tol7) -> (i < m)%nat -> (forall x, in_poly p x -> dot (row (pA p) i) x = nth i (pb p) 0) ->
  fst (get_vertices np p) = Err QhullError.
Proof. exact (implicit_refuted np p m me n i). Qed.
Print Assumptions C68_implicit_refuted.

(** A non-empty polytope without a ball of radius tol has vertices None, in any dimension. *)
Theorem C68_thin np p m me n :
  exact_np np -> wf p m me n -> good_eqs p me n -> (me < n)%nat -> fresh p = p ->
  (exists x, in_poly p x) -> bounded_set (in_poly p) -> (forall c, ~ ball_in p c tol7) -> fst (get_vertices np p) = Ok None.
Proof. exact (thin_vertices np p m me n). Qed.
Print Assumptions C68_thin.

(** An empty polyhedron none of whose inequalities is constant on the solutions of its equalities has vertices None. *)
Theorem C68_empty np p m me n :
  exact_np np -> wf p m me n -> good_eqs p me n -> fresh p = p -> (forall x, ~ in_poly p x) ->
  (forall i, (i < m)%nat -> exists x y, length x = n /\ length y = n /\ eq_holds (pC p) (pd p) x /\ eq_holds (pC p) (pd p) y /\
     dot (row (pA p) i) x <> dot (row (pA p) i) y) ->
  fst (get_vertices np p) = Ok None.
Proof. exact (empty_vertices np p m me n). Qed.
Print Assumptions C68_empty.

(** A segment from u to w of length at least 2 tol, cut out of a line by independent equalities and inequalities none of which is redundant by less than tol, has the two vertices u and w. *)
Theorem C68_segment np p m me u w :
  exact_np np -> wf p m me (me + 1) -> (0 < me)%nat -> indep_rows (pC p) me -> fresh p = p ->
  2 * tol7 <= norm (vsub w u) -> length u = (me + 1)%nat -> length w = (me + 1)%nat ->
  (forall x, in_poly p x <-> exists t, 0 <= t <= 1 /\ x = vadd u (vscale t (vsub w u))) -> (exists x, in_poly p x /\ near x) -> redundancy_gap p m tol7 ->
  exists p', get_vertices np p = (Ok (Some [u; w]), p') \/ get_vertices np p = (Ok (Some [w; u]), p').
Proof. exact (line_segment_vertices np p m me u w). Qed.
Print Assumptions C68_segment.

(** The square [0, 1] x [0, 1] at height 2, given in R^3 with the equality 2 x_2 = 4, meets the hypotheses (for a routine that meets the contracts); its vertices are its four corners. *)
Example C68_example rnd :
  let np := np_vert rnd in
  let p := Poly (Mat 3 [[1; 0; 0]; [-1; 0; 0]; [0; 1; 0]; [0; -1; 0]]) [1; 0; 1; 0] (Mat 3 [[0; 0; 2]]) [4] None None None None None in
  exists V p', get_vertices np p = (Ok (Some V), p') /\ forall v, In v V <-> In v [[0; 0; 2]; [0; 1; 2]; [1; 0; 2]; [1; 1; 2]].
Proof. exact (prism_example rnd). Qed.

(** The square [0, 1] x [0, 1] with the further inequality 0 x <= 0: the literal claim (the vertices of every polytope are returned) fails with QhullError. *)
Theorem C68_zero_row_refuted rnd :
  exists p, wf p 5 0 2 /\ fresh p = p /\ (forall a b, in_poly p [a; b] <-> 0 <= a <= 1 /\ 0 <= b <= 1) /\
  fst (get_vertices (np_vert rnd) p) = Err QhullError.
Proof. exact (zero_row_vertices_refuted rnd). Qed.
Print Assumptions C68_zero_row_refuted.

(** The diagonal of the unit square, {0 <= x_0 <= 1, x_0 = x_1}, meets the hypotheses; its vertices are its two ends. *)
Example C68_segment_example :
  let p := Poly (Mat 2 [[1; 0]; [-1; 0]]) [1; 0] (Mat 2 [[1; -1]]) [0] None None None None None in
  exists p', get_vertices np0 p = (Ok (Some [[0; 0]; [1; 1]]), p') \/ get_vertices np0 p = (Ok (Some [[1; 1]; [0; 0]]), p').
Proof. exact (diagonal_example). Qed.
