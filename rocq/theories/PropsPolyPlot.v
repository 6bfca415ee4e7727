(** * PropsPolyPlot: the property theorems of this part, restated; proofs are in PolyPlotThms.
    Generated by tools/gen_props.py: this file contains only statements, [exact] and Print Assumptions. *)
From Coq Require Import ZArith Classical.
From Verif Require Import Arr ArrFacts Spec SpecVert SpecPlot Numpy Pnnls PnnlsFacts QpFacts GeomUtils Polyhedron PolyThms Oracle SolverThms NullFacts PolySolveThms PolyMore PolySetThms PolyBoundThms PolyChebThms PolyCacheThms PolyVertThms GeomThms HullOracle VertOracle VertFacts VertThms Dynamics Mpqp Controllers Projection Plots PlotThms.
From Verif Require Import PolyPlotThms.

(** For a polytope with the hypotheses of C68 and indices in range, plot draws one closed polygon, with corners among the projections of the extreme points, that goes counterclockwise around the projection of the polytope on the two dimensions; the axes carry their names. If instead the projection is flat, it raises QhullError. *)
Theorem C72_plot np hull2 p m me n d0 d1 :
  exact_np np -> halfspaces_ok np -> wf p m me n -> good_eqs p me n -> (me + 2 <= n)%nat -> fresh p = p ->
  bounded_set (in_poly p) -> (exists c, ball_in p c tol7) -> (forall i, (i < m)%nat -> exists x, in_poly p x /\ dot (row (pA p) i) x < nth i (pb p) 0) ->
  (d0 < n)%nat -> (d1 < n)%nat ->
  (forall V p', get_vertices np p = (Ok (Some V), p') -> let pts := map (fun v => [nth d0 v 0; nth d1 v 0]) V in hull2_ok pts (hull2 pts)) ->
  (exists path p', poly_plot np hull2 [d0; d1] p = ([Patch path; XLabel (d0 + 1); YLabel (d1 + 1)], Ok p') /\
     goes_around path (fun y => exists x, in_poly p x /\ y = [nth d0 x 0; nth d1 x 0]) /\
     Forall (fun w => exists v, extreme (in_poly p) v /\ w = [nth d0 v 0; nth d1 v 0]) path) \/
  (poly_plot np hull2 [d0; d1] p = ([], Err QhullError) /\ exists a d, length a = 2%nat /\ a <> zeros 2 /\ forall x, in_poly p x -> dot a [nth d0 x 0; nth d1 x 0] = d).
Proof. exact (plot_polytope np hull2 p m me n d0 d1). Qed.
Print Assumptions C72_plot.

(** Without equalities, and for two different dimensions, the projection is never flat: the polygon is drawn. *)
Theorem C72_solid np hull2 p m n d0 d1 :
  exact_np np -> halfspaces_ok np -> wf p m 0 n -> (2 <= n)%nat -> fresh p = p ->
  bounded_set (in_poly p) -> (exists c, ball_in p c tol7) -> (forall i, (i < m)%nat -> exists x, in_poly p x /\ dot (row (pA p) i) x < nth i (pb p) 0) ->
  (d0 < n)%nat -> (d1 < n)%nat -> d0 <> d1 ->
  (forall V p', get_vertices np p = (Ok (Some V), p') -> let pts := map (fun v => [nth d0 v 0; nth d1 v 0]) V in hull2_ok pts (hull2 pts)) ->
  exists path p', poly_plot np hull2 [d0; d1] p = ([Patch path; XLabel (d0 + 1); YLabel (d1 + 1)], Ok p') /\
     goes_around path (fun y => exists x, in_poly p x /\ y = [nth d0 x 0; nth d1 x 0]) /\
     Forall (fun w => exists v, extreme (in_poly p) v /\ w = [nth d0 v 0; nth d1 v 0]) path.
Proof. exact (plot_solid np hull2 p m n d0 d1). Qed.
Print Assumptions C72_solid.

(** A non-empty polytope without a ball of radius tol is not drawn; only the message for unbounded or empty polyhedra is printed. *)
Theorem C72_thin_refuted np hull2 p m me n d0 d1 :
  exact_np np -> wf p m me n -> good_eqs p me n -> (me < n)%nat -> fresh p = p ->
  (exists x, in_poly p x) -> bounded_set (in_poly p) -> (forall c, ~ ball_in p c tol7) -> exists p', poly_plot np hull2 [d0; d1] p = ([Message], Ok p').
Proof. exact (plot_thin np hull2 p m me n d0 d1). Qed.
Print Assumptions C72_thin_refuted.

(** An empty polyhedron none of whose inequalities is constant on the solutions of its equalities is not drawn either. *)
Theorem C72_empty np hull2 p m me n d0 d1 :
  exact_np np -> wf p m me n -> good_eqs p me n -> fresh p = p -> (forall x, ~ in_poly p x) ->
  (forall i, (i < m)%nat -> exists x y, length x = n /\ length y = n /\ eq_holds (pC p) (pd p) x /\ eq_holds (pC p) (pd p) y /\ dot (row (pA p) i) x <> dot (row (pA p) i) y) ->
  exists p', poly_plot np hull2 [d0; d1] p = ([Message], Ok p').
Proof. exact (plot_empty np hull2 p m me n d0 d1). Qed.
Print Assumptions C72_empty.

(** A number of dimensions other than two raises ValueError; an error in computing the vertices is passed on; an index out of range raises IndexError. *)
Theorem C72_errors np hull2 p :
  (forall dims, length dims <> 2%nat -> poly_plot np hull2 dims p = ([], Err ValueError)) /\
  (forall d0 d1 e, fst (get_vertices np p) = Err e -> poly_plot np hull2 [d0; d1] p = ([], Err e)) /\
  (forall d0 d1 v V, fst (get_vertices np p) = Ok (Some (v :: V)) -> (length v <= d0)%nat -> poly_plot np hull2 [d0; d1] p = ([], Err IndexError)).
Proof. exact (plot_poly_errors np hull2 p). Qed.
Print Assumptions C72_errors.

(** The literal claim (every bounded non-empty polyhedron is drawn) fails with QhullError for the unit square with the further inequality 0 x <= 0. *)
Theorem C72_zero_row_refuted rnd hull2 :
  exists p, wf p 5 0 2 /\ fresh p = p /\ (forall a b, in_poly p [a; b] <-> 0 <= a <= 1 /\ 0 <= b <= 1) /\
  poly_plot (np_vert rnd) hull2 [0; 1]%nat p = ([], Err QhullError).
Proof. exact (plot_zero_row_refuted rnd hull2). Qed.
Print Assumptions C72_zero_row_refuted.

(** The square of C68_example, at height 2 in R^3, meets the hypotheses (with routines that meet the contracts); its plot in dimensions 0, 1 is the path (0,0), (1,0), (1,1), (0,1), (0,0). *)
Example C72_example rnd :
  let np := np_vert rnd in
  let p := Poly (Mat 3 [[1; 0; 0]; [-1; 0; 0]; [0; 1; 0]; [0; -1; 0]]) [1; 0; 1; 0] (Mat 3 [[0; 0; 2]]) [4] None None None None None in
  (forall V p', get_vertices np p = (Ok (Some V), p') -> let pts := map (fun v => [nth 0 v 0; nth 1 v 0]) V in hull2_ok pts (hull2_square pts)) /\
  exists p', poly_plot np hull2_square [0; 1]%nat p = ([Patch [[0; 0]; [1; 0]; [1; 1]; [0; 1]; [0; 0]]; XLabel 1; YLabel 2], Ok p').
Proof. exact (plot_prism_example rnd). Qed.
