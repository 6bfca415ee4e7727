(** * PropsCtrlPlot: the property theorems of this part, restated; proofs are in CtrlPlotThms.
    Generated by tools/gen_props.py: this file contains only statements, [exact] and Print Assumptions. *)
From Coq Require Import ZArith Classical.
From Verif Require Import Arr ArrFacts Spec SpecVert SpecPlot Numpy Pnnls PnnlsFacts QpFacts GeomUtils Polyhedron PolyThms Oracle SolverThms NullFacts PolySolveThms PolyMore PolySetThms PolyBoundThms PolyChebThms PolyCacheThms PolyVertThms GeomThms HullOracle VertOracle VertFacts VertThms Dynamics Mpqp Controllers Projection SpecGeom ProjThms Plots PlotThms PolyPlotThms PlanarThms.
From Verif Require Import CtrlPlotThms.

(** If every critical region is a polygon that can be plotted (C72), plot_state_space_partition draws for each of them, in order, a closed path that goes around exactly that region, and on request writes its active set at the center of a largest disc inscribed in it. *)
Theorem C73_partition np hull2 C crs pr :
  exact_np np -> halfspaces_ok np -> lnx (c_S C) = 2%nat -> Forall (fun cr => plottable np (cr_poly cr)) crs ->
  Forall (fun cr => forall V, fst (get_vertices np (cr_poly cr)) = Ok (Some V) -> hull2_ok V (hull2 V)) crs ->
  exists parts, plot_state_space_partition np hull2 C (Some crs) pr = (concat parts, Ok tt) /\
    Forall2 (fun cr part => exists path rest, part = Patch path :: XLabel 1 :: YLabel 2 :: rest /\ goes_around path (in_poly (cr_poly cr)) /\
      (pr = false -> rest = []) /\ (pr = true -> exists a b r, rest = [SetText a b (cr_active cr)] /\ largest_ball (cr_poly cr) [a; b] r)) crs parts.
Proof. exact (plot_partition np hull2 C crs pr). Qed.
Print Assumptions C73_partition.

(** Both plots raise ValueError, before drawing anything, unless the state has two components and the explicit solution has been stored. *)
Theorem C73_errors np hull2 fuel C es pr n :
  lnx (c_S C) <> 2%nat \/ es = None ->
  plot_state_space_partition np hull2 C es pr = ([], Err ValueError) /\ plot_optimal_value_function np hull2 fuel C es n = ([], Err ValueError).
Proof. exact (plot_controller_errors np hull2 fuel C es pr n). Qed.
Print Assumptions C73_errors.

(** If get_feasible_set returns a polygon with vertices V, plot_optimal_value_function draws it and level sets of a grid: equidistant abscissae and ordinates that span exactly the bounding box of V, and at each grid point the value V* of the explicit solution there (None outside all the regions). *)
Theorem C73_value_function np hull2 fuel C crs F V n :
  lnx (c_S C) = 2%nat -> (2 <= n)%nat -> get_feasible_set np fuel (c_mpqp C) = Ok F -> p_vertices F = Some V ->
  V <> [] -> Forall (fun v => length v = 2%nat) V -> ~ collinear V -> hull2_ok V (hull2 V) -> (forall a b, exists o, es_V crs [a; b] = Ok o) ->
  exists path xs ys Z, plot_optimal_value_function np hull2 fuel C (Some crs) n = ([Patch path; XLabel 1; YLabel 2; Contour xs ys Z], Ok tt) /\
    goes_around path (in_hull 2 V) /\ spans xs n (map (fun v => nth 0 v 0) V) /\ spans ys n (map (fun v => nth 1 v 0) V) /\ length Z = (n * n)%nat /\
    forall i j, (i < n)%nat -> (j < n)%nat -> es_V crs [nth i xs 0; nth j ys 0] = Ok (nth (j * n + i) Z None).
Proof. exact (plot_value np hull2 fuel C crs F V n). Qed.
Print Assumptions C73_value_function.

(** Two adjacent unit squares, the second with one active constraint, can be plotted by routines that meet the contracts. *)
Example C73_partition_example rnd :
  let np := np_vert rnd in exists hull2 path1 path2 a1 b1 a2 b2,
  Forall (fun cr => plottable np (cr_poly cr) /\ forall V, fst (get_vertices np (cr_poly cr)) = Ok (Some V) -> hull2_ok V (hull2 V)) two_squares /\
  plot_state_space_partition np hull2 C_box3 (Some two_squares) true =
    ([Patch path1; XLabel 1; YLabel 2; SetText a1 b1 []; Patch path2; XLabel 1; YLabel 2; SetText a2 b2 [1%nat]], Ok tt) /\
  goes_around path1 (in_poly (square_at 0)) /\ goes_around path2 (in_poly (square_at 1)).
Proof. exact (plot_partition_example rnd). Qed.

(** For the feasible set x in [-1, 1] x [3, 5], u in [0, 1], a ten by ten grid and routines that meet the contracts, the level sets are drawn over a polygon inside the feasible set. *)
Example C73_value_function_example :
  exists fuel hull2 V path xs ys Z, hull2_ok V (hull2 V) /\
  plot_optimal_value_function np_half hull2 fuel C_box3 (Some two_squares) 10 = ([Patch path; XLabel 1; YLabel 2; Contour xs ys Z], Ok tt) /\
  goes_around path (in_hull 2 V) /\ V <> [] /\ forall v, In v V -> exists x y, v = [x; y] /\ -1 <= x <= 1 /\ 3 <= y <= 5.
Proof. exact (plot_value_example). Qed.
