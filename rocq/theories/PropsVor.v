(** * PropsVor: the property theorems of this part, restated; proofs are in VorThms.
    Generated by tools/gen_props.py: this file contains only statements, [exact] and Print Assumptions. *)
From Coq Require Import ZArith String Lra Lia Permutation Sorted.
From Verif Require Import Arr ArrFacts Spec SpecGeom Numpy Pnnls GeomUtils Polyhedron PolyThms PolyMore PolySolveThms Dynamics DynThms GeomThms Voronoi SolverThms.
From Verif Require Import VorThms.
Local Open Scope list_scope.

(** distinct points that differ in one coordinate k only (by more than the tolerance of isclose between the extremes), X a polyhedron without equalities or None: constrained_voronoi returns one cell per point, and each cell contains exactly the points of X that are closest to its generator; the generators of the cells are the given points in increasing order of coordinate k, hence in the given order if this was increasing.
   Missing: the given order (see C56_order_refuted), equalities of X and small spreads (see the refutations). *)
Theorem C56_one_dimension_partial ridges points X n k :
  (2 <= length points)%nat -> Forall (fun p => length p = n) points -> NoDup points -> (k < n)%nat ->
  spread points k -> (forall i, (i < n)%nat -> i <> k -> agree points i) -> (forall P, X = Some P -> exists mx, wf P mx 0 n) ->
  exists qs cells, constrained_voronoi ridges points X = Ok cells /\ Permutation qs points /\
    (forall i j, (i < j < length qs)%nat -> nth k (nth i qs []) 0 < nth k (nth j qs []) 0) /\
    Forall2 (is_cell n points X) qs cells /\
    ((forall i j, (i < j < length points)%nat -> nth k (nth i points []) 0 < nth k (nth j points []) 0) -> qs = points).
Proof. exact (vor_1d ridges points X n k). Qed.
Print Assumptions C56_one_dimension_partial.

(** distinct points that differ in several coordinates (in each coordinate they agree or differ by more than the tolerance of isclose), X without equalities or None, ridges computed by a Voronoi routine meeting its contract: if constrained_voronoi returns, cell i contains exactly the points of X closest to points[i] *)
Theorem C56_many_dimensions ridges points X n cells :
  ridges_ok ridges -> (2 <= length points)%nat -> Forall (fun p => length p = n) points -> NoDup points ->
  (forall i, (i < n)%nat -> agree points i \/ spread points i) ->
  (exists i j, (i < j < n)%nat /\ spread points i /\ spread points j) -> (forall P, X = Some P -> exists mx, wf P mx 0 n) ->
  constrained_voronoi ridges points X = Ok cells -> Forall2 (is_cell n points X) points cells.
Proof. exact (vor_nd ridges points X n cells). Qed.
Print Assumptions C56_many_dimensions.

(** cells that contain exactly the points of X closest to their generators (as in the two theorems above) cover X *)
Theorem C56_cover n points X qs cells x :
  points <> [] -> Permutation qs points -> Forall2 (is_cell n points X) qs cells -> length x = n -> in_X X x -> exists c, In c cells /\ in_poly c x.
Proof. exact (vor_cover n points X qs cells x). Qed.
Print Assumptions C56_cover.

(** linearization points that differ in one coordinate, listed in increasing order: in the PWA system returned by pwa_from_RigidBodyPlant, mode i is the discretized linearization at point i, on the product of the states of X closest to point i and of U.
   Missing: points in another order (see C56_plant_refuted) *)
Theorem C56_plant_one_dimension_partial ridges np taylor points X U h method n k mx mu meu nu W :
  (2 <= length points)%nat -> Forall (fun p => length p = n) points -> (k < n)%nat ->
  spread points k -> (forall i, (i < n)%nat -> i <> k -> agree points i) -> wf X mx 0 n -> wf U mu meu nu ->
  (forall i j, (i < j < length points)%nat -> nth k (nth i points []) 0 < nth k (nth j points []) 0) ->
  pwa_from_plant ridges np taylor points X U h method = Ok W ->
  Forall2 (fun p S => let '(A, B, f0) := taylor p in aff_from_continuous np A B (D1 f0) h method = Ok S) points (w_sys W) /\
  Forall2 (fun p D => forall x u, length x = n -> in_poly D (x ++ u) <-> in_poly X x /\ closest p points x /\ in_poly U u) points (w_dom W).
Proof. exact (plant_1d ridges np taylor points X U h method n k mx mu meu nu W). Qed.
Print Assumptions C56_plant_one_dimension_partial.

(** the same for points that differ in several coordinates, in any order, for a Voronoi routine meeting its contract *)
Theorem C56_plant_many_dimensions ridges np taylor points X U h method n mx mu meu nu W :
  ridges_ok ridges -> (2 <= length points)%nat -> Forall (fun p => length p = n) points -> NoDup points ->
  (forall i, (i < n)%nat -> agree points i \/ spread points i) -> (exists i j, (i < j < n)%nat /\ spread points i /\ spread points j) -> wf X mx 0 n -> wf U mu meu nu ->
  pwa_from_plant ridges np taylor points X U h method = Ok W ->
  Forall2 (fun p S => let '(A, B, f0) := taylor p in aff_from_continuous np A B (D1 f0) h method = Ok S) points (w_sys W) /\
  Forall2 (fun p D => forall x u, length x = n -> in_poly D (x ++ u) <-> in_poly X x /\ closest p points x /\ in_poly U u) points (w_dom W).
Proof. exact (plant_nd ridges np taylor points X U h method n mx mu meu nu W). Qed.
Print Assumptions C56_plant_many_dimensions.

(** the cells of constrained_voronoi are not in the order of the points: for the points 1 and 0 the first cell contains -3, which is not closest to the point 1 *)
Theorem C56_order_refuted ridges :
  exists points cells, Forall (fun p => length p = 1%nat) points /\ NoDup points /\
  constrained_voronoi ridges points (Some (seg (-5) 5)) = Ok cells /\ exists x, in_poly (nth 0 cells (seg 0 0)) x /\ ~ closest (nth 0 points []) points x.
Proof. exact (vor_order_refuted ridges). Qed.
Print Assumptions C56_order_refuted.

(** the equalities of X are ignored: with X = {2} a cell contains -3 *)
Theorem C56_equalities_refuted ridges :
  let X := Poly (Mat 1 [[-1]; [1]]) [5; 5] (Mat 1 [[1]]) [2] None None None None None in
  exists cells c x, wf X 2 1 1 /\ constrained_voronoi ridges [[1]; [0]] (Some X) = Ok cells /\ In c cells /\ in_poly c x /\ ~ in_poly X x.
Proof. exact (vor_equalities_refuted ridges). Qed.
Print Assumptions C56_equalities_refuted.

(** a coordinate with a small relative spread is dropped: for the points (0,1000) and (1,1000.009), the cell of the second contains (0.9,900), which is closer to the first *)
Theorem C56_isclose_refuted ridges :
  let p := [0; 1000] in let q := [1; 1000 + 9 / 1000] in let x := [9 / 10; 900] in
  exists c1 c2, constrained_voronoi ridges [p; q] None = Ok [c1; c2] /\ in_poly c2 x /\ norm (vsub x p) < norm (vsub x q).
Proof. exact (vor_isclose_refuted ridges). Qed.
Print Assumptions C56_isclose_refuted.

(** for the linearization points 1 and 0 (dynamics x' = x_i x + u at x_i) the state -3 belongs to the domain of mode 0 only, although it is closer to the second point, and mode 0 has the dynamics of the first point *)
Theorem C56_plant_refuted ridges :
  exists W, pwa_from_plant ridges np0 taylor1 [[1]; [0]] (seg (-5) 5) (seg (-1) 1) 1 "explicit_euler" = Ok W /\
  in_poly (nth 0 (w_dom W) (seg 0 0)) [-3; 0] /\ ~ in_poly (nth 1 (w_dom W) (seg 0 0)) [-3; 0] /\ aA (nth 0 (w_sys W) (ASys (Mat 0 []) (Mat 0 []) [])) = Mat 1 [[1 + 1]] /\
  norm (vsub [-3] [0]) < norm (vsub [-3] [1]).
Proof. exact (plant_refuted ridges). Qed.
Print Assumptions C56_plant_refuted.

(** the points (0,3), (1,3), (4,3) with a box: the hypotheses of C56_one_dimension_partial hold; the first two of these and (0,5): those of C56_many_dimensions with all the pairs as ridges; the points 0 and 1: pwa_from_RigidBodyPlant returns a system *)
Example C56_example :
  let points := [[0; 3]; [1; 3]; [4; 3]] in let X := Poly (Mat 2 [[1; 0]; [-1; 0]; [0; 1]; [0; -1]]) [5; 5; 5; 5] (Mat 2 []) [] None None None None None in
  let all := fun points : list vec => Ok (filter (fun r => negb (Nat.eqb (fst r) (snd r))) (list_prod (seq 0 (length points)) (seq 0 (length points)))) in
  let three := [[0; 3]; [1; 3]; [0; 5]] in
  (NoDup points /\ spread points 0 /\ agree points 1 /\ wf X 4 0 2) /\
  (ridges_ok all /\ NoDup three /\ spread three 0 /\ spread three 1 /\ exists cells, constrained_voronoi all three (Some X) = Ok cells) /\
  (spread [[0]; [1]] 0 /\ exists W, pwa_from_plant all np0 taylor1 [[0]; [1]] (seg (-5) 5) (seg (-1) 1) 1 "explicit_euler" = Ok W).
Proof. exact (vor_example). Qed.
