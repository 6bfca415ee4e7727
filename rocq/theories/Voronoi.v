(** * Voronoi: model of examples/pwa_from_urdf/utils.py:19-206 (Voronoi partitions, PWA approximation of a plant) *)
From Coq Require Import ZArith String.
From Verif Require Import Arr Spec Numpy Pnnls GeomUtils Polyhedron Dynamics.

(** np.isclose with the default tolerances *)
Definition isclose (a b : R) : bool := Rleb (Rabs (a - b)) (/ 100000000 + / 100000 * Rabs b).
Definition lmin (l : vec) : R := match l with [] => 0 | a :: l => fold_left Rmin l a end.
Definition lmax (l : vec) : R := match l with [] => 0 | a :: l => fold_left Rmax l a end.

(** lines 49-61 and 101-113: the halfplane of the points closer to [point] than to [tip]; the cell; np.vstack([]) raises ValueError *)
Definition bisector (point tip : vec) : vec * R :=
  let Ai := vsub tip point in
  let center := vadd point (vscale (/ 2) (vsub tip point)) in
  (Ai, dot Ai center).
Definition cell_of (point : vec) (tips : list vec) : res poly :=
  match tips with
  | [] => Err ValueError
  | _ =>
      let h := map (bisector point) tips in
      p <- Polyhedron (Mat (length point) (map fst h)) (D1 (map snd h)) None None ;;
      Ok (normalize tol7 p)
  end.

(** sorted(points) for arrays of size one (stable) *)
Fixpoint insert1 (p : vec) (l : list vec) : list vec :=
  match l with
  | [] => [p]
  | q :: l' => if Rltb (nth 0 q 0) (nth 0 p 0) then q :: insert1 p l' else p :: l
  end.
Definition sort1 (l : list vec) : list vec := fold_right insert1 [] l.

(** lines 66-116.  [points[i-1]] and [points[i+1]], if any *)
Definition neighbours (points : list vec) (i : nat) : list vec :=
  (if (0 <? i)%nat then [nth (i - 1) points []] else []) ++
  (if (i <? length points - 1)%nat then [nth (i + 1) points []] else []).
Definition voronoi_1d (points : list vec) : res (list poly) :=
  let points := sort1 points in
  mapM (fun i => cell_of (nth i points []) (neighbours points i)) (seq 0 (length points)).

Section Voronoi.
(** scipy.spatial.Voronoi(points).ridge_points *)
Variable ridges : list vec -> res (list (nat * nat)).

(** lines 19-64 *)
Definition ridge_tips (points : list vec) (rs : list (nat * nat)) (i : nat) : list vec :=
  map (fun r => nth (if Nat.eqb (fst r) i then snd r else fst r) points [])
      (filter (fun r => (Nat.eqb (fst r) i || Nat.eqb (snd r) i)%bool) rs).
Definition voronoi_nd (points : list vec) : res (list poly) :=
  mapM (fun i => rs <- ridges points ;; cell_of (nth i points []) (ridge_tips points rs i)) (seq 0 (length points)).

(** lines 118-157; the equalities of X are not used *)
Definition spread_indices (nx : nat) (points : list vec) : list nat :=
  filter (fun i => negb (isclose (lmin (map (fun p => nth i p 0) points)) (lmax (map (fun p => nth i p 0) points)))) (seq 0 nx).
Definition lower (indices : list nat) (p : vec) : vec := map (fun i => nth i p 0) indices.
Definition constrained_cell (nx : nat) (indices : list nat) (X : option poly) (cell : poly) : res poly :=
  run_on (Polyhedron (Mat nx []) (D1 []) None None)
    (add_inequality (pA cell) (D1 (pb cell)) (Some (map Z.of_nat indices)) ;!
     match X with Some X => add_inequality (pA X) (D1 (pb X)) None | None => pret tt end).
Definition constrained_voronoi (points : list vec) (X : option poly) : res (list poly) :=
  match points with
  | [] => Err ValueError
  | p0 :: _ =>
      let nx := length p0 in
      if negb (forallb (fun p => Nat.eqb (length p) nx) points) then Err AssertionError else
      let indices := spread_indices nx points in
      let lowered := map (lower indices) points in
      vor <- (if Nat.eqb (length indices) 1 then voronoi_1d lowered else voronoi_nd lowered) ;;
      mapM (constrained_cell nx indices X) vor
  end.

(** lines 159-206.  [taylor x] are A, B and f0 of the first-order Taylor approximation of the plant at x. *)
Definition pwa_from_plant (np : numpy) (taylor : vec -> mat * mat * vec) (points : list vec) (X U : poly) (h : R) (method : string) : res pwa :=
  cells <- constrained_voronoi points (Some X) ;;
  domains <- mapM (fun Xi => cartesian_product Xi U) cells ;;
  systems <- mapM (fun x => let '(A, B, f0) := taylor x in aff_from_continuous np A B (D1 f0) h method) points ;;
  PieceWiseAffineSystem (map Aff systems) domains.
End Voronoi.
