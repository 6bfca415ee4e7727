(** * Projection: model of polyhedron.py:826-877 and 941-1131 (orthogonal projection, convex hull of points) and of
    parametric_programs.py:243-260 (feasible set)

    Indices of dimensions are nonnegative.  A ConvexHull object is the list of its points; its equations are those that
    [np_hull] returns for them. *)
From Verif Require Import Arr Spec Numpy Pnnls GeomUtils Polyhedron Mpqp.

Section Projection.
Variable np : numpy.

(** sol['argmin'][:n]; None[:n] raises TypeError *)
Definition argmin_to (s : sol) (n : nat) : res vec :=
  match s_argmin s with Some x => Ok (firstn n x) | None => Err TypeError end.

(** polyhedron.py:1002-1034; np.zeros(-1) raises ValueError *)
Definition get_two_vertices (A : mat) (b : vec) (n : nat) : res (list vec) :=
  if Nat.eqb (ncols A) 0 then Err ValueError else
  let a := 1 :: zeros (ncols A - 1) in
  mapM (fun f => s <- lp np f A b None None ;; argmin_to s n) [a; vneg a].

(** polyhedron.py:1036-1076; the random offset of iteration i is [np_rand np i i] *)
Fixpoint inner_simplex_loop (A : mat) (b : vec) (n : nat) (is : list nat) (vertices : list vec) : res (list vec) :=
  match is with
  | [] => Ok vertices
  | i :: is' =>
      ad <- plane_through_points np (np_rand np i i) (map (firstn i) vertices) ;;
      let '(a, d) := ad in
      let f := a ++ zeros (ncols A - i) in
      s <- lp np f A b None None ;;
      x <- argmin_to s i ;;
      let expansion := Rabs (dot a x - d) in
      s' <- (if Rltb expansion tol7 then lp np (vneg f) A b None None else Ok s) ;;
      v <- argmin_to s' n ;;
      inner_simplex_loop A b n is' (vertices ++ [v])
  end.
Definition get_inner_simplex (A : mat) (b : vec) (n : nat) (vertices : list vec) : res (list vec) :=
  inner_simplex_loop A b n (seq 2 (n - 1)) vertices.

(** polyhedron.py:1107-1128: one execution of the for loop over the facets.  Returned: the array b (line 1115
    divides it in place), the directions explored, the normals (line 1114 divides them in place), and the point added
    before the break, if any. *)
Fixpoint expand_scan (A : mat) (n : nat) (facets : list (vec * R)) (b : vec) (explored : list vec) :
  res (vec * list vec * list vec * option vec) :=
  match facets with
  | [] => Ok (b, explored, [], None)
  | (a, d) :: facets' =>
      let a_norm := norm a in
      let a := vscale (/ a_norm) a in
      let b := vscale (/ a_norm) b in
      let continue explored :=
        r <- expand_scan A n facets' b explored ;;
        let '(b', ex', normals, v) := r in Ok (b', ex', a :: normals, v) in
      if existsb (fun a2 => allclose a a2) explored then continue explored
      else
        let explored := explored ++ [a] in
        let f := vneg a ++ zeros (ncols A - n) in
        s <- lp np f A b None None ;;
        match s_min s with
        | None => Err TypeError
        | Some mn =>
            let expansion := - mn - d in
            if Rltb tol7 expansion then
              v <- argmin_to s n ;; Ok (b, explored, a :: map fst facets', Some v)
            else continue explored
        end
  end.
(** polyhedron.py:1078-1131: the while loop, with at most [fuel] iterations.  Returned: the equations and the points of
    the hull. *)
Fixpoint expand_simplex (fuel : nat) (A : mat) (n : nat) (b : vec) (explored : list vec) (points : list vec) :
  res (mat * vec * list vec) :=
  match fuel with
  | O => Err OutOfFuel
  | S fuel' =>
      Ef <- np_hull np points ;;
      let '(E, f) := Ef in
      r <- expand_scan A n (combine (rows E) f) b explored ;;
      let '(b', explored', normals, v) := r in
      match v with
      | None => Ok (Mat (ncols E) normals, f, points)
      | Some v => expand_simplex fuel' A n b' explored' (points ++ [v])
      end
  end.

(** polyhedron.py:941-1000 *)
Definition dropped_dimensions (N : nat) (dims : list nat) : list nat :=
  filter (fun i => negb (existsb (Nat.eqb i) dims)) (seq 0 N).
Definition reorder (A : mat) (dims : list nat) : mat :=
  hstack (ctake A dims) (ctake A (dropped_dimensions (ncols A) dims)).
Definition convex_hull_method (fuel : nat) (A : mat) (b : vec) (dims : list nat) : res (mat * vec * list vec) :=
  if negb (forallb (fun i => Nat.ltb i (ncols A)) dims) then Err IndexError else
  let n := length dims in
  let A := reorder A dims in
  vertices <- get_two_vertices A b n ;;
  if Nat.eqb n 1 then
    mx <- vmax (map (fun v => nth 0 v 0) vertices) ;;
    mn <- vmax (map (fun v => - nth 0 v 0) vertices) ;;
    Ok (Mat 1 [[1]; [-1]], [mx; mn], vertices)
  else
    vertices <- get_inner_simplex A b n vertices ;;
    expand_simplex fuel A n b [] vertices.

(** polyhedron.py:826-854.  Line 1115 divides the array self.b in place; this effect on the polyhedron being projected
    is dropped here ([np_hull] returns unit normals, so the division is by one). *)
Definition project_to (fuel : nat) (dims : list nat) : pm poly :=
  let! e := get_empty np in
  if e : bool then praise ValueError else
  let! bd := get_bounded np in
  if negb bd then praise ValueError else
  let! p := pget in
  if (0 <? nrows (pC p))%nat then praise ValueError else
  let! r := plift (convex_hull_method fuel (pA p) (pb p) dims) in
  let '(E, f, vertices) := r in
  let! q := plift (Polyhedron E (D1 f) None None) in
  pret (set_vertices q (Some vertices)).

(** polyhedron.py:856-877 *)
Definition from_convex_hull (points : list vec) : res poly :=
  match points with
  | [] => Err ValueError
  | _ => Ef <- np_hull np points ;; Polyhedron (fst Ef) (D1 (snd Ef)) None None
  end.

(** parametric_programs.py:243-260 *)
Definition get_feasible_set (fuel : nat) (q : mpqp) : res poly :=
  C <- Polyhedron (hstack (q_Ax q) (q_Au q)) (D1 (q_b q)) None None ;;
  fst (project_to fuel (seq 0 (ncols (q_Ax q))) C).
End Projection.
