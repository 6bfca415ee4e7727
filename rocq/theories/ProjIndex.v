(** * ProjIndex: Polyhedron.project_to with arbitrary integers as residual dimensions (polyhedron.py:826-854, 941-1000)

    As Projection.v, but the residual dimensions are Python integers, which may be negative or repeated. *)
From Coq Require Import ZArith.
From Verif Require Import Arr Spec Numpy Pnnls GeomUtils Polyhedron Projection.

(** numpy: the column that the index z selects among N (A[:, [z]], line 972) *)
Definition column (N : nat) (z : Z) : res nat :=
  if (z <? 0)%Z then if (z + Z.of_nat N <? 0)%Z then Err IndexError else Ok (Z.to_nat (z + Z.of_nat N))
  else if (z <? Z.of_nat N)%Z then Ok (Z.to_nat z) else Err IndexError.
(** line 970: [i not in residual_dimensions] compares integers, so a negative index drops nothing *)
Definition dropped_z (N : nat) (dims : list Z) : list nat :=
  filter (fun i => negb (existsb (Z.eqb (Z.of_nat i)) dims)) (seq 0 N).

Section ProjIndex.
Variable np : numpy.

(** lines 941-1000 *)
Definition convex_hull_method_z (fuel : nat) (A : mat) (b : vec) (dims : list Z) : res (mat * vec * list vec) :=
  let n := length dims in
  cols <- mapM (column (ncols A)) dims ;;
  let A := hstack (ctake A cols) (ctake A (dropped_z (ncols A) dims)) in
  vertices <- get_two_vertices np A b n ;;
  if Nat.eqb n 1 then
    mx <- vmax (map (fun v => nth 0 v 0) vertices) ;;
    mn <- vmax (map (fun v => - nth 0 v 0) vertices) ;;
    Ok (Mat 1 [[1]; [-1]], [mx; mn], vertices)
  else
    vertices <- get_inner_simplex np A b n vertices ;;
    expand_simplex np fuel A n b [] vertices.

(** lines 826-854 *)
Definition project_to_z (fuel : nat) (dims : list Z) : pm poly :=
  let! e := get_empty np in
  if e : bool then praise ValueError else
  let! bd := get_bounded np in
  if negb bd then praise ValueError else
  let! p := pget in
  if (0 <? nrows (pC p))%nat then praise ValueError else
  let! r := plift (convex_hull_method_z fuel (pA p) (pb p) dims) in
  let '(E, f, vertices) := r in
  let! q := plift (Polyhedron E (D1 f) None None) in
  pret (set_vertices q (Some vertices)).
End ProjIndex.
