(** * GeomUtils: model of pympc/geometry/utils.py *)
From Verif Require Import Arr Spec Numpy.

(** geometry/utils.py:4-26.  [V = svd(A)[2].T; Z = V[:, rank:]] *)
Definition nullspace_basis (np : numpy) (A : mat) : mat :=
  cols_from (tr (np_svd_vt np A)) (np_rank np A).

(** geometry/utils.py:28-52.  QR of A', indices of the diagonal entries of R above tol. *)
Definition diag (M : mat) : vec :=
  map (fun i => nth i (row M i) 0) (seq 0 (Nat.min (nrows M) (ncols M))).
Definition linearly_independent_rows (np : numpy) (tol : R) (A : mat) : list nat :=
  where_ (fun r => Rltb tol (Rabs r)) (diag (np_qr_r np (tr A))).

(** geometry/utils.py:54-92, with the random offset as an argument.  np.linalg.solve raises LinAlgError
    if the matrix is not square.  Simplification: points of different lengths raise ValueError here (numpy
    broadcasts those of length one). *)
Definition plane_through_points (np : numpy) (offset : vec) (points : list vec) : res (vec * R) :=
  match points with
  | [] => Err IndexError
  | p0 :: _ =>
      if negb (forallb (fun p => Nat.eqb (length p) (length p0)) points) then Err ValueError else
      let pts := map (fun p => vadd p offset) points in
      if negb (Nat.eqb (length points) (length p0)) then Err LinAlgError else
      a <- np_solve np (Mat (length p0) pts) (ones (length p0)) ;;
      let d := 1 - dot a offset in
      let a_norm := norm a in
      let d_sign := if Rltb d 0 then -1 else 1 in   (* np.sign, with 0 replaced by 1 *)
      Ok (vscale (/ (a_norm * d_sign)) a, d / (a_norm * d_sign))
  end.

(** np.allclose(a, b) for one-dimensional arrays, with the default rtol=1.e-5, atol=1.e-8; an array of
    length one is broadcast against the other *)
Definition bcast (v : vec) (k : nat) : vec := match v with [x] => repeat x k | _ => v end.
Definition allclose (a b : vec) : bool :=
  forallb (fun ab => Rleb (Rabs (fst ab - snd ab)) (/ 100000000 + / 100000 * Rabs (snd ab)))
    (combine (bcast a (length b)) (bcast b (length a))).

(** geometry/utils.py:118-122: division of a row by its norm.  The division of a nonempty row of norm
    zero gives a row of nan, which is [None] here. *)
Definition normalize_row (r : vec) : option vec :=
  if (Reqb (norm r) 0 && negb (Nat.eqb (length r) 0))%bool then None else Some (vscale (/ norm r) r).

(** np.allclose on rows that may be nan: nan is close to nothing *)
Definition allclose_nan (a b : option vec) : bool :=
  match a, b with Some a, Some b => allclose a b | _, _ => false end.

(** np.delete(B, i, 0) for a single index *)
Definition delete_nth {A} (i : nat) (l : list A) : list A := firstn i l ++ skipn (S i) l.

(** geometry/utils.py:124-131 *)
Fixpoint match_rows {T} (close : T -> T -> bool) (A B : list T) : bool :=
  match A with
  | [] => true
  | a :: A' => match where_ (fun b => close a b) B with
               | [i] => match_rows close A' (delete_nth i B)
               | _ => false
               end
  end.

(** geometry/utils.py:94-131.  The returned value; the in-place normalization of the two arguments
    (lines 120-122) is modelled in Heap.v.  Comparing rows of lengths that cannot be broadcast raises
    ValueError; comparing with empty rows is always True. *)
Definition same_rows (A B : mat) (normalize : bool) : res bool :=
  if negb (Nat.eqb (nrows A) (nrows B)) then Ok false
  else if Nat.eqb (nrows A) 0 then Ok true
  else if negb (Nat.eqb (ncols A) (ncols B) || Nat.eqb (ncols A) 1 || Nat.eqb (ncols B) 1) then Err ValueError
  else
    let nz r := if normalize then normalize_row r else Some r in
    let close := if (Nat.eqb (ncols A) 0 || Nat.eqb (ncols B) 0)%bool then (fun _ _ => true) else allclose_nan in
    Ok (match_rows close (map nz (rows A)) (map nz (rows B))).

(** geometry/utils.py:133-159; np.vstack([]) raises ValueError *)
Definition same_vectors (v_list u_list : list nd) : res bool :=
  let is1 a := match a with D1 _ => true | _ => false end in
  if forallb is1 v_list && forallb is1 u_list then
    let get a := match a with D1 v => v | D2 _ => [] end in
    match v_list, u_list with
    | D1 v0 :: _, D1 u0 :: _ =>
        let V := map get v_list in
        let U := map get u_list in
        if forallb (fun v => Nat.eqb (length v) (length v0)) V && forallb (fun u => Nat.eqb (length u) (length u0)) U
        then same_rows (Mat (length v0) V) (Mat (length u0) U) false
        else Err ValueError
    | _, _ => Err ValueError
    end
  else Err ValueError.
