(** * PropsGeom: the property theorems of this part, restated; proofs are in GeomThms.
    Generated by tools/gen_props.py: this file contains only statements, [exact] and Print Assumptions. *)
From Coq Require Import Permutation Sorted Classical.
From Verif Require Import Arr ArrFacts Spec SpecGeom Numpy PnnlsFacts QpFacts GeomUtils Polyhedron Oracle NullFacts.
From Verif Require Import GeomThms.

(** for every random offset, plane_through_points returns a plane through all the points with unit normal and nonnegative right-hand side, or raises LinAlgError *)
Theorem C51_plane np offset points n :
  solve_ok np -> length points = n -> (1 <= n)%nat -> Forall (fun p => length p = n) points -> length offset = n ->
  (exists a d, plane_through_points np offset points = Ok (a, d) /\
     length a = n /\ Forall (fun p => dot a p = d) points /\ norm a = 1 /\ 0 <= d) \/
  plane_through_points np offset points = Err LinAlgError.
Proof. exact (plane_through_points_ok np offset points n). Qed.
Print Assumptions C51_plane.

(** if the points lie on exactly one hyperplane, the function returns it for exactly the offsets that move it away from the origin *)
Theorem C51_unique np offset points n a0 d0 :
  solve_ok np -> length points = n -> (1 <= n)%nat -> Forall (fun p => length p = n) points -> length offset = n ->
  length a0 = n -> norm a0 = 1 -> Forall (fun p => dot a0 p = d0) points ->
  (forall a d, length a = n -> Forall (fun p => dot a p = d) points -> exists k, a = vscale k a0) ->
  (d0 + dot a0 offset <> 0 /\ exists s, (s = 1 \/ s = -1) /\ 0 <= s * d0 /\
     plane_through_points np offset points = Ok (vscale s a0, s * d0)) \/
  (d0 + dot a0 offset = 0 /\ plane_through_points np offset points = Err LinAlgError).
Proof. exact (plane_unique np offset points n a0 d0). Qed.
Print Assumptions C51_unique.

(** the line through (1,2) and (3,4) *)
Example C51_example np :
  solve_ok np -> exists a d, plane_through_points np [0; 0] pts2 = Ok (a, d) /\ nth 0 a 0 = - nth 1 a 0 /\ 0 < d.
Proof. exact (plane_example np). Qed.

(** same_rows returns True iff the rows can be matched one-to-one in such a way that no row of A is close to the partner of a later row; what is missing for the property is that this last condition be dropped, see C52_duplicates_refuted *)
Theorem C52_same_rows_partial A B m n nz :
  shape A m n -> shape B m n -> (1 <= n)%nat ->
  exists b, same_rows A B nz = Ok b /\
  (b = true <-> matched_in_order [] (row_close nz) (rows A) (rows B)).
Proof. exact (same_rows_iff A B m n nz). Qed.
Print Assumptions C52_same_rows_partial.

(** if same_rows returns True then the rows can be matched one-to-one *)
Theorem C52_sound A B m n nz :
  shape A m n -> shape B m n -> (1 <= n)%nat ->
  same_rows A B nz = Ok true -> matched (row_close nz) (rows A) (rows B).
Proof. exact (same_rows_sound A B m n nz). Qed.
Print Assumptions C52_sound.

(** if no two rows of B (at different positions) are close to the same row of A, same_rows returns True exactly when the rows can be matched one-to-one *)
Theorem C52_distinct A B m n nz :
  shape A m n -> shape B m n -> (1 <= n)%nat ->
  (forall a i j, In a (rows A) -> (i < m)%nat -> (j < m)%nat -> row_close nz a (row B i) -> row_close nz a (row B j) -> i = j) ->
  exists b, same_rows A B nz = Ok b /\ (b = true <-> matched (row_close nz) (rows A) (rows B)).
Proof. exact (same_rows_distinct A B m n nz). Qed.
Print Assumptions C52_distinct.

(** the literal property fails: a matrix with two equal rows is reported different from itself *)
Theorem C52_duplicates_refuted :
  exists A, matched close (rows A) (rows A) /\ same_rows A A false = Ok false.
Proof. exact (same_rows_duplicates). Qed.
Print Assumptions C52_duplicates_refuted.

(** with normalize, a matrix with a zero row is reported different from itself *)
Theorem C52_zero_row_refuted :
  same_rows (Mat 2 [[0; 0]]) (Mat 2 [[0; 0]]) true = Ok false.
Proof. exact (same_rows_zero_row). Qed.
Print Assumptions C52_zero_row_refuted.

(** same_vectors on nonempty lists of vectors of one length, in the same sense; lists of different lengths give False *)
Theorem C52_same_vectors_partial (vs us : list vec) n :
  Forall (fun v => length v = n) vs -> Forall (fun v => length v = n) us -> (1 <= n)%nat ->
  vs <> [] -> us <> [] ->
  exists b, same_vectors (map D1 vs) (map D1 us) = Ok b /\ (b = true <-> matched_in_order [] close vs us).
Proof. exact (same_vectors_iff vs us n). Qed.
Print Assumptions C52_same_vectors_partial.

(** arrays that are not one-dimensional are rejected *)
Theorem C52_same_vectors_raises vs us M :
  In (D2 M) vs \/ In (D2 M) us -> same_vectors vs us = Err ValueError.
Proof. exact (same_vectors_2d vs us M). Qed.
Print Assumptions C52_same_vectors_raises.

(** two orders of the same two directions *)
Example C52_example :
  matched (row_close true) [[2; 0]; [0; 3]] [[0; 1]; [1; 0]].
Proof. exact (same_rows_example). Qed.

(** the returned indices are indices of linearly independent rows *)
Theorem C53_independent np tol A m n :
  shape A m n -> qr_ok np (tr A) n m -> 0 <= tol ->
  Forall (fun i => (i < m)%nat) (linearly_independent_rows np tol A) /\ indep_at A n (linearly_independent_rows np tol A).
Proof. exact (lir_indep np tol A m n). Qed.
Print Assumptions C53_independent.

(** all the rows are returned exactly when each of them is farther than tol from the span of the previous ones.  What is missing for the property: when some row depends on the previous ones, fewer indices than the rank may be returned (C53_rank_refuted) *)
Theorem C53_complete_partial np tol A m n :
  shape A m n -> qr_ok np (tr A) n m -> 0 <= tol -> (m <= n)%nat ->
  linearly_independent_rows np tol A = seq 0 m <-> (forall i, (i < m)%nat -> far_from_previous A n tol i).
Proof. exact (lir_complete np tol A m n). Qed.
Print Assumptions C53_complete_partial.

(** the number of indices may be smaller than the rank: for the rows (0), (1) nothing is returned although the second row is independent *)
Theorem C53_rank_refuted np tol :
  0 <= tol -> qr_ok np (tr (Mat 1 [[0]; [1]])) 1 2 ->
  linearly_independent_rows np tol (Mat 1 [[0]; [1]]) = [] /\ indep_at (Mat 1 [[0]; [1]]) 1 [1%nat].
Proof. exact (lir_rank_refuted np tol). Qed.
Print Assumptions C53_rank_refuted.

(** a row of norm 1e-7 is independent but is not returned with the default tolerance 1e-6 *)
Theorem C53_tolerance_refuted np :
  qr_ok np (tr (Mat 1 [[/ 10000000]])) 1 1 ->
  linearly_independent_rows np (/ 1000000) (Mat 1 [[/ 10000000]]) <> [0%nat] /\ indep_at (Mat 1 [[/ 10000000]]) 1 [0%nat].
Proof. exact (lir_tol_refuted np). Qed.
Print Assumptions C53_tolerance_refuted.

(** the contract of qr holds of the factorizations Q = 1 of these matrices, and both rows of (2,0), (1,3) are returned *)
Example C53_example np :
  qr_ok (np_qr np (tr (Mat 1 [[0]; [1]]))) (tr (Mat 1 [[0]; [1]])) 1 2 /\
  qr_ok (np_qr np (tr A_tri)) (tr A_tri) 2 2 /\ linearly_independent_rows (np_qr np (tr A_tri)) (/ 1000000) A_tri = [0%nat; 1%nat].
Proof. exact (lir_example np). Qed.
