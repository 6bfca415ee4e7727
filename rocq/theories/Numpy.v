(** * Numpy: the external functions called by the code, and what is assumed of them.

    The code under verification calls numpy, scipy, Qhull and Gurobi.  These calls are the
    fields of the record [numpy]; the assumptions on a field are the predicates [.._ok] below, and they
    always appear as explicit hypotheses of the theorems that need them. *)
From Verif Require Import Arr Spec.

Record numpy : Type := Numpy {
  np_nnls : mat -> vec -> vec * R;        (* scipy.optimize.nnls(A, b) = (x, residual norm) *)
  np_pinv : mat -> mat;                   (* numpy.linalg.pinv *)
  np_chol : mat -> res mat;               (* numpy.linalg.cholesky *)
  np_inv : mat -> res mat;                (* numpy.linalg.inv *)
  np_solve : mat -> vec -> res vec;       (* numpy.linalg.solve(A, b), b one-dimensional *)
  np_rank : mat -> nat;                   (* numpy.linalg.matrix_rank *)
  np_svd_vt : mat -> mat;                 (* numpy.linalg.svd(A)[2] *)
  np_qr_r : mat -> mat;                   (* numpy.linalg.qr(A)[1] *)
  np_eig_max : mat -> R;                  (* np.max(np.absolute(np.linalg.eig(A)[0])) *)
  np_expm : mat -> mat;                   (* scipy.linalg.expm *)
  np_dare : mat -> mat -> mat -> mat -> mat; (* scipy.linalg.solve_discrete_are(A, B, Q, R) *)
  np_rand : nat -> nat -> vec;            (* k-th draw of numpy.random.rand(n), arguments k and n *)
  np_halfspaces : mat -> vec -> vec -> res (list vec);
     (* scipy HalfspaceIntersection([A, -b], interior_point).intersections *)
  np_hull : list vec -> res (mat * vec)   (* scipy ConvexHull(points): facets {x | a' x <= d} *)
}.

Section Assumptions.
Variable np : numpy.

(** nnls returns an exact solution of min |A y - b|, y >= 0, and the norm of its residual *)
Definition nnls_ok : Prop := forall A b m n, shape A m n -> length b = m ->
  let (y, r) := np_nnls np A b in
  length y = n /\ nonneg y /\ r = norm (vsub (mv A y) b) /\
  forall z, length z = n -> nonneg z -> norm (vsub (mv A y) b) <= norm (vsub (mv A z) b).

(** two of the Moore-Penrose equations: B B+ B = B, (B B+)' = B B+ *)
Definition pinv_ok : Prop := forall B m n, shape B m n ->
  shape (np_pinv np B) n m /\
  mm (mm B (np_pinv np B)) B = B /\
  tr (mm B (np_pinv np B)) = mm B (np_pinv np B).

(** cholesky returns a lower triangular L with positive diagonal and H = L L' if H is positive definite,
    and raises LinAlgError if a symmetric H is not. *)
Definition chol_ok : Prop := forall H n, shape H n n -> tr H = H ->
  (pd H n /\ exists L, np_chol np H = Ok L /\ shape L n n /\ mm L (tr L) = H /\
     (forall i j, (i < j < n)%nat -> nth j (row L i) 0 = 0) /\
     (forall i, (i < n)%nat -> 0 < nth i (row L i) 0)) \/
  (~ pd H n /\ np_chol np H = Err LinAlgError).

(** inv returns a two-sided inverse if the kernel is trivial, raises LinAlgError otherwise *)
Definition inv_ok : Prop := forall M n, shape M n n ->
  ((forall x, length x = n -> mv M x = zeros n -> x = zeros n) /\
   exists X, np_inv np M = Ok X /\ shape X n n /\ mm M X = eye n /\ mm X M = eye n) \/
  ((exists x, length x = n /\ x <> zeros n /\ mv M x = zeros n) /\ np_inv np M = Err LinAlgError).

(** solve: same, for one right-hand side *)
Definition solve_ok : Prop := forall M b n, shape M n n -> length b = n ->
  (exists x, np_solve np M b = Ok x /\ length x = n /\ mv M x = b /\
     forall z, length z = n -> mv M z = zeros n -> z = zeros n) \/
  ((exists x, length x = n /\ x <> zeros n /\ mv M x = zeros n) /\ np_solve np M b = Err LinAlgError).

(** the part of the singular value decomposition that the code relies on: the rows of V' are an
    orthonormal basis of R^n, those of index >= rank are in the kernel of A, and the
    others are orthogonal to it. *)
Definition svd_ok : Prop := forall A m n, shape A m n ->
  shape (np_svd_vt np A) n n /\
  mm (np_svd_vt np A) (tr (np_svd_vt np A)) = eye n /\
  mm (tr (np_svd_vt np A)) (np_svd_vt np A) = eye n /\
  (np_rank np A <= n)%nat /\ (np_rank np A <= m)%nat /\
  (forall k, (np_rank np A <= k < n)%nat -> mv A (row (np_svd_vt np A) k) = zeros m) /\
  (forall x, length x = n -> mv A x = zeros m ->
     forall k, (k < np_rank np A)%nat -> dot (row (np_svd_vt np A) k) x = 0).
(** qr(M)[1] in the reduced mode, for one n x m matrix M = Q R: Q has orthonormal columns, R is upper triangular *)
Definition qr_ok (M : mat) (n m : nat) : Prop := exists Q, let k := Nat.min n m in let Rm := np_qr_r np M in
  shape Q n k /\ mm (tr Q) Q = eye k /\ shape Rm k m /\ mm Q Rm = M /\
  forall i j, (j < i < k)%nat -> nth j (row Rm i) 0 = 0.

(** the first six of the above *)
Definition exact_np : Prop := nnls_ok /\ pinv_ok /\ chol_ok /\ inv_ok /\ solve_ok /\ svd_ok.
(** ConvexHull, when it does not raise: the facets have unit normals, each contains a point, and they describe the
    convex hull of the points *)
Definition hull_ok : Prop := forall pts n E f, Forall (fun p => length p = n) pts -> np_hull np pts = Ok (E, f) ->
  (exists m, shape E m n /\ length f = m) /\ Forall (fun a => norm a = 1) (rows E) /\
  Forall2 (fun a d => exists p, In p pts /\ dot a p = d) (rows E) f /\
  forall x, length x = n -> (ineq_holds E f x <-> in_hull n pts x).
(** ConvexHull raises nothing but QhullError, and only if the points are on one hyperplane (qhull needs two dimensions) *)
Definition hull_total : Prop := forall pts n, Forall (fun p => length p = n) pts -> (2 <= n)%nat ->
  (exists E f, np_hull np pts = Ok (E, f)) \/
  (np_hull np pts = Err QhullError /\ exists a d, length a = n /\ a <> zeros n /\ Forall (fun p => dot a p = d) pts).
(** random.rand(n) has n entries *)
Definition rand_ok : Prop := forall k n, length (np_rand np k n) = n.
End Assumptions.
