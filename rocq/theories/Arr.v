(** * Arr: numpy arrays, numpy operations and Python exceptions.

    One-dimensional arrays are lists of (exact) real numbers, two-dimensional
    arrays are a number of columns plus a list of rows, so that an array of shape
    [(0, n)] still knows [n], as in numpy.  Operations are total: on operands of
    incoherent shape (where numpy raises) they truncate, and every theorem that
    uses them either carries shape hypotheses or goes through one of the checked
    operations [np_...] below, which raise as numpy does. *)
From Coq Require Export Reals List Arith Lia Lra Bool.
Export ListNotations.
Open Scope R_scope.

(** ** Python results: a value or an exception *)
Inductive err : Type :=
| ValueError      (* raise ValueError(...), also numpy shape errors *)
| TypeError       (* e.g. - None *)
| IndexError
| KeyError
| NameError
| AttributeError
| AssertionError
| LinAlgError     (* numpy.linalg.LinAlgError *)
| QhullError     (* scipy.spatial: degenerate input *)
| OutOfFuel.      (* model artefact: the loop did not end within the given number of iterations *)

Inductive res (A : Type) : Type := Ok (a : A) | Err (e : err).
Arguments Ok {A} a.
Arguments Err {A} e.

Definition bind {A B} (r : res A) (k : A -> res B) : res B :=
  match r with Ok a => k a | Err e => Err e end.
Notation "x <- e1 ;; e2" := (bind e1 (fun x => e2))
  (at level 61, e1 at next level, right associativity).

(** Python loops that may raise: [for a in l: ...] collecting the results *)
Fixpoint mapM {A B} (f : A -> res B) (l : list A) : res (list B) :=
  match l with
  | [] => Ok []
  | a :: l' => b <- f a ;; bs <- mapM f l' ;; Ok (b :: bs)
  end.

(** ** Comparisons, as booleans *)
Definition Rleb (a b : R) : bool := if Rle_dec a b then true else false.
Definition Rltb (a b : R) : bool := if Rlt_dec a b then true else false.
Definition Reqb (a b : R) : bool := if Req_EM_T a b then true else false.

(** ** One-dimensional arrays *)
Notation vec := (list R).

Fixpoint map2 {A B C} (f : A -> B -> C) (u : list A) (v : list B) : list C :=
  match u, v with
  | a :: u', b :: v' => f a b :: map2 f u' v'
  | _, _ => []
  end.

(** numpy [u.dot(v)] for 1-d arrays *)
Fixpoint dot (u v : vec) : R :=
  match u, v with
  | a :: u', b :: v' => a * b + dot u' v'
  | _, _ => 0
  end.

Definition vadd : vec -> vec -> vec := map2 Rplus.
Definition vsub : vec -> vec -> vec := map2 Rminus.
Definition vneg : vec -> vec := map Ropp.
Definition vscale (k : R) : vec -> vec := map (Rmult k).
Definition zeros (n : nat) : vec := repeat 0 n.
Definition ones (n : nat) : vec := repeat 1 n.
(** numpy.linalg.norm of a 1-d array *)
Definition norm (v : vec) : R := sqrt (dot v v).
(** sum of the entries *)
Definition vsum (v : vec) : R := fold_right Rplus 0 v.

(** numpy.max of a 1-d array; numpy raises ValueError on an empty array *)
Definition vmax (v : vec) : res R :=
  match v with
  | [] => Err ValueError
  | a :: l => Ok (fold_left Rmax l a)
  end.

(** v[idx] with a list of (nonnegative) integers *)
Definition vtake (v : vec) (idx : list nat) : vec := map (fun i => nth i v 0) idx.
(** v[i:j] *)
Definition slice {A} (i j : nat) (v : list A) : list A := firstn (j - i) (skipn i v).

(** [unit n i]: i-th row of numpy.eye(n) *)
Definition unit (n i : nat) : vec := map (fun j => if Nat.eqb j i then 1 else 0) (seq 0 n).

(** [np.where(mask)[0]] *)
Definition where_ {A} (p : A -> bool) (v : list A) : list nat :=
  map fst (filter (fun iv => p (snd iv)) (combine (seq 0 (length v)) v)).

(** ** Two-dimensional arrays *)
Record mat : Type := Mat { ncols : nat; rows : list vec }.
Definition nrows (M : mat) : nat := length (rows M).

(** the array really has shape (m, n) *)
Definition shape (M : mat) (m n : nat) : Prop :=
  length (rows M) = m /\ ncols M = n /\ Forall (fun r => length r = n) (rows M).

(** i-th row *)
Definition row (M : mat) (i : nat) : vec := nth i (rows M) [].

(** M.dot(x), x one-dimensional *)
Definition mv (M : mat) (x : vec) : vec := map (fun r => dot r x) (rows M).

(** linear combination of rows *)
Fixpoint lincomb (n : nat) (y : vec) (rs : list vec) : vec :=
  match y, rs with
  | a :: y', r :: rs' => vadd (vscale a r) (lincomb n y' rs')
  | _, _ => zeros n
  end.
(** y.dot(M), y one-dimensional *)
Definition vm (y : vec) (M : mat) : vec := lincomb (ncols M) y (rows M).
(** A.dot(B) *)
Definition mm (A B : mat) : mat := Mat (ncols B) (map (fun r => vm r B) (rows A)).
(** M.T *)
Definition tr (M : mat) : mat :=
  Mat (length (rows M))
      (map (fun j => map (fun r => nth j r 0) (rows M)) (seq 0 (ncols M))).

Definition madd (A B : mat) : mat := Mat (ncols A) (map2 vadd (rows A) (rows B)).
Definition msub (A B : mat) : mat := Mat (ncols A) (map2 vsub (rows A) (rows B)).
Definition mneg (A : mat) : mat := Mat (ncols A) (map vneg (rows A)).
Definition mscale (k : R) (A : mat) : mat := Mat (ncols A) (map (vscale k) (rows A)).
(** np.eye(n), np.zeros((m,n)) *)
Definition eye (n : nat) : mat := Mat n (map (unit n) (seq 0 n)).
Definition zmat (m n : nat) : mat := Mat n (repeat (zeros n) m).
(** a 1-d array as a (1,n) row of a vstack *)
Definition rowmat (v : vec) : mat := Mat (length v) [v].

Definition vstack (A B : mat) : mat := Mat (ncols A) (rows A ++ rows B).
Definition hstack (A B : mat) : mat :=
  Mat (ncols A + ncols B) (map2 (@app R) (rows A) (rows B)).
(** np.vstack of a non-empty list; numpy raises ValueError on the empty list *)
Fixpoint vstack_list (l : list mat) : mat :=
  match l with
  | [] => Mat 0 []
  | [A] => A
  | A :: l' => vstack A (vstack_list l')
  end.

(** scipy.linalg.block_diag of two, and of a list of arrays
    (block_diag() of no arrays is an array of shape (1,0)) *)
Definition bdiag2 (A B : mat) : mat :=
  vstack (hstack A (zmat (nrows A) (ncols B)))
         (hstack (zmat (nrows B) (ncols A)) B).
Fixpoint block_diag (l : list mat) : mat :=
  match l with
  | [] => Mat 0 [[]]
  | [A] => A
  | A :: l' => bdiag2 A (block_diag l')
  end.

(** M[idx] (rows), M[:, idx], M[:, :k], M[:, k:] *)
Definition mtake (M : mat) (idx : list nat) : mat := Mat (ncols M) (map (row M) idx).
Definition ctake (M : mat) (idx : list nat) : mat := Mat (length idx) (map (fun r => vtake r idx) (rows M)).
Definition cols_to (M : mat) (k : nat) : mat := Mat (Nat.min k (ncols M)) (map (firstn k) (rows M)).
Definition cols_from (M : mat) (k : nat) : mat := Mat (ncols M - k) (map (skipn k) (rows M)).

(** np.linalg.matrix_power(A, t) for a square A *)
Fixpoint mpow (A : mat) (t : nat) : mat :=
  match t with O => eye (ncols A) | S t' => mm A (mpow A t') end.

(** ** Checked operations: numpy raises ValueError on incoherent shapes *)
Definition np_dot (A B : mat) : res mat :=
  if Nat.eqb (ncols A) (nrows B) then Ok (mm A B) else Err ValueError.
Definition np_mv (A : mat) (x : vec) : res vec :=
  if Nat.eqb (ncols A) (length x) then Ok (mv A x) else Err ValueError.
Definition np_vstack (A B : mat) : res mat :=
  if Nat.eqb (ncols A) (ncols B) then Ok (vstack A B) else Err ValueError.

(** ** Arrays of either dimension, for arguments whose number of dimensions is checked *)
Inductive nd : Type := D1 (v : vec) | D2 (M : mat).
Definition nd_ndim (a : nd) : nat := match a with D1 _ => 1 | D2 _ => 2 end.
Definition nd_size (a : nd) : nat := match a with D1 v => length v | D2 M => nrows M * ncols M end.
(** np.concatenate((v, a)) with v one-dimensional: ValueError if a is two-dimensional *)
Definition np_concat (v : vec) (a : nd) : res vec :=
  match a with D1 w => Ok (v ++ w) | D2 _ => Err ValueError end.
Definition nd_neg (a : nd) : nd := match a with D1 v => D1 (vneg v) | D2 M => D2 (mneg M) end.
