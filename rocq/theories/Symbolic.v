(** * Symbolic: model of the constructors from symbolic expressions (sympy)

    polyhedron.py:89-100, 128-139, 338-360, 921-939; discrete_time_systems.py:233-283, 393-432, 753-775.

    A sympy column matrix of symbols is the list of their numbers, a column matrix of expressions a list of [sx].
    Empty matrices have shape (0, 0), for which jacobian raises TypeError.
    Functions other than those of [sx], symbols with assumptions, and the values nan and infinity (which float() accepts)
    are not modelled. *)
From Coq Require Import ZArith String.
From Verif Require Import Arr Spec SpecSym Numpy Pnnls GeomUtils Polyhedron Dynamics.

(** derivative of an expression with respect to the symbol number i *)
Fixpoint sdiff (i : nat) (e : sx) : sx :=
  match e with
  | SVar j => SNum (if Nat.eqb i j then 1 else 0)
  | SNum _ => SNum 0
  | SAdd e f => SAdd (sdiff i e) (sdiff i f)
  | SMul e f => SAdd (SMul (sdiff i e) f) (SMul e (sdiff i f))
  | SDiv e f => SDiv (SAdd (SMul (sdiff i e) f) (SMul (SNum (-1)) (SMul e (sdiff i f)))) (SPow f 2)
  | SPow e n => SMul (SMul (SNum (INR n)) (SPow e (pred n))) (sdiff i e)
  | SSqrt e => SDiv (sdiff i e) (SMul (SNum 2) (SSqrt e))
  | SSin e => SMul (SCos e) (sdiff i e)
  | SCos e => SMul (SNum (-1)) (SMul (SSin e) (sdiff i e))
  | SExp e => SMul (SExp e) (sdiff i e)
  end.
(** expr.subs({xi: 0 for xi in x}) *)
Fixpoint ssubs0 (xs : list nat) (e : sx) : sx :=
  match e with
  | SVar j => if existsb (Nat.eqb j) xs then SNum 0 else SVar j
  | SNum r => SNum r
  | SAdd e f => SAdd (ssubs0 xs e) (ssubs0 xs f)
  | SMul e f => SMul (ssubs0 xs e) (ssubs0 xs f)
  | SDiv e f => SDiv (ssubs0 xs e) (ssubs0 xs f)
  | SPow e n => SPow (ssubs0 xs e) n
  | SSqrt e => SSqrt (ssubs0 xs e)
  | SSin e => SSin (ssubs0 xs e)
  | SCos e => SCos (ssubs0 xs e)
  | SExp e => SExp (ssubs0 xs e)
  end.

Section Symbolic.
(** the automatic simplifications of sympy, followed by the conversion of the entry to float64 *)
Variable sfloat : sx -> res R.
Variable np : numpy.

Definition jacobian (es : list sx) (xs : list nat) : res mat :=
  match es, xs with
  | [], _ | _, [] => Err TypeError
  | _, _ => rs <- mapM (fun e => mapM (fun i => sfloat (sdiff i e)) xs) es ;; Ok (Mat (length xs) rs)
  end.

(** polyhedron.py:921-939 *)
Definition get_matrices_affine_expression (xs : list nat) (es : list sx) : res (mat * vec) :=
  A <- jacobian es xs ;;
  b <- mapM (fun e => sfloat (ssubs0 xs e)) es ;;
  Ok (A, vneg b).

(** polyhedron.py:89-100 and 128-139 *)
Definition add_symbolic_inequality (xs : list nat) (ineq : list sx) : pm Datatypes.unit :=
  let! Ab := plift (get_matrices_affine_expression xs ineq) in
  add_inequality (fst Ab) (D1 (snd Ab)) None.
Definition add_symbolic_equality (xs : list nat) (eq : list sx) : pm Datatypes.unit :=
  let! Cd := plift (get_matrices_affine_expression xs eq) in
  add_equality (fst Cd) (D1 (snd Cd)) None.

(** polyhedron.py:338-360 *)
Definition poly_from_symbolic (xs : list nat) (ineq : list sx) (eq : option (list sx)) : res poly :=
  Ab <- get_matrices_affine_expression xs ineq ;;
  match eq with
  | None => Polyhedron (fst Ab) (D1 (snd Ab)) None None
  | Some eq => run_on (Polyhedron (fst Ab) (D1 (snd Ab)) None None) (add_symbolic_equality xs eq)
  end.

(** discrete_time_systems.py:753-775 *)
Definition get_state_transition_matrices (xs us : list nat) (next : list sx) : res (mat * mat * vec) :=
  A <- jacobian next xs ;;
  B <- jacobian next us ;;
  c <- mapM (fun e => sfloat (ssubs0 (xs ++ us) e)) next ;;
  Ok (A, B, c).

(** discrete_time_systems.py:233-256 *)
Definition lin_from_symbolic (xs us : list nat) (next : list sx) : res lsys :=
  ABc <- get_state_transition_matrices xs us next ;;
  let '(A, B, c) := ABc in
  if allclose c (zeros (length xs)) then LinearSystem A B else Err ValueError.
(** discrete_time_systems.py:258-283 *)
Definition lin_from_symbolic_continuous (xs us : list nat) (dot_ : list sx) (h : R) (method : string) : res lsys :=
  ABc <- get_state_transition_matrices xs us dot_ ;;
  let '(A, B, c) := ABc in
  if allclose c (zeros (length xs)) then lin_from_continuous np A B h method else Err ValueError.
(** discrete_time_systems.py:393-408 *)
Definition aff_from_symbolic (xs us : list nat) (next : list sx) : res asys :=
  ABc <- get_state_transition_matrices xs us next ;;
  let '(A, B, c) := ABc in AffineSystem A B (D1 c).
(** discrete_time_systems.py:410-432 *)
Definition aff_from_symbolic_continuous (xs us : list nat) (dot_ : list sx) (h : R) (method : string) : res asys :=
  ABc <- get_state_transition_matrices xs us dot_ ;;
  let '(A, B, c) := ABc in aff_from_continuous np A B (D1 c) h method.
End Symbolic.

(** the automatic simplifications of sympy that are assumed: sums and products of numbers are evaluated, a product
    with a zero factor (or a quotient with numerator zero) is zero *)
Fixpoint auto (e : sx) : sx :=
  match e with
  | SVar _ | SNum _ => e
  | SAdd e f => match auto e, auto f with SNum a, SNum b => SNum (a + b) | e', f' => SAdd e' f' end
  | SMul e f =>
      match auto e, auto f with
      | SNum a, SNum b => SNum (a * b)
      | SNum a, f' => if Req_EM_T a 0 then SNum 0 else SMul (SNum a) f'
      | e', SNum b => if Req_EM_T b 0 then SNum 0 else SMul e' (SNum b)
      | e', f' => SMul e' f'
      end
  | SDiv e f => match auto e with SNum a => if Req_EM_T a 0 then SNum 0 else SDiv (SNum a) (auto f) | e' => SDiv e' (auto f) end
  | SPow e n => SPow (auto e) n
  | SSqrt e => SSqrt (auto e)
  | SSin e => SSin (auto e)
  | SCos e => SCos (auto e)
  | SExp e => SExp (auto e)
  end.
(** contract of [sfloat]: an expression is converted to a float only if it equals that number wherever it is defined;
    expressions that have a value and no symbols after [auto] are converted; the only exception is TypeError *)
Definition sfloat_ok (sfloat : sx -> res R) : Prop :=
  (forall e r env v, sfloat e = Ok r -> value env e = Some v -> v = r) /\
  (forall e r env, closed (auto e) -> value env e = Some r -> sfloat e = Ok r) /\
  (forall e, (exists r, sfloat e = Ok r) \/ sfloat e = Err TypeError).
