(** * Drake: model of pympc/optimization/solvers/drake.py

    pydrake is outside this model: what a MathematicalProgram holds is the record [kprog], what it means is said by
    [k_feasible] and [k_objective], and [prog.Solve()] followed by [prog.GetSolution(x)] is the argument [drake], which maps
    a program to the values of its variables (None if the result is not kSolutionFound).
    Shapes are assumed coherent (the functions check none; numpy raises at the first incoherent product), and nc <= n_x.
    Solver options are not modelled; nor are constraints without variables (zero rows), which some releases of drake reject: here they are
    ordinary constraints. *)
From Verif Require Import Arr Spec Numpy Pnnls Mpqp.

(** ** drake data *)
Definition kexp := list (R * nat).
Definition k_ev (x : vec) (e : kexp) : R := fold_right (fun t acc => fst t * nth (snd t) x 0 + acc) 0 e.
(** one type per variable; constraints [e <= b] and [e == d]; quadratic terms and linear terms of the cost, to be minimized *)
Record kprog : Type := KProg {
  k_binary : list bool;
  k_ineq : list (kexp * R);
  k_eq : list (kexp * R);
  k_quad : list (R * nat * nat);
  k_lin : kexp
}.
Definition k_feasible (p : kprog) (x : vec) : Prop :=
  length x = length (k_binary p) /\
  (forall i, nth_error (k_binary p) i = Some true -> nth i x 0 = 0 \/ nth i x 0 = 1) /\
  Forall (fun c => k_ev x (fst c) <= snd c) (k_ineq p) /\
  Forall (fun c => k_ev x (fst c) = snd c) (k_eq p).
Definition k_objective (p : kprog) (x : vec) : R :=
  fold_right (fun t acc => let '(c, i, j) := t in c * nth i x 0 * nth j x 0 + acc) 0 (k_quad p) + k_ev x (k_lin p).

(** ** building programs *)
(** [r.dot(x)] for the array x of all the variables *)
Definition k_dot (r : vec) : kexp := combine r (seq 0 (length r)).
(** [.5*x.dot(H).dot(x)] *)
Definition k_form (H : mat) : list (R * nat * nat) :=
  flat_map (fun ir => map (fun cj => (/ 2 * fst cj, fst ir, snd cj)) (combine (snd ir) (seq 0 (length (snd ir)))))
           (combine (seq 0 (nrows H)) (rows H)).
(** drake.py:58-60, 149-152, 244-250: AddLinearConstraint(A[i].dot(x) <= b[i]), AddLinearConstraint(C[i].dot(x) == d[i]) and the cost *)
Definition build (nb : nat) (H : option mat) (f : vec) (A : mat) (b : vec) (C : mat) (d : vec) : kprog :=
  KProg (repeat false (ncols A - nb) ++ repeat true nb)
        (map (fun i => (k_dot (row A i), nth i b 0)) (seq 0 (nrows A)))
        (map (fun i => (k_dot (row C i), nth i d 0)) (seq 0 (nrows C)))
        (match H with Some H => k_form H | None => [] end)
        (k_dot f).
(** drake.py:45-54, 135-144, 227-236: [(C is None) != (d is None)] raises; otherwise C and d (None: no rows) *)
Definition equalities (A : mat) (C : option mat) (d : option vec) : res (mat * vec) :=
  match C, d with
  | Some C, Some d => Ok (C, d)
  | None, None => Ok (Mat (ncols A) [], [])
  | _, _ => Err ValueError
  end.

Section Drake.
Variable np : numpy.
Variable drake : kprog -> option vec.

(** drake.py:80 and 171 [np.where(A.dot(sol['argmin']) - b > -tol)[0].tolist()] *)
Definition active (tol : R) (A : mat) (b x : vec) : list nat := where_ (fun r => Rltb (- tol) r) (vsub (mv A x) b).
(** drake.py:87-91 and 182-186: the dictionary, given the multipliers m of the active constraints and the equalities *)
Definition with_multipliers (vmin : R) (x : vec) (act : list nat) (m : vec) (n_ineq n_eq : nat) : sol :=
  Sol (Some vmin) (Some x) (Some act) (Some (scatter (zeros n_ineq) act m))
      (if (0 <? n_eq)%nat then Some (skipn (length act) m) else None).

(** drake.py:6-93; the default of tol is 1.e-5 *)
Definition linear_program (tol : R) (f : vec) (A : mat) (b : vec) (Co : option mat) (d_o : option vec) : res sol :=
  Cd <- equalities A Co d_o ;;
  let '(C, d) := Cd in
  match drake (build 0 None f A b C d) with
  | None => Ok sol_none
  | Some x =>
      let act := active tol A b x in
      let M := tr (mtake A act) in
      let M := if (0 <? nrows C)%nat then hstack M (tr C) else M in
      let m := vneg (mv (np_pinv np M) f) in
      Ok (with_multipliers (dot f x) x act m (nrows A) (nrows C))
  end.

(** drake.py:95-188; the default of tol is 1.e-5 *)
Definition quadratic_program (tol : R) (H : mat) (f : vec) (A : mat) (b : vec) (Co : option mat) (d_o : option vec) : res sol :=
  Cd <- equalities A Co d_o ;;
  let '(C, d) := Cd in
  match drake (build 0 (Some H) f A b C d) with
  | None => Ok sol_none
  | Some x =>
      let act := active tol A b x in
      let lhs := mtake A act in
      let rhs := vtake b act in
      let lhs := if (0 <? nrows C)%nat then vstack lhs C else lhs in
      let rhs := if (0 <? nrows C)%nat then rhs ++ d else rhs in
      H_inv <- np_inv np H ;;
      let M := mm (mm lhs H_inv) (tr lhs) in
      Mi <- np_inv np M ;;
      let m := vneg (mv Mi (vadd (mv (mm lhs H_inv) f) rhs)) in
      Ok (with_multipliers (/ 2 * dot x (mv H x) + dot f x) x act m (nrows A) (nrows C))
  end.

(** drake.py:191-262: (min, argmin) *)
Definition mixed_integer_quadratic_program (nc : nat) (H : mat) (f : vec) (A : mat) (b : vec) (Co : option mat) (d_o : option vec)
  : res (option R * option vec) :=
  Cd <- equalities A Co d_o ;;
  let '(C, d) := Cd in
  match drake (build (ncols A - nc) (Some H) f A b C d) with
  | None => Ok (None, None)
  | Some x => Ok (Some (/ 2 * dot x (mv H x) + dot f x), Some x)
  end.
End Drake.

(** ** What is assumed of drake (hypothesis of the theorems about a given program): it returns a minimizer, or there is none *)
Definition k_ok (p : kprog) (r : option vec) : Prop :=
  match r with
  | Some x => k_feasible p x /\ forall y, k_feasible p y -> k_objective p x <= k_objective p y
  | None => ~ exists x, k_feasible p x /\ forall y, k_feasible p y -> k_objective p x <= k_objective p y
  end.
