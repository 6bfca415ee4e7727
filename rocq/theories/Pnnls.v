(** * Pnnls: model of pympc/optimization/solvers/pnnls.py *)
From Verif Require Import Arr Spec Numpy.

(** The dictionary returned by the solvers (pnnls.py:128-134, 221-227). *)
Record sol : Type := Sol {
  s_min : option R;
  s_argmin : option vec;
  s_active_set : option (list nat);
  s_multiplier_inequality : option vec;
  s_multiplier_equality : option vec
}.
Definition sol_none : sol := Sol None None None None None.

(** The default tolerance 1.e-7. *)
Definition tol7 : R := / 10000000.

Section Pnnls.
Variable np : numpy.

(** pnnls.py:5-39.  [min |A v + B u - c|, v >= 0]: returns (v, u, r). *)
Definition pnnls (A B : mat) (c : vec) : vec * vec * R :=
  let B_pinv := np_pinv np B in
  let B_bar := msub (eye (nrows A)) (mm B B_pinv) in
  let A_bar := mm B_bar A in
  let b_bar := mv B_bar c in
  let (v, r) := np_nnls np A_bar b_bar in
  let u := vneg (mv B_pinv (vsub (mv A v) c)) in
  (v, u, r).

(** pnnls.py:100-106 and 201-207: equalities as pairs of inequalities *)
Definition stack_eq (A : mat) (b : vec) (C : mat) (d : vec) : mat * vec :=
  if (0 <? nrows C)%nat then (vstack A (vstack C (mneg C)), b ++ d ++ vneg d) else (A, b).

(** pnnls.py:109-122 *)
Definition A_pnnls (AC : mat) (bd : vec) : mat :=
  let N := nrows AC in
  vstack (rowmat (bd ++ zeros N))
    (vstack (hstack (zmat N N) (eye N))
            (hstack (tr AC) (zmat (ncols AC) N))).
(** pnnls.py:123 *)
Definition B_pnnls (f : vec) (AC : mat) : mat :=
  vstack (rowmat f) (vstack AC (zmat (ncols AC) (ncols AC))).
(** pnnls.py:124 *)
Definition c_pnnls (f bd : vec) : vec := 0 :: bd ++ vneg f.

(** pnnls.py:89-147 for given matrices C, d (possibly with zero rows; the case C=None, d=None is
    the one with zero rows, see [linear_program]).  Shapes are assumed coherent by this model (numpy would
    raise ValueError otherwise). *)
Definition lp_core (tol : R) (f : vec) (A : mat) (b : vec) (C : mat) (d : vec) : sol :=
  let n_ineq := nrows A in
  let n_eq := nrows C in
  let '(AC, bd) := stack_eq A b C d in
  let '(ys, x, r) := pnnls (A_pnnls AC bd) (B_pnnls f AC) (c_pnnls f bd) in
  if Rltb r tol then
    let mul := slice 0 n_ineq ys in
    {| s_argmin := Some x;
       s_min := Some (dot f x);
       s_multiplier_inequality := Some mul;
       s_active_set := Some (where_ (fun y => Rltb tol y) mul);
       s_multiplier_equality :=
         if (0 <? n_eq)%nat then
           Some (vadd (slice n_ineq (n_ineq + n_eq) ys)
                      (vneg (slice (n_ineq + n_eq) (n_ineq + 2 * n_eq) ys)))
         else None |}
  else sol_none.

(** pnnls.py:41-147 *)
Definition linear_program (tol : R) (f : vec) (A : mat) (b : vec) (C : option mat) (d : option vec) : res sol :=
  match C, d with
  | None, None => Ok (lp_core tol f A b (Mat (ncols A) []) [])
  | Some C, Some d => Ok (lp_core tol f A b C d)
  | _, _ => Err ValueError
  end.

(** pnnls.py:190-241, given C and d as above; [x.dot(H).dot(x)] is written [dot x (mv H x)] *)
Definition qp_core (tol : R) (H : mat) (f : vec) (A : mat) (b : vec) (C : mat) (d : vec) : res sol :=
  let n_ineq := nrows A in
  let n_eq := nrows C in
  let n_x := ncols A in
  let '(AC, bd) := stack_eq A b C d in
  L <- np_chol np H ;;
  L_inv <- np_inv np L ;;
  let H_inv := mm (tr L_inv) L_inv in
  let M := mm AC (tr L_inv) in
  let m := vadd bd (mv (mm AC H_inv) f) in
  let A_nnls := vstack (mneg (tr M)) (rowmat (vneg m)) in
  let b_nnls := zeros n_x ++ [1] in
  let (y, r) := np_nnls np A_nnls b_nnls in
  Ok (if Rltb tol r then
        let lam := vscale (/ (1 + dot m y)) y in
        let mul := slice 0 n_ineq lam in
        let x := vneg (mv H_inv (vadd f (mv (tr AC) lam))) in
        {| s_argmin := Some x;
           s_min := Some (/ 2 * dot x (mv H x) + dot f x);
           s_multiplier_inequality := Some mul;
           s_active_set := Some (where_ (fun l => Rltb tol l) mul);
           s_multiplier_equality :=
             if (0 <? n_eq)%nat then
               Some (vadd (slice n_ineq (n_ineq + n_eq) lam)
                          (vneg (slice (n_ineq + n_eq) (n_ineq + 2 * n_eq) lam)))
             else None |}
      else sol_none).

(** pnnls.py:149-241 *)
Definition quadratic_program (tol : R) (H : mat) (f : vec) (A : mat) (b : vec)
  (C : option mat) (d : option vec) : res sol :=
  match C, d with
  | None, None => qp_core tol H f A b (Mat (ncols A) []) []
  | Some C, Some d => qp_core tol H f A b C d
  | _, _ => Err ValueError
  end.
End Pnnls.
