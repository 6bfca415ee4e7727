(** * Gurobi: model of pympc/optimization/solvers/gurobi.py

    gurobipy is outside this model: the data a [grb.Model] holds are the record [gmodel], what they mean is said by
    [g_feasible] and [g_objective], and [model.optimize()] is the argument [grb], which maps a model to the attributes
    read afterwards.  Parameters (setParam, tolerances) are not modelled. *)
From Coq Require Import ZArith.
From Verif Require Import Arr Spec Pnnls.

(** ** gurobipy data *)
(** grb.LinExpr: coefficients with variable numbers, and a constant *)
Record linexpr : Type := LinExpr { le_terms : list (R * nat); le_const : R }.
Definition le_val (e : linexpr) (x : vec) : R :=
  fold_right (fun t acc => fst t * nth (snd t) x 0 + acc) (le_const e) (le_terms e).
(** grb.QuadExpr without its linear part: terms x_i * c * x_j *)
Definition qe_val (q : list (nat * R * nat)) (x : vec) : R :=
  fold_right (fun t acc => let '(i, c, j) := t in nth i x 0 * c * nth j x 0 + acc) 0 q.

(** grb.Model: one lower bound (None: -infinity) and one type per variable, constraints ineq_i (expr <= 0) and
    eq_i (expr == 0), and the cost [.5 * quad + lin], to be minimized *)
Record gmodel : Type := GModel {
  g_lb : list (option R);
  g_binary : list bool;
  g_ineq : list linexpr;
  g_eq : list linexpr;
  g_quad : list (nat * R * nat);
  g_lin : linexpr
}.
Definition g_feasible (m : gmodel) (x : vec) : Prop :=
  length x = length (g_lb m) /\
  (forall i l, nth_error (g_lb m) i = Some (Some l) -> l <= nth i x 0) /\
  (forall i, nth_error (g_binary m) i = Some true -> nth i x 0 = 0 \/ nth i x 0 = 1) /\
  Forall (fun e => le_val e x <= 0) (g_ineq m) /\
  Forall (fun e => le_val e x = 0) (g_eq m).
Definition g_objective (m : gmodel) (x : vec) : R := / 2 * qe_val (g_quad m) x + le_val (g_lin m) x.

(** attributes read after optimize(): status == OPTIMAL, objVal, x, and per constraint Pi and CBasis *)
Record gsol : Type := GSol {
  gs_optimal : bool;
  gs_objVal : R;
  gs_x : vec;
  gs_pi_ineq : vec;
  gs_pi_eq : vec;
  gs_cbasis : list Z
}.

(** ** gurobi.py *)
(** the default tolerance 1.e-9 of linear_expression and quadratic_expression; 1.e-5 of quadratic_program *)
Definition tol9 : R := / 1000000000.
Definition tol5 : R := / 100000.

(** gurobi.py:282 [[A[i,j]*x[j] for j in range(A.shape[1]) if np.abs(A[i,j]) > tol]] *)
Definition row_terms (tol : R) (r : vec) : list (R * nat) :=
  filter (fun t => Rltb tol (Rabs (fst t))) (combine r (seq 0 (length r))).
(** gurobi.py:260-287; [n_x] is the number of variables x (x[j] raises KeyError from n_x on) *)
Definition linear_expression (tol : R) (A : mat) (b : vec) (n_x : nat) : res (list linexpr) :=
  lin <- mapM (fun r => let ts := row_terms tol r in
                        if forallb (fun t => (snd t <? n_x)%nat) ts then Ok ts else Err KeyError) (rows A) ;;
  mapM (fun it => match nth_error b (fst it) with
                  | None => Err IndexError
                  | Some bi => Ok (LinExpr (snd it) (if Rltb tol (Rabs bi) then bi else 0))
                  end) (combine (seq 0 (length lin)) lin).
(** gurobi.py:289-308 *)
Definition quadratic_expression (tol : R) (H : mat) (n_x : nat) : res (list (nat * R * nat)) :=
  let ts := filter (fun t => let '(_, c, _) := t in Rltb tol (Rabs c))
              (flat_map (fun ir => map (fun cj => (fst ir, fst cj, snd cj)) (combine (snd ir) (seq 0 (length (snd ir)))))
                        (combine (seq 0 (nrows H)) (rows H))) in
  if forallb (fun t => let '(i, _, j) := t in ((i <? n_x) && (j <? n_x))%nat%bool) ts then Ok ts else Err KeyError.

(** gurobi.py:173-214.  H is None for a linear program. *)
Definition build_model (H : option mat) (f : vec) (A : mat) (b : vec) (C : option mat) (d : option vec) : res gmodel :=
  let n_x := length f in
  ineq <- linear_expression tol9 A (vneg b) n_x ;;
  eq <- match C, d with
        | Some C, Some d => linear_expression tol9 C (vneg d) n_x
        | _, _ => Ok []
        end ;;
  quad <- match H with Some H => quadratic_expression tol9 H n_x | None => Ok [] end ;;
  lin <- linear_expression tol9 (rowmat f) (zeros 1) n_x ;;
  match lin with
  | e :: _ => Ok (GModel (repeat None n_x) (repeat false n_x) ineq eq quad e)
  | [] => Err IndexError
  end.

Section Gurobi.
Variable grb : gmodel -> gsol.

(** gurobi.py:216-258 with continuous=True; [getConstrByName] of a missing constraint is None, and None.getAttr raises
    AttributeError *)
Definition reorganize_solution (m : gmodel) (A : mat) (C : option mat) : res sol :=
  let g := grb m in
  if gs_optimal g then
    ineq <- mapM (fun i => if (i <? length (g_ineq m))%nat then Ok (- nth i (gs_pi_ineq g) 0) else Err AttributeError) (seq 0 (nrows A)) ;;
    eq <- match C with
          | Some C => if (0 <? nrows C)%nat then
                        v <- mapM (fun i => if (i <? length (g_eq m))%nat then Ok (- nth i (gs_pi_eq g) 0) else Err AttributeError) (seq 0 (nrows C)) ;;
                        Ok (Some v)
                      else Ok None
          | None => Ok None
          end ;;
    Ok (Sol (Some (gs_objVal g)) (Some (gs_x g)) None (Some ineq) eq)
  else Ok sol_none.

(** gurobi.py:5-58 *)
Definition linear_program (f : vec) (A : mat) (b : vec) (C : option mat) (d : option vec) : res sol :=
  m <- build_model None f A b C d ;;
  s <- reorganize_solution m A C ;;
  Ok (if gs_optimal (grb m) then
        Sol (s_min s) (s_argmin s)
            (Some (filter (fun i => Z.eqb (nth i (gs_cbasis (grb m)) 0%Z) (-1)) (seq 0 (nrows A))))
            (s_multiplier_inequality s) (s_multiplier_equality s)
      else s).

(** gurobi.py:60-118 *)
Definition quadratic_program (tol : R) (H : mat) (f : vec) (A : mat) (b : vec) (C : option mat) (d : option vec) : res sol :=
  m <- build_model (Some H) f A b C d ;;
  s <- reorganize_solution m A C ;;
  Ok (if gs_optimal (grb m) then
        Sol (s_min s) (s_argmin s)
            (match s_multiplier_inequality s with Some l => Some (where_ (fun a => Rltb tol a) l) | None => None end)
            (s_multiplier_inequality s) (s_multiplier_equality s)
      else s).

(** gurobi.py:120-171, and 216-258 with continuous=False: (min, argmin) *)
Definition set_binary (nc : nat) (m : gmodel) : gmodel :=
  GModel (g_lb m) (firstn nc (g_binary m) ++ repeat true (length (g_binary m) - nc)) (g_ineq m) (g_eq m) (g_quad m) (g_lin m).
Definition mixed_integer_quadratic_program (nc : nat) (H : mat) (f : vec) (A : mat) (b : vec)
  (C : option mat) (d : option vec) : res (option R * option vec) :=
  m <- build_model (Some H) f A b C d ;;
  let g := grb (set_binary nc m) in
  Ok (if gs_optimal g then (Some (gs_objVal g), Some (gs_x g)) else (None, None)).
End Gurobi.

(** ** What is assumed of Gurobi (hypotheses of the theorems about a given model) *)
(** it reports OPTIMAL with a minimizer, or there is none *)
Definition gsol_ok (m : gmodel) (g : gsol) : Prop :=
  if gs_optimal g then
    g_feasible m (gs_x g) /\ gs_objVal g = g_objective m (gs_x g) /\
    forall y, g_feasible m y -> g_objective m (gs_x g) <= g_objective m y
  else ~ exists x, g_feasible m x /\ forall y, g_feasible m y -> g_objective m x <= g_objective m y.
(** Pi are the prices: the gradient of the cost is sum Pi_i grad(constraint i), Pi <= 0 on [<=] constraints of a
    minimization, and Pi = 0 on inactive ones *)
Definition le_lin (e : linexpr) (v : vec) : R := le_val (LinExpr (le_terms e) 0) v.
Definition g_gradient (m : gmodel) (x v : vec) : R :=
  / 2 * fold_right (fun t acc => let '(i, c, j) := t in c * (nth i x 0 * nth j v 0 + nth i v 0 * nth j x 0) + acc) 0 (g_quad m)
  + le_lin (g_lin m) v.
Definition gsol_duals (m : gmodel) (g : gsol) : Prop :=
  gs_optimal g = true ->
  length (gs_pi_ineq g) = length (g_ineq m) /\ length (gs_pi_eq g) = length (g_eq m) /\
  Forall (fun a => a <= 0) (gs_pi_ineq g) /\
  (forall v, length v = length (g_lb m) ->
     g_gradient m (gs_x g) v = dot (gs_pi_ineq g) (map (fun e => le_lin e v) (g_ineq m)) + dot (gs_pi_eq g) (map (fun e => le_lin e v) (g_eq m))) /\
  (forall i e, nth_error (g_ineq m) i = Some e -> nth i (gs_pi_ineq g) 0 * le_val e (gs_x g) = 0).
(** a constraint that is nonbasic (CBasis = -1) is active *)
Definition gsol_basis (m : gmodel) (g : gsol) : Prop :=
  gs_optimal g = true ->
  forall i e, nth_error (g_ineq m) i = Some e -> nth i (gs_cbasis g) 0%Z = (-1)%Z -> le_val e (gs_x g) = 0.
