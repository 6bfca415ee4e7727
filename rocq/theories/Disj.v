(** * Disj: the cells of examples/disjunctive_inequalities.ipynb that build the two relaxations of x in P1 or x in P2

    The notebook does it for two polytopes of the plane with numbers; here the matrices are arguments and n is the number of
    variables (the notebook's indices 2 and 4 are n and 2 n). *)
From Coq Require Import ZArith.
From Verif Require Import Arr Numpy Polyhedron Projection.

(** np.column_stack (lines 141, 146, 218, 223): one-dimensional arrays become columns; ValueError if the numbers of rows differ *)
Definition column (v : vec) : mat := Mat 1 (map (fun a => [a]) v).
Fixpoint column_stack (l : list mat) : res mat :=
  match l with
  | [] => Err ValueError
  | [A] => Ok A
  | A :: l' => B <- column_stack l' ;; if Nat.eqb (nrows A) (nrows B) then Ok (hstack A B) else Err ValueError
  end.
(** lines 142-143, 147-148, 219-220 and 225-226: "P_relaxed = Polyhedron(A_relaxed, b); P_relaxed.add_bounds(0., 1., [i])" *)
Definition relaxed (A : mat) (b : vec) (i : nat) : res poly :=
  run_on (Polyhedron A (D1 b) None None) (add_bounds (BFloat 0) (BFloat 1) (Some [Z.of_nat i])).

(** cell "big M" (lines 141-151 of the notebook file), down to "cs = P1_relaxed.intersection(P2_relaxed)" *)
Definition big_m_constraints (A1 : mat) (b1 : vec) (A2 : mat) (b2 : vec) (M : vec) : res poly :=
  A1_relaxed <- column_stack [A1; column (vneg M)] ;;
  P1 <- relaxed A1_relaxed b1 (ncols A1) ;;
  A2_relaxed <- column_stack [A2; column (vneg M)] ;;
  P2 <- relaxed A2_relaxed b2 (ncols A2) ;;
  intersection P1 P2.
(** the next cell (lines 218-229), the convex-hull method *)
Definition hull_constraints (A1 : mat) (b1 : vec) (A2 : mat) (b2 : vec) : res poly :=
  A1_relaxed <- column_stack [zmat (nrows A1) (ncols A1); A1; column b1] ;;
  P1 <- relaxed A1_relaxed b1 (ncols A1 + ncols A1) ;;
  A2_relaxed <- column_stack [A2; mneg A2; column (vneg b2)] ;;
  P2 <- relaxed A2_relaxed (zeros (length b2)) (ncols A2 + ncols A2) ;;
  intersection P1 P2.
(** lines 152 and 230: "fs = cs.project_to([0, 1])" *)
Definition relaxation (np : numpy) (fuel : nat) (n : nat) (cs : res poly) : res poly :=
  p <- cs ;; fst (project_to np fuel (seq 0 n) p).
