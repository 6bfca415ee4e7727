(** * Notebooks: the cells of examples/maximal_constraint_admissible_set.ipynb and examples/hybrid_mpc.ipynb (also hybrid_mpc_2.ipynb)

    As in [Workflow], numbers are arguments; from_continuous is in [Dynamics], the plots in [Plots]. *)
From Verif Require Import Arr Numpy Pnnls Polyhedron Dynamics Mpqp Controllers Gurobi Programs Hybrid.

Record mcais_sets : Type := McaisSets { o_K : mat; o_X : poly; o_D : poly; o_inf : poly; o_Xcl : poly }.
(** maximal_constraint_admissible_set.ipynb, lines 168, 192-197, 231-232 and 250-251: "P, K = S.solve_dare(Q, R)", the bounds, "D = X.cartesian_product(U)",
    "O_inf = S.mcais(K, D)", "U_cl = Polyhedron(U.A.dot(K), U.b)", "X_cl = X.intersection(U_cl)" *)
Definition mcais_demo (np : numpy) (fuel : nat) (S : lsys) (Q Rm : mat) (x_min x_max u_min u_max : vec) : res mcais_sets :=
  let (r, S') := solve_dare np S Q Rm in
  PK <- r ;;
  X <- from_bounds (D1 x_min) (D1 x_max) None None ;;
  U <- from_bounds (D1 u_min) (D1 u_max) None None ;;
  D <- cartesian_product X U ;;
  O_inf <- lin_mcais np fuel S' (snd PK) D ;;
  AK <- np_dot (pA U) (snd PK) ;;
  U_cl <- Polyhedron AK (D1 (pb U)) None None ;;
  X_cl <- intersection X U_cl ;;
  Ok (McaisSets (snd PK) X D O_inf X_cl).

Record hybrid_sets : Type := HybridSets { y_S : pwa; y_P : mat; y_K : mat; y_XN : poly; y_C : hmpc }.
(** hybrid_mpc.ipynb, lines 227 and 251-255: "S = PieceWiseAffineSystem(S_list, D_list)", "P, K = S1.solve_dare(Q, R)", "X_N = S1.mcais(K, D1)",
    "controller = HybridModelPredictiveController(S, N, Q, R, P, X_N)".  S1 and D1 are the linear system and the domain of the mode of the origin
    (S2 and D2 in hybrid_mpc_2.ipynb, lines 225 and 257-261). *)
Definition hybrid_mpc_design (np : numpy) (fuel : nat) (S_list : list anysys) (D_list : list poly) (S1 : lsys) (D1 : poly) (N : nat) (Q Rm : mat) : res hybrid_sets :=
  W <- PieceWiseAffineSystem S_list D_list ;;
  let (r, S1') := solve_dare np S1 Q Rm in
  PK <- r ;;
  X_N <- lin_mcais np fuel S1' (snd PK) D1 ;;
  C <- HybridModelPredictiveController np W N Q Rm (fst PK) X_N ;;
  Ok (HybridSets W (fst PK) (snd PK) X_N C).

(** hybrid_mpc.ipynb, lines 289-293 (hybrid_mpc_2.ipynb, lines 289-293): "u_cl.append(controller.feedback(x_cl[t]))", "x_next = S.simulate(x_cl[t], [u_cl[t]])[0][1]",
    "x_cl.append(x_next)".  With u None, np.concatenate raises ValueError in get_mode. *)
Fixpoint run_hybrid (grb : gmodel -> gsol) (C : hmpc) (W : pwa) (Nsim : nat) (x : vec) : res (list vec * list vec) :=
  match Nsim with
  | O => Ok ([], [x])
  | Datatypes.S n =>
      u <- hybrid_feedback grb C x ;;
      match u with
      | None => Err ValueError
      | Some u =>
          q <- pwa_simulate W x [u] ;;
          match fst q with
          | _ :: x' :: _ => r <- run_hybrid grb C W n x' ;; Ok (u :: fst r, x :: snd r)
          | _ => Err IndexError
          end
      end
  end.
