(** * Workflow: the cells of examples/linear_mpc.ipynb that design and run a linear MPC

    The notebook calls, in this order, LinearSystem.solve_dare, Polyhedron.from_bounds (twice), Polyhedron.cartesian_product,
    LinearSystem.mcais, ModelPredictiveController, and then feedback in a loop.  The continuous-time part (from_continuous) is in
    [Dynamics], the explicit solution in [Controllers], the plots in [Plots]. *)
From Verif Require Import Arr Numpy Pnnls Polyhedron Dynamics Mpqp Controllers.

Record design : Type := Design { d_P : mat; d_K : mat; d_D : poly; d_XN : poly; d_C : mpc }.

(** cells "P, K = S.solve_dare(Q, R)" to "controller = ModelPredictiveController(S, N, Q, R, P, D, X_N)".  S is one object, so the
    controller gets it with the cache filled by solve_dare. *)
Definition linear_mpc_design (np : numpy) (fuel : nat) (S : lsys) (N : nat) (Q Rm : mat) (x_min x_max u_min u_max : vec) : res design :=
  let (r, S') := solve_dare np S Q Rm in
  PK <- r ;;
  U <- from_bounds (D1 u_min) (D1 u_max) None None ;;
  X <- from_bounds (D1 x_min) (D1 x_max) None None ;;
  D <- cartesian_product X U ;;
  X_N <- lin_mcais np fuel S' (snd PK) D ;;
  C <- ModelPredictiveController np S' N Q Rm (fst PK) D X_N ;;
  Ok (Design (fst PK) (snd PK) D X_N C).

(** cell "for t in range(Nsim): u.append(controller.feedback(x[t])); x.append(S.A.dot(x[t]) + S.B.dot(u[t]))".  B.dot(None) raises TypeError. *)
Fixpoint run_mpc (np : numpy) (C : mpc) (S : lsys) (Nsim : nat) (x : vec) : res (list vec * list vec) :=
  match Nsim with
  | O => Ok ([], [x])
  | Datatypes.S n =>
      u <- feedback np C x ;;
      match u with
      | None => Err TypeError
      | Some u =>
          Ax <- np_mv (lA S) x ;;
          Bu <- np_mv (lB S) u ;;
          r <- run_mpc np C S n (vadd Ax Bu) ;;
          Ok (u :: fst r, x :: snd r)
      end
  end.
