(** * Controllers: model of pympc/control/controllers.py, linear part (lines 11-187 and 684-748)

    Plots (lines 188-250) are in Plots.v.  As elsewhere, additions of arrays of different shapes raise ValueError
    (numpy would broadcast arrays of size one). *)
From Verif Require Import Arr Numpy Pnnls Polyhedron Dynamics Mpqp.

Section Controllers.
Variable np : numpy.

Definition np_vsub (u v : vec) : res vec := if Nat.eqb (length u) (length v) then Ok (vsub u v) else Err ValueError.

(** controllers.py:684-748 *)
Definition condense_optimal_control_problem (W : pwa) (Q Rm P : mat) (X_N : poly) (mode_sequence : list nat) : res mpqp :=
  ABc <- pwa_condense W mode_sequence ;;
  let '(A_bar, B_bar, c_bar) := ABc in
  let N := length mode_sequence in
  let Q_bar := block_diag (repeat Q N ++ [P]) in
  let R_bar := block_diag (repeat Rm N) in
  BQ <- np_dot (tr B_bar) Q_bar ;;
  BQB <- np_dot BQ B_bar ;;
  Huu <- np_madd R_bar BQB ;;
  Hux <- np_dot BQ A_bar ;;
  AQ <- np_dot (tr A_bar) Q_bar ;;
  Hxx <- np_dot AQ A_bar ;;
  fu <- np_mv BQ c_bar ;;
  fx <- np_mv AQ c_bar ;;
  Qc <- np_mv Q_bar c_bar ;;
  let g := / 2 * dot c_bar Qc in
  D_sequence <- mapM (fun m => match nth_error (w_dom W) m with Some D => Ok D | None => Err IndexError end) mode_sequence ;;
  let F_bar := block_diag (map (fun D => cols_to (pA D) (w_nx W)) D_sequence ++ [pA X_N]) in
  let G_bar := block_diag (map (fun D => cols_from (pA D) (w_nx W)) D_sequence) in
  let G_bar := vstack G_bar (zmat (nrows (pA X_N)) (ncols G_bar)) in
  let h_bar := List.concat (map pb D_sequence ++ [pb X_N]) in
  FB <- np_dot F_bar B_bar ;;
  Au <- np_madd G_bar FB ;;
  Ax <- np_dot F_bar A_bar ;;
  Fc <- np_mv F_bar c_bar ;;
  b <- np_vsub h_bar Fc ;;
  MultiParametricQuadraticProgram np Huu Hux Hxx fu fx g Au Ax b.

(** controllers.py:22-56.  The explicit solution is an argument of the methods that read it. *)
Record mpc : Type := MPC { c_S : lsys; c_N : nat; c_mpqp : mpqp }.

(** controllers.py:58-74 *)
Definition condense_program (S : lsys) (N : nat) (Q Rm P : mat) (D X_N : poly) : res mpqp :=
  S' <- AffineSystem (lA S) (lB S) (D1 (zeros (lnx S))) ;;
  W <- PieceWiseAffineSystem [Aff S'] [D] ;;
  condense_optimal_control_problem W Q Rm P X_N (repeat 0%nat N).
Definition ModelPredictiveController (S : lsys) (N : nat) (Q Rm P : mat) (D X_N : poly) : res mpc :=
  q <- condense_program S N Q Rm P D X_N ;;
  Ok (MPC S N q).

(** controllers.py:97 and 157: [v[nu*i : nu*(i+1)] for i in range(N)] *)
Definition split_inputs (nu N : nat) (v : vec) : list vec := map (fun i => slice (nu * i) (nu * (i + 1)) v) (seq 0 N).

(** controllers.py:76-101 *)
Definition feedforward (C : mpc) (x : vec) : res (option (list vec) * option R) :=
  s <- mpqp_solve np (c_mpqp C) x ;;
  match s_min s with
  | None => Ok (None, None)
  | Some V =>
      match s_argmin s with
      | Some u => Ok (Some (split_inputs (lnu (c_S C)) (c_N C) u), Some V)
      | None => Err TypeError
      end
  end.

(** controllers.py:103-122 *)
Definition first_input (u : option (list vec)) : res (option vec) :=
  match u with
  | None => Ok None
  | Some (u0 :: _) => Ok (Some u0)
  | Some [] => Err IndexError
  end.
Definition feedback (C : mpc) (x : vec) : res (option vec) :=
  r <- feedforward C x ;; first_input (fst r).

(** controllers.py:124-134 *)
Definition store_explicit_solution (fuel : nat) (step : R) (C : mpc) : res (list critical_region) :=
  explicit_solve np fuel step (c_mpqp C).

(** controllers.py:136-164; [es] is self.explicit_solution, None before store_explicit_solution *)
Definition feedforward_explicit (C : mpc) (es : option (list critical_region)) (x : vec) : res (option (list vec) * option R) :=
  match es with
  | None => Err ValueError
  | Some crs =>
      u <- es_u crs x ;;
      V <- es_V crs x ;;
      Ok (match u with Some u => Some (split_inputs (lnu (c_S C)) (c_N C) u) | None => None end, V)
  end.
(** controllers.py:166-187 *)
Definition feedback_explicit (C : mpc) (es : option (list critical_region)) (x : vec) : res (option vec) :=
  r <- feedforward_explicit C es x ;; first_input (fst r).
End Controllers.
