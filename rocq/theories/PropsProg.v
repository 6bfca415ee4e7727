(** * PropsProg: the property theorems of this part, restated; proofs are in ProgThms.
    Generated by tools/gen_props.py: this file contains only statements, [exact] and Print Assumptions. *)
From Coq Require Import ZArith String Classical.
From Verif Require Import Arr ArrFacts Spec SpecProg Numpy Pnnls PnnlsFacts QpFacts Oracle SolverThms Gurobi Programs.
From Verif Require Import ProgThms.

(** The Gurobi model has the constraints and the objective of the given program in which all entries of H, f, A, b, C, d of absolute value at most 1e-9 are replaced by zero. *)
Theorem C24_model_cut H f A b Co d_o C d m me n :
  prog_data H f A b C d m me n -> eq_args n Co d_o C d ->
  exists M, build_model H f A b Co d_o = Ok M /\
    (forall x, g_feasible M x <-> in_set (mcut A) (vcut b) (mcut C) (vcut d) x) /\
    (forall x, length x = n -> g_objective M x = match H with Some H => qp_cost (mcut H) (vcut f) x | None => dot (vcut f) x end).
Proof. exact (model_cut H f A b Co d_o C d m me n). Qed.
Print Assumptions C24_model_cut.

(** If no entry is nonzero and at most 1e-9 in absolute value, and C and d are both given or both omitted, the Gurobi model has exactly the feasible set and the objective of the given linear or quadratic program.
   Missing: tiny nonzero entries and a lone C or d, for which the claim is false (see the refutations). *)
Theorem C24_model_partial H f A b Co d_o C d m me n :
  prog_data H f A b C d m me n -> eq_args n Co d_o C d -> sharp_data H f A b C d ->
  exists M, build_model H f A b Co d_o = Ok M /\ (forall x, g_feasible M x <-> in_set A b C d x) /\
    (forall x, length x = n -> g_objective M x = match H with Some H => qp_cost H f x | None => dot f x end).
Proof. exact (model_exact H f A b Co d_o C d m me n). Qed.
Print Assumptions C24_model_partial.

(** For the constraint 1e-9 x <= -1 the Gurobi model has no feasible point, although x = -1e9 satisfies it. *)
Theorem C24_tiny_refuted :
  exists f A b x M, prog_data None f A b (Mat 1 []) [] 1 0 1 /\ in_set A b (Mat 1 []) [] x /\
  build_model None f A b None None = Ok M /\ forall y, ~ g_feasible M y.
Proof. exact (tiny_refuted). Qed.
Print Assumptions C24_tiny_refuted.

(** With C but without d the equalities are dropped silently from the model, and reading the solution raises AttributeError if there is an optimum; with d but without C they are dropped and the solution of the program without equalities is returned. *)
Theorem C24_lone_equalities grb H f A b C d m n :
  shape A m n -> length b = m -> length f = n -> shape H n n ->
  Gurobi.linear_program grb f A b None (Some d) = Gurobi.linear_program grb f A b None None /\
  Gurobi.quadratic_program grb tol5 H f A b None (Some d) = Gurobi.quadratic_program grb tol5 H f A b None None /\
  build_model None f A b (Some C) None = build_model None f A b None None /\
  ((0 < nrows C)%nat -> forall M, build_model None f A b None None = Ok M -> gs_optimal (grb M) = true -> Gurobi.linear_program grb f A b (Some C) None = Err AttributeError).
Proof. exact (lone_equalities grb H f A b C d m n). Qed.
Print Assumptions C24_lone_equalities.

(** On a linear program without tiny entries, if Gurobi is exact on its model, the wrapper returns a minimizer, its cost, multipliers that satisfy the KKT conditions and an active set of active constraints; or None everywhere if there is no minimizer. *)
Theorem C60_gurobi_lp grb f A b Co d_o C d m me n :
  prog_data None f A b C d m me n -> eq_args n Co d_o C d -> sharp_data None f A b C d ->
  gurobi_exact grb None f A b Co d_o ->
  (exists s x l nu act, Gurobi.linear_program grb f A b Co d_o = Ok s /\ s_argmin s = Some x /\ s_min s = Some (dot f x) /\ lp_optimal f A b C d x /\
     s_multiplier_inequality s = Some l /\ s_multiplier_equality s = (if (0 <? me)%nat then Some nu else None) /\ length l = m /\ length nu = me /\
     nonneg l /\ stationary f A l C nu n /\ compl_slack A b l x /\
     s_active_set s = Some act /\ forall i, In i act -> (i < m)%nat /\ dot (row A i) x = nth i b 0) \/
  (Gurobi.linear_program grb f A b Co d_o = Ok sol_none /\ ~ exists x, lp_optimal f A b C d x).
Proof. exact (gurobi_lp grb f A b Co d_o C d m me n). Qed.
Print Assumptions C60_gurobi_lp.

(** On a quadratic program with symmetric H and without tiny entries, if Gurobi is exact on its model, the wrapper returns a minimizer, its cost, multipliers that satisfy the KKT conditions and as active set the indices of the multipliers above 1e-5, which are active constraints; or None everywhere if there is no minimizer. *)
Theorem C60_gurobi_qp grb H f A b Co d_o C d m me n :
  prog_data (Some H) f A b C d m me n -> tr H = H -> eq_args n Co d_o C d -> sharp_data (Some H) f A b C d ->
  gurobi_exact grb (Some H) f A b Co d_o ->
  (exists s x l nu act, Gurobi.quadratic_program grb tol5 H f A b Co d_o = Ok s /\ s_argmin s = Some x /\ s_min s = Some (qp_cost H f x) /\ qp_optimal H f A b C d x /\
     s_multiplier_inequality s = Some l /\ s_multiplier_equality s = (if (0 <? me)%nat then Some nu else None) /\ length l = m /\ length nu = me /\
     nonneg l /\ stationary (vadd (mv H x) f) A l C nu n /\ compl_slack A b l x /\
     s_active_set s = Some act /\ forall i, In i act <-> (i < m)%nat /\ / 10 ^ 5 < nth i l 0) \/
  (Gurobi.quadratic_program grb tol5 H f A b Co d_o = Ok sol_none /\ ~ exists x, qp_optimal H f A b C d x).
Proof. exact (gurobi_qp grb H f A b Co d_o C d m me n). Qed.
Print Assumptions C60_gurobi_qp.

(** On a mixed-integer quadratic program without tiny entries, if Gurobi is exact on its model, the wrapper returns a minimizer over the points with binary entries from number nc on, and its cost; or None, None if there is no minimizer. *)
Theorem C60_gurobi_miqp grb nc H f A b Co d_o C d m me n :
  prog_data (Some H) f A b C d m me n -> eq_args n Co d_o C d -> sharp_data (Some H) f A b C d ->
  (forall M, build_model (Some H) f A b Co d_o = Ok M -> gsol_ok (set_binary nc M) (grb (set_binary nc M))) ->
  (exists x, Gurobi.mixed_integer_quadratic_program grb nc H f A b Co d_o = Ok (Some (qp_cost H f x), Some x) /\ miqp_optimal nc H f A b C d x) \/
  (Gurobi.mixed_integer_quadratic_program grb nc H f A b Co d_o = Ok (None, None) /\ ~ exists x, miqp_optimal nc H f A b C d x).
Proof. exact (gurobi_miqp grb nc H f A b Co d_o C d m me n). Qed.
Print Assumptions C60_gurobi_miqp.

(** min 1/2 x^2 - 2x s.t. x <= 1 with a Gurobi that answers it exactly (x = 1, Pi = -1): all hypotheses of C24 and C60 hold and the wrapper returns argmin 1, min -3/2, multiplier 1 and active set [0]. *)
Example C60_example :
  let H := Mat 1 [[1]] in let A := Mat 1 [[1]] in
  let grb := fun _ => GSol true (- (3 / 2)) [1] [-1] [] [] in
  prog_data (Some H) [-2] A [1] (Mat 1 []) [] 1 0 1 /\ tr H = H /\ eq_args 1 None None (Mat 1 []) [] /\ sharp_data (Some H) [-2] A [1] (Mat 1 []) [] /\
  gurobi_exact grb (Some H) [-2] A [1] None None /\
  Gurobi.quadratic_program grb tol5 H [-2] A [1] None None = Ok (Sol (Some (- (3 / 2))) (Some [1]) (Some [0%nat]) (Some [- (-1)]) None).
Proof. exact (gurobi_example). Qed.

(** 'pnnls' and 'gurobi' run the solver named; a lone C or d raises ValueError with 'pnnls' (the default) in linear_program and quadratic_program; every other name but 'drake' raises ValueError, as does 'pnnls' for mixed-integer programs; 'drake' raises NameError.
   Missing: with 'gurobi' a lone C or d does not raise ValueError (C24_lone_equalities, C25_lone_refuted); 'drake' is documented but is not run. *)
Theorem C25_dispatch_partial np grb nc H f A b C d Co d_o solver :
  (linear_program np grb f A b Co d_o "pnnls" = Pnnls.linear_program np (/ 10 ^ 7) f A b Co d_o /\
   linear_program np grb f A b Co d_o "gurobi" = Gurobi.linear_program grb f A b Co d_o /\
   quadratic_program np grb H f A b Co d_o "pnnls" = Pnnls.quadratic_program np (/ 10 ^ 7) H f A b Co d_o /\
   quadratic_program np grb H f A b Co d_o "gurobi" = Gurobi.quadratic_program grb (/ 10 ^ 5) H f A b Co d_o /\
   mixed_integer_quadratic_program grb nc H f A b Co d_o "gurobi" = Gurobi.mixed_integer_quadratic_program grb nc H f A b Co d_o) /\
  (linear_program np grb f A b (Some C) None "pnnls" = Err ValueError /\ linear_program np grb f A b None (Some d) "pnnls" = Err ValueError /\
   quadratic_program np grb H f A b (Some C) None "pnnls" = Err ValueError /\ quadratic_program np grb H f A b None (Some d) "pnnls" = Err ValueError) /\
  (linear_program np grb f A b Co d_o "drake" = Err NameError /\ quadratic_program np grb H f A b Co d_o "drake" = Err NameError /\
   mixed_integer_quadratic_program grb nc H f A b Co d_o "drake" = Err NameError) /\
  (solver <> "pnnls"%string -> solver <> "gurobi"%string -> solver <> "drake"%string ->
   linear_program np grb f A b Co d_o solver = Err ValueError /\ quadratic_program np grb H f A b Co d_o solver = Err ValueError) /\
  (solver <> "gurobi"%string -> solver <> "drake"%string -> mixed_integer_quadratic_program grb nc H f A b Co d_o solver = Err ValueError).
Proof. exact (dispatch np grb nc H f A b C d Co d_o solver). Qed.
Print Assumptions C25_dispatch_partial.

(** With solver 'gurobi' and d but no C, no exception is raised: the solution of the program without equalities is returned. *)
Theorem C25_lone_refuted :
  exists H f A b d, forall np, exists grb s, gurobi_exact grb (Some H) f A b None (Some d) /\
  quadratic_program np grb H f A b None (Some d) "gurobi" = Ok s /\ s_argmin s = Some [1].
Proof. exact (lone_refuted). Qed.
Print Assumptions C25_lone_refuted.

(** On linear programs that have a solution and no tiny entries, 'pnnls' and 'gurobi' return the same minimum; on strictly convex quadratic programs without tiny entries, whenever 'pnnls' returns a solution 'gurobi' returns the same minimizer and minimum; for infeasible programs both return None everywhere for quadratic programs. *)
Theorem C61_solvers_agree np grb H f A b Co d_o C d m me n :
  exact_np np -> prog_data (Some H) f A b C d m me n -> Spec.pd H n -> eq_args n Co d_o C d -> sharp_data (Some H) f A b C d ->
  gurobi_exact grb None f A b Co d_o -> gurobi_exact grb (Some H) f A b Co d_o ->
  (lp_solvable f A b C d -> exists s s', linear_program np grb f A b Co d_o "pnnls" = Ok s /\ linear_program np grb f A b Co d_o "gurobi" = Ok s' /\ s_min s = s_min s' /\ s_min s <> None) /\
  (forall s, quadratic_program np grb H f A b Co d_o "pnnls" = Ok s -> s_argmin s <> None ->
     exists s', quadratic_program np grb H f A b Co d_o "gurobi" = Ok s' /\ s_argmin s = s_argmin s' /\ s_min s = s_min s') /\
  ((forall x, ~ in_set A b C d x) -> quadratic_program np grb H f A b Co d_o "pnnls" = Ok sol_none /\ quadratic_program np grb H f A b Co d_o "gurobi" = Ok sol_none).
Proof. exact (solvers_agree np grb H f A b Co d_o C d m me n). Qed.
Print Assumptions C61_solvers_agree.
