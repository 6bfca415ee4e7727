(** * PropsSolver: the property theorems of this part, restated; proofs are in SolverThms.
    Generated by tools/gen_props.py: this file contains only statements, [exact] and Print Assumptions. *)
From Verif Require Import Arr ArrFacts Spec Numpy Pnnls PnnlsFacts QpFacts Oracle.
From Verif Require Import SolverThms.

(** A feasible and bounded LP is solved to optimality. *)
Theorem C18_lp_optimality np tol f A b Co d_o C d m me n :
  nnls_ok np -> pinv_ok np -> 0 < tol ->
  shape A m n -> length b = m -> shape C me n -> length d = me -> length f = n -> eq_args n Co d_o C d ->
  lp_solvable f A b C d ->
  exists s x, linear_program np tol f A b Co d_o = Ok s /\
    s_argmin s = Some x /\ s_min s = Some (dot f x) /\ lp_optimal f A b C d x.
Proof. exact (lp_optimality np tol f A b Co d_o C d m me n). Qed.
Print Assumptions C18_lp_optimality.

(** The returned multipliers satisfy the KKT system, with strong duality. *)
Theorem C20_lp_multipliers np tol f A b Co d_o C d m me n :
  nnls_ok np -> pinv_ok np -> 0 < tol ->
  shape A m n -> length b = m -> shape C me n -> length d = me -> length f = n -> eq_args n Co d_o C d ->
  lp_solvable f A b C d ->
  exists s x l nu, linear_program np tol f A b Co d_o = Ok s /\ s_argmin s = Some x /\
    s_multiplier_inequality s = Some l /\ s_multiplier_equality s = (if (0 <? me)%nat then Some nu else None) /\
    length l = m /\ length nu = me /\
    nonneg l /\ stationary f A l C nu n /\ compl_slack A b l x /\ s_min s = Some (- dot b l - dot d nu).
Proof. exact (lp_multipliers np tol f A b Co d_o C d m me n). Qed.
Print Assumptions C20_lp_multipliers.

(** None is returned only for LPs that are infeasible or unbounded; a returned point satisfies all constraints, dual feasibility and the duality gap within tol. *)
Theorem C19_lp_none np tol f A b Co d_o C d m me n s :
  nnls_ok np -> pinv_ok np -> 0 < tol ->
  shape A m n -> length b = m -> shape C me n -> length d = me -> length f = n -> eq_args n Co d_o C d ->
  linear_program np tol f A b Co d_o = Ok s ->
  (s_min s = None <-> s = sol_none) /\
  (s = sol_none -> ~ lp_solvable f A b C d) /\
  (forall x, s_argmin s = Some x ->
     s_min s = Some (dot f x) /\ length x = n /\
     (forall i, (i < m)%nat -> dot (row A i) x < nth i b 0 + tol) /\
     (forall i, (i < me)%nat -> Rabs (dot (row C i) x - nth i d 0) < tol) /\
     exists l nu, length l = m /\ nonneg l /\ length nu = me /\ Rabs (dot f x + dot b l + dot d nu) < tol /\
       forall z, length z = n -> Rabs (dot f z + dot l (mv A z) + dot nu (mv C z)) <= tol * norm z).
Proof. exact (lp_none np tol f A b Co d_o C d m me n s). Qed.
Print Assumptions C19_lp_none.

(** The converse is false: some infeasible LPs get a solution, with whatever exact library. *)
Theorem C19_lp_none_iff_refuted :
  exists f A b, shape A 2 1 /\ length b = 2%nat /\ length f = 1%nat /\
    (forall x, ~ in_set A b (Mat 1 []) [] x) /\
    forall np, nnls_ok np -> pinv_ok np ->
      exists s x, linear_program np tol7 f A b None None = Ok s /\ s_argmin s = Some x.
Proof. exact (lp_none_iff_refuted). Qed.
Print Assumptions C19_lp_none_iff_refuted.

(** A returned QP solution is the unique minimizer and its multipliers satisfy the KKT system. *)
Theorem C21_qp_optimality np tol H f A b Co d_o C d m me n s x :
  nnls_ok np -> chol_ok np -> inv_ok np -> 0 <= tol -> shape H n n -> pd H n ->
  shape A m n -> length b = m -> shape C me n -> length d = me -> length f = n -> eq_args n Co d_o C d ->
  quadratic_program np tol H f A b Co d_o = Ok s -> s_argmin s = Some x ->
  qp_optimal H f A b C d x /\
  (forall z, qp_optimal H f A b C d z -> z = x) /\
  s_min s = Some (qp_cost H f x) /\
  exists l nu, s_multiplier_inequality s = Some l /\
    s_multiplier_equality s = (if (0 <? me)%nat then Some nu else None) /\
    length l = m /\ length nu = me /\ nonneg l /\
    stationary (vadd (mv H x) f) A l C nu n /\ compl_slack A b l x.
Proof. exact (qp_optimality np tol H f A b Co d_o C d m me n s x). Qed.
Print Assumptions C21_qp_optimality.

(** Exact criterion for None: no feasible point within distance sqrt(1/tol^2 - 1) (in the metric of H) of the unconstrained minimizer x0. *)
Theorem C22_qp_none_iff np tol H f A b Co d_o C d m me n x0 :
  nnls_ok np -> chol_ok np -> inv_ok np -> 0 < tol -> shape H n n -> pd H n ->
  shape A m n -> length b = m -> shape C me n -> length d = me -> length f = n -> eq_args n Co d_o C d ->
  length x0 = n -> mv H x0 = vneg f ->
  exists s, quadratic_program np tol H f A b Co d_o = Ok s /\
    (s_min s = None <-> s = sol_none) /\
    (s = sol_none <->
     ~ exists z, in_set A b C d z /\ tol * tol * (1 + dot (vsub z x0) (mv H (vsub z x0))) < 1).
Proof. exact (qp_none_iff np tol H f A b Co d_o C d m me n x0). Qed.
Print Assumptions C22_qp_none_iff.

(** Infeasible QPs are always reported. *)
Theorem C22_qp_infeasible_none np tol H f A b Co d_o C d m me n :
  nnls_ok np -> chol_ok np -> inv_ok np -> 0 <= tol -> shape H n n -> pd H n ->
  shape A m n -> length b = m -> shape C me n -> length d = me -> length f = n -> eq_args n Co d_o C d ->
  (forall z, ~ in_set A b C d z) -> quadratic_program np tol H f A b Co d_o = Ok sol_none.
Proof. exact (qp_infeasible_none np tol H f A b Co d_o C d m me n). Qed.
Print Assumptions C22_qp_infeasible_none.

(** A Hessian that is symmetric but not positive definite raises LinAlgError. *)
Theorem C21_qp_not_pd np tol H f A b Co d_o C d m n :
  chol_ok np -> shape H n n -> tr H = H -> ~ pd H n -> shape A m n -> eq_args n Co d_o C d ->
  quadratic_program np tol H f A b Co d_o = Err LinAlgError.
Proof. exact (qp_not_pd np tol H f A b Co d_o C d m n). Qed.
Print Assumptions C21_qp_not_pd.

(** The literal property is false: a feasible QP is reported infeasible. *)
Theorem C22_qp_none_refuted :
  exists H f A b, shape H 1 1 /\ pd H 1 /\ shape A 1 1 /\ length b = 1%nat /\ length f = 1%nat /\
    (exists x, in_set A b (Mat 1 []) [] x) /\
    forall np, nnls_ok np -> chol_ok np -> inv_ok np ->
      quadratic_program np tol7 H f A b None None = Ok sol_none.
Proof. exact (qp_none_refuted). Qed.
Print Assumptions C22_qp_none_refuted.

(** Every inequality reported active by the LP solver holds with equality. *)
Theorem C23_lp_active_set np tol f A b Co d_o C d m me n :
  nnls_ok np -> pinv_ok np -> 0 < tol ->
  shape A m n -> length b = m -> shape C me n -> length d = me -> length f = n -> eq_args n Co d_o C d ->
  lp_solvable f A b C d ->
  exists s x act, linear_program np tol f A b Co d_o = Ok s /\ s_argmin s = Some x /\ s_active_set s = Some act /\
    forall i, In i act -> (i < m)%nat /\ dot (row A i) x = nth i b 0.
Proof. exact (lp_active_set np tol f A b Co d_o C d m me n). Qed.
Print Assumptions C23_lp_active_set.

(** Every inequality reported active by the QP solver holds with equality. *)
Theorem C23_qp_active_set np tol H f A b Co d_o C d m me n s x :
  nnls_ok np -> chol_ok np -> inv_ok np -> 0 <= tol -> shape H n n -> pd H n ->
  shape A m n -> length b = m -> shape C me n -> length d = me -> length f = n -> eq_args n Co d_o C d ->
  quadratic_program np tol H f A b Co d_o = Ok s -> s_argmin s = Some x ->
  exists act, s_active_set s = Some act /\ forall i, In i act -> (i < m)%nat /\ dot (row A i) x = nth i b 0.
Proof. exact (qp_active_set np tol H f A b Co d_o C d m me n s x). Qed.
Print Assumptions C23_qp_active_set.

(** Not every inequality that holds with equality is reported active. *)
Theorem C23_active_set_refuted :
  exists H f A b, shape H 1 1 /\ pd H 1 /\ shape A 1 1 /\ length b = 1%nat /\ length f = 1%nat /\
    forall np, nnls_ok np -> chol_ok np -> inv_ok np ->
      exists s x, quadratic_program np tol7 H f A b None None = Ok s /\ s_argmin s = Some x /\
        dot (row A 0) x = nth 0 b 0 /\ s_active_set s = Some [].
Proof. exact (active_set_refuted). Qed.
Print Assumptions C23_active_set_refuted.

(** The hypotheses of the LP theorems are met by min x0, x >= 0, x0 + x1 = 1. *)
Example C18_example :
  lp_solvable [1; 0] exA [0; 0] exC [1] /\
  exists s, linear_program np0 tol7 [1; 0] exA [0; 0] (Some exC) (Some [1]) = Ok s /\
    s_argmin s = Some [0; 1] /\ s_min s = Some 0.
Proof. exact (lp_example). Qed.

(** min 1/2 |x|^2, x >= 0, x0 + x1 = 1 is solved: argmin (1/2, 1/2), min 1/4. *)
Example C21_example :
  pd (eye 2) 2 /\
  exists s, quadratic_program np0 tol7 (eye 2) [0; 0] exA [0; 0] (Some exC) (Some [1]) = Ok s /\
    s_argmin s = Some [/2; /2] /\ s_min s = Some (/4).
Proof. exact (qp_example). Qed.
