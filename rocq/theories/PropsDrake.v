(** * PropsDrake: the property theorems of this part, restated; proofs are in DrakeThms.
    Generated by tools/gen_props.py: this file contains only statements, [exact] and Print Assumptions. *)
From Coq Require Import Classical.
From Verif Require Import Arr ArrFacts Spec SpecProg SpecKkt Numpy Pnnls PnnlsFacts QpFacts Oracle SolverThms Mpqp MpqpThms GeomThms Gurobi ProgThms Drake.
From Verif Require Import DrakeThms.

(** With an exact drake, the wrapper for linear programs returns a minimizer, its cost, the constraints with slack below tol as active set, and multipliers supported on them that make the Lagrangian stationary; if the active constraints and the equalities are independent, the multipliers are nonnegative and complementary.  Without a minimizer it returns None everywhere. *)
Theorem C65_drake_lp np drake tol f A b Co d_o C d m me n :
  pinv_ok np -> 0 < tol -> prog_data None f A b C d m me n -> eq_args n Co d_o C d ->
  k_ok (build 0 None f A b C d) (drake (build 0 None f A b C d)) ->
  (exists s x l v act, Drake.linear_program np drake tol f A b Co d_o = Ok s /\ s_argmin s = Some x /\ s_min s = Some (dot f x) /\ lp_optimal f A b C d x /\
     s_active_set s = Some act /\ nearly_active A b x tol act /\
     s_multiplier_inequality s = Some l /\ s_multiplier_equality s = (if (0 <? me)%nat then Some v else None) /\ length l = m /\ length v = me /\
     stationary f A l C v n /\ (forall i, ~ In i act -> nth i l 0 = 0) /\
     (independent A C act m me n -> multipliers f A b C l v x n)) \/
  (Drake.linear_program np drake tol f A b Co d_o = Ok sol_none /\ ~ exists x, lp_optimal f A b C d x).
Proof. exact (drake_lp np drake tol f A b Co d_o C d m me n). Qed.
Print Assumptions C65_drake_lp.

(** With an exact drake, on strictly convex quadratic programs that have a minimizer x the wrapper for quadratic programs raises LinAlgError if the constraints with slack below tol and the equalities are dependent, and otherwise returns x, its cost, these constraints as active set, and the multipliers of the program in which they are all equalities; if all of them hold with equality at x, these are Lagrange multipliers of the program at x.  Without a minimizer it returns None everywhere. *)
Theorem C66_drake_qp np drake tol H f A b Co d_o C d m me n :
  inv_ok np -> 0 < tol -> prog_data (Some H) f A b C d m me n -> pd H n -> eq_args n Co d_o C d ->
  k_ok (build 0 (Some H) f A b C d) (drake (build 0 (Some H) f A b C d)) ->
  (exists x act, qp_optimal H f A b C d x /\ nearly_active A b x tol act /\
    ((independent A C act m me n /\ exists s l v, Drake.quadratic_program np drake tol H f A b Co d_o = Ok s /\ s_argmin s = Some x /\ s_min s = Some (qp_cost H f x) /\ s_active_set s = Some act /\
       s_multiplier_inequality s = Some l /\ s_multiplier_equality s = (if (0 <? me)%nat then Some v else None) /\ length l = m /\ length v = me /\
       (forall i, ~ In i act -> nth i l 0 = 0) /\
       (exists x', length x' = n /\ (forall i, In i act -> dot (row A i) x' = nth i b 0) /\ eq_holds C d x' /\ stationary (vadd (mv H x') f) A l C v n) /\
       ((forall i, In i act -> dot (row A i) x = nth i b 0) -> multipliers (vadd (mv H x) f) A b C l v x n)) \/
     (~ independent A C act m me n /\ Drake.quadratic_program np drake tol H f A b Co d_o = Err LinAlgError))) \/
  (Drake.quadratic_program np drake tol H f A b Co d_o = Ok sol_none /\ ~ exists x, qp_optimal H f A b C d x).
Proof. exact (drake_qp np drake tol H f A b Co d_o C d m me n). Qed.
Print Assumptions C66_drake_qp.

(** With an exact drake, the wrapper for mixed-integer programs returns a minimizer over the points whose entries from number nc on are binary, and its cost; or None, None if there is no minimizer. *)
Theorem C67_drake_miqp drake nc H f A b Co d_o C d m me n :
  (nc <= n)%nat -> prog_data (Some H) f A b C d m me n -> eq_args n Co d_o C d ->
  k_ok (build (n - nc) (Some H) f A b C d) (drake (build (n - nc) (Some H) f A b C d)) ->
  (exists x, Drake.mixed_integer_quadratic_program drake nc H f A b Co d_o = Ok (Some (qp_cost H f x), Some x) /\ miqp_optimal nc H f A b C d x) \/
  (Drake.mixed_integer_quadratic_program drake nc H f A b Co d_o = Ok (None, None) /\ ~ exists x, miqp_optimal nc H f A b C d x).
Proof. exact (drake_miqp drake nc H f A b Co d_o C d m me n). Qed.
Print Assumptions C67_drake_miqp.

(** Giving only one of C and d raises ValueError in all three wrappers. *)
Theorem C67_lone_equalities np drake tol nc H f A b C d :
  Drake.linear_program np drake tol f A b (Some C) None = Err ValueError /\ Drake.linear_program np drake tol f A b None (Some d) = Err ValueError /\
  Drake.quadratic_program np drake tol H f A b (Some C) None = Err ValueError /\ Drake.quadratic_program np drake tol H f A b None (Some d) = Err ValueError /\
  Drake.mixed_integer_quadratic_program drake nc H f A b (Some C) None = Err ValueError /\ Drake.mixed_integer_quadratic_program drake nc H f A b None (Some d) = Err ValueError.
Proof. exact (drake_lone np drake tol nc H f A b C d). Qed.
Print Assumptions C67_lone_equalities.

(** min x s.t. -x <= 0, x <= 5e-6: for every exact drake and every numpy that returns the Moore-Penrose inverse of [-1, 1] the multipliers returned at the minimizer 0 are 1/2 and -1/2: the second is negative, and its constraint is not active. *)
Theorem C65_multipliers_refuted :
  let A := Mat 1 [[-1]; [1]] in let b := [0; 5 / 10 ^ 6] in
  prog_data None [1] A b (Mat 1 []) [] 2 0 1 /\ (exists drake np, k_ok (build 0 None [1] A b (Mat 1 []) []) (drake (build 0 None [1] A b (Mat 1 []) [])) /\ moore_penrose (Mat 2 [[-1; 1]]) (np_pinv np (Mat 2 [[-1; 1]])) 1 2) /\
  forall np drake, k_ok (build 0 None [1] A b (Mat 1 []) []) (drake (build 0 None [1] A b (Mat 1 []) [])) -> moore_penrose (Mat 2 [[-1; 1]]) (np_pinv np (Mat 2 [[-1; 1]])) 1 2 ->
  exists s l, Drake.linear_program np drake (/ 10 ^ 5) [1] A b None None = Ok s /\ s_argmin s = Some [0] /\ s_active_set s = Some [0; 1]%nat /\ s_multiplier_inequality s = Some l /\
    nth 0 l 0 = / 2 /\ nth 1 l 0 = - / 2.
Proof. exact (lp_refuted). Qed.
Print Assumptions C65_multipliers_refuted.

(** min 1/2 10^6 x^2 s.t. x <= 5e-6: for every exact drake and numpy the minimizer 0 is returned with the multiplier -5 instead of 0: it is negative, it does not make the Lagrangian stationary and its constraint is not active. *)
Theorem C66_near_active_refuted :
  let H := Mat 1 [[10 ^ 6]] in let A := Mat 1 [[1]] in let b := [5 / 10 ^ 6] in
  prog_data (Some H) [0] A b (Mat 1 []) [] 1 0 1 /\ pd H 1 /\ (exists drake, k_ok (build 0 (Some H) [0] A b (Mat 1 []) []) (drake (build 0 (Some H) [0] A b (Mat 1 []) []))) /\
  forall np drake, inv_ok np -> k_ok (build 0 (Some H) [0] A b (Mat 1 []) []) (drake (build 0 (Some H) [0] A b (Mat 1 []) [])) ->
  exists s l, Drake.quadratic_program np drake (/ 10 ^ 5) H [0] A b None None = Ok s /\ s_argmin s = Some [0] /\ s_active_set s = Some [0%nat] /\ s_multiplier_inequality s = Some l /\ nth 0 l 0 = - 5 /\
    ~ stationary (vadd (mv H [0]) [0]) A l (Mat 1 []) [] 1.
Proof. exact (near_refuted). Qed.
Print Assumptions C66_near_active_refuted.

(** min 1/2 x^2 + x s.t. -x <= 0, -x <= 0: for every exact drake and numpy the wrapper raises LinAlgError although 0 is the minimizer. *)
Theorem C66_dependent_refuted :
  let H := Mat 1 [[1]] in let A := Mat 1 [[-1]; [-1]] in let b := [0; 0] in
  prog_data (Some H) [1] A b (Mat 1 []) [] 2 0 1 /\ pd H 1 /\ qp_optimal H [1] A b (Mat 1 []) [] [0] /\
  forall np drake, inv_ok np -> k_ok (build 0 (Some H) [1] A b (Mat 1 []) []) (drake (build 0 (Some H) [1] A b (Mat 1 []) [])) ->
  Drake.quadratic_program np drake (/ 10 ^ 5) H [1] A b None None = Err LinAlgError.
Proof. exact (dependent_refuted). Qed.
Print Assumptions C66_dependent_refuted.

(** min 1/2 x^2 - 2x s.t. x <= 1: with a drake that answers it, the hypotheses of C66_drake_qp hold, the constraint is active and independent, and the multiplier returned is 1. *)
Example C66_example :
  let H := Mat 1 [[1]] in let A := Mat 1 [[1]] in let drake := fun _ : kprog => Some [1] in
  prog_data (Some H) [-2] A [1] (Mat 1 []) [] 1 0 1 /\ pd H 1 /\ eq_args 1 None None (Mat 1 []) [] /\ k_ok (build 0 (Some H) [-2] A [1] (Mat 1 []) []) (drake (build 0 (Some H) [-2] A [1] (Mat 1 []) [])) /\
  independent A (Mat 1 []) [0%nat] 1 0 1 /\
  forall np, inv_ok np -> exists s l, Drake.quadratic_program np drake (/ 10 ^ 5) H [-2] A [1] None None = Ok s /\ s_argmin s = Some [1] /\ s_active_set s = Some [0%nat] /\ s_multiplier_inequality s = Some l /\ nth 0 l 0 = 1.
Proof. exact (drake_example). Qed.

(** min 1/2 x^2 + 1/2 y^2 - 1/3 x - 2/3 y with y binary and x <= 1/4: with a drake that answers (1/4, 1) the hypotheses of C67_drake_miqp hold. *)
Example C67_example :
  let H := eye 2 in let f := [- / 3; - (2 / 3)] in let A := Mat 2 [[1; 0]] in let b := [/ 4] in let drake := fun _ : kprog => Some [/ 4; 1] in
  prog_data (Some H) f A b (Mat 2 []) [] 1 0 2 /\ k_ok (build (2 - 1) (Some H) f A b (Mat 2 []) []) (drake (build (2 - 1) (Some H) f A b (Mat 2 []) [])) /\
  Drake.mixed_integer_quadratic_program drake 1 H f A b None None = Ok (Some (qp_cost H f [/ 4; 1]), Some [/ 4; 1]).
Proof. exact (drake_miqp_example). Qed.

(** min -x s.t. x <= 1, 0 <= x: with a drake that answers 1 the hypotheses of C65_drake_lp hold, the active constraint is independent and the multiplier returned for it is 1. *)
Example C65_example :
  let A := Mat 1 [[1]; [-1]] in let b := [1; 0] in let drake := fun _ : kprog => Some [1] in
  prog_data None [-1] A b (Mat 1 []) [] 2 0 1 /\ eq_args 1 None None (Mat 1 []) [] /\ k_ok (build 0 None [-1] A b (Mat 1 []) []) (drake (build 0 None [-1] A b (Mat 1 []) [])) /\
  independent A (Mat 1 []) [0%nat] 2 0 1 /\
  forall np, pinv_ok np -> exists s l, Drake.linear_program np drake (/ 10 ^ 5) [-1] A b None None = Ok s /\ s_argmin s = Some [1] /\ s_active_set s = Some [0%nat] /\ s_multiplier_inequality s = Some l /\ nth 0 l 0 = 1 /\ nth 1 l 0 = 0.
Proof. exact (drake_lp_example). Qed.
