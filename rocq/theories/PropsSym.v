(** * PropsSym: the property theorems of this part, restated; proofs are in SymThms.
    Generated by tools/gen_props.py: this file contains only statements, [exact] and Print Assumptions. *)
From Coq Require Import String Lra Lia ZArith.
From Verif Require Import Arr ArrFacts Spec SpecSym SpecDyn SpecGeom Numpy Pnnls GeomUtils Polyhedron PolyThms Dynamics Symbolic Oracle PolyMore GeomThms DynThms ZohThms.
From Verif Require Import SymThms.
Local Open Scope list_scope.

(** if get_matrices_affine_expression(x, expr) returns A, b, then expr = A x - b at every point (distinct symbols; expressions regular, e.g. built with sums, products, powers, sin, cos, exp); in particular expr depends on no other symbol *)
Theorem C35_affine_expression sfloat xs es A b :
  sfloat_ok sfloat -> NoDup xs -> Forall regular es ->
  get_matrices_affine_expression sfloat xs es = Ok (A, b) -> is_affine_map xs es A b.
Proof. exact (matrices_ok sfloat xs es A b). Qed.
Print Assumptions C35_affine_expression.

(** on regular expressions that are not affine in the given symbols get_matrices_affine_expression raises TypeError *)
Theorem C35_non_affine sfloat xs es :
  sfloat_ok sfloat -> NoDup xs -> Forall regular es ->
  ~ affine_in xs es -> get_matrices_affine_expression sfloat xs es = Err TypeError.
Proof. exact (matrices_non_affine sfloat xs es). Qed.
Print Assumptions C35_non_affine.

(** sums and multiples of the given symbols and of numbers are accepted *)
Theorem C35_affine_accepted sfloat xs es :
  sfloat_ok sfloat -> es <> [] -> xs <> [] -> Forall (affine_syntax xs) es ->
  exists A b, get_matrices_affine_expression sfloat xs es = Ok (A, b).
Proof. exact (matrices_accepted sfloat xs es). Qed.
Print Assumptions C35_affine_accepted.

(** a successful add_symbolic_inequality(x, expr) adds exactly the constraints expr(x) <= 0 *)
Theorem C35_add_symbolic_inequality sfloat xs es p m me n p' :
  sfloat_ok sfloat -> NoDup xs -> Forall regular es -> wf p m me n ->
  add_symbolic_inequality sfloat xs es p = (Ok tt, p') ->
  forall env, in_poly p' (map env xs) <-> in_poly p (map env xs) /\ Forall (nonpositive env) es.
Proof. exact (add_symbolic_ineq_ok sfloat xs es p m me n p'). Qed.
Print Assumptions C35_add_symbolic_inequality.

(** a successful add_symbolic_equality(x, expr) adds exactly the constraints expr(x) = 0 *)
Theorem C35_add_symbolic_equality sfloat xs es p m me n p' :
  sfloat_ok sfloat -> NoDup xs -> Forall regular es -> wf p m me n ->
  add_symbolic_equality sfloat xs es p = (Ok tt, p') ->
  forall env, in_poly p' (map env xs) <-> in_poly p (map env xs) /\ Forall (vanishes env) es.
Proof. exact (add_symbolic_eq_ok sfloat xs es p m me n p'). Qed.
Print Assumptions C35_add_symbolic_equality.

(** Polyhedron.from_symbolic(x, ineq, eq) returns the set of the points where ineq <= 0 and eq = 0 *)
Theorem C35_polyhedron sfloat xs ineq eq p :
  sfloat_ok sfloat -> NoDup xs -> Forall regular ineq -> (forall l, eq = Some l -> Forall regular l) ->
  poly_from_symbolic sfloat xs ineq eq = Ok p ->
  forall env, in_poly p (map env xs) <-> Forall (nonpositive env) ineq /\ forall l, eq = Some l -> Forall (vanishes env) l.
Proof. exact (poly_symbolic_ok sfloat xs ineq eq p). Qed.
Print Assumptions C35_polyhedron.

(** AffineSystem.from_symbolic(x, u, x_next) returns a system with A x + B u + c = x_next for all x and u *)
Theorem C35_affine_system sfloat xs us es S :
  sfloat_ok sfloat -> NoDup (xs ++ us) -> Forall regular es ->
  aff_from_symbolic sfloat xs us es = Ok S ->
  length es = length xs /\ system_shape (aA S) (aB S) (length xs) (length us) /\
  forall env, map (value env) es = map Some (affine_step (aA S) (aB S) (ac S) (map env xs) (map env us)).
Proof. exact (aff_symbolic_ok sfloat xs us es S). Qed.
Print Assumptions C35_affine_system.

(** it accepts sums and multiples of the symbols, as many as the states *)
Theorem C35_affine_system_accepted sfloat xs us es :
  sfloat_ok sfloat -> NoDup (xs ++ us) -> xs <> [] -> us <> [] -> length es = length xs -> Forall (affine_syntax (xs ++ us)) es ->
  exists S, aff_from_symbolic sfloat xs us es = Ok S.
Proof. exact (aff_symbolic_total sfloat xs us es). Qed.
Print Assumptions C35_affine_system_accepted.

(** LinearSystem.from_symbolic(x, u, x_next) returns a system with A x + B u = x_next up to 1e-8 in every component, for all x and u *)
Theorem C35_linear_system sfloat xs us es S :
  sfloat_ok sfloat -> NoDup (xs ++ us) -> Forall regular es ->
  lin_from_symbolic sfloat xs us es = Ok S ->
  length es = length xs /\ system_shape (lA S) (lB S) (length xs) (length us) /\
  exists c, Forall (fun ci => Rabs ci <= / 100000000) c /\ length c = length xs /\
  forall env, map (value env) es = map Some (vadd (linear_step (lA S) (lB S) (map env xs) (map env us)) c).
Proof. exact (lin_symbolic_ok sfloat xs us es S). Qed.
Print Assumptions C35_linear_system.

(** AffineSystem.from_symbolic_continuous with zero_order_hold: every solution of dx/dt = x_dot(x, u), u constant, satisfies x(h) = A x(0) + B u + c for the returned system (h >= 0, exact matrix exponential) *)
Theorem C35_sampled_system sfloat np xs us es h S :
  sfloat_ok sfloat -> NoDup (xs ++ us) -> Forall regular es ->
  (forall A B c, get_state_transition_matrices sfloat xs us es = Ok (A, B, c) ->
     is_expm (mscale h (zoh_matrix A B c)) (np_expm np (mscale h (zoh_matrix A B c))) (length xs + length us + 1)) ->
  aff_from_symbolic_continuous sfloat np xs us es h "zero_order_hold" = Ok S ->
  system_shape (aA S) (aB S) (length xs) (length us) /\
  forall (x : R -> vec) (env : R -> nat -> R) u,
    (forall t, map (env t) xs = x t) -> (forall t, map (env t) us = u) ->
    (forall t, 0 <= t <= h -> forall i v, (i < length xs)%nat -> value (env t) (nth i es (SNum 0)) = Some v -> derivable_pt_lim (fun s => nth i (x s) 0) t v) ->
    x h = affine_step (aA S) (aB S) (ac S) (x 0) u.
Proof. exact (aff_symbolic_sampled sfloat np xs us es h S). Qed.
Print Assumptions C35_sampled_system.

(** 2 x + 3 y - 1 and x / sqrt(4) are accepted, with the matrices (2 3; 1/2 0) and (1, 0), by every converter meeting the contract, and there is one *)
Example C35_example :
  sfloat_ok sf_auto /\ forall sfloat, sfloat_ok sfloat ->
  NoDup [0%nat; 1%nat] /\ Forall regular ex_es /\
  get_matrices_affine_expression sfloat [0%nat; 1%nat] ex_es = Ok (Mat 2 [[2; 3]; [/ 2; 0]], [1; 0]).
Proof. exact (symbolic_example). Qed.

(** x y and sin(x) meet the hypotheses of C35_non_affine *)
Example C35_non_affine_example :
  Forall regular [SMul (SVar 0) (SVar 1)] /\ ~ affine_in [0%nat; 1%nat] [SMul (SVar 0) (SVar 1)] /\ ~ affine_in [0%nat] [SSin (SVar 0)].
Proof. exact (non_affine_example). Qed.

(** without regularity a wrong affine map can be returned silently: for the sign of x - 1, written sqrt((x-1)^2)/(x-1), the derivative simplifies to 0 and the constant -1 is returned, although the value at 2 is 1 *)
Theorem C35_irregular_refuted :
  exists sfloat e, sfloat_ok sfloat /\
  get_matrices_affine_expression sfloat [0%nat] [e] = Ok (Mat 1 [[0]], [1]) /\ value (fun _ => 2) e = Some 1.
Proof. exact (irregular_refuted). Qed.
Print Assumptions C35_irregular_refuted.

(** LinearSystem.from_symbolic accepts x_next = x + u + 1e-9 as the linear system x + u, with every converter meeting the contract *)
Theorem C35_offset_refuted sfloat :
  sfloat_ok sfloat -> exists e S, lin_from_symbolic sfloat [0%nat] [1%nat] [e] = Ok S /\
  forall env, map (value env) [e] <> map Some (linear_step (lA S) (lB S) (map env [0%nat]) (map env [1%nat])).
Proof. exact (offset_refuted sfloat). Qed.
Print Assumptions C35_offset_refuted.

(** dx/dt = u + 1 with an exact matrix exponential meets the hypotheses of C35_sampled_system, and a system is returned *)
Example C35_sampled_example h :
  0 <= h -> let es := [SAdd (SVar 1) (SNum 1)] in
  Forall regular es /\ NoDup ([0%nat] ++ [1%nat]) /\
  (forall A B c, get_state_transition_matrices sf_auto [0%nat] [1%nat] es = Ok (A, B, c) ->
     is_expm (mscale h (zoh_matrix A B c)) (np_expm np_exp (mscale h (zoh_matrix A B c))) 3) /\
  exists S, aff_from_symbolic_continuous sf_auto np_exp [0%nat] [1%nat] es h "zero_order_hold" = Ok S.
Proof. exact (sampled_example h). Qed.
