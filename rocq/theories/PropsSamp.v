(** * PropsSamp: the property theorems of this part, restated; proofs are in SampThms.
    Generated by tools/gen_props.py: this file contains only statements, [exact] and Print Assumptions. *)
From Coq Require Import String Lra Lia ZArith.
From Verif Require Import Arr ArrFacts Spec SpecSym SpecDyn SpecGeom Numpy Pnnls GeomUtils Polyhedron PolyThms Dynamics Symbolic Oracle PolyMore GeomThms DynThms ZohThms SymThms.
From Verif Require Import SampThms.

(** LinearSystem.from_continuous(A, B, h, method): with zero_order_hold (exact matrix exponential) every solution of dx/dt = A x + B u, u constant, satisfies x(h) = A_d x(0) + B_d u; with explicit_euler A_d x + B_d u = x + h (A x + B u); other methods, negative h and incoherent shapes are rejected *)
Theorem C34_linear_system np A B h :
  (forall nx nu, system_shape A B nx nu -> 0 <= h ->
    (is_expm (mscale h (zoh_matrix A B (zeros nx))) (np_expm np (mscale h (zoh_matrix A B (zeros nx)))) (nx + nu + 1) ->
      exists S, lin_from_continuous np A B h "zero_order_hold" = Ok S /\ system_shape (lA S) (lB S) nx nu /\ forall u x, length u = nu -> ode_solution A B (zeros nx) u nx h x -> x h = linear_step (lA S) (lB S) (x 0) u) /\
    (exists S, lin_from_continuous np A B h "explicit_euler" = Ok S /\ system_shape (lA S) (lB S) nx nu /\ forall x u, length x = nx -> length u = nu -> linear_step (lA S) (lB S) x u = vadd x (vscale h (linear_step A B x u)))) /\
  (forall method, method <> "zero_order_hold"%string -> method <> "explicit_euler"%string -> lin_from_continuous np A B h method = Err ValueError) /\
  (forall method, ~ (nrows A = ncols A /\ nrows A = nrows B /\ 0 <= h) -> lin_from_continuous np A B h method = Err ValueError).
Proof. exact (lin_continuous np A B h). Qed.
Print Assumptions C34_linear_system.

(** AffineSystem.from_continuous(A, B, c, h, method): with zero_order_hold (exact matrix exponential) every solution of dx/dt = A x + B u + c, u constant, satisfies x(h) = A_d x(0) + B_d u + c_d; with explicit_euler A_d x + B_d u + c_d = x + h (A x + B u + c); other methods, negative h and incoherent shapes are rejected *)
Theorem C34_affine_system np A B c h :
  (forall nx nu v, c = D1 v -> system_shape A B nx nu -> length v = nx -> 0 <= h ->
    (is_expm (mscale h (zoh_matrix A B v)) (np_expm np (mscale h (zoh_matrix A B v))) (nx + nu + 1) ->
      exists S, aff_from_continuous np A B c h "zero_order_hold" = Ok S /\ system_shape (aA S) (aB S) nx nu /\ length (ac S) = nx /\ forall u x, length u = nu -> ode_solution A B v u nx h x -> x h = affine_step (aA S) (aB S) (ac S) (x 0) u) /\
    (exists S, aff_from_continuous np A B c h "explicit_euler" = Ok S /\ system_shape (aA S) (aB S) nx nu /\ length (ac S) = nx /\ forall x u, length x = nx -> length u = nu -> affine_step (aA S) (aB S) (ac S) x u = vadd x (vscale h (affine_step A B v x u)))) /\
  (forall method, method <> "zero_order_hold"%string -> method <> "explicit_euler"%string -> aff_from_continuous np A B c h method = Err ValueError) /\
  (forall method, ~ (nrows A = ncols A /\ nrows A = nrows B /\ (exists v, c = D1 v /\ length v = nrows A) /\ 0 <= h) -> aff_from_continuous np A B c h method = Err ValueError).
Proof. exact (aff_continuous np A B c h). Qed.
Print Assumptions C34_affine_system.

(** LinearSystem.from_symbolic_continuous(x, u, x_dot, h, method) returns a system only if x_dot(0, 0) = c with components up to 1e-8; with zero_order_hold (exact matrix exponential) every solution of dx/dt = x_dot(x, u) - c, u constant, satisfies x(h) = A x(0) + B u; with explicit_euler A x + B u = x + h (x_dot(x, u) - c). In particular for linear x_dot, where c = 0. *)
Theorem C35_sampled_linear sfloat np xs us es h method S :
  sfloat_ok sfloat -> NoDup (xs ++ us) -> Forall regular es ->
  (method = "zero_order_hold"%string -> forall A B c, get_state_transition_matrices sfloat xs us es = Ok (A, B, c) ->
     is_expm (mscale h (zoh_matrix A B (zeros (length xs)))) (np_expm np (mscale h (zoh_matrix A B (zeros (length xs))))) (length xs + length us + 1)) ->
  lin_from_symbolic_continuous sfloat np xs us es h method = Ok S ->
  0 <= h /\ length es = length xs /\ system_shape (lA S) (lB S) (length xs) (length us) /\
  exists c, map (value (fun _ => 0)) es = map Some c /\ Forall (fun ci => Rabs ci <= / 100000000) c /\
  (method = "zero_order_hold"%string /\
   (forall (x : R -> vec) (env : R -> nat -> R) u,
     (forall t, map (env t) xs = x t) -> (forall t, map (env t) us = u) ->
     (forall t, 0 <= t <= h -> forall i v, (i < length xs)%nat -> value (env t) (nth i es (SNum 0)) = Some v -> derivable_pt_lim (fun s => nth i (x s) 0) t (v - nth i c 0)) ->
     x h = linear_step (lA S) (lB S) (x 0) u) \/
   method = "explicit_euler"%string /\
   forall env v, map (value env) es = map Some v -> linear_step (lA S) (lB S) (map env xs) (map env us) = vadd (map env xs) (vscale h (vsub v c))).
Proof. exact (lin_symbolic_sampled sfloat np xs us es h method S). Qed.
Print Assumptions C35_sampled_linear.

(** AffineSystem.from_symbolic_continuous with explicit_euler returns a system with A x + B u + c = x + h x_dot(x, u) for all x and u; a system is returned by no other methods than zero_order_hold and explicit_euler *)
Theorem C35_euler_affine sfloat np xs us es h method S :
  sfloat_ok sfloat -> NoDup (xs ++ us) -> Forall regular es ->
  aff_from_symbolic_continuous sfloat np xs us es h method = Ok S -> 0 <= h /\ length es = length xs /\
  (method = "zero_order_hold"%string \/ method = "explicit_euler"%string /\ system_shape (aA S) (aB S) (length xs) (length us) /\
   forall env v, map (value env) es = map Some v -> affine_step (aA S) (aB S) (ac S) (map env xs) (map env us) = vadd (map env xs) (vscale h v)).
Proof. exact (aff_symbolic_euler sfloat np xs us es h method S). Qed.
Print Assumptions C35_euler_affine.

(** dx/dt = 2 x + u meets the hypotheses of C35_sampled_linear and C35_euler_affine with an exact matrix exponential; systems are returned, explicit_euler gives x + h (2 x + u). The system of C34_linear_system and C34_affine_system is an example for these. *)
Example C35_sampled_linear_example h :
  0 <= h -> let es := [SAdd (SMul (SNum 2) (SVar 0)) (SVar 1)] in
  Forall regular es /\ NoDup ([0%nat] ++ [1%nat]) /\ get_state_transition_matrices sf_auto [0%nat] [1%nat] es = Ok (Mat 1 [[2]], Mat 1 [[1]], [0]) /\
  (forall v, length v = 1%nat -> is_expm (mscale h (zoh_matrix (Mat 1 [[2]]) (Mat 1 [[1]]) v)) (np_expm np_exp (mscale h (zoh_matrix (Mat 1 [[2]]) (Mat 1 [[1]]) v))) 3) /\
  (exists S, lin_from_symbolic_continuous sf_auto np_exp [0%nat] [1%nat] es h "zero_order_hold" = Ok S) /\
  (exists S, lin_from_symbolic_continuous sf_auto np_exp [0%nat] [1%nat] es h "explicit_euler" = Ok S /\ forall x u, linear_step (lA S) (lB S) [x] [u] = [x + h * (2 * x + u)]) /\
  exists S, aff_from_symbolic_continuous sf_auto np_exp [0%nat] [1%nat] es h "explicit_euler" = Ok S.
Proof. exact (sampled_linear_example h). Qed.
