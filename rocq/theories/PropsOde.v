(** * PropsOde: the property theorems of this part, restated; proofs are in OdeThms.
    Generated by tools/gen_props.py: this file contains only statements, [exact] and Print Assumptions. *)
From Coq Require Import Rseries SeqProp Lra Lia String ZArith.
From Verif Require Import Arr ArrFacts Spec SpecDyn Numpy Pnnls GeomUtils Polyhedron PolyThms Dynamics Oracle PolyMore DynThms ZohThms.
From Verif Require Import OdeThms.
Local Open Scope list_scope.
Open Scope R_scope.

(** For every initial state and every constant input dx/dt = A x + B u + c has a solution for all times, and two solutions on [0, h] with the same initial state agree on [0, h] (so that C34_zero_order_hold speaks about exactly one value x(h)). *)
Theorem C34_solutions A B c u x0 nx nu :
  system_shape A B nx nu -> length c = nx -> length u = nu -> length x0 = nx ->
  (exists x, x 0 = x0 /\ forall h, ode_solution A B c u nx h x) /\
  forall h x y, ode_solution A B c u nx h x -> ode_solution A B c u nx h y -> x 0 = x0 -> y 0 = x0 -> forall t, 0 <= t <= h -> x t = y t.
Proof. exact (ode_solutions A B c u x0 nx nu). Qed.
Print Assumptions C34_solutions.

(** With an exact matrix exponential, the values A_d x0 + B_d u + c_d of zero_order_hold are exactly the values x(h) of the solutions: for all x0, u and y, y = A_d x0 + B_d u + c_d iff some solution on [0, h] leads from x0 to y; A_d, B_d, c_d are the only such matrices. *)
Theorem C34_zoh_exact np A B c nx nu h :
  system_shape A B nx nu -> length c = nx -> 0 <= h ->
  is_expm (mscale h (zoh_matrix A B c)) (np_expm np (mscale h (zoh_matrix A B c))) (nx + nu + 1) ->
  exists A_d B_d c_d, zero_order_hold np A B (D1 c) h = Ok (A_d, B_d, c_d) /\
    (forall x0 u y, length x0 = nx -> length u = nu -> (affine_step A_d B_d c_d x0 u = y <-> exists x, ode_solution A B c u nx h x /\ x 0 = x0 /\ x h = y)) /\
    forall A' B' c', system_shape A' B' nx nu -> length c' = nx ->
      (forall u x, length u = nu -> ode_solution A B c u nx h x -> x h = affine_step A' B' c' (x 0) u) -> A' = A_d /\ B' = B_d /\ c' = c_d.
Proof. exact (zoh_exact np A B c nx nu h). Qed.
Print Assumptions C34_zoh_exact.

(** With an exact matrix exponential, the zero-order hold with step h1 + h2 is the step h1 followed by the step h2, for a constant input; with step 0 it is the identity. *)
Theorem C34_zoh_compose np A B c nx nu h1 h2 :
  system_shape A B nx nu -> length c = nx -> 0 <= h1 -> 0 <= h2 ->
  (forall h, is_expm (mscale h (zoh_matrix A B c)) (np_expm np (mscale h (zoh_matrix A B c))) (nx + nu + 1)) ->
  exists A1 B1 c1 A2 B2 c2 A3 B3 c3 A0 B0 c0, zero_order_hold np A B (D1 c) h1 = Ok (A1, B1, c1) /\ zero_order_hold np A B (D1 c) h2 = Ok (A2, B2, c2) /\ zero_order_hold np A B (D1 c) (h1 + h2) = Ok (A3, B3, c3) /\ zero_order_hold np A B (D1 c) 0 = Ok (A0, B0, c0) /\
    forall x u, length x = nx -> length u = nu -> affine_step A3 B3 c3 x u = affine_step A2 B2 c2 (affine_step A1 B1 c1 x u) u /\ affine_step A0 B0 c0 x u = x.
Proof. exact (zoh_compose np A B c nx nu h1 h2). Qed.
Print Assumptions C34_zoh_compose.

(** The two methods agree to second order: at every x, u and for steps up to T, A_d x + B_d u + c_d of explicit_euler and of zero_order_hold (exact matrix exponential) differ in each component by at most C h^2. *)
Theorem C34_euler_error np A B c nx nu T x u :
  system_shape A B nx nu -> length c = nx -> length x = nx -> length u = nu -> 0 <= T ->
  (forall h, is_expm (mscale h (zoh_matrix A B c)) (np_expm np (mscale h (zoh_matrix A B c))) (nx + nu + 1)) ->
  exists C, 0 <= C /\ forall h, 0 <= h <= T -> exists A1 B1 c1 A2 B2 c2, zero_order_hold np A B (D1 c) h = Ok (A1, B1, c1) /\ explicit_euler A B (D1 c) h = Ok (A2, B2, c2) /\
    forall i, (i < nx)%nat -> Rabs (nth i (affine_step A1 B1 c1 x u) 0 - nth i (affine_step A2 B2 c2 x u) 0) <= C * (h * h).
Proof. exact (euler_error np A B c nx nu T x u). Qed.
Print Assumptions C34_euler_error.

(** explicit_euler does not compose: for dx/dt = x two steps of length 1 lead from 1 to 4, one step of length 2 leads to 3. *)
Theorem C34_euler_compose_refuted :
  exists A B c A1 B1 c1 A2 B2 c2, system_shape A B 1 1 /\ explicit_euler A B (D1 c) 1 = Ok (A1, B1, c1) /\ explicit_euler A B (D1 c) 2 = Ok (A2, B2, c2) /\
  affine_step A1 B1 c1 (affine_step A1 B1 c1 [1] [0]) [0] = [4] /\ affine_step A2 B2 c2 [1] [0] = [3].
Proof. exact (euler_compose_refuted). Qed.
Print Assumptions C34_euler_compose_refuted.

(** There is a library with an exact matrix exponential for every matrix, so the hypotheses of the theorems can be met; the solution of dx/dt = x from 1 with u = 0 is the exponential function, and zero_order_hold with step h maps 1 to exp h. *)
Example C34_ode_example h :
  0 <= h -> let A := Mat 1 [[1]] in let B := Mat 1 [[0]] in let c := [0] in
  system_shape A B 1 1 /\ (forall h, is_expm (mscale h (zoh_matrix A B c)) (np_expm np_exp (mscale h (zoh_matrix A B c))) 3) /\
  (forall h, ode_solution A B c [0] 1 h (fun t => [exp t])) /\ exists A_d B_d c_d, zero_order_hold np_exp A B (D1 c) h = Ok (A_d, B_d, c_d) /\ affine_step A_d B_d c_d [1] [0] = [exp h].
Proof. exact (ode_example h). Qed.
