(** * PropsDyn: the property theorems of this part, restated; proofs are in DynThms.
    Generated by tools/gen_props.py: this file contains only statements, [exact] and Print Assumptions. *)
From Coq Require Import ZArith String.
From Verif Require Import Arr ArrFacts Spec SpecDyn Numpy Pnnls PnnlsFacts GeomUtils Polyhedron PolyThms Dynamics.
From Verif Require Import DynThms.

(** AffineSystem.simulate returns the N+1 states of the trajectory x(t+1) = A x(t) + B u(t) + c. *)
Theorem C26_affine_simulation A B c nx nu x0 u :
  system_shape A B nx nu -> length c = nx -> length x0 = nx ->
  Forall (fun v => length v = nu) u ->
  exists xs, aff_simulate (ASys A B c) x0 u = Ok xs /\ is_trajectory (affine_step A B c) x0 u xs.
Proof. exact (affine_simulation A B c nx nu x0 u). Qed.
Print Assumptions C26_affine_simulation.

(** LinearSystem.simulate returns the N+1 states of the trajectory x(t+1) = A x(t) + B u(t). *)
Theorem C26_linear_simulation A B k nx nu x0 u :
  system_shape A B nx nu -> length x0 = nx ->
  Forall (fun v => length v = nu) u ->
  exists xs, lin_simulate (LSys A B k) x0 u = Ok xs /\ is_trajectory (linear_step A B) x0 u xs.
Proof. exact (linear_simulation A B k nx nu x0 u). Qed.
Print Assumptions C26_linear_simulation.

(** simulate_closed_loop(x0, N, K) returns what simulate returns for the inputs u(t) = K x(t). *)
Theorem C26_closed_loop A B k nx nu K x0 N :
  system_shape A B nx nu -> shape K nu nx -> length x0 = nx ->
  exists xs u, simulate_closed_loop (LSys A B k) x0 N K = Ok xs /\ lin_simulate (LSys A B k) x0 u = Ok xs /\
    length u = N /\ forall t, (t < N)%nat -> nth t u [] = mv K (nth t xs []).
Proof. exact (closed_loop_simulation A B k nx nu K x0 N). Qed.
Print Assumptions C26_closed_loop.

(** An input of the wrong size is rejected. *)
Theorem C26_wrong_sizes A B c nx nu x0 u :
  system_shape A B nx nu -> length c = nx -> length x0 = nx ->
  ~ Forall (fun v => length v = nu) u -> aff_simulate (ASys A B c) x0 u = Err ValueError.
Proof. exact (simulation_rejects A B c nx nu x0 u). Qed.
Print Assumptions C26_wrong_sizes.

(** The double integrator with x0 = (0, 0) and u = (1, 1) reaches (1, 2); in closed loop with K = (0, -1) from (0, 1) it stops. *)
Example C26_example :
  let A := Mat 2 [[1; 1]; [0; 1]] in let B := Mat 1 [[0]; [1]] in
  system_shape A B 2 1 /\
  lin_simulate (LSys A B None) [0; 0] [[1]; [1]] = Ok [[0; 0]; [0; 1]; [1; 2]] /\
  simulate_closed_loop (LSys A B None) [0; 1] 2 (Mat 2 [[0; -1]]) = Ok [[0; 1]; [1; 0]; [1; 0]].
Proof. exact (simulation_example). Qed.

(** LinearSystem(A, B) is accepted iff A is square and B has as many rows; otherwise ValueError. *)
Theorem C36_linear_constructor A B :
  (nrows A = ncols A /\ nrows A = nrows B -> LinearSystem A B = Ok (LSys A B None)) /\
  (~ (nrows A = ncols A /\ nrows A = nrows B) -> LinearSystem A B = Err ValueError).
Proof. exact (linear_constructor A B). Qed.
Print Assumptions C36_linear_constructor.

(** AffineSystem(A, B, c) is accepted iff A is square, B has as many rows and c is one-dimensional with as many entries; otherwise ValueError. *)
Theorem C36_affine_constructor A B c :
  (forall v, nrows A = ncols A -> nrows A = nrows B -> c = D1 v -> nrows A = length v -> AffineSystem A B c = Ok (ASys A B v)) /\
  (~ (nrows A = ncols A /\ nrows A = nrows B /\ exists v, c = D1 v /\ nrows A = length v) -> AffineSystem A B c = Err ValueError).
Proof. exact (affine_constructor A B c). Qed.
Print Assumptions C36_affine_constructor.

(** PieceWiseAffineSystem(systems, domains) is accepted iff there is at least one system, as many domains, equal numbers of states and inputs and domains of dimension nx + nu; otherwise ValueError.
   The stored systems all have nx states and nu inputs. *)
Theorem C36_pwa_constructor S D :
  (forall s, In s S -> valid_system s) ->
  (forall nx nu, coherent S D nx nu -> PieceWiseAffineSystem S D = Ok (PWA nx nu (map (as_affine nx) S) D)) /\
  ((forall nx nu, ~ coherent S D nx nu) -> PieceWiseAffineSystem S D = Err ValueError).
Proof. exact (pwa_constructor S D). Qed.
Print Assumptions C36_pwa_constructor.

(** Two modes, one of them given as a LinearSystem, are accepted; with a one-input and a two-input mode the call is rejected. *)
Example C36_example :
  let A := Mat 1 [[1]] in let B := Mat 1 [[2]] in
  let d := Poly (Mat 2 [[1; 0]]) [0] (Mat 2 []) [] None None None None None in
  (exists W, PieceWiseAffineSystem [Lin (LSys A B None); Aff (ASys A B [3])] [d; d] = Ok W /\ map ac (w_sys W) = [[0]; [3]]) /\
  PieceWiseAffineSystem [Lin (LSys A B None); Lin (LSys A (Mat 2 [[1; 1]]) None)] [d; d] = Err ValueError.
Proof. exact (pwa_constructor_example). Qed.

(** PieceWiseAffineSystem.simulate returns exactly the run in which every step uses the first domain containing (x,u) within 1e-7, and raises ValueError exactly when a reached pair is in no domain; it raises nothing else.
   Missing: domains with several equalities, or no inequality, for which contains() is wrong (see C06). *)
Theorem C28_simulation_partial W nx nu x0 u :
  pwa_wf W nx nu -> length x0 = nx -> Forall (fun v => length v = nu) u ->
  (forall xs ms, pwa_simulate W x0 u = Ok (xs, ms) <-> pwa_run W x0 u xs ms) /\
  (pwa_simulate W x0 u = Err ValueError <->
     exists k xs ms, (k < length u)%nat /\ pwa_run W x0 (firstn k u) xs ms /\ no_mode (w_dom W) (nth k xs [] ++ nth k u [])) /\
  (forall e, pwa_simulate W x0 u = Err e -> e = ValueError).
Proof. exact (pwa_simulation W nx nu x0 u). Qed.
Print Assumptions C28_simulation_partial.

(** x+ = x/2 + u for x <= 0, x+ = -x + u for x >= 0: from x0 = 1 with u = (0, 0) the modes are 1, 0; (2, 0) is outside of the domains |x| <= 1. *)
Example C28_example :
  let d0 := Poly (Mat 2 [[1; 0]; [-1; 0]]) [0; 1] (Mat 2 []) [] None None None None None in
  let d1 := Poly (Mat 2 [[-1; 0]; [1; 0]]) [0; 1] (Mat 2 []) [] None None None None None in
  let W := PWA 1 1 [ASys (Mat 1 [[/2]]) (Mat 1 [[1]]) [0]; ASys (Mat 1 [[-1]]) (Mat 1 [[1]]) [0]] [d0; d1] in
  pwa_wf W 1 1 /\ pwa_run W [1] [[0]; [0]] [[1]; [-1]; [-/2]] [1%nat; 0%nat] /\ no_mode (w_dom W) [2; 0].
Proof. exact (pwa_simulation_example). Qed.

(** explicit_euler(A, B, c, h) returns matrices with A_d x + B_d u + c_d = x + h (A x + B u + c). *)
Theorem C34_explicit_euler A B c nx nu h :
  system_shape A B nx nu -> length c = nx -> 0 <= h ->
  exists A_d B_d c_d, explicit_euler A B (D1 c) h = Ok (A_d, B_d, c_d) /\ system_shape A_d B_d nx nu /\ length c_d = nx /\
    forall x u, length x = nx -> length u = nu ->
      affine_step A_d B_d c_d x u = vadd x (vscale h (affine_step A B c x u)).
Proof. exact (explicit_euler_ok A B c nx nu h). Qed.
Print Assumptions C34_explicit_euler.

(** Incoherent shapes and negative time steps are rejected. *)
Theorem C34_euler_rejects A B c h :
  ~ (nrows A = ncols A /\ nrows A = nrows B /\ (exists v, c = D1 v /\ nrows A = length v) /\ 0 <= h) ->
  explicit_euler A B c h = Err ValueError.
Proof. exact (explicit_euler_rejects A B c h). Qed.
Print Assumptions C34_euler_rejects.
