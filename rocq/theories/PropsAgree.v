(** * PropsAgree: the property theorems of this part, restated; proofs are in AgreeThms.
    Generated by tools/gen_props.py: this file contains only statements, [exact] and Print Assumptions. *)
From Coq Require Import ZArith Lra Lia String.
From Verif Require Import Arr ArrFacts Spec SpecDyn Numpy Pnnls GeomUtils Polyhedron PolyThms Dynamics Oracle PolyMore DynThms ZohThms SampThms OdeThms.
From Verif Require Import AgreeThms.
Open Scope R_scope.

(** LinearSystem(A, B).simulate and AffineSystem(A, B, 0).simulate agree for all arguments, also in what they raise; the two condense to the same A_bar, B_bar, whatever the offset of the affine system. *)
Theorem C90_linear_affine A B k nx nu :
  system_shape A B nx nu ->
  (forall x u, lin_simulate (LSys A B k) x u = aff_simulate (ASys A B (zeros nx)) x u) /\
  forall c N, length c = nx -> lin_condense (LSys A B k) N = match aff_condense (ASys A B c) N with Ok (A_bar, B_bar, _) => Ok (A_bar, B_bar) | Err e => Err e end.
Proof. exact (linear_affine A B k nx nu). Qed.
Print Assumptions C90_linear_affine.

(** Simulating over u1 followed by u2 is simulating over u1 and then over u2 from the last state, for linear, affine, piecewise affine systems and in closed loop; an error in the first part is the error of the whole. *)
Theorem C90_composition :
  (forall S u1 u2 x, lin_simulate S x (u1 ++ u2) = (xs <- lin_simulate S x u1 ;; ys <- lin_simulate S (last xs []) u2 ;; Ok (removelast xs ++ ys))) /\
  (forall S u1 u2 x, aff_simulate S x (u1 ++ u2) = (xs <- aff_simulate S x u1 ;; ys <- aff_simulate S (last xs []) u2 ;; Ok (removelast xs ++ ys))) /\
  (forall W u1 u2 x, pwa_simulate W x (u1 ++ u2) = (q <- pwa_simulate W x u1 ;; r <- pwa_simulate W (last (fst q) []) u2 ;; Ok (removelast (fst q) ++ fst r, snd q ++ snd r))) /\
  (forall S K N1 N2 x, simulate_closed_loop S x (N1 + N2) K = (xs <- simulate_closed_loop S x N1 K ;; ys <- simulate_closed_loop S (last xs []) N2 K ;; Ok (removelast xs ++ ys))).
Proof. exact (simulate_composition). Qed.
Print Assumptions C90_composition.

(** A piecewise affine system whose modes all have the same dynamics simulates as that affine system whenever it returns; with a single mode it returns exactly when the affine system does and the domain accepts every pair that is reached, and the modes are all 0. *)
Theorem C90_one_dynamics :
  (forall W s x u xs ms, (forall s', In s' (w_sys W) -> s' = s) -> pwa_simulate W x u = Ok (xs, ms) -> aff_simulate s x u = Ok xs /\ length ms = length u) /\
  (forall nx nu s d x u xs ms, pwa_simulate (PWA nx nu [s] [d]) x u = Ok (xs, ms) <-> 
    aff_simulate s x u = Ok xs /\ ms = repeat 0%nat (length u) /\ forall t, (t < length u)%nat -> contains tol7 d (nth t xs [] ++ nth t u []) = Ok true).
Proof. exact (one_dynamics). Qed.
Print Assumptions C90_one_dynamics.

(** The simulation of a linear system is linear in the initial state and the inputs together: if it returns xs for (x, us) and ys for (y, vs), it returns a xs + b ys for (a x + b y, a us + b vs). *)
Theorem C90_superposition A B k nx nu a b us :
  system_shape A B nx nu -> forall vs x y xs ys, length vs = length us ->
  lin_simulate (LSys A B k) x us = Ok xs -> lin_simulate (LSys A B k) y vs = Ok ys ->
  lin_simulate (LSys A B k) (comb a b x y) (map2 (comb a b) us vs) = Ok (map2 (comb a b) xs ys).
Proof. exact (superposition A B k nx nu a b us). Qed.
Print Assumptions C90_superposition.

(** The difference of two simulations of an affine system is a simulation of the linear system with the same A and B (from the difference of the initial states, with the differences of the inputs). *)
Theorem C90_difference A B c k nx nu us :
  system_shape A B nx nu -> length c = nx -> forall vs x y xs ys, length vs = length us ->
  aff_simulate (ASys A B c) x us = Ok xs -> aff_simulate (ASys A B c) y vs = Ok ys ->
  lin_simulate (LSys A B k) (vsub x y) (map2 vsub us vs) = Ok (map2 vsub xs ys).
Proof. exact (affine_difference A B c k nx nu us). Qed.
Print Assumptions C90_difference.

(** LinearSystem.from_continuous(A, B, h) and AffineSystem.from_continuous(A, B, 0, h) have the same matrices, and the offset of the latter is 0, with explicit_euler and (exact matrix exponential) with zero_order_hold. *)
Theorem C90_discretised np A B nx nu h method :
  system_shape A B nx nu -> 0 <= h -> method = "explicit_euler"%string \/ method = "zero_order_hold"%string /\ is_expm (mscale h (zoh_matrix A B (zeros nx))) (np_expm np (mscale h (zoh_matrix A B (zeros nx)))) (nx + nu + 1) ->
  exists A_d B_d, lin_from_continuous np A B h method = Ok (LSys A_d B_d None) /\ aff_from_continuous np A B (D1 (zeros nx)) h method = Ok (ASys A_d B_d (zeros nx)).
Proof. exact (discretised np A B nx nu h method). Qed.
Print Assumptions C90_discretised.

(** The double integrator: u = (1, 1) from (0, 0) leads to (1, 2), u = (1) from (1, 2) to (3, 3), together u = (1, 1, 1) leads to (3, 3); twice the inputs lead to (2, 4); a piecewise affine system with this dynamics in the domain x1 <= 10 returns the same states and modes (0, 0). *)
Example C90_example :
  let A := Mat 2 [[1; 1]; [0; 1]] in let B := Mat 1 [[0]; [1]] in let d := Poly (Mat 3 [[1; 0; 0]]) [10] (Mat 3 []) [] None None None None None in
  system_shape A B 2 1 /\ lin_simulate (LSys A B None) [0; 0] [[1]; [1]] = Ok [[0; 0]; [0; 1]; [1; 2]] /\ lin_simulate (LSys A B None) [1; 2] [[1]] = Ok [[1; 2]; [3; 3]] /\ lin_simulate (LSys A B None) [0; 0] [[1]; [1]; [1]] = Ok [[0; 0]; [0; 1]; [1; 2]; [3; 3]] /\
  lin_simulate (LSys A B None) [0; 0] [[2]; [2]] = Ok [[0; 0]; [0; 2]; [2; 4]] /\
  pwa_simulate (PWA 2 1 [ASys A B (zeros 2)] [d]) [0; 0] [[1]; [1]] = Ok ([[0; 0]; [0; 1]; [1; 2]], [0%nat; 0%nat]).
Proof. exact (agree_example). Qed.
