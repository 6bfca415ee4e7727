(** * PropsWall: the property theorems of this part, restated; proofs are in WallThms.
    Generated by tools/gen_props.py: this file contains only statements, [exact] and Print Assumptions. *)
From Coq Require Import ZArith String Classical.
From Verif Require DareThms ContThms SampThms.
From Verif Require Import Arr ArrFacts Spec SpecGeom SpecMpc SpecProg SpecLoop Numpy Pnnls PnnlsFacts QpFacts GeomUtils Polyhedron PolyThms Oracle SolverThms NullFacts PolySolveThms PolyMore PolyBoundThms SpecDyn Dynamics DynThms CondenseThms LqrThms McaisThms Mpqp MpqpThms Controllers CtrlThms Gurobi Programs ProgThms Hybrid HybridThms HybridOptThms HybridLoopThms WorkThms Notebooks NoteThms Walls.
From Verif Require Import WallThms.
Local Open Scope list_scope.

(** The cells of hybrid_mpc.ipynb that define the systems and the domains, for all positive masses, lengths, stiffnesses, distances, steps and bounds (any g): they succeed, and so does PieceWiseAffineSystem. The domains are the boxes of angles below and above d/l; together they cover the box of angles between -2d/l and 2d/l. On its domain each mode is the step of the explicit Euler method for the pendulum with a one-sided spring k max(0, th - d/l). One step of simulate from the box succeeds, and its angular velocity differs from that of the spring model by at most h k/m 1e-7 (the angle not at all); the two agree exactly unless the angle is within 1e-7 beyond the wall. *)
Theorem C91_pendulum np m l g k d h v u :
  exact_np np -> 0 < m -> 0 < l -> 0 < k -> 0 < d -> 0 < h -> 0 < v -> 0 < u ->
  exists S1 S2 D1 D2 W, pendulum_systems np m l g k d h = Ok (S1, S2) /\ pendulum_domains np l d v u = Ok (D1, D2) /\ PieceWiseAffineSystem [Lin S1; Aff S2] [D1; D2] = Ok W /\
    forall a b w,
      (in_poly D1 [a; b; w] <-> -2 * d / l <= a <= d / l /\ - v <= b <= v /\ - u <= w <= u) /\
      (in_poly D2 [a; b; w] <-> d / l <= a <= 2 * d / l /\ - v <= b <= v /\ - u <= w <= u) /\
      (in_poly D1 [a; b; w] -> linear_step (lA S1) (lB S1) [a; b] [w] = pend_step m l g k d h a b w) /\
      (in_poly D2 [a; b; w] -> affine_step (aA S2) (aB S2) (ac S2) [a; b] [w] = pend_step m l g k d h a b w) /\
      (-2 * d / l <= a <= 2 * d / l -> - v <= b <= v -> - u <= w <= u ->
       exists x2 mode, pwa_simulate W [a; b] [[w]] = Ok ([[a; b]; [a + h * b; x2]], [mode]) /\ Rabs (x2 - nth 1 (pend_step m l g k d h a b w) 0) <= h * (k / m) * tol7 /\
         (a <= d / l \/ d / l + tol7 < a -> [a + h * b; x2] = pend_step m l g k d h a b w)).
Proof. exact (pendulum_cells np m l g k d h v u). Qed.
Print Assumptions C91_pendulum.

(** The cells of hybrid_mpc_2.ipynb that define the systems and the domains, for all positive masses, lengths, stiffnesses, distances, steps and bounds (any g): they succeed, and so does PieceWiseAffineSystem. The domains are the parts of the box of bounds where the tip x1 - l x2 of the pole is left of -d, between -d and d, and right of d. On its domain each mode is the step of the explicit Euler method for the cart-pole with a one-sided spring at -d and one at d acting on the tip. One step of simulate from the box succeeds; positions and the velocity of the cart are those of the spring model, and the angular velocity differs from it by at most h k/(l mp) 1e-7; the two agree exactly unless the tip is within 1e-7 right of one of the two walls. *)
Theorem C91_cart np mc mp l d k g h th v w u :
  exact_np np -> 0 < mc -> 0 < mp -> 0 < l -> 0 < d -> 0 < k -> 0 < h -> 0 < th -> 0 < v -> 0 < w -> 0 < u ->
  exists S1 S2 S3 D1 D2 D3 W, cart_systems np mc mp l d k g h = Ok (S1, S2, S3) /\ cart_domains np l d th v w u = Ok (D1, D2, D3) /\ PieceWiseAffineSystem [Aff S1; Lin S2; Aff S3] [D1; D2; D3] = Ok W /\
    forall a b c e f, let y := a - l * b in let box := - (3 / 2 * d) <= a <= 3 / 2 * d /\ - th <= b <= th /\ - v <= c <= v /\ - w <= e <= w /\ - u <= f <= u in
      (in_poly D1 [a; b; c; e; f] <-> box /\ y <= - d) /\ (in_poly D2 [a; b; c; e; f] <-> box /\ - d <= y <= d) /\ (in_poly D3 [a; b; c; e; f] <-> box /\ d <= y) /\
      (in_poly D1 [a; b; c; e; f] -> affine_step (aA S1) (aB S1) (ac S1) [a; b; c; e] [f] = cart_step mc mp l d k g h a b c e f) /\
      (in_poly D2 [a; b; c; e; f] -> linear_step (lA S2) (lB S2) [a; b; c; e] [f] = cart_step mc mp l d k g h a b c e f) /\
      (in_poly D3 [a; b; c; e; f] -> affine_step (aA S3) (aB S3) (ac S3) [a; b; c; e] [f] = cart_step mc mp l d k g h a b c e f) /\
      (box -> exists x4 mode, let x' := firstn 3 (cart_step mc mp l d k g h a b c e f) ++ [x4] in
         pwa_simulate W [a; b; c; e] [[f]] = Ok ([[a; b; c; e]; x'], [mode]) /\ Rabs (x4 - nth 3 (cart_step mc mp l d k g h a b c e f) 0) <= h * (k / (l * mp)) * tol7 /\
         (y <= - d \/ - d + tol7 < y <= d \/ d + tol7 < y -> x' = cart_step mc mp l d k g h a b c e f)).
Proof. exact (cart_cells np mc mp l d k g h th v w u). Qed.
Print Assumptions C91_cart.

(** For all positive parameters the linear mode of both notebooks (the pendulum away from the wall, for any g; the cart-pole between the walls, for g other than 0) is controllable in the sense of the definition: every state is reached from every state in as many steps as there are states. *)
Theorem C91_controllable np m l g k d h mc mp :
  0 < m -> 0 < l -> 0 < h -> 0 < mc -> 0 < mp ->
  (forall S1 S2, pendulum_systems np m l g k d h = Ok (S1, S2) -> steerable (lA S1) (lB S1) 2 1 2) /\
  (g <> 0 -> forall S1 S2 S3, cart_systems np mc mp l d k g h = Ok (S1, S2, S3) -> steerable (lA S2) (lB S2) 4 1 4).
Proof. exact (walls_controllable np m l g k d h mc mp). Qed.
Print Assumptions C91_controllable.

(** The closed loop of the notebooks when the modes may disagree along the boundaries: the conclusions of C76_run hold up to every time T such that at the states met before T Gurobi solves the program and the mode that simulate takes gives the same next state as the modes whose domain contains (x, u).
   Missing: states in the strips of width 1e-7 along boundaries where the modes disagree; there simulate may take the other mode (C76_mode_refuted), and the state reached need not have an admissible run. *)
Theorem C76_along_partial np S_list D_list i S1 D1 N Q Rm nx nu :
  hybrid_problem np S_list D_list i S1 D1 N Q Rm nx nu ->
  exists fuel0 Y, (forall fuel, (fuel0 <= fuel)%nat -> hybrid_mpc_design np fuel S_list D_list S1 D1 N Q Rm = Ok Y) /\ y_S Y = PWA nx nu (map (as_affine nx) S_list) D_list /\
    (terminal_invariant (lA S1) (lB S1) (y_K Y) (in_poly D1) (in_poly (y_XN Y)) ->
     forall grb x0, length x0 = nx -> (exists us modes xs, pwa_run_from (y_S Y) (y_XN Y) nu N x0 us modes xs) ->
     exists X U : nat -> vec, X 0%nat = x0 /\
       (forall T, (forall t, (t < T)%nat -> gurobi_solves grb (k_mpmiqp (y_C Y)) (X t)) -> (forall t, (t < T)%nat -> agrees_at (y_S Y) (X t) (U t)) ->
          run_hybrid grb (y_C Y) (y_S Y) T x0 = Ok (map U (seq 0 T), map X (seq 0 (Datatypes.S T)))) /\
       (forall T, (forall t, (t < T)%nat -> gurobi_solves grb (k_mpmiqp (y_C Y)) (X t)) ->
          (forall t, (t < T)%nat -> length (X t) = nx /\ length (U t) = nu /\ exists m, (m < length S_list)%nat /\ in_poly (nth m D_list poly0) (X t ++ U t) /\ X (Datatypes.S t) = mode_step (y_S Y) m (X t) (U t)) /\
          forall us xs modes V0, hybrid_feedforward grb (y_C Y) x0 = Ok (Some (us, xs, modes, V0)) -> forall t, (t < T)%nat -> sum_upto (fun t => stage_cost Q Rm (X t) (U t)) t <= V0) /\
       forall eps, 0 < eps -> (forall t, (forall s, (s <= t)%nat -> eps <= norm (X s)) -> gurobi_solves grb (k_mpmiqp (y_C Y)) (X t)) -> exists T, norm (X T) < eps).
Proof. exact (hybrid_along np S_list D_list i S1 D1 N Q Rm nx nu). Qed.
Print Assumptions C76_along_partial.

(** hybrid_mpc.ipynb from its first to its last cell (without plots), for all positive parameters, horizons, positive definite Q and R, exact libraries: the systems, domains and controller are built. When the terminal set is invariant (see C76_design), from every state with an admissible run the closed loop follows the pendulum with the one-sided spring: up to every time T such that before T Gurobi solves the programs met and no angle met is within 1e-7 beyond the wall, the loop does not fail, every next state is exactly that of the spring model (no matter how many times the wall is hit), every angle is between -2d/l and 2d/l, and the bounds on velocity and input hold. If Gurobi solves the programs as long as the state is not within eps of the origin, this motion enters the ball of radius eps. *)
Theorem C91_pendulum_loop np m l g k d h v u N Q Rm S1 S2 D1 D2 :
  0 < m -> 0 < l -> 0 < k -> 0 < d -> 0 < h -> 0 < v -> 0 < u -> (0 < N)%nat ->
  shape Q 2 2 -> shape Rm 1 1 -> Spec.pd Q 2 -> Spec.pd Rm 1 ->
  pendulum_systems np m l g k d h = Ok (S1, S2) -> pendulum_domains np l d v u = Ok (D1, D2) -> lqr_libraries np S1 Q Rm 2 1 ->
  exists fuel0 Y, (forall fuel, (fuel0 <= fuel)%nat -> hybrid_mpc_design np fuel [Lin S1; Aff S2] [D1; D2] S1 D1 N Q Rm = Ok Y) /\
    (terminal_invariant (lA S1) (lB S1) (y_K Y) (in_poly D1) (in_poly (y_XN Y)) ->
     forall grb x0, length x0 = 2%nat -> (exists us modes xs, pwa_run_from (y_S Y) (y_XN Y) 1 N x0 us modes xs) ->
     exists X U : nat -> vec, X 0%nat = x0 /\
       (forall T, (forall t, (t < T)%nat -> gurobi_solves grb (k_mpmiqp (y_C Y)) (X t)) ->
          (forall t, (t < T)%nat -> exists a b w, X t = [a; b] /\ U t = [w] /\ X (Datatypes.S t) = pend_step m l g k d h a b w /\ -2 * d / l <= a <= 2 * d / l /\ - v <= b <= v /\ - u <= w <= u) /\
          ((forall t, (t < T)%nat -> nth 0 (X t) 0 <= d / l \/ d / l + tol7 < nth 0 (X t) 0) -> run_hybrid grb (y_C Y) (y_S Y) T x0 = Ok (map U (seq 0 T), map X (seq 0 (Datatypes.S T))))) /\
       forall eps, 0 < eps -> (forall t, (forall s, (s <= t)%nat -> eps <= norm (X s)) -> gurobi_solves grb (k_mpmiqp (y_C Y)) (X t)) -> exists T, norm (X T) < eps).
Proof. exact (pendulum_loop np m l g k d h v u N Q Rm S1 S2 D1 D2). Qed.
Print Assumptions C91_pendulum_loop.

(** hybrid_mpc_2.ipynb from its first cell to the end of its simulation (without plots and meshcat), for all positive parameters, horizons, positive definite Q and R, exact libraries: the systems, domains and controller are built. When the terminal set is invariant, from every state with an admissible run the closed loop follows the cart-pole with the two one-sided springs: up to every time T such that before T Gurobi solves the programs met and the tip is never within 1e-7 right of a wall, the loop does not fail, every next state is exactly that of the spring model, and the bounds on states and input hold. If Gurobi solves the programs as long as the state is not within eps of the origin, this motion enters the ball of radius eps. *)
Theorem C91_cart_loop np mc mp l d k g h th v w u N Q Rm S1 S2 S3 D1 D2 D3 :
  0 < mc -> 0 < mp -> 0 < l -> 0 < d -> 0 < k -> 0 < g -> 0 < h -> 0 < th -> 0 < v -> 0 < w -> 0 < u -> (0 < N)%nat ->
  shape Q 4 4 -> shape Rm 1 1 -> Spec.pd Q 4 -> Spec.pd Rm 1 ->
  cart_systems np mc mp l d k g h = Ok (S1, S2, S3) -> cart_domains np l d th v w u = Ok (D1, D2, D3) -> lqr_libraries np S2 Q Rm 4 1 ->
  exists fuel0 Y, (forall fuel, (fuel0 <= fuel)%nat -> hybrid_mpc_design np fuel [Aff S1; Lin S2; Aff S3] [D1; D2; D3] S2 D2 N Q Rm = Ok Y) /\
    (terminal_invariant (lA S2) (lB S2) (y_K Y) (in_poly D2) (in_poly (y_XN Y)) ->
     forall grb x0, length x0 = 4%nat -> (exists us modes xs, pwa_run_from (y_S Y) (y_XN Y) 1 N x0 us modes xs) ->
     exists X U : nat -> vec, X 0%nat = x0 /\
       (forall T, (forall t, (t < T)%nat -> gurobi_solves grb (k_mpmiqp (y_C Y)) (X t)) ->
          (forall t, (t < T)%nat -> exists a b c e f, X t = [a; b; c; e] /\ U t = [f] /\ X (Datatypes.S t) = cart_step mc mp l d k g h a b c e f /\
             - (3 / 2 * d) <= a <= 3 / 2 * d /\ - th <= b <= th /\ - v <= c <= v /\ - w <= e <= w /\ - u <= f <= u) /\
          ((forall t, (t < T)%nat -> let y := nth 0 (X t) 0 - l * nth 1 (X t) 0 in y <= - d \/ - d + tol7 < y <= d \/ d + tol7 < y) ->
             run_hybrid grb (y_C Y) (y_S Y) T x0 = Ok (map U (seq 0 T), map X (seq 0 (Datatypes.S T))))) /\
       forall eps, 0 < eps -> (forall t, (forall s, (s <= t)%nat -> eps <= norm (X s)) -> gurobi_solves grb (k_mpmiqp (y_C Y)) (X t)) -> exists T, norm (X T) < eps).
Proof. exact (cart_loop np mc mp l d k g h th v w u N Q Rm S1 S2 S3 D1 D2 D3). Qed.
Print Assumptions C91_cart_loop.

(** The numbers of hybrid_mpc.ipynb (m = l = 1, g = 10, k = 100, d = 0.1, h = 0.01, velocities up to 1.5, inputs up to 4, N = 20, Q and R identities): there are exact libraries for which the hypotheses of C91_pendulum_loop hold. *)
Example C91_example :
  exists np S1 S2 D1 D2, pendulum_systems np 1 1 10 100 (/ 10) (/ 100) = Ok (S1, S2) /\ pendulum_domains np 1 (/ 10) (3 / 2) 4 = Ok (D1, D2) /\ lqr_libraries np S1 (eye 2) (eye 1) 2 1 /\
  shape (eye 2) 2 2 /\ shape (eye 1) 1 1 /\ Spec.pd (eye 2) 2 /\ Spec.pd (eye 1) 1 /\
  hybrid_problem np [Lin S1; Aff S2] [D1; D2] 0 S1 D1 20 (eye 2) (eye 1) 2 1.
Proof. exact (pendulum_example). Qed.

(** The numbers of hybrid_mpc_2.ipynb (masses, l and d 1, k = 100, g = 10, h = 0.05): from rest at x1 = 1.25, where the tip is 0.25 into the right wall, one step of simulate without input takes the third mode and gives the pole the angular velocity 1.25. *)
Example C91_cart_example :
  exists np S1 S2 S3 D1 D2 D3 W, exact_np np /\ cart_systems np 1 1 1 1 100 10 (/ 20) = Ok (S1, S2, S3) /\ cart_domains np 1 1 (/ 2) 7 5 100 = Ok (D1, D2, D3) /\ PieceWiseAffineSystem [Aff S1; Lin S2; Aff S3] [D1; D2; D3] = Ok W /\
  exists mode, pwa_simulate W [5 / 4; 0; 0; 0] [[0]] = Ok ([[5 / 4; 0; 0; 0]; [5 / 4; 0; 0; 5 / 4]], [mode]) /\ in_poly D3 [5 / 4; 0; 0; 0; 0].
Proof. exact (cart_example). Qed.
