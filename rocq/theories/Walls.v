(** * Walls: the cells of examples/hybrid_mpc.ipynb and examples/hybrid_mpc_2.ipynb that define the systems and their domains

    Numbers are arguments: m, l, g, k, d, h (mc, mp, l, d, k, g, h), and the bounds on the velocity (1.5), the angle (pi/6), the velocities (7 and 5) and the
    input (4 and 100).  l**2. is l * l.  The cells that follow are in [Notebooks]. *)
From Coq Require Import String.
From Verif Require Import Arr Numpy Pnnls Polyhedron Dynamics.

(** "assert X.bounded"; the polyhedron is returned with its caches *)
Definition assert_bounded (np : numpy) (X : poly) : res poly :=
  match get_bounded np X with
  | (Ok true, X') => Ok X'
  | (Ok false, _) => Err AssertionError
  | (Err e, _) => Err e
  end.

(** hybrid_mpc.ipynb: an inverted pendulum that hits an elastic wall at the angle d/l (linearized); lines 155-170: "dynamics n.1", "dynamics n.2", with B2 = B1 *)
Definition pendulum_systems (np : numpy) (m l g k d h : R) : res (lsys * asys) :=
  let A1 := Mat 2 [[0; 1]; [g / l; 0]] in
  let B1 := Mat 1 [[0]; [1 / (m * (l * l))]] in
  S1 <- lin_from_continuous np A1 B1 h "explicit_euler" ;;
  let A2 := Mat 2 [[0; 1]; [g / l - k / m; 0]] in
  let c2 := [0; k * d / (m * l)] in
  S2 <- aff_from_continuous np A2 B1 (D1 c2) h "explicit_euler" ;;
  Ok (S1, S2).
(** hybrid_mpc.ipynb, lines 188-209: "state domain n.1", "state domain n.2", "input domain", "domains" *)
Definition pendulum_domains (np : numpy) (l d v_max u_max : R) : res (poly * poly) :=
  X1 <- from_bounds (D1 [-2 * d / l; - v_max]) (D1 [d / l; v_max]) None None ;;
  X1 <- assert_bounded np X1 ;;
  X2 <- from_bounds (D1 [d / l; - v_max]) (D1 [2 * d / l; v_max]) None None ;;
  X2 <- assert_bounded np X2 ;;
  U <- from_bounds (D1 [- u_max]) (D1 [u_max]) None None ;;
  U <- assert_bounded np U ;;
  D1 <- cartesian_product X1 U ;;
  D2 <- cartesian_product X2 U ;;
  Ok (D1, D2).

(** hybrid_mpc_2.ipynb: a cart-pole between two elastic walls (linearized); lines 96-149: A1 = A3, A2, B1 = B2 = B3 *)
Definition cart_A_wall (mc mp l k g : R) : mat :=
  Mat 4 [[0; 0; 1; 0]; [0; 0; 0; 1]; [0; (g * mp) / mc; 0; 0]; [k / (l * mp); (g * (mp * mp) + g * mc * mp - k * l * mc) / (l * mc * mp); 0; 0]].
Definition cart_A_free (mc mp l g : R) : mat :=
  Mat 4 [[0; 0; 1; 0]; [0; 0; 0; 1]; [0; (g * mp) / mc; 0; 0]; [0; g * (mc + mp) / (l * mc); 0; 0]].
Definition cart_B (mc l : R) : mat := Mat 1 [[0]; [0]; [1 / mc]; [1 / (l * mc)]].
(** hybrid_mpc_2.ipynb, lines 94-154: "dynamics n.1 (in contact with left wall)", "dynamics n.2 (between the two walls)", "dynamics n.3 (in contact with right wall)" *)
Definition cart_systems (np : numpy) (mc mp l d k g h : R) : res (asys * lsys * asys) :=
  S1 <- aff_from_continuous np (cart_A_wall mc mp l k g) (cart_B mc l) (D1 [0; 0; 0; (d * k) / (l * mp)]) h "explicit_euler" ;;
  S2 <- lin_from_continuous np (cart_A_free mc mp l g) (cart_B mc l) h "explicit_euler" ;;
  S3 <- aff_from_continuous np (cart_A_wall mc mp l k g) (cart_B mc l) (D1 [0; 0; 0; - (d * k) / (l * mp)]) h "explicit_euler" ;;
  Ok (S1, S2, S3).
(** one of the state domains, lines 174-194: "X1 = Polyhedron.from_bounds(x_min, x_max)", "X1.add_inequality(F1, g1)", "assert X1.bounded" *)
Definition cart_state_domain (np : numpy) (x_max : vec) (F : mat) (g : vec) : res poly :=
  X <- from_bounds (D1 (vneg x_max)) (D1 x_max) None None ;;
  X <- run_on (Ok X) (add_inequality F (D1 g) None) ;;
  assert_bounded np X.
(** hybrid_mpc_2.ipynb, lines 170-207: the cell of the domains (no assertion about U) *)
Definition cart_domains (np : numpy) (l d th_max v_max w_max u_max : R) : res (poly * poly * poly) :=
  let x_max := [3 / 2 * d; th_max; v_max; w_max] in
  X1 <- cart_state_domain np x_max (Mat 4 [[1; - l; 0; 0]]) [- d] ;;
  X2 <- cart_state_domain np x_max (Mat 4 [[-1; l; 0; 0]; [1; - l; 0; 0]]) [d; d] ;;
  X3 <- cart_state_domain np x_max (Mat 4 [[-1; l; 0; 0]]) [- d] ;;
  U <- from_bounds (D1 [- u_max]) (D1 [u_max]) None None ;;
  D1 <- cartesian_product X1 U ;;
  D2 <- cartesian_product X2 U ;;
  D3 <- cartesian_product X3 U ;;
  Ok (D1, D2, D3).
