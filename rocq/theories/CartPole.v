(** * CartPole: the cells of examples/pwa_from_urdf/cart_pole_from_urdf.ipynb up to the controller

    Numbers are arguments: nx = 4 states, coordinate k = 1 (the angle of the pole) for the linearization points, state bounds xlim = (3, _, 10, 10),
    input bound ulim = 100, angles theta_min and theta_max, n = 3 linearizations, h = .05, N = 20, q = r = 1/100.  The parser of the urdf file, the
    drake diagram and its simulator, the logger and the video are not modelled; what the plant does between two samples is stated in CartThms. *)
From Coq Require Import String.
From Verif Require Import Arr Numpy Pnnls Polyhedron Dynamics Voronoi Hybrid ExampleCtrl.

(** np.linspace(a, b, n) *)
Definition linspace (a b : R) (n : nat) : vec := map (fun i => a + INR i * ((b - a) / (INR n - 1))) (seq 0 n).
(** lines 79-81 of the notebook: "linearization_points = [np.zeros(4) for i in range(n_linearizations)]", "linearization_points[i][1] = theta" *)
Definition linearization_points (nx k : nat) (theta_min theta_max : R) (n : nat) : list vec := map (fun theta => vscale theta (unit nx k)) (linspace theta_min theta_max n).
(** [v] with entry k replaced *)
Definition with_entry (k : nat) (a : R) (v : vec) : vec := firstn k v ++ a :: skipn (S k) v.
(** lines 93-106, 118-120 and 145-148: the bounds X and U, and "pwa = pwa_from_RigidBodyPlant(plant, linearization_points, X, U, h)".
    (With one linearization point, line 93 raises ZeroDivisionError, here ValueError.) *)
Definition cart_pole_pwa (ridges : list vec -> res (list (nat * nat))) (np : numpy) (taylor : vec -> mat * mat * vec) (nx k : nat) (xlim : vec) (ulim theta_min theta_max : R) (n : nat) (h : R) : res pwa :=
  if Nat.eqb n 1 then Err ValueError else
  let theta_step := (theta_max - theta_min) / (INR n - 1) in
  let x_min := with_entry k (theta_min - theta_step) (vneg xlim) in
  let x_max := with_entry k (theta_max + theta_step) xlim in
  X <- from_bounds (D1 x_min) (D1 x_max) None None ;;
  U <- from_bounds (D1 [- ulim]) (D1 [ulim]) None None ;;
  pwa_from_plant ridges np taylor (linearization_points nx k theta_min theta_max n) X U h "zero_order_hold".
(** lines 161-167: "Q = np.eye(pwa.nx)/100.", "R = np.eye(pwa.nu)/100.", "X_N = Polyhedron.from_bounds(*[np.zeros(pwa.nx)]*2)",
    "controller = Controller(pwa, N, Q, R, Q, X_N)" *)
Definition cart_pole_controller (np : numpy) (W : pwa) (N : nat) (q r : R) : res ectrl :=
  let Q := mscale q (eye (w_nx W)) in
  let Rm := mscale r (eye (w_nu W)) in
  X_N <- from_bounds (D1 (zeros (w_nx W))) (D1 (zeros (w_nx W))) None None ;;
  Controller np W N Q Rm Q X_N.
