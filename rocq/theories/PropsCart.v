(** * PropsCart: the property theorems of this part, restated; proofs are in CartThms.
    Generated by tools/gen_props.py: this file contains only statements, [exact] and Print Assumptions. *)
From Coq Require Import ZArith String Classical Permutation.
From Verif Require Import Arr ArrFacts Spec SpecGeom SpecMpc SpecProg SpecLoop Numpy Pnnls PnnlsFacts QpFacts GeomUtils Polyhedron PolyThms Oracle SolverThms NullFacts PolySolveThms PolyMore SpecDyn Dynamics DynThms ZohThms Voronoi VorThms CondenseThms LqrThms McaisThms Mpqp MpqpThms Controllers CtrlThms Gurobi Programs ProgThms Hybrid HybridThms HybridOptThms HybridLoopThms WorkThms EquivThms ExampleCtrl ExThms ExLoopThms CartPole.
From Verif Require Import CartThms.
Local Open Scope list_scope.

(** The cells of the notebook up to the PWA model, for n >= 2 equally spaced linearization angles, a Taylor approximation of the right shapes and an exact matrix exponential: they return a system with one mode per angle; over a step h, mode i moves the state as the affine differential equation of the linearization at angle i does with a constant input; its domain is the slice of the box X whose angle is within half a step of angle i (the first and the last slice are extended to the limits of X) times U. The domains are non-empty and bounded, and they cover X x U. *)
Theorem C86_model ridges np taylor nx k xlim ulim a b n h :
  cart_setup np taylor nx k xlim ulim a b n h ->
  exists W, cart_pole_pwa ridges np taylor nx k xlim ulim a b n h = Ok W /\ length (w_sys W) = n /\ hyb_data W nx 1 /\ hyb_domains W /\ (forall D, In D (w_dom W) -> Polyhedron.pd D = []) /\
  (forall i, (i < n)%nat ->
    (let '(A, B, f0) := taylor (vscale (a + INR i * ((b - a) / (INR n - 1))) (unit nx k)) in forall u x, length u = 1%nat -> ode_solution A B f0 u nx h x -> x h = mode_step W i (x 0) u) /\
    forall x u, length x = nx -> in_poly (nth i (w_dom W) poly0) (x ++ u) <-> cart_dom nx k xlim ulim a b n i x u) /\
  forall x v, cart_X nx k xlim (a - (b - a) / (INR n - 1)) (b + (b - a) / (INR n - 1)) x -> - ulim <= v <= ulim -> exists i, (i < n)%nat /\ in_poly (nth i (w_dom W) poly0) (x ++ [v]).
Proof. exact (cart_model ridges np taylor nx k xlim ulim a b n h). Qed.
Print Assumptions C86_model.

(** If moreover the origin is one of the linearization points and an equilibrium (as for the cart-pole with an odd number of angles around the upright position), q, r > 0 and the big-M constants are not within 1e-6 above zero, the controller of the notebook is built, and the loop that it closes with its own model, started from a state with a run to the origin, never fails while drake solves the programs: feedback returns an input at each step, the pairs are in the domains, and the state converges to the origin. *)
Theorem C86_closed_loop ridges np taylor nx k xlim ulim a b n h W N q r :
  exact_np np -> cart_setup np taylor nx k xlim ulim a b n h -> cart_origin taylor nx a b n ->
  cart_pole_pwa ridges np taylor nx k xlim ulim a b n h = Ok W -> sharp_gaps W nx -> (0 < N)%nat -> 0 < q -> 0 < r ->
  exists C, cart_pole_controller np W N q r = Ok C /\ forall drake X U M, length (X 0%nat) = nx -> answer_loop (example_feedforward drake C) W X U M ->
    (exists us modes xs, cart_run W nx N (X 0%nat) us modes xs) -> (forall t, drake_solves drake C (X t)) ->
    (forall t, example_feedback drake C (X t) = Ok (Some (U t)) /\ (M t < n)%nat /\ cart_dom nx k xlim ulim a b n (M t) (X t) (U t) /\ X (Datatypes.S t) = mode_step W (M t) (X t) (U t)) /\
    forall eps, 0 < eps -> exists T, forall t, (T <= t)%nat -> norm (X t) < eps.
Proof. exact (cart_closed_loop ridges np taylor nx k xlim ulim a b n h W N q r). Qed.
Print Assumptions C86_closed_loop.

(** A plant dx/dt = A x + B u, whose linearizations are all exact, with the input of the controller held for the sampling time h of the model: from a state with a run to the origin the sampled states converge to the origin.
   Missing: a hold other than h, for which this is false (see C86_hold_refuted; the notebook holds the input for .1 while h is .05). The linearization error of the cart-pole is treated by C98_notebook and C98_cart, near the origin. *)
Theorem C86_sampled_partial ridges np taylor nx k xlim ulim a b n h W N q r A B :
  exact_np np -> cart_setup np taylor nx k xlim ulim a b n h -> cart_origin taylor nx a b n ->
  (forall p, In p (linearization_points nx k a b n) -> taylor p = (A, B, zeros nx)) ->
  cart_pole_pwa ridges np taylor nx k xlim ulim a b n h = Ok W -> sharp_gaps W nx -> (0 < N)%nat -> 0 < q -> 0 < r ->
  exists C, cart_pole_controller np W N q r = Ok C /\ forall drake X U, length (X 0%nat) = nx -> held_loop A B nx h (example_feedback drake C) X U ->
    (exists us modes xs, cart_run W nx N (X 0%nat) us modes xs) -> (forall t, drake_solves drake C (X t)) ->
    (forall t, example_feedback drake C (X t) = Ok (Some (U t))) /\ forall eps, 0 < eps -> exists T, forall t, (T <= t)%nat -> norm (X t) < eps.
Proof. exact (cart_sampled ridges np taylor nx k xlim ulim a b n h W N q r A B). Qed.
Print Assumptions C86_sampled_partial.

(** The plant dx/dt = u with linearization points 0 and 2, h = 1/20, one step of horizon and q = r = 1/100 meets all the hypotheses of C86_sampled_partial, but with the input held for 1/10, as in the notebook, the sampled states from 1/2 are 1/2, -1/2, 1/2, -1/2, ... whatever exact solver drake uses. *)
Theorem C86_hold_refuted ridges np :
  exact_np np -> expm_exact np -> exists W C, cart_setup np int_taylor 1 0 [0] 100 0 2 2 (/ 20) /\ cart_origin int_taylor 1 0 2 2 /\ (forall p, int_taylor p = (Mat 1 [[0]], Mat 1 [[1]], zeros 1)) /\
  cart_pole_pwa ridges np int_taylor 1 0 [0] 100 0 2 2 (/ 20) = Ok W /\ sharp_gaps W 1 /\ cart_pole_controller np W 1 (/ 100) (/ 100) = Ok C /\ (exists us modes xs, cart_run W 1 1 [/ 2] us modes xs) /\
  forall drake X U, X 0%nat = [/ 2] -> held_loop (Mat 1 [[0]]) (Mat 1 [[1]]) 1 (/ 10) (example_feedback drake C) X U -> (forall t, drake_solves drake C (X t)) ->
    forall t, X t = [(-1) ^ t / 2] /\ example_feedback drake C (X t) = Ok (Some (U t)).
Proof. exact (hold_refuted ridges np). Qed.
Print Assumptions C86_hold_refuted.

(** The numbers of the notebook (angles -0.3 pi, 0, 0.3 pi, h = 1/20) with linearizations of a cart-pole meet the hypotheses of C86_model, and those on the origin. The plant dx/dt = u of C86_hold_refuted meets those of C86_closed_loop and C86_sampled_partial, with a solver for the programs of all the states, from 1/2: with the input held for 1/20 the states are 1/2, 0, 0, ..., with the input held for 1/10 they are 1/2, -1/2, 1/2, ... *)
Example C86_example ridges np :
  exact_np np -> expm_exact np ->
  (cart_setup np pole_taylor 4 1 [3; 0; 10; 10] 100 (- (PI * (3 / 10))) (PI * (3 / 10)) 3 (/ 20) /\ cart_origin pole_taylor 4 (- (PI * (3 / 10))) (PI * (3 / 10)) 3) /\
  exists W C, cart_pole_pwa ridges np int_taylor 1 0 [0] 100 0 2 2 (/ 20) = Ok W /\ cart_pole_controller np W 1 (/ 100) (/ 100) = Ok C /\
    (exists X U, X 0%nat = [/ 2] /\ held_loop (Mat 1 [[0]]) (Mat 1 [[1]]) 1 (/ 20) (example_feedback int_drake C) X U /\ (forall t, drake_solves int_drake C (X t)) /\ X 1%nat = [0] /\ answer_loop (example_feedforward int_drake C) W X U (fun _ => 0%nat)) /\
    exists X U, X 0%nat = [/ 2] /\ held_loop (Mat 1 [[0]]) (Mat 1 [[1]]) 1 (/ 10) (example_feedback int_drake C) X U /\ (forall t, drake_solves int_drake C (X t)) /\ X 1%nat = [- / 2].
Proof. exact (cart_example ridges np). Qed.

(** There is an exact library with an exact matrix exponential. *)
Example C86_library_example :
  exists np, exact_np np /\ expm_exact np.
Proof. exact (cart_library). Qed.
