(** * PropsHybridLoop: the property theorems of this part, restated; proofs are in HybridLoopThms.
    Generated by tools/gen_props.py: this file contains only statements, [exact] and Print Assumptions. *)
From Coq Require Import ZArith Classical.
From Verif Require Import Arr ArrFacts Spec SpecMpc SpecProg SpecLoop Numpy Pnnls PnnlsFacts QpFacts GeomUtils Polyhedron PolyThms Oracle SolverThms NullFacts PolySolveThms PolyMore SpecDyn Dynamics DynThms CondenseThms LqrThms McaisThms Mpqp MpqpThms Controllers CtrlThms Gurobi Programs ProgThms Hybrid HybridThms HybridOptThms.
From Verif Require Import HybridLoopThms.

(** With a terminal set and terminal cost as in SpecLoop, if Gurobi solves the program at x and feedforward returns a run, then: feedback returns its first input u, (x, u) is in the domain of its first mode, the next state x' under that mode (the one PieceWiseAffineSystem.simulate computes if get_mode selects that mode) has an admissible run, and if Gurobi solves the program at x' too, feedforward returns at x' a value of at most the value at x minus the stage cost. *)
Theorem C69_decrease np grb W N Q Rm P X_N nx nu mN meN C x us xs modes V :
  hyb_loop_setup np W N Q Rm P X_N nx nu mN meN C -> length x = nx ->
  gurobi_solves grb (k_mpmiqp C) x -> hybrid_feedforward grb C x = Ok (Some (us, xs, modes, V)) ->
  let u := nth 0 us [] in let m := nth 0 modes 0%nat in let x' := mode_step W m x u in
  let stage := / 2 * (dot x (mv Q x) + dot u (mv Rm u)) in
  hybrid_feedback grb C x = Ok (Some u) /\ (m < length (w_sys W))%nat /\ in_poly (nth m (w_dom W) poly0) (x ++ u) /\ nth 1 xs [] = x' /\ length u = nu /\ length x' = nx /\ 0 <= stage /\ 0 <= V /\
  (get_mode W x u = Ok (Some m) -> pwa_simulate W x [u] = Ok ([x; x'], [m])) /\
  (exists us' modes' xs', pwa_run_from W X_N nu N x' us' modes' xs') /\
  (gurobi_solves grb (k_mpmiqp C) x' -> exists us' xs' modes' V', hybrid_feedforward grb C x' = Ok (Some (us', xs', modes', V')) /\ V' <= V - stage).
Proof. exact (hybrid_decrease np grb W N Q Rm P X_N nx nu mN meN C x us xs modes V). Qed.
Print Assumptions C69_decrease.

(** Started in a state with an admissible run, the closed loop never fails as long as Gurobi solves its programs: feedback always returns an input, the pairs (x(t), u(t)) are in the domains of the selected modes, and the values decrease by at least the stage costs. *)
Theorem C69_closed_loop np grb W N Q Rm P X_N nx nu mN meN C X U M T :
  hyb_loop_setup np W N Q Rm P X_N nx nu mN meN C -> length (X 0%nat) = nx -> hybrid_loop grb C W X U M ->
  (exists us modes xs, pwa_run_from W X_N nu N (X 0%nat) us modes xs) -> (forall t, (t <= T)%nat -> gurobi_solves grb (k_mpmiqp C) (X t)) ->
  exists V0, (exists us xs modes, hybrid_feedforward grb C (X 0%nat) = Ok (Some (us, xs, modes, V0))) /\ forall t, (t <= T)%nat ->
    length (X t) = nx /\ length (U t) = nu /\ hybrid_feedback grb C (X t) = Ok (Some (U t)) /\ (M t < length (w_sys W))%nat /\ in_poly (nth (M t) (w_dom W) poly0) (X t ++ U t) /\
    X (S t) = mode_step W (M t) (X t) (U t) /\ 0 <= / 2 * (dot (X t) (mv Q (X t)) + dot (U t) (mv Rm (U t))) /\
    exists us xs modes V, hybrid_feedforward grb C (X t) = Ok (Some (us, xs, modes, V)) /\ 0 <= V /\
      V + sum_upto (fun t => / 2 * (dot (X t) (mv Q (X t)) + dot (U t) (mv Rm (U t)))) t <= V0.
Proof. exact (hybrid_closed_loop np grb W N Q Rm P X_N nx nu mN meN C X U M T). Qed.
Print Assumptions C69_closed_loop.

(** If Gurobi solves the program at every state of the closed loop and Q is positive definite, the state converges to the origin. *)
Theorem C69_convergence np grb W N Q Rm P X_N nx nu mN meN C X U M :
  hyb_loop_setup np W N Q Rm P X_N nx nu mN meN C -> length (X 0%nat) = nx -> hybrid_loop grb C W X U M ->
  (exists us modes xs, pwa_run_from W X_N nu N (X 0%nat) us modes xs) -> (forall t, gurobi_solves grb (k_mpmiqp C) (X t)) -> Spec.pd Q nx ->
  forall eps, 0 < eps -> exists T, forall t, (T <= t)%nat -> norm (X t) < eps.
Proof. exact (hybrid_convergence np grb W N Q Rm P X_N nx nu mN meN C X U M). Qed.
Print Assumptions C69_convergence.

(** Gurobi drops entries below 10^-9, so it cannot be required to solve the programs near the origin. If it solves them as long as the loop has stayed at a distance of at least eps from the origin, the loop enters the ball of radius eps. *)
Theorem C69_practical np grb W N Q Rm P X_N nx nu mN meN C X U M eps :
  hyb_loop_setup np W N Q Rm P X_N nx nu mN meN C -> length (X 0%nat) = nx -> hybrid_loop grb C W X U M ->
  (exists us modes xs, pwa_run_from W X_N nu N (X 0%nat) us modes xs) -> Spec.pd Q nx -> 0 < eps ->
  (forall t, (forall s, (s <= t)%nat -> eps <= norm (X s)) -> gurobi_solves grb (k_mpmiqp C) (X t)) ->
  exists T, norm (X T) < eps.
Proof. exact (hybrid_practical np grb W N Q Rm P X_N nx nu mN meN C X U M eps). Qed.
Print Assumptions C69_practical.

(** x+ = x + u for -1 <= x <= 0, x+ = -x + u for 0 <= x <= 1, |u| <= 1, with Q = 1, R = 2, P = 2, horizon 1 and terminal set |x| <= 1: the hypotheses hold. For a Gurobi that solves the programs at -1 and -1/2 the closed loop from -1 goes to -1/2 and -1/4, and the hypotheses of C69_closed_loop hold up to T = 1, those of C69_practical for eps = 1/3. *)
Example C69_example np :
  exact_np np -> exists C, hyb_loop_setup np W2 1 I_1 R_2 R_2 X_int 1 1 2 0 C /\
  exists grb X U M, hybrid_loop grb C W2 X U M /\ X 0%nat = [-1] /\ X 1%nat = [- / 2] /\ X 2%nat = [- / 4] /\ (forall t, (t <= 1)%nat -> gurobi_solves grb (k_mpmiqp C) (X t)) /\
    (exists us modes xs, pwa_run_from W2 X_int 1 1 (X 0%nat) us modes xs) /\ Spec.pd I_1 1 /\
    (forall t, (forall s, (s <= t)%nat -> / 3 <= norm (X s)) -> gurobi_solves grb (k_mpmiqp C) (X t)) /\
    hybrid_feedforward grb C [-1] = Ok (Some ([[/ 2]], [[-1]; [- / 2]], [0%nat], 1)).
Proof. exact (hybrid_loop_example np). Qed.
