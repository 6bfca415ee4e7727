(** * PropsHybEquiv: the property theorems of this part, restated; proofs are in HybEquivThms.
    Generated by tools/gen_props.py: this file contains only statements, [exact] and Print Assumptions. *)
From Coq Require Import ZArith String Classical Permutation.
From Verif Require Import Arr ArrFacts Spec SpecMpc SpecProg SpecLoop SpecHyb Numpy Pnnls PnnlsFacts QpFacts GeomUtils Polyhedron PolyThms Oracle SolverThms NullFacts PolySolveThms PolyMore SpecDyn Dynamics DynThms CondenseThms LqrThms McaisThms Mpqp MpqpThms Controllers CtrlThms Gurobi Programs ProgThms Hybrid HybridThms HybridOptThms HybridLoopThms VertThms ContThms LawThms EquivThms HybLinThms.
From Verif Require Import HybEquivThms.

(** If a second piecewise affine system can follow every step of a first one (possibly in other coordinates x' = T x, u' = G u, with other modes, more or larger domains, a larger terminal set, other weights), with costs at most c times as large, then at every state x at which the hybrid controller of the first returns the cost V, that of the second returns at T x a cost of at most c V *)
Theorem C104_simulation np np' grb grb' W N Q Rm P X_N nx nu C W' Q' Rm' P' X_N' nx' nu' C' T G c x us xs modes V :
  hyb_controller np W N Q Rm P X_N nx nu C -> hyb_controller np' W' N Q' Rm' P' X_N' nx' nu' C' -> hyb_follows W Q Rm P X_N nx nu W' Q' Rm' P' X_N' nx' nu' T G c ->
  length x = nx -> gurobi_solves grb (k_mpmiqp C) x -> gurobi_solves grb' (k_mpmiqp C') (T x) -> hybrid_feedforward grb C x = Ok (Some (us, xs, modes, V)) ->
  exists us' xs' modes' V', hybrid_feedforward grb' C' (T x) = Ok (Some (us', xs', modes', V')) /\ V' <= c * V.
Proof. exact (hybrid_simulation np np' grb grb' W N Q Rm P X_N nx nu C W' Q' Rm' P' X_N' nx' nu' C' T G c x us xs modes V). Qed.
Print Assumptions C104_simulation.

(** If two systems follow each other, T, G and T', G' being inverse changes of coordinates and c, 1/c the factors of the costs, their hybrid controllers give equivalent answers: None at the same states, costs V' = c V, and each answer, written in the coordinates of the other system, is an optimal run of the other system; if the optimal inputs are unique, the inputs and the feedback correspond *)
Theorem C104_equivalent np np' grb grb' W N Q Rm P X_N nx nu C W' Q' Rm' P' X_N' nx' nu' C' T G T' G' c x :
  hyb_controller np W N Q Rm P X_N nx nu C -> hyb_controller np' W' N Q' Rm' P' X_N' nx' nu' C' -> 0 < c ->
  hyb_follows W Q Rm P X_N nx nu W' Q' Rm' P' X_N' nx' nu' T G c -> hyb_follows W' Q' Rm' P' X_N' nx' nu' W Q Rm P X_N nx nu T' G' (/ c) ->
  (forall y, length y = nx -> T' (T y) = y) ->
  length x = nx -> gurobi_solves grb (k_mpmiqp C) x -> gurobi_solves grb' (k_mpmiqp C') (T x) ->
  (hybrid_feedforward grb C x = Ok None /\ hybrid_feedforward grb' C' (T x) = Ok None /\ hybrid_feedback grb C x = Ok None /\ hybrid_feedback grb' C' (T x) = Ok None) \/
  exists us xs modes V us' xs' modes', hybrid_feedforward grb C x = Ok (Some (us, xs, modes, V)) /\ hybrid_feedforward grb' C' (T x) = Ok (Some (us', xs', modes', c * V)) /\
    hybrid_feedback grb C x = Ok (Some (nth 0 us [])) /\ hybrid_feedback grb' C' (T x) = Ok (Some (nth 0 us' [])) /\
    (exists ms, pwa_run_from W' X_N' nu' N (T x) (map G us) ms (map T xs) /\ trajectory_cost Q' Rm' P' (map G us) (map T xs) = c * V) /\
    (exists ms, pwa_run_from W X_N nu N x (map G' us') ms (map T' xs') /\ trajectory_cost Q Rm P (map G' us') (map T' xs') = V) /\
    ((forall us1 ms1 xs1, pwa_run_from W X_N nu N x us1 ms1 xs1 -> trajectory_cost Q Rm P us1 xs1 = V -> us1 = us) -> us = map G' us' /\ nth 0 us [] = G' (nth 0 us' [])).
Proof. exact (hybrid_equivalent np np' grb grb' W N Q Rm P X_N nx nu C W' Q' Rm' P' X_N' nx' nu' C' T G T' G' c x). Qed.
Print Assumptions C104_equivalent.

(** Two hybrid controllers built from the same modes in any order, also with repetitions, and domains and terminal sets with the same points, by whatever exact libraries, give equivalent answers: None at the same states and the same cost; if the optimal inputs are unique, the same inputs and the same feedback *)
Theorem C104_modes np np' grb grb' W W' N Q Rm P X_N X_N' nx nu C C' x :
  hyb_controller np W N Q Rm P X_N nx nu C -> hyb_controller np' W' N Q Rm P X_N' nx nu C' ->
  (forall a D, In (a, D) (combine (w_sys W) (w_dom W)) -> exists D', In (a, D') (combine (w_sys W') (w_dom W')) /\ forall z, in_poly D z -> in_poly D' z) ->
  (forall a D', In (a, D') (combine (w_sys W') (w_dom W')) -> exists D, In (a, D) (combine (w_sys W) (w_dom W)) /\ forall z, in_poly D' z -> in_poly D z) ->
  (forall z, in_poly X_N z <-> in_poly X_N' z) -> length x = nx -> gurobi_solves grb (k_mpmiqp C) x -> gurobi_solves grb' (k_mpmiqp C') x ->
  (hybrid_feedforward grb C x = Ok None /\ hybrid_feedforward grb' C' x = Ok None /\ hybrid_feedback grb C x = Ok None /\ hybrid_feedback grb' C' x = Ok None) \/
  exists us xs modes V us' xs' modes', hybrid_feedforward grb C x = Ok (Some (us, xs, modes, V)) /\ hybrid_feedforward grb' C' x = Ok (Some (us', xs', modes', V)) /\
    hybrid_feedback grb C x = Ok (Some (nth 0 us [])) /\ hybrid_feedback grb' C' x = Ok (Some (nth 0 us' [])) /\
    ((forall us1 ms1 xs1, pwa_run_from W X_N nu N x us1 ms1 xs1 -> trajectory_cost Q Rm P us1 xs1 = V -> us1 = us) -> us = us').
Proof. exact (hybrid_same_modes np np' grb grb' W W' N Q Rm P X_N X_N' nx nu C C' x). Qed.
Print Assumptions C104_modes.

(** Multiplying Q, R and P of the hybrid controller by the same factor c > 0 multiplies the cost by c, keeps the states at which None is returned, and the inputs if the optimal ones are unique (the linear controller: C83, where None depends on c) *)
Theorem C104_weights np grb grb' W N Q Rm P X_N nx nu C C' c x :
  hyb_controller np W N Q Rm P X_N nx nu C -> hyb_controller np W N (mscale c Q) (mscale c Rm) (mscale c P) X_N nx nu C' -> 0 < c -> length x = nx ->
  gurobi_solves grb (k_mpmiqp C) x -> gurobi_solves grb' (k_mpmiqp C') x ->
  (hybrid_feedforward grb C x = Ok None /\ hybrid_feedforward grb' C' x = Ok None /\ hybrid_feedback grb C x = Ok None /\ hybrid_feedback grb' C' x = Ok None) \/
  exists us xs modes V us' xs' modes', hybrid_feedforward grb C x = Ok (Some (us, xs, modes, V)) /\ hybrid_feedforward grb' C' x = Ok (Some (us', xs', modes', c * V)) /\
    hybrid_feedback grb C x = Ok (Some (nth 0 us [])) /\ hybrid_feedback grb' C' x = Ok (Some (nth 0 us' [])) /\
    ((forall us1 ms1 xs1, pwa_run_from W X_N nu N x us1 ms1 xs1 -> trajectory_cost Q Rm P us1 xs1 = V -> us1 = us) -> us = us').
Proof. exact (hybrid_weights np grb grb' W N Q Rm P X_N nx nu C C' c x). Qed.
Print Assumptions C104_weights.

(** With a terminal set and terminal cost as in SpecLoop, wherever the hybrid controller with horizon N returns the cost V, that with a longer horizon N' returns a cost V' of at most V *)
Theorem C104_longer_horizon np np' grb grb' W N N' Q Rm P X_N nx nu C C' x us xs modes V :
  hyb_controller np W N Q Rm P X_N nx nu C -> hyb_controller np' W N' Q Rm P X_N nx nu C' -> (N <= N')%nat ->
  pwa_terminal (map aA (w_sys W)) (map aB (w_sys W)) (map ac (w_sys W)) (map in_poly (w_dom W)) (in_poly X_N) Q Rm P nu ->
  length x = nx -> gurobi_solves grb (k_mpmiqp C) x -> gurobi_solves grb' (k_mpmiqp C') x -> hybrid_feedforward grb C x = Ok (Some (us, xs, modes, V)) ->
  exists us' xs' modes' V', hybrid_feedforward grb' C' x = Ok (Some (us', xs', modes', V')) /\ V' <= V.
Proof. exact (hybrid_longer np np' grb grb' W N N' Q Rm P X_N nx nu C C' x us xs modes V). Qed.
Print Assumptions C104_longer_horizon.

(** x+ = x + u for x <= 0, x+ = -x + u for x >= 0 and its mirror image (x+ = x + u for x >= 0, x+ = -x + u for x <= 0), Q = 1, R = P = 2, N = 1: all hypotheses of C104_equivalent hold at x = -1 with T x = -x, G u = -u and suitable Gurobis, the controllers return 1/2 and -1/2 and both the cost 1 *)
Example C104_example np :
  exact_np np -> exists C C' grb grb', hyb_controller np W2 1 I_1 R_2 R_2 X_int 1 1 C /\ hyb_controller np W2m 1 I_1 R_2 R_2 X_int 1 1 C' /\
  hyb_follows W2 I_1 R_2 R_2 X_int 1 1 W2m I_1 R_2 R_2 X_int 1 1 vneg vneg 1 /\ hyb_follows W2m I_1 R_2 R_2 X_int 1 1 W2 I_1 R_2 R_2 X_int 1 1 vneg vneg (/ 1) /\
  (forall y, length y = 1%nat -> vneg (vneg y) = y) /\ gurobi_solves grb (k_mpmiqp C) [-1] /\ gurobi_solves grb' (k_mpmiqp C') (vneg [-1]) /\
  hybrid_feedback grb C [-1] = Ok (Some [/ 2]) /\ hybrid_feedback grb' C' [1] = Ok (Some [- / 2]) /\ exists us xs modes, hybrid_feedforward grb' C' [1] = Ok (Some (us, xs, modes, 1)).
Proof. exact (hybrid_equivalent_example np). Qed.

(** The hypotheses of C104_modes, C104_weights and C104_longer_horizon hold for this system, at x = -1 with suitable Gurobis: its modes exchanged, its weights doubled, and horizon 2 instead of 1 *)
Example C104_more_example np :
  exact_np np -> exists C grb, hyb_controller np W2 1 I_1 R_2 R_2 X_int 1 1 C /\ gurobi_solves grb (k_mpmiqp C) [-1] /\ hybrid_feedforward grb C [-1] = Ok (Some ([[/ 2]], [[-1]; [- / 2]], [0%nat], 1)) /\
  (exists C' grb', hyb_controller np W2p 1 I_1 R_2 R_2 X_int 1 1 C' /\ gurobi_solves grb' (k_mpmiqp C') [-1] /\
     (forall a D, In (a, D) (combine (w_sys W2) (w_dom W2)) <-> In (a, D) (combine (w_sys W2p) (w_dom W2p)))) /\
  (exists C' grb', hyb_controller np W2 1 (mscale 2 I_1) (mscale 2 R_2) (mscale 2 R_2) X_int 1 1 C' /\ gurobi_solves grb' (k_mpmiqp C') [-1]) /\
  (exists C' grb', hyb_controller np W2 2 I_1 R_2 R_2 X_int 1 1 C' /\ gurobi_solves grb' (k_mpmiqp C') [-1]) /\
  pwa_terminal (map aA (w_sys W2)) (map aB (w_sys W2)) (map ac (w_sys W2)) (map in_poly (w_dom W2)) (in_poly X_int) I_1 R_2 R_2 1.
Proof. exact (hybrid_more_example np). Qed.
