(** * PropsEquiv: the property theorems of this part, restated; proofs are in EquivThms.
    Generated by tools/gen_props.py: this file contains only statements, [exact] and Print Assumptions. *)
From Verif Require Import Arr ArrFacts Spec SpecMpc Numpy Pnnls PnnlsFacts QpFacts GeomUtils Polyhedron PolyThms Oracle SolverThms SpecDyn Dynamics DynThms CondenseThms LqrThms Mpqp MpqpThms Controllers CtrlThms.
From Verif Require Import EquivThms.

(** If two controllers are built for the same control problem in different coordinates z = T x, w = W u (any bijections), possibly with different exact numerical libraries, then feedforward and feedback of the second at T x return exactly the inputs W u of the first at x, the same cost, and None in the same cases. *)
Theorem C82_coordinates np np' S S' N Q Rm P D X_N Q' Rm' P' D' X_N' nx nu C C' T Ti W Wi :
  exact_np np -> exact_np np' -> mpc_data S N Q Rm P D X_N nx nu -> mpc_data S' N Q' Rm' P' D' X_N' nx nu ->
  ModelPredictiveController np S N Q Rm P D X_N = Ok C -> ModelPredictiveController np' S' N Q' Rm' P' D' X_N' = Ok C' ->
  bijection nx T Ti -> bijection nu W Wi -> same_problem T W 1 (lA S) (lB S) Q Rm P (in_poly D) (in_poly X_N) (lA S') (lB S') Q' Rm' P' (in_poly D') (in_poly X_N') nx nu ->
  forall x, length x = nx ->
    (forall us V, feedforward np C x = Ok (Some us, Some V) -> feedforward np' C' (T x) = Ok (Some (map W us), Some V)) /\
    (feedforward np C x = Ok (None, None) -> feedforward np' C' (T x) = Ok (None, None)) /\
    (forall u, feedback np C x = Ok (Some u) -> feedback np' C' (T x) = Ok (Some (W u))) /\
    (feedback np C x = Ok None -> feedback np' C' (T x) = Ok None).
Proof. exact (mpc_coordinates np np' S S' N Q Rm P D X_N Q' Rm' P' D' X_N' nx nu C C' T Ti W Wi). Qed.
Print Assumptions C82_coordinates.

(** Two controllers built from the same system, weights and horizon, and from domains and terminal sets with the same points (in whatever order, scaling or redundancy of their rows), return the same answers at every state, also with different exact numerical libraries. *)
Theorem C82_representation np np' S N Q Rm P D X_N D' X_N' nx nu C C' x :
  exact_np np -> exact_np np' -> mpc_data S N Q Rm P D X_N nx nu -> mpc_data S N Q Rm P D' X_N' nx nu ->
  ModelPredictiveController np S N Q Rm P D X_N = Ok C -> ModelPredictiveController np' S N Q Rm P D' X_N' = Ok C' ->
  (forall z, length z = (nx + nu)%nat -> (in_poly D z <-> in_poly D' z)) -> (forall z, length z = nx -> (in_poly X_N z <-> in_poly X_N' z)) -> length x = nx ->
  feedforward np' C' x = feedforward np C x /\ feedback np' C' x = feedback np C x.
Proof. exact (mpc_representation np np' S N Q Rm P D X_N D' X_N' nx nu C C' x). Qed.
Print Assumptions C82_representation.

(** If domain and terminal set are symmetric with respect to the origin, the controller is an odd function with an even cost: at -x it returns the negated inputs of x and the same cost, or None at both. *)
Theorem C82_symmetry np S N Q Rm P D X_N nx nu C x :
  exact_np np -> mpc_data S N Q Rm P D X_N nx nu -> ModelPredictiveController np S N Q Rm P D X_N = Ok C ->
  (forall z, in_poly D z -> in_poly D (vneg z)) -> (forall z, in_poly X_N z -> in_poly X_N (vneg z)) -> length x = nx ->
    (forall us V, feedforward np C x = Ok (Some us, Some V) -> feedforward np C (vneg x) = Ok (Some (map vneg us), Some V)) /\
    (feedforward np C x = Ok (None, None) -> feedforward np C (vneg x) = Ok (None, None)) /\
    (forall u, feedback np C x = Ok (Some u) -> feedback np C (vneg x) = Ok (Some (vneg u))) /\
    (feedback np C x = Ok None -> feedback np C (vneg x) = Ok None).
Proof. exact (mpc_symmetry np S N Q Rm P D X_N nx nu C x). Qed.
Print Assumptions C82_symmetry.

(** x+ = x + u with Q = R = P = 1, N = 1, |x| <= 1, |u| <= 1: the sets are symmetric, and the box written with scaled, reordered and redundant rows has the same points. In the coordinates z = 2 x, w = 2 u the weights are 1/4 and the sets |z| <= 2, |w| <= 2: the problem is the same. *)
Example C82_example np :
  exact_np np ->
  mpc_data S_1 1 I_1 I_1 I_1 D_box X_int 1 1 /\ mpc_data S_1 1 I_1 I_1 I_1 D_box2 X_int 1 1 /\ mpc_data S_1 1 I_4 I_4 I_4 D_two X_two 1 1 /\
  (forall z, in_poly D_box z -> in_poly D_box (vneg z)) /\ (forall z, in_poly X_int z -> in_poly X_int (vneg z)) /\
  (forall z, length z = 2%nat -> (in_poly D_box z <-> in_poly D_box2 z)) /\
  bijection 1 (vscale 2) (vscale (/ 2)) /\ same_problem (vscale 2) (vscale 2) 1 (lA S_1) (lB S_1) I_1 I_1 I_1 (in_poly D_box) (in_poly X_int) (lA S_1) (lB S_1) I_4 I_4 I_4 (in_poly D_two) (in_poly X_two) 1 1 /\
  exists C C2, ModelPredictiveController np S_1 1 I_1 I_1 I_1 D_box X_int = Ok C /\ ModelPredictiveController np S_1 1 I_4 I_4 I_4 D_two X_two = Ok C2 /\
    feedforward np C [1] = Ok (Some [[- (1 / 2)]], Some (3 / 4)) /\ feedforward np C2 [2 * 1] = Ok (Some [[2 * - (1 / 2)]], Some (3 / 4)).
Proof. exact (equiv_example np). Qed.

(** Multiplying Q, R and P by the same c > 0 does not change the inputs and multiplies the cost by c, at all states at which both controllers return a solution; if c <= 1 the controller with the scaled weights answers wherever the original does; and the scaled controller returns None only if no admissible sequence has a cost below that of the unconstrained optimum plus 5e13 / c. *)
Theorem C83_scaling np S N Q Rm P D X_N nx nu c C C' x :
  exact_np np -> mpc_data S N Q Rm P D X_N nx nu -> 0 < c ->
  ModelPredictiveController np S N Q Rm P D X_N = Ok C -> ModelPredictiveController np S N (mscale c Q) (mscale c Rm) (mscale c P) D X_N = Ok C' -> length x = nx ->
  (forall us V us' V', feedforward np C x = Ok (Some us, Some V) -> feedforward np C' x = Ok (Some us', Some V') -> us' = us /\ V' = c * V) /\
  (c <= 1 -> forall us V, feedforward np C x = Ok (Some us, Some V) -> feedforward np C' x = Ok (Some us, Some (c * V))) /\
  exists us0 xs0, mpc_optimal (lA S) (lB S) Q Rm P nu N (fun _ => True) (fun _ => True) x us0 xs0 /\
    (feedforward np C' x = Ok (None, None) <-> forall us xs, mpc_admissible (lA S) (lB S) nu N (in_poly D) (in_poly X_N) x us xs -> trajectory_cost Q Rm P us0 xs0 + (10 ^ 14 - 1) / 2 / c <= trajectory_cost Q Rm P us xs).
Proof. exact (mpc_scaling np S N Q Rm P D X_N nx nu c C C' x). Qed.
Print Assumptions C83_scaling.

(** The answers are not invariant under scaling of the weights: x+ = x + u, Q = P = 0, D = {x <= u}, N = 1, x = 2e7: with R = 1 feedforward returns (None, None), with R = 1/100 it returns u = 2e7. *)
Theorem C83_scaling_refuted :
  exists S N Q Rm P D X_N c x, mpc_data S N Q Rm P D X_N 1 1 /\ 0 < c /\ length x = 1%nat /\
  forall np, exact_np np -> exists C C' us V, ModelPredictiveController np S N Q Rm P D X_N = Ok C /\ ModelPredictiveController np S N (mscale c Q) (mscale c Rm) (mscale c P) D X_N = Ok C' /\
    feedforward np C x = Ok (None, None) /\ feedforward np C' x = Ok (Some us, Some V).
Proof. exact (mpc_scaling_refuted). Qed.
Print Assumptions C83_scaling_refuted.

(** x+ = x + u with Q = R = P = 1, N = 1, |x| <= 1, |u| <= 1, |x(1)| <= 1 at x = 1: halving the weights gives the same input -1/2 and half the cost. *)
Example C83_example np :
  exact_np np -> mpc_data S_1 1 I_1 I_1 I_1 D_box X_int 1 1 /\
  exists C C', ModelPredictiveController np S_1 1 I_1 I_1 I_1 D_box X_int = Ok C /\ ModelPredictiveController np S_1 1 (mscale (/ 2) I_1) (mscale (/ 2) I_1) (mscale (/ 2) I_1) D_box X_int = Ok C' /\
    feedforward np C [1] = Ok (Some [[- (1 / 2)]], Some (3 / 4)) /\ feedforward np C' [1] = Ok (Some [[- (1 / 2)]], Some (/ 2 * (3 / 4))).
Proof. exact (scaling_example np). Qed.
