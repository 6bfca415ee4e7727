(** * PropsLaw: the property theorems of this part, restated; proofs are in LawThms.
    Generated by tools/gen_props.py: this file contains only statements, [exact] and Print Assumptions. *)
From Coq Require Import ZArith Classical.
From Verif Require Import Arr ArrFacts Spec SpecMpc Numpy Pnnls PnnlsFacts QpFacts GeomUtils Polyhedron PolyThms Oracle SolverThms NullFacts PolySolveThms PolyMore PolyChebThms SpecDyn Dynamics DynThms CondenseThms LqrThms Mpqp MpqpThms Controllers CtrlThms VertThms ContThms.
From Verif Require Import LawThms.

(** For every strictly convex program there are at most 2^m regions, each returned by explicit_solve_given_active_set for some active set, whose union is exactly the set of parameters with a feasible point; on each of them u is the minimizer and V the optimal value. No assumption of non-degeneracy. *)
Theorem C81_pieces np Huu Hux Hxx fu fx g Au Ax b nu nx m q :
  exact_np np -> mp_data Huu Hux Hxx fu fx Au Ax b nu nx m -> MultiParametricQuadraticProgram np Huu Hux Hxx fu fx g Au Ax b = Ok q ->
  exists crs, (length crs <= 2 ^ m)%nat /\ (forall c, In c crs -> exists act, explicit_solve_given_active_set np q act = Ok (Some c)) /\
    (forall x, length x = nx -> ((exists v, mp_feasible Au Ax b x v) <-> exists c, In c crs /\ in_poly (cr_poly c) x)) /\
    forall c x, In c crs -> in_poly (cr_poly c) x -> mp_minimizer Huu Hux Hxx fu fx g Au Ax b x (cr_u c x) /\ cr_V c x = mp_cost Huu Hux Hxx fu fx g x (cr_u c x).
Proof. exact (law_pieces np Huu Hux Hxx fu fx g Au Ax b nu nx m q). Qed.
Print Assumptions C81_pieces.

(** The minimizer of the program is a Lipschitz continuous function of the parameter on the whole feasible set. *)
Theorem C81_lipschitz np Huu Hux Hxx fu fx g Au Ax b nu nx m q :
  exact_np np -> mp_data Huu Hux Hxx fu fx Au Ax b nu nx m -> MultiParametricQuadraticProgram np Huu Hux Hxx fu fx g Au Ax b = Ok q ->
  exists L, 0 <= L /\ forall x y u v, length x = nx -> length y = nx -> mp_minimizer Huu Hux Hxx fu fx g Au Ax b x u -> mp_minimizer Huu Hux Hxx fu fx g Au Ax b y v ->
    norm (vsub u v) <= L * norm (vsub x y).
Proof. exact (law_lipschitz np Huu Hux Hxx fu fx g Au Ax b nu nx m q). Qed.
Print Assumptions C81_lipschitz.

(** The linear MPC controller is a Lipschitz continuous, piecewise affine state feedback: there are finitely many polyhedral regions (returned by explicit_solve_given_active_set) that cover exactly the states with an admissible input sequence, on each of them the answers of feedforward are the affine function u and the quadratic function V of the region, and one constant L bounds the change of the inputs, and of feedback, from one state to another. *)
Theorem C81_mpc_law np S N Q Rm P D X_N nx nu C :
  exact_np np -> mpc_data S N Q Rm P D X_N nx nu -> ModelPredictiveController np S N Q Rm P D X_N = Ok C ->
  exists crs L, 0 <= L /\ (forall c, In c crs -> exists act, explicit_solve_given_active_set np (c_mpqp C) act = Ok (Some c)) /\
    (forall x, length x = nx -> ((exists us xs, mpc_admissible (lA S) (lB S) nu N (in_poly D) (in_poly X_N) x us xs) <-> exists c, In c crs /\ in_poly (cr_poly c) x)) /\
    (forall x us V c, length x = nx -> feedforward np C x = Ok (Some us, Some V) -> In c crs -> in_poly (cr_poly c) x -> List.concat us = cr_u c x /\ V = cr_V c x) /\
    (forall x y us us' V V', length x = nx -> length y = nx -> feedforward np C x = Ok (Some us, Some V) -> feedforward np C y = Ok (Some us', Some V') ->
       norm (vsub (List.concat us) (List.concat us')) <= L * norm (vsub x y)) /\
    (forall x y u u', length x = nx -> length y = nx -> feedback np C x = Ok (Some u) -> feedback np C y = Ok (Some u') -> norm (vsub u u') <= L * norm (vsub x y)).
Proof. exact (mpc_law np S N Q Rm P D X_N nx nu C). Qed.
Print Assumptions C81_mpc_law.

(** x+ = x + u with Q = R = P = 1, N = 1, |x| <= 1, |u| <= 1, |x(1)| <= 1 satisfies the hypotheses of C81_mpc_law, and feedforward answers at 1 and at -1. *)
Example C81_example np :
  exact_np np -> mpc_data S_1 1 I_1 I_1 I_1 D_box X_int 1 1 /\
  exists C us2, ModelPredictiveController np S_1 1 I_1 I_1 I_1 D_box X_int = Ok C /\
    feedforward np C [1] = Ok (Some [[- (1 / 2)]], Some (3 / 4)) /\ feedforward np C [-1] = Ok (Some us2, Some (3 / 4)).
Proof. exact (law_mpc_example np). Qed.

(** A degenerate program, with both constraints equal (min 1/2 u^2 s.t. x <= u twice): the two active sets {0} and {1} have the same region {x >= 0} and {0, 1} has none, but the feasible set is covered. *)
Example C81_degenerate_example :
  mp_data (Mat 1 [[1]]) (Mat 1 [[0]]) (Mat 1 [[0]]) [0] [0] (Mat 1 [[-1]; [-1]]) (Mat 1 [[1]; [1]]) [0; 0] 1 1 2 /\
  mp_feasible (Mat 1 [[-1]; [-1]]) (Mat 1 [[1]; [1]]) [0; 0] [3] [3] /\
  forall np, exact_np np -> exists q, MultiParametricQuadraticProgram np (Mat 1 [[1]]) (Mat 1 [[0]]) (Mat 1 [[0]]) [0] [0] 0 (Mat 1 [[-1]; [-1]]) (Mat 1 [[1]; [1]]) [0; 0] = Ok q /\
    explicit_solve_given_active_set np q [0%nat; 1%nat] = Ok None.
Proof. exact (law_degenerate_example). Qed.
