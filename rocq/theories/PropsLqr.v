(** * PropsLqr: the property theorems of this part, restated; proofs are in LqrThms.
    Generated by tools/gen_props.py: this file contains only statements, [exact] and Print Assumptions. *)
From Coq Require Import ZArith Classical.
From Verif Require Import Arr ArrFacts Spec SpecDyn Numpy Pnnls PnnlsFacts QpFacts GeomUtils Polyhedron PolyThms Oracle SolverThms NullFacts PolySolveThms PolySetThms PolyMore Dynamics DynThms CondenseThms.
From Verif Require Import LqrThms.

(** On a fresh system controllable is True iff every state can be steered to every state in nx steps; the answer is cached. *)
Theorem C33_controllable np S nx nu :
  exact_np np -> shape (lA S) nx nx -> shape (lB S) nx nu -> (0 < nx)%nat -> l_controllable S = None ->
  exists b, get_controllable np S = (Ok b, LSys (lA S) (lB S) (Some b)) /\
    get_controllable np (LSys (lA S) (lB S) (Some b)) = (Ok b, LSys (lA S) (lB S) (Some b)) /\
    (b = true <-> steerable (lA S) (lB S) nx nu nx).
Proof. exact (controllable_ok np S nx nu). Qed.
Print Assumptions C33_controllable.

(** x1+ = x1 + x2, x2+ = x2 + u is controllable; with x1+ = x1 + x2 + u, x2+ = x2 it is not. *)
Example C33_example :
  fst (get_controllable np0 (LSys (Mat 2 [[1; 1]; [0; 1]]) (Mat 1 [[0]; [1]]) None)) = Ok true /\
  fst (get_controllable np0 (LSys (Mat 2 [[1; 1]; [0; 1]]) (Mat 1 [[1]; [0]]) None)) = Ok false.
Proof. exact (controllable_example). Qed.

(** If scipy returns a symmetric positive semidefinite solution of the Riccati equation, solve_dare succeeds iff the system is controllable (ValueError otherwise), and for the returned P, K the cost of every N-step input sequence is 1/2 x0'P x0 - 1/2 xN'P xN plus a nonnegative term that vanishes iff u(t) = K x(t) for all t < N. *)
Theorem C32_solve_dare np S Q Rm nx nu :
  exact_np np -> shape (lA S) nx nx -> shape (lB S) nx nu -> shape Q nx nx -> shape Rm nu nu -> (0 < nx)%nat ->
  l_controllable S = None -> Spec.pd Rm nu ->
  riccati (lA S) (lB S) Q Rm (np_dare np (lA S) (lB S) Q Rm) nx nu -> psd (np_dare np (lA S) (lB S) Q Rm) nx ->
  (steerable (lA S) (lB S) nx nu nx -> exists P K, fst (solve_dare np S Q Rm) = Ok (P, K)) /\
  (~ steerable (lA S) (lB S) nx nu nx -> fst (solve_dare np S Q Rm) = Err ValueError) /\
  (forall P K, fst (solve_dare np S Q Rm) = Ok (P, K) -> shape K nu nx /\ forall x0 u N, length x0 = nx -> (forall t, length (u t) = nu) ->
     exists e, lq_cost (lA S) (lB S) Q Rm x0 u N =
       / 2 * dot x0 (mv P x0) - / 2 * dot (state (lA S) (lB S) x0 u N) (mv P (state (lA S) (lB S) x0 u N)) + e /\
       0 <= e /\ (e = 0 <-> forall t, (t < N)%nat -> u t = mv K (state (lA S) (lB S) x0 u t))).
Proof. exact (solve_dare_ok np S Q Rm nx nu). Qed.
Print Assumptions C32_solve_dare.

(** If moreover Q is positive definite, K is optimal over infinite horizons with optimal cost 1/2 x0'P x0: under u = K x the cost of every prefix is at most 1/2 x0'P x0, and no input signal whatsoever keeps the costs of its prefixes below a smaller value.
   Missing: Q that is only positive semidefinite, as allowed by the docstring, for which the claim is false (see the refutation). *)
Theorem C32_optimal_partial np S Q Rm nx nu P K :
  exact_np np -> shape (lA S) nx nx -> shape (lB S) nx nu -> shape Q nx nx -> shape Rm nu nu -> (0 < nx)%nat ->
  l_controllable S = None -> Spec.pd Rm nu -> Spec.pd Q nx ->
  riccati (lA S) (lB S) Q Rm (np_dare np (lA S) (lB S) Q Rm) nx nu -> psd (np_dare np (lA S) (lB S) Q Rm) nx ->
  fst (solve_dare np S Q Rm) = Ok (P, K) ->
  (forall x0 u, length x0 = nx -> (forall t, length (u t) = nu) ->
     (forall t, u t = mv K (state (lA S) (lB S) x0 u t)) -> forall N, lq_cost (lA S) (lB S) Q Rm x0 u N <= / 2 * dot x0 (mv P x0)) /\
  (forall x0 u V, length x0 = nx -> (forall t, length (u t) = nu) ->
     (forall N, lq_cost (lA S) (lB S) Q Rm x0 u N <= V) -> / 2 * dot x0 (mv P x0) <= V).
Proof. exact (dare_optimal np S Q Rm nx nu P K). Qed.
Print Assumptions C32_optimal_partial.

(** x+ = x + u, Q = 1, R = 2: P = 2 solves the Riccati equation, all hypotheses hold, and solve_dare returns P = 2, K = -1/2. *)
Example C32_example :
  let S := LSys (Mat 1 [[1]]) (Mat 1 [[1]]) None in let np := np_dare_const (Mat 1 [[2]]) in
  exact_np np /\ riccati (lA S) (lB S) (Mat 1 [[1]]) (Mat 1 [[2]]) (np_dare np (lA S) (lB S) (Mat 1 [[1]]) (Mat 1 [[2]])) 1 1 /\
  psd (np_dare np (lA S) (lB S) (Mat 1 [[1]]) (Mat 1 [[2]])) 1 /\ Spec.pd (Mat 1 [[1]]) 1 /\ Spec.pd (Mat 1 [[2]]) 1 /\ steerable (lA S) (lB S) 1 1 1 /\
  fst (solve_dare np S (Mat 1 [[1]]) (Mat 1 [[2]])) = Ok (Mat 1 [[2]], Mat 1 [[- (1 / 2)]]).
Proof. exact (dare_example). Qed.

(** For x+ = 2x + u, Q = 0 (positive semidefinite), R = 1 the only solution of the Riccati equation with a stable closed loop is P = 3; solve_dare then returns P = 3, but u = 0 costs 0 < 3/2 x0^2. *)
Theorem C32_semidefinite_refuted :
  exists S Q Rm x0 u, psd Q 1 /\ Spec.pd Rm 1 /\ length x0 = 1%nat /\ (forall t, length (u t) = 1%nat) /\
  (exists np, exact_np np /\ exists p, np_dare np (lA S) (lB S) Q Rm = Mat 1 [[p]] /\ riccati (lA S) (lB S) Q Rm (Mat 1 [[p]]) 1 1 /\ 0 <= p /\ Rabs (2 - 2 * p / (1 + p)) < 1) /\
  forall np, exact_np np ->
    (exists p, np_dare np (lA S) (lB S) Q Rm = Mat 1 [[p]] /\ riccati (lA S) (lB S) Q Rm (Mat 1 [[p]]) 1 1 /\ 0 <= p /\ Rabs (2 - 2 * p / (1 + p)) < 1) ->
    exists P K, fst (solve_dare np S Q Rm) = Ok (P, K) /\ forall N, lq_cost (lA S) (lB S) Q Rm x0 u N = 0 /\ 0 < / 2 * dot x0 (mv P x0).
Proof. exact (semidefinite_refuted). Qed.
Print Assumptions C32_semidefinite_refuted.
