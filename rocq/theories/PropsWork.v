(** * PropsWork: the property theorems of this part, restated; proofs are in WorkThms.
    Generated by tools/gen_props.py: this file contains only statements, [exact] and Print Assumptions. *)
From Coq Require Import ZArith Classical.
From Verif Require Import Arr ArrFacts Spec SpecMpc SpecProg Numpy Pnnls PnnlsFacts QpFacts GeomUtils Polyhedron PolyThms Oracle SolverThms NullFacts PolySolveThms PolyMore SpecDyn Dynamics DynThms CondenseThms LqrThms McaisThms Mpqp MpqpThms Controllers CtrlThms Workflow.
From Verif Require Import WorkThms.

(** The workflow of examples/linear_mpc.ipynb for box constraints with the origin inside, positive definite Q and R and a controllable system, with scipy returning a positive semidefinite solution of the Riccati equation: every step succeeds (mcais for every sufficiently large number of iterations); D is the box; the terminal set contains the largest invariant set, and unless a redundancy was decided by the tolerance 1e-7 it is invariant; if it is invariant, then from every state where feedforward returns a value V below 5e13 the loop of the notebook runs for any number of steps without an exception, respects the bounds at all times, costs at most V and converges to the origin, and in the terminal set feedback is the LQR and the value is 1/2 x'P x. *)
Theorem C70_design np S N Q Rm x_min x_max u_min u_max nx nu :
  exact_np np ->
  shape (lA S) nx nx -> shape (lB S) nx nu -> shape Q nx nx -> shape Rm nu nu -> (0 < nx)%nat -> (0 < N)%nat -> Spec.pd Q nx -> Spec.pd Rm nu ->
  l_controllable S = None -> steerable (lA S) (lB S) nx nu nx ->
  riccati (lA S) (lB S) Q Rm (np_dare np (lA S) (lB S) Q Rm) nx nu -> psd (np_dare np (lA S) (lB S) Q Rm) nx ->
  (forall K, shape K nu nx -> eig_max_ok np (A_closed S K) nx) ->
  length x_min = nx -> length x_max = nx -> length u_min = nu -> length u_max = nu ->
  Forall (fun a => a < 0) x_min -> Forall (fun a => 0 < a) x_max -> Forall (fun a => a < 0) u_min -> Forall (fun a => 0 < a) u_max ->
  let box := fun x u => Forall2 Rle x_min x /\ Forall2 Rle x x_max /\ Forall2 Rle u_min u /\ Forall2 Rle u u_max in
  exists fuel0 W, (forall fuel, (fuel0 <= fuel)%nat -> linear_mpc_design np fuel S N Q Rm x_min x_max u_min u_max = Ok W) /\
    (forall x u, length x = nx -> in_poly (d_D W) (x ++ u) <-> box x u) /\
    (exists O1 mO, wf O1 mO 0 nx /\ rows_of_flow (A_closed S (d_K W)) (cl_poly S (d_K W) (d_D W)) O1 (nx + nx + (nu + nu)) mO nx /\
       (forall x, length x = nx -> (in_poly O1 x <-> forall t, let y := flow (A_closed S (d_K W)) t x in box y (mv (d_K W) y))) /\
       (forall x, in_poly O1 x -> in_poly (d_XN W) x) /\
       (redundancy_gap O1 mO tol7 -> terminal_invariant (lA S) (lB S) (d_K W) (in_poly (d_D W)) (in_poly (d_XN W)))) /\
    (terminal_invariant (lA S) (lB S) (d_K W) (in_poly (d_D W)) (in_poly (d_XN W)) ->
       (forall x, in_poly (d_XN W) x -> feedback np (d_C W) x = Ok (Some (mv (d_K W) x)) /\ exists us, feedforward np (d_C W) x = Ok (Some us, Some (/ 2 * dot x (mv (d_P W) x)))) /\
       forall x us V, length x = nx -> feedforward np (d_C W) x = Ok (Some us, Some V) -> V < (10 ^ 14 - 1) / 2 ->
         exists X U : nat -> vec, X 0%nat = x /\
           (forall n, run_mpc np (d_C W) S n x = Ok (map U (seq 0 n), map X (seq 0 (Datatypes.S n)))) /\
           (forall t, X (Datatypes.S t) = linear_step (lA S) (lB S) (X t) (U t) /\ box (X t) (U t)) /\
           (forall T, sum_upto (fun t => / 2 * (dot (X t) (mv Q (X t)) + dot (U t) (mv Rm (U t)))) T <= V) /\
           forall eps, 0 < eps -> exists T, forall t, (T <= t)%nat -> norm (X t) < eps).
Proof. exact (workflow np S N Q Rm x_min x_max u_min u_max nx nu). Qed.
Print Assumptions C70_design.

(** x+ = x + u with Q = 1, R = 2, N = 1, |x| <= 1, |u| <= 1: the hypotheses of C70_design hold; the design gives K = -1/2, P = 2, an invariant terminal set, and the value 1 at x = 1. *)
Example C70_example :
  let np := np_work in let Q := Mat 1 [[1]] in let Rm := Mat 1 [[2]] in
  exact_np np /\ Spec.pd Q 1 /\ Spec.pd Rm 1 /\ steerable (lA S_1) (lB S_1) 1 1 1 /\
  riccati (lA S_1) (lB S_1) Q Rm (np_dare np (lA S_1) (lB S_1) Q Rm) 1 1 /\ psd (np_dare np (lA S_1) (lB S_1) Q Rm) 1 /\
  (forall K, shape K 1 1 -> eig_max_ok np (A_closed S_1 K) 1) /\
  exists fuel W, linear_mpc_design np fuel S_1 1 Q Rm [-1] [1] [-1] [1] = Ok W /\ d_K W = Mat 1 [[- (1 / 2)]] /\ d_P W = Mat 1 [[2]] /\
    terminal_invariant (lA S_1) (lB S_1) (d_K W) (in_poly (d_D W)) (in_poly (d_XN W)) /\ exists us, feedforward np (d_C W) [1] = Ok (Some us, Some 1).
Proof. exact (workflow_example). Qed.
