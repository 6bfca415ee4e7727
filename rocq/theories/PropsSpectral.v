(** * PropsSpectral: the property theorems of this part, restated; proofs are in SpectralThms.
    Generated by tools/gen_props.py: this file contains only statements, [exact] and Print Assumptions. *)
From Coq Require Import ZArith String Classical.
From Verif Require DareThms.
From Verif Require Import Arr ArrFacts Spec SpecMpc SpecLoop Numpy Pnnls PnnlsFacts QpFacts GeomUtils Polyhedron PolyThms Oracle SolverThms NullFacts PolySolveThms PolyMore PolyBoundThms GeomThms SpecDyn Dynamics DynThms CondenseThms LqrThms McaisThms Mpqp MpqpThms Controllers CtrlThms Gurobi Programs ProgThms Hybrid HybridThms HybridOptThms HybridLoopThms WorkThms Notebooks NoteThms Walls WallThms SpecEig FtaThms EigThms.
From Verif Require Import SpectralThms.
Local Open Scope list_scope.

(** Every real square matrix has an eigenvalue, real or complex; the largest modulus of its eigenvalues exists and is unique. *)
Theorem C92_spectral_radius A n :
  shape A n n -> (0 < n)%nat -> exists r, spectral_radius A n r /\ forall r', spectral_radius A n r' -> r' = r.
Proof. exact (spectral_unique A n). Qed.
Print Assumptions C92_spectral_radius.

(** All trajectories of x+ = A x converge to the origin iff the spectral radius of A is less than one. *)
Theorem C92_attractive_iff A n r :
  shape A n n -> spectral_radius A n r -> (attractive A n <-> r < 1).
Proof. exact (attractive_iff A n r). Qed.
Print Assumptions C92_attractive_iff.

(** Given a polyhedron without equalities that is bounded and contains the origin, and eigenvalues computed exactly: if the spectral radius is larger than one, mcais raises ValueError, and arbitrarily close to the origin there are states whose trajectory leaves the polyhedron, so no set around the origin is invariant and admissible; if it is at most one, mcais does not raise. *)
Theorem C92_test np A X m n :
  exact_np np -> shape A n n -> spectral_radius A n (np_eig_max np A) ->
  wf X m 0 n -> (0 < m)%nat -> (0 < n)%nat -> p_empty X = None -> p_bounded X = None -> in_poly X (zeros n) -> bounded_set (in_poly X) ->
  (1 < np_eig_max np A -> (forall fuel, fst (mcais np fuel A X) = Err ValueError) /\
     forall d, 0 < d -> exists x t, length x = n /\ norm x <= d /\ ~ in_poly X (flow A t x)) /\
  (np_eig_max np A <= 1 -> forall fuel, (exists O, fst (mcais np fuel A X) = Ok O) \/ fst (mcais np fuel A X) = Err OutOfFuel).
Proof. exact (mcais_test np A X m n). Qed.
Print Assumptions C92_test.

(** If the spectral radius is less than one, and the polyhedron is bounded with the origin in its interior (b > 0, no equalities), mcais returns a set that contains a ball around the origin. *)
Theorem C92_halts np A X m n :
  exact_np np -> shape A n n -> spectral_radius A n (np_eig_max np A) -> np_eig_max np A < 1 ->
  wf X m 0 n -> (0 < m)%nat -> (0 < n)%nat -> p_empty X = None -> p_bounded X = None -> bounded_set (in_poly X) -> (forall i, (i < m)%nat -> 0 < nth i (pb X) 0) ->
  exists fuel O X', mcais np fuel A X = (Ok O, X') /\ (forall x, McaisThms.admissible A X x -> in_poly O x) /\ exists d, 0 < d /\ forall x, length x = n -> norm x <= d -> in_poly O x.
Proof. exact (mcais_ends np A X m n). Qed.
Print Assumptions C92_halts.

(** A spectral radius of one decides nothing: x1+ = x1 + x2, x2+ = x2 and the identity both have spectral radius one and pass the test with X the unit box; the loop never ends for the first and ends after one iteration for the second. *)
Theorem C92_marginal_refuted np :
  exact_np np -> (forall A, shape A 2 2 -> spectral_radius A 2 (np_eig_max np A)) ->
  exists A1 A2 X, shape A1 2 2 /\ shape A2 2 2 /\ np_eig_max np A1 = 1 /\ np_eig_max np A2 = 1 /\ (forall fuel, fst (mcais np fuel A1 X) = Err OutOfFuel) /\ exists O X', mcais np 1 A2 X = (Ok O, X').
Proof. exact (marginal_spectral np). Qed.
Print Assumptions C92_marginal_refuted.

(** With P, K from solve_dare (exact libraries, positive definite Q and R) the spectral radius of A + B K is less than one, so mcais passes its test and ends for every bounded polyhedron D around the origin. *)
Theorem C92_lqr np S Q Rm nx nu P K :
  exact_np np -> shape (lA S) nx nx -> shape (lB S) nx nu -> shape Q nx nx -> shape Rm nu nu -> (0 < nx)%nat -> Spec.pd Q nx -> Spec.pd Rm nu -> l_controllable S = None ->
  riccati (lA S) (lB S) Q Rm (np_dare np (lA S) (lB S) Q Rm) nx nu -> psd (np_dare np (lA S) (lB S) Q Rm) nx ->
  fst (solve_dare np S Q Rm) = Ok (P, K) -> (exists r, spectral_radius (A_closed S K) nx r /\ r < 1) /\ forall D m, (forall M, shape M nx nx -> spectral_radius M nx (np_eig_max np M)) -> wf D m 0 (nx + nu) -> (0 < m)%nat -> (forall i, (i < m)%nat -> 0 < nth i (pb D) 0) -> bounded_set (in_poly D) -> exists fuel O, lin_mcais np fuel S K D = Ok O.
Proof. exact (lqr_spectral np S Q Rm nx nu P K). Qed.
Print Assumptions C92_lqr.

(** The assumptions on the libraries can be met for every controllable system and all positive definite Q and R of any size: there are exact libraries whose dare solves the Riccati equation and whose eig gives the spectral radius of every square matrix. *)
Theorem C92_libraries S Q Rm nx nu :
  shape (lA S) nx nx -> shape (lB S) nx nu -> shape Q nx nx -> shape Rm nu nu -> (0 < nx)%nat -> Spec.pd Q nx -> Spec.pd Rm nu -> l_controllable S = None -> steerable (lA S) (lB S) nx nu nx ->
  exists np, lqr_problem np S Q Rm nx nu /\ forall M k, shape M k k -> (0 < k)%nat -> spectral_radius M k (np_eig_max np M).
Proof. exact (libraries S Q Rm nx nu). Qed.
Print Assumptions C92_libraries.

(** Quarter turns scaled by 1/2 and by 2 have the complex eigenvalues i/2, -i/2 and 2i, -2i; with X the unit box the first meets the hypotheses of C92_halts, the second those of the ValueError of C92_test. *)
Example C92_example :
  let np := np_spec (eye 2) in exact_np np /\ spectral_radius (turn (/ 2)) 2 (np_eig_max np (turn (/ 2))) /\ np_eig_max np (turn (/ 2)) = / 2 /\ spectral_radius (turn 2) 2 (np_eig_max np (turn 2)) /\ np_eig_max np (turn 2) = 2 /\
  shape (turn (/ 2)) 2 2 /\ shape (turn 2) 2 2 /\ wf box2 4 0 2 /\ p_empty box2 = None /\ p_bounded box2 = None /\ in_poly box2 (zeros 2) /\ bounded_set (in_poly box2) /\ (forall i, (i < 4)%nat -> 0 < nth i (pb box2) 0).
Proof. exact (spectral_example). Qed.

(** The numbers of hybrid_mpc_2.ipynb (Q and R identities, N = 20): there are exact libraries, with eig the spectral radius, for which the hypotheses of C91_cart_loop hold. *)
Example C91_cart_loop_example :
  exists np S1 S2 S3 D1 D2 D3, cart_systems np 1 1 1 1 100 10 (/ 20) = Ok (S1, S2, S3) /\ cart_domains np 1 1 (/ 2) 7 5 100 = Ok (D1, D2, D3) /\ lqr_libraries np S2 (eye 4) (eye 1) 4 1 /\
  shape (eye 4) 4 4 /\ shape (eye 1) 1 1 /\ Spec.pd (eye 4) 4 /\ Spec.pd (eye 1) 1.
Proof. exact (cart_loop_example). Qed.
