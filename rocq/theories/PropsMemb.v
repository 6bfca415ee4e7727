(** * PropsMemb: the property theorems of this part, restated; proofs are in MembThms.
    Generated by tools/gen_props.py: this file contains only statements, [exact] and Print Assumptions. *)
From Coq Require Import ZArith.
From Verif Require Import Arr ArrFacts Spec SpecDyn Numpy Pnnls GeomUtils Polyhedron PolyThms Dynamics DynThms.
From Verif Require Import MembThms.
Open Scope R_scope.

(** What contains(x, tol) computes for every polyhedron with coherent shapes: ValueError without inequalities; otherwise True iff every inequality holds within tol, no equality is exceeded by more than tol, and at least one equality is not undercut by more than tol. *)
Theorem C06_contains_exact p m me n x tol :
  wf p m me n -> length x = n ->
  (m = 0%nat -> contains tol p x = Err ValueError) /\
  ((0 < m)%nat -> exists r, contains tol p x = Ok r /\ (r = true <-> accepted tol p x)).
Proof. exact (contains_exact p m me n x tol). Qed.
Print Assumptions C06_contains_exact.

(** With the equalities x0 = 0, x1 = 0 the point (0, -5) is accepted, (0, 5) is not; without inequalities the test raises. *)
Example C06_exact_example :
  let p := Poly (Mat 2 [[0; 0]]) [0] (Mat 2 [[1; 0]; [0; 1]]) [0; 0] None None None None None in
  wf p 1 2 2 /\ contains tol7 p [0; -5] = Ok true /\ contains tol7 p [0; 5] = Ok false /\
  contains tol7 (Poly (Mat 2 []) [] (Mat 2 [[1; 0]]) [0] None None None None None) [0; 0] = Err ValueError.
Proof. exact (contains_exact_example). Qed.

(** The same for domains with any number of equalities: simulate returns exactly the run in which every step uses the first domain accepted by contains (C06_contains_exact), and raises ValueError exactly when no domain is accepted; it raises nothing else. *)
Theorem C28_exact W nx nu x0 u :
  pwa_shapes W nx nu -> length x0 = nx -> Forall (fun v => length v = nu) u ->
  (forall xs ms, pwa_simulate W x0 u = Ok (xs, ms) <-> accepted_run W x0 u xs ms) /\
  (pwa_simulate W x0 u = Err ValueError <->
     exists k xs ms, (k < length u)%nat /\ accepted_run W x0 (firstn k u) xs ms /\ none_accepted (w_dom W) (nth k xs [] ++ nth k u [])) /\
  (forall e, pwa_simulate W x0 u = Err e -> e = ValueError).
Proof. exact (accepted_simulation W nx nu x0 u). Qed.
Print Assumptions C28_exact.

(** A domain with two equalities, x = 0 and u = 0: the pair (0, -5) is in no domain, but simulate does not raise. *)
Theorem C28_equalities_refuted :
  exists W, pwa_shapes W 1 1 /\ no_mode (w_dom W) [0; -5] /\ pwa_simulate W [0] [[-5]] = Ok ([[0]; [-5]], [0%nat]).
Proof. exact (simulation_equalities_refuted). Qed.
Print Assumptions C28_equalities_refuted.
