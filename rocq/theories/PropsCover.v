(** * PropsCover: the property theorems of this part, restated; proofs are in CoverThms.
    Generated by tools/gen_props.py: this file contains only statements, [exact] and Print Assumptions. *)
From Coq Require Import ZArith Classical Permutation Sorted.
From Verif Require Import Arr ArrFacts Spec SpecMpc Numpy Pnnls PnnlsFacts QpFacts GeomUtils Polyhedron PolyThms Oracle SolverThms NullFacts PolySolveThms PolyMore PolyChebThms PolyCacheThms GeomThms SpecDyn Dynamics DynThms CondenseThms LqrThms Mpqp MpqpThms NeighThms TermThms.
From Verif Require Import CoverThms.

(** With one parameter: if the origin is feasible, the step exceeds 1e-7, the rows of the regions are zero or normalized, and at the points explored the on-line solver answers, its multipliers are zero or above 1e-7 and the active constraints it reports are independent, then every feasible parameter is at distance at most step + (m+1) 1e-7 from a region found. Missing: the gaps do exist (C43_gap_refuted), and nothing of the kind holds when the origin is infeasible (C43_cover_refuted) or is claimed here for several parameters. *)
Theorem C43_one_parameter_partial np Huu Hux Hxx fu fx g Au Ax b nu m q fuel step crs x u :
  exact_np np -> mp_data Huu Hux Hxx fu fx Au Ax b nu 1 m -> (0 < m)%nat -> tol7 < step ->
  MultiParametricQuadraticProgram np Huu Hux Hxx fu fx g Au Ax b = Ok q ->
  (forall act cr, explicit_solve_given_active_set np q act = Ok (Some cr) -> unit_rows (cr_poly cr)) ->
  (forall y, exploration_point np q step y -> clear_multipliers np q y /\ ((exists v, mp_feasible Au Ax b y v) -> answered np q y)) ->
  explicit_solve np fuel step q = Ok crs ->
  (exists v, mp_feasible Au Ax b [0] v) -> mp_feasible Au Ax b [x] u ->
  exists c y, In c crs /\ in_poly (cr_poly c) [y] /\ Rabs (x - y) <= step + INR (m + 1) * tol7.
Proof. exact (cover_1d np Huu Hux Hxx fu fx g Au Ax b nu m q fuel step crs x u). Qed.
Print Assumptions C43_one_parameter_partial.

(** A feasible origin and clear multipliers do not save the coverage: for min 1/2 u^2 s.t. u >= x, u >= 3 x - 2e-6 explicit_solve with its default step ends after two of the three regions; the step of 1e-5 beyond {x <= 0} jumps over the region 0 <= x <= 1e-6, and at x = 5e-7 the explicit solution returns None although the minimizer is 5e-7. *)
Theorem C43_gap_refuted :
  exists Huu Hux Hxx fu fx g Au Ax b x u, mp_data Huu Hux Hxx fu fx Au Ax b 1 1 2 /\
  (exists v, mp_feasible Au Ax b [0] v) /\ mp_minimizer Huu Hux Hxx fu fx g Au Ax b x u /\
  forall np fuel, exact_np np -> exists q crs, MultiParametricQuadraticProgram np Huu Hux Hxx fu fx g Au Ax b = Ok q /\
    explicit_solve np (3 + fuel) (/ 100000) q = Ok crs /\ map cr_active crs = [[]; [1%nat]] /\ es_u crs x = Ok None.
Proof. exact (gap_refuted). Qed.
Print Assumptions C43_gap_refuted.

(** The hypotheses of the coverage theorem are met by min 1/2 u^2 s.t. x <= u, with the default step. *)
Example C43_one_parameter_example np :
  exact_np np -> exists q crs,
  mp_data (Mat 1 [[1]]) (Mat 1 [[0]]) (Mat 1 [[0]]) [0] [0] (Mat 1 [[-1]]) (Mat 1 [[1]]) [0] 1 1 1 /\ tol7 < / 100000 /\
  MultiParametricQuadraticProgram np (Mat 1 [[1]]) (Mat 1 [[0]]) (Mat 1 [[0]]) [0] [0] 0 (Mat 1 [[-1]]) (Mat 1 [[1]]) [0] = Ok q /\
  (forall act cr, explicit_solve_given_active_set np q act = Ok (Some cr) -> unit_rows (cr_poly cr)) /\
  (forall y, exploration_point np q (/ 100000) y -> clear_multipliers np q y /\ answered np q y) /\
  explicit_solve np 10 (/ 100000) q = Ok crs /\ (exists v, mp_feasible (Mat 1 [[-1]]) (Mat 1 [[1]]) [0] [0] v).
Proof. exact (cover_example np). Qed.
