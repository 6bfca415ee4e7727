(** * PropsMpqp: the property theorems of this part, restated; proofs are in MpqpThms.
    Generated by tools/gen_props.py: this file contains only statements, [exact] and Print Assumptions. *)
From Coq Require Import ZArith Classical.
From Verif Require Import Arr ArrFacts Spec SpecMpc Numpy Pnnls PnnlsFacts QpFacts GeomUtils Polyhedron PolyThms Oracle SolverThms NullFacts PolySolveThms PolyMore SpecDyn Dynamics DynThms CondenseThms LqrThms Mpqp.
From Verif Require Import MpqpThms.

(** On the region of an active set u(x) is the one and only minimizer, p(x) its multipliers and V(x) the optimal value. *)
Theorem C40_region_optimal np Huu Hux Hxx fu fx g Au Ax b nu nx m q act cr x :
  exact_np np -> mp_data Huu Hux Hxx fu fx Au Ax b nu nx m ->
  MultiParametricQuadraticProgram np Huu Hux Hxx fu fx g Au Ax b = Ok q ->
  explicit_solve_given_active_set np q act = Ok (Some cr) -> in_poly (cr_poly cr) x ->
  mp_minimizer Huu Hux Hxx fu fx g Au Ax b x (cr_u cr x) /\
  mp_multipliers Huu Hux fu Au Ax b x (cr_u cr x) (cr_p cr x) /\
  cr_V cr x = mp_cost Huu Hux Hxx fu fx g x (cr_u cr x).
Proof. exact (region_optimal np Huu Hux Hxx fu fx g Au Ax b nu nx m q act cr x). Qed.
Print Assumptions C40_region_optimal.

(** The region of an active set is exactly the set of parameters at which some optimal pair (u,p) has these constraints tight and zero multipliers elsewhere. *)
Theorem C40_region_exact np Huu Hux Hxx fu fx g Au Ax b nu nx m q act cr x :
  exact_np np -> mp_data Huu Hux Hxx fu fx Au Ax b nu nx m ->
  MultiParametricQuadraticProgram np Huu Hux Hxx fu fx g Au Ax b = Ok q ->
  explicit_solve_given_active_set np q act = Ok (Some cr) -> length x = nx ->
  (in_poly (cr_poly cr) x <->
   exists u p, mp_feasible Au Ax b x u /\ mp_multipliers Huu Hux fu Au Ax b x u p /\
     (forall i, In i act -> dot (row Au i) u + dot (row Ax i) x = nth i b 0) /\ (forall i, ~ In i act -> nth i p 0 = 0)).
Proof. exact (region_exact np Huu Hux Hxx fu fx g Au Ax b nu nx m q act cr x). Qed.
Print Assumptions C40_region_exact.

(** The constructor accepts all well-formed data; a region is returned exactly for active sets with linearly independent rows of Au, None for dependent ones, and an index out of range raises IndexError. *)
Theorem C40_region_returned np Huu Hux Hxx fu fx g Au Ax b nu nx m :
  exact_np np -> mp_data Huu Hux Hxx fu fx Au Ax b nu nx m ->
  exists q, MultiParametricQuadraticProgram np Huu Hux Hxx fu fx g Au Ax b = Ok q /\ forall act,
    (~ (forall i, In i act -> (i < m)%nat) -> explicit_solve_given_active_set np q act = Err IndexError) /\
    ((forall i, In i act -> (i < m)%nat) ->
     (indep_rows (mtake Au act) (length act) <-> exists cr, explicit_solve_given_active_set np q act = Ok (Some cr)) /\
     (~ indep_rows (mtake Au act) (length act) <-> explicit_solve_given_active_set np q act = Ok None)).
Proof. exact (region_returned np Huu Hux Hxx fu fx g Au Ax b nu nx m). Qed.
Print Assumptions C40_region_returned.

(** u, p and V all evaluate the first region whose inequalities hold at x within 1e-7; None iff there is no such region. (Every region has at least one inequality.) *)
Theorem C41_lookup crs nx x :
  Forall (fun c => exists m, wf (cr_poly c) m 0 nx /\ (0 < m)%nat) crs -> length x = nx ->
  (exists pre c post, crs = pre ++ c :: post /\ within tol7 (cr_poly c) x /\ (forall c', In c' pre -> ~ within tol7 (cr_poly c') x) /\
     es_u crs x = Ok (Some (cr_u c x)) /\ es_p crs x = Ok (Some (cr_p c x)) /\ es_V crs x = Ok (Some (cr_V c x))) \/
  ((forall c, In c crs -> ~ within tol7 (cr_poly c) x) /\ es_u crs x = Ok None /\ es_p crs x = Ok None /\ es_V crs x = Ok None).
Proof. exact (lookup_ok crs nx x). Qed.
Print Assumptions C41_lookup.

(** The explicit solution of a program without constraints cannot be evaluated: the lookup raises ValueError. *)
Theorem C41_unconstrained_refuted np Huu Hux Hxx fu fx g Au Ax b nu nx q cr x :
  exact_np np -> mp_data Huu Hux Hxx fu fx Au Ax b nu nx 0 ->
  MultiParametricQuadraticProgram np Huu Hux Hxx fu fx g Au Ax b = Ok q ->
  explicit_solve_given_active_set np q [] = Ok (Some cr) -> length x = nx ->
  es_u [cr] x = Err ValueError.
Proof. exact (lookup_unconstrained_refuted np Huu Hux Hxx fu fx g Au Ax b nu nx q cr x). Qed.
Print Assumptions C41_unconstrained_refuted.

(** For every number of iterations and every step size, every region in the result of explicit_solve is optimal: on it u is the one and only minimizer, p the multipliers and V the optimal value. *)
Theorem C42_sound np Huu Hux Hxx fu fx g Au Ax b nu nx m q fuel step crs cr x :
  exact_np np -> mp_data Huu Hux Hxx fu fx Au Ax b nu nx m ->
  MultiParametricQuadraticProgram np Huu Hux Hxx fu fx g Au Ax b = Ok q ->
  explicit_solve np fuel step q = Ok crs -> In cr crs -> in_poly (cr_poly cr) x ->
  mp_minimizer Huu Hux Hxx fu fx g Au Ax b x (cr_u cr x) /\
  mp_multipliers Huu Hux fu Au Ax b x (cr_u cr x) (cr_p cr x) /\
  cr_V cr x = mp_cost Huu Hux Hxx fu fx g x (cr_u cr x).
Proof. exact (explicit_sound np Huu Hux Hxx fu fx g Au Ax b nu nx m q fuel step crs cr x). Qed.
Print Assumptions C42_sound.

(** Where the region found by the lookup contains x exactly, the explicit and the on-line solution agree -- unless the on-line solver gives up (None), which happens only for minimizers at distance about 1e7 or more from the unconstrained one. *)
Theorem C42_agreement np Huu Hux Hxx fu fx g Au Ax b nu nx m q fuel step crs cr x :
  exact_np np -> mp_data Huu Hux Hxx fu fx Au Ax b nu nx m ->
  MultiParametricQuadraticProgram np Huu Hux Hxx fu fx g Au Ax b = Ok q ->
  explicit_solve np fuel step q = Ok crs -> get_critical_region crs x = Ok (Some cr) -> in_poly (cr_poly cr) x ->
  exists u V s, es_u crs x = Ok (Some u) /\ es_V crs x = Ok (Some V) /\ mpqp_solve np q x = Ok s /\
    (s = sol_none \/ (s_argmin s = Some u /\ s_min s = Some V)) /\
    (forall v0, length v0 = nu -> mv Huu v0 = vneg (vadd (mv Hux x) fu) ->
       tol7 * tol7 * (1 + dot (vsub u v0) (mv Huu (vsub u v0))) < 1 -> s_argmin s = Some u /\ s_min s = Some V).
Proof. exact (explicit_agrees np Huu Hux Hxx fu fx g Au Ax b nu nx m q fuel step crs cr x). Qed.
Print Assumptions C42_agreement.

(** min 1/2 u^2 s.t. x <= u: with the constraint active, u(x) = x, p(x) = x, V(x) = 1/2 x^2 on the region {x >= 0}. *)
Example C40_example np :
  exact_np np -> exists q cr,
  mp_data (Mat 1 [[1]]) (Mat 1 [[0]]) (Mat 1 [[0]]) [0] [0] (Mat 1 [[-1]]) (Mat 1 [[1]]) [0] 1 1 1 /\
  MultiParametricQuadraticProgram np (Mat 1 [[1]]) (Mat 1 [[0]]) (Mat 1 [[0]]) [0] [0] 0 (Mat 1 [[-1]]) (Mat 1 [[1]]) [0] = Ok q /\
  explicit_solve_given_active_set np q [0%nat] = Ok (Some cr) /\
  forall x, (in_poly (cr_poly cr) [x] <-> 0 <= x) /\ cr_u cr [x] = [x] /\ cr_p cr [x] = [x] /\ cr_V cr [x] = / 2 * (x * x).
Proof. exact (region_example np). Qed.

(** The two regions of that program: u(x) = 0 for x <= 1e-7 and u(x) = x above. *)
Example C41_example np :
  exact_np np -> exists q crs,
  MultiParametricQuadraticProgram np (Mat 1 [[1]]) (Mat 1 [[0]]) (Mat 1 [[0]]) [0] [0] 0 (Mat 1 [[-1]]) (Mat 1 [[1]]) [0] = Ok q /\
  explicit_solve np 3 (/ 100000) q = Ok crs /\ Forall (fun c => exists m, wf (cr_poly c) m 0 1 /\ (0 < m)%nat) crs /\
  forall x, es_u crs [x] = Ok (Some [if Rleb x tol7 then 0 else x]).
Proof. exact (lookup_example np). Qed.

(** Within the tolerance of the lookup the explicit controller may return an input that violates the constraints. *)
Theorem C42_tolerance_refuted :
  exists Huu Hux Hxx fu fx g Au Ax b x, mp_data Huu Hux Hxx fu fx Au Ax b 1 1 1 /\
  forall np, exact_np np -> exists q crs u, MultiParametricQuadraticProgram np Huu Hux Hxx fu fx g Au Ax b = Ok q /\
    explicit_solve np 3 (/ 100000) q = Ok crs /\ es_u crs x = Ok (Some u) /\ ~ mp_feasible Au Ax b x u.
Proof. exact (tolerance_refuted). Qed.
Print Assumptions C42_tolerance_refuted.

(** At parameters with a far minimizer the explicit controller answers while the on-line solver reports an infeasible problem. *)
Theorem C42_far_refuted :
  exists Huu Hux Hxx fu fx g Au Ax b x u, mp_data Huu Hux Hxx fu fx Au Ax b 1 1 1 /\
  mp_minimizer Huu Hux Hxx fu fx g Au Ax b x u /\
  forall np, exact_np np -> exists q crs, MultiParametricQuadraticProgram np Huu Hux Hxx fu fx g Au Ax b = Ok q /\
    explicit_solve np 3 (/ 100000) q = Ok crs /\ es_u crs x = Ok (Some u) /\ mpqp_solve np q x = Ok sol_none.
Proof. exact (far_refuted). Qed.
Print Assumptions C42_far_refuted.

(** The result of explicit_solve on that program: two regions that cover the whole line. *)
Example C42_example np :
  exact_np np -> exists q crs,
  mp_data (Mat 1 [[1]]) (Mat 1 [[0]]) (Mat 1 [[0]]) [0] [0] (Mat 1 [[-1]]) (Mat 1 [[1]]) [0] 1 1 1 /\
  MultiParametricQuadraticProgram np (Mat 1 [[1]]) (Mat 1 [[0]]) (Mat 1 [[0]]) [0] [0] 0 (Mat 1 [[-1]]) (Mat 1 [[1]]) [0] = Ok q /\
  explicit_solve np 3 (/ 100000) q = Ok crs /\ length crs = 2%nat /\ (forall x, length x = 1%nat -> exists c, In c crs /\ in_poly (cr_poly c) x) /\
  exists cr, get_critical_region crs [5] = Ok (Some cr) /\ in_poly (cr_poly cr) [5].
Proof. exact (explicit_example np). Qed.

(** What termination of explicit_solve guarantees: the origin, and the point at distance step beyond the centre of every facet of every region, were dealt with -- contained in a region, or the solver was called there. Missing: coverage of the feasible set, which is false (C43_cover_refuted). *)
Theorem C43_frontier_partial np q fuel step crs :
  explicit_solve np fuel step q = Ok crs ->
  explored np q crs (zeros (length (q_fx q))) /\ frontier np step crs (explored np q crs).
Proof. exact (explicit_frontier np q fuel step crs). Qed.
Print Assumptions C43_frontier_partial.

(** min 1/2 u^2 with the parameters restricted to x >= 1: the result of explicit_solve is empty, as the exploration starts at the infeasible origin and stops there. *)
Theorem C43_cover_refuted :
  exists Huu Hux Hxx fu fx g Au Ax b x, mp_data Huu Hux Hxx fu fx Au Ax b 1 1 1 /\
  (exists u, mp_minimizer Huu Hux Hxx fu fx g Au Ax b x u) /\
  forall np fuel step, exact_np np -> exists q, MultiParametricQuadraticProgram np Huu Hux Hxx fu fx g Au Ax b = Ok q /\
    explicit_solve np (S (S fuel)) step q = Ok [].
Proof. exact (cover_refuted). Qed.
Print Assumptions C43_cover_refuted.

(** A terminating run, in which the regions do cover every parameter. *)
Example C43_example np :
  exact_np np -> exists q crs,
  MultiParametricQuadraticProgram np (Mat 1 [[1]]) (Mat 1 [[0]]) (Mat 1 [[0]]) [0] [0] 0 (Mat 1 [[-1]]) (Mat 1 [[1]]) [0] = Ok q /\
  explicit_solve np 3 (/ 100000) q = Ok crs /\ forall x, length x = 1%nat -> exists c, In c crs /\ in_poly (cr_poly c) x.
Proof. exact (cover_example np). Qed.
