(** * PropsTol: the property theorems of this part, restated; proofs are in TolThms.
    Generated by tools/gen_props.py: this file contains only statements, [exact] and Print Assumptions. *)
From Coq Require Import ZArith Classical.
From Verif Require Import Arr ArrFacts Spec SpecMpc Numpy Pnnls PnnlsFacts QpFacts GeomUtils Polyhedron PolyThms Oracle SolverThms NullFacts PolySolveThms PolyMore GeomThms SpecDyn Dynamics DynThms CondenseThms LqrThms Mpqp MpqpThms NeighThms CtrlThms.
From Verif Require Import TolThms.

(** Wherever the lookup answers, also outside the region found, the answer is optimal up to the tolerance 1e-7: its active constraints hold with equality, the others are violated by at most 1e-7 (times the Lipschitz constant of their value along u(x), if larger than 1), the multipliers of active constraints are at least -1e-7 (times their Lipschitz constant), V(x) is the cost of u(x), and this cost exceeds the cost of any feasible v by at most 1e-7 times the sum of the slacks of v (weighted by the Lipschitz constants). *)
Theorem C42_tolerance_bound np Huu Hux Hxx fu fx g Au Ax b nu nx m q fuel step crs cr x :
  exact_np np -> mp_data Huu Hux Hxx fu fx Au Ax b nu nx m ->
  MultiParametricQuadraticProgram np Huu Hux Hxx fu fx g Au Ax b = Ok q ->
  explicit_solve np fuel step q = Ok crs -> length x = nx -> get_critical_region crs x = Ok (Some cr) ->
  exists act, (forall i, In i act -> (i < m)%nat) /\
  (forall i, In i act -> dot (row Au i) (cr_u cr x) + dot (row Ax i) x = nth i b 0 /\
     forall L, lipschitz nx L (fun y => nth i (cr_p cr y) 0) -> - (tol7 * Rmax 1 L) <= nth i (cr_p cr x) 0) /\
  (forall i, (i < m)%nat -> ~ In i act -> nth i (cr_p cr x) 0 = 0 /\
     forall L, lipschitz nx L (fun y => dot (row Au i) (cr_u cr y) + dot (row Ax i) y - nth i b 0) ->
       dot (row Au i) (cr_u cr x) + dot (row Ax i) x <= nth i b 0 + tol7 * Rmax 1 L) /\
  length (cr_u cr x) = nu /\ length (cr_p cr x) = m /\ cr_V cr x = mp_cost Huu Hux Hxx fu fx g x (cr_u cr x) /\
  forall Ls v, (forall i, In i act -> lipschitz nx (nth i Ls 0) (fun y => nth i (cr_p cr y) 0)) -> mp_feasible Au Ax b x v ->
    mp_cost Huu Hux Hxx fu fx g x (cr_u cr x) <= mp_cost Huu Hux Hxx fu fx g x v + tol7 * sum_upto (fun i => Rmax 1 (nth i Ls 0) * (nth i b 0 - dot (row Au i) v - dot (row Ax i) x)) m.
Proof. exact (lookup_tolerance np Huu Hux Hxx fu fx g Au Ax b nu nx m q fuel step crs cr x). Qed.
Print Assumptions C42_tolerance_bound.

(** The Lipschitz constants of the previous theorem exist for every region: all multipliers and all constraint values are affine functions of the parameter. *)
Theorem C42_tolerance_constants np Huu Hux Hxx fu fx g Au Ax b nu nx m q fuel step crs cr :
  exact_np np -> mp_data Huu Hux Hxx fu fx Au Ax b nu nx m ->
  MultiParametricQuadraticProgram np Huu Hux Hxx fu fx g Au Ax b = Ok q -> explicit_solve np fuel step q = Ok crs -> In cr crs ->
  exists Lp Lc, forall i, (i < m)%nat -> lipschitz nx (nth i Lp 0) (fun y => nth i (cr_p cr y) 0) /\
    lipschitz nx (nth i Lc 0) (fun y => dot (row Au i) (cr_u cr y) + dot (row Ax i) y - nth i b 0).
Proof. exact (tolerance_constants np Huu Hux Hxx fu fx g Au Ax b nu nx m q fuel step crs cr). Qed.
Print Assumptions C42_tolerance_constants.

(** The program min 1/2 u^2 s.t. x <= u at x = 1e-8, where the lookup answers with the region of x <= 0 and the input 0, which violates the constraint by 1e-8. *)
Example C42_tolerance_example np :
  exact_np np -> exists q crs cr,
  mp_data (Mat 1 [[1]]) (Mat 1 [[0]]) (Mat 1 [[0]]) [0] [0] (Mat 1 [[-1]]) (Mat 1 [[1]]) [0] 1 1 1 /\
  MultiParametricQuadraticProgram np (Mat 1 [[1]]) (Mat 1 [[0]]) (Mat 1 [[0]]) [0] [0] 0 (Mat 1 [[-1]]) (Mat 1 [[1]]) [0] = Ok q /\
  explicit_solve np 3 (/ 100000) q = Ok crs /\ get_critical_region crs [/ 100000000] = Ok (Some cr) /\ In cr crs /\ cr_u cr [/ 100000000] = [0] /\ ~ in_poly (cr_poly cr) [/ 100000000].
Proof. exact (tolerance_example np). Qed.
