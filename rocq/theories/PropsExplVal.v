(** * PropsExplVal: the property theorems of this part, restated; proofs are in ExplValThms.
    Generated by tools/gen_props.py: this file contains only statements, [exact] and Print Assumptions. *)
From Coq Require Import Lra Lia.
From Verif Require Import Arr ArrFacts Spec SpecMpc SpecDyn SpecEig Numpy Pnnls PnnlsFacts QpFacts Polyhedron PolyThms Mpqp MpqpThms TolThms PolyMore VertThms LawThms SpecRound Round RoundExpl RoundThms RoundSimThms RoundPwaThms PlantThms RoundExplThms ExplGapThms.
From Verif Require Import ExplValThms.
Local Open Scope list_scope.

(** The value of the region found: for every table stored by explicit_solve there is one constant c such that wherever a region contains the parameter up to tau, its V(x) differs from the optimal value by at most c tau (1 + |x| + tau) *)
Theorem C102_value np Huu Hux Hxx fu fx g Au Ax b nu nx m q fuel step crs :
  exact_np np -> mp_data Huu Hux Hxx fu fx Au Ax b nu nx m -> MultiParametricQuadraticProgram np Huu Hux Hxx fu fx g Au Ax b = Ok q -> explicit_solve np fuel step q = Ok crs ->
  exists c, 0 <= c /\ forall cr tau x w, In cr crs -> 0 < tau -> length x = nx -> MpqpThms.within tau (cr_poly cr) x -> mp_minimizer Huu Hux Hxx fu fx g Au Ax b x w -> Rabs (cr_V cr x - mp_cost Huu Hux Hxx fu fx g x w) <= c * tau * (1 + sup x + tau).
Proof. exact (explicit_value np Huu Hux Hxx fu fx g Au Ax b nu nx m q fuel step crs). Qed.
Print Assumptions C102_value.

(** The jumps of the lookup function are at most proportional to the tolerance: there are constants L and c such that at any two feasible parameters at which ExplicitSolution.u answers, the answers differ by at most L |x - y| + c 1e-7 *)
Theorem C102_jump np Huu Hux Hxx fu fx g Au Ax b nu nx m q fuel step crs :
  exact_np np -> mp_data Huu Hux Hxx fu fx Au Ax b nu nx m -> MultiParametricQuadraticProgram np Huu Hux Hxx fu fx g Au Ax b = Ok q -> explicit_solve np fuel step q = Ok crs ->
  exists L c, 0 <= L /\ 0 <= c /\ forall x y vx vy ux uy, length x = nx -> length y = nx -> mp_feasible Au Ax b x vx -> mp_feasible Au Ax b y vy -> es_u crs x = Ok (Some ux) -> es_u crs y = Ok (Some uy) -> norm (vsub ux uy) <= L * norm (vsub x y) + c * tol7.
Proof. exact (explicit_jump np Huu Hux Hxx fu fx g Au Ax b nu nx m q fuel step crs). Qed.
Print Assumptions C102_jump.

(** min 1/2 u^2 s.t. x <= u: at x = 1e-7 the table answers 0 where the minimizer is 1e-7 with the value 1e-14 / 2, and the answers at 1e-7 and just above differ by more than 1e-7 *)
Example C102_value_example np :
  exact_np np -> exists q crs, MultiParametricQuadraticProgram np (Mat 1 [[1]]) (Mat 1 [[0]]) (Mat 1 [[0]]) [0] [0] 0 (Mat 1 [[-1]]) (Mat 1 [[1]]) [0] = Ok q /\ explicit_solve np 3 (/ 100000) q = Ok crs /\
  es_u crs [tol7] = Ok (Some [0]) /\ mp_minimizer (Mat 1 [[1]]) (Mat 1 [[0]]) (Mat 1 [[0]]) [0] [0] 0 (Mat 1 [[-1]]) (Mat 1 [[1]]) [0] [tol7] [tol7] /\ mp_cost (Mat 1 [[1]]) (Mat 1 [[0]]) (Mat 1 [[0]]) [0] [0] 0 [tol7] [tol7] = / 2 * (tol7 * tol7) /\
  forall e, 0 < e -> mp_feasible (Mat 1 [[-1]]) (Mat 1 [[1]]) [0] [tol7 + e] [tol7 + e] /\ es_u crs [tol7 + e] = Ok (Some [tol7 + e]).
Proof. exact (value_example np). Qed.
