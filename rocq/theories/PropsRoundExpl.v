(** * PropsRoundExpl: the property theorems of this part, restated; proofs are in RoundExplThms.
    Generated by tools/gen_props.py: this file contains only statements, [exact] and Print Assumptions. *)
From Flocq Require Round_NE.
From Coq Require Import Classical.
From Verif Require Import Arr ArrFacts Spec SpecMpc SpecDyn SpecEig SpecRound Numpy Pnnls PnnlsFacts QpFacts GeomUtils Polyhedron PolyThms MembThms Oracle SolverThms NullFacts PolySolveThms PolyMore GeomThms Dynamics DynThms CondenseThms LqrThms McaisThms SpectralThms Mpqp MpqpThms NeighThms Controllers CtrlThms TolThms Round RoundExpl RoundThms RoundSimThms RoundPwaThms PlantThms Round64 Round64Thms.
From Verif Require Import RoundExplThms.
Local Open Scope list_scope.

(** With rounded operations, summed in any order, the lookup does not raise; if E bounds the rounding errors of the residuals, the region returned is the first accepted one: its inequalities hold at x up to 1e-7 + E, and no region before it (none at all if None is returned) contains x with the margin 1e-7 - E *)
Theorem C99_lookup u eta rnd crs x E nx :
  rounding u eta rnd -> table_ok crs nx -> length x = nx -> (forall c, In c crs -> residual_bound u eta E (pA (cr_poly c)) (pb (cr_poly c)) x) ->
  (exists r, fl_lookup rnd x crs r) /\ forall r, fl_lookup rnd x crs r ->
    (r = Ok None /\ forall c, In c crs -> ~ MpqpThms.within (tol7 - E) (cr_poly c) x) \/
    exists pre c post, crs = pre ++ c :: post /\ r = Ok (Some c) /\ MpqpThms.within (tol7 + E) (cr_poly c) x /\ forall c', In c' pre -> ~ MpqpThms.within (tol7 - E) (cr_poly c') x.
Proof. exact (fl_lookup_ok u eta rnd crs x E nx). Qed.
Print Assumptions C99_lookup.

(** A state of one of the regions is found if the rounding errors are at most 1e-7 *)
Theorem C99_covered u eta rnd crs x E nx c r :
  rounding u eta rnd -> table_ok crs nx -> length x = nx -> (forall c, In c crs -> residual_bound u eta E (pA (cr_poly c)) (pb (cr_poly c)) x) -> E <= tol7 ->
  In c crs -> in_poly (cr_poly c) x -> fl_lookup rnd x crs r -> exists c', r = Ok (Some c') /\ In c' crs /\ MpqpThms.within (tol7 + E) (cr_poly c') x.
Proof. exact (fl_lookup_covered u eta rnd crs x E nx c r). Qed.
Print Assumptions C99_covered.

(** The stored solution of a quadratic program, looked up and evaluated with rounded operations in any order: there is a constant c of the problem such that the evaluation never raises, and returns either None, in which case no region contains the parameter if the rounding errors E of the residuals are at most 1e-7, or an input that violates every constraint by at most c (1e-7 + E + F), where F bounds the rounding errors of the input, and whose cost exceeds that of any feasible point by at most c (1e-7 + E) times its total slack, plus c F (1 + |x| + F) *)
Theorem C99_explicit np Huu Hux Hxx fu fx g Au Ax b nu nx m q fuel step crs :
  exact_np np -> mp_data Huu Hux Hxx fu fx Au Ax b nu nx m -> (0 < m)%nat -> MultiParametricQuadraticProgram np Huu Hux Hxx fu fx g Au Ax b = Ok q -> explicit_solve np fuel step q = Ok crs ->
  exists c, 0 <= c /\ forall u eta rnd x E F, rounding u eta rnd -> length x = nx -> 0 <= E -> 0 <= F ->
    (forall cr, In cr crs -> residual_bound u eta E (pA (cr_poly cr)) (pb (cr_poly cr)) x /\ forall i, (i < nu)%nat -> rounding_error u eta (nx + 1) (abs_dot (row (cr_ux cr) i) x + Rabs (nth i (cr_u0 cr) 0)) <= F) ->
    (exists r, fl_es_u rnd crs x r) /\ forall r, fl_es_u rnd crs x r ->
      (r = Ok None /\ (E <= tol7 -> forall cr, In cr crs -> ~ in_poly (cr_poly cr) x)) \/
      exists v, r = Ok (Some v) /\ length v = nu /\
        (forall i, (i < m)%nat -> dot (row Au i) v + dot (row Ax i) x <= nth i b 0 + c * (tol7 + E + F)) /\
        forall w, mp_feasible Au Ax b x w -> mp_cost Huu Hux Hxx fu fx g x v <= mp_cost Huu Hux Hxx fu fx g x w + c * (tol7 + E) * sum_upto (fun i => nth i b 0 - dot (row Au i) w - dot (row Ax i) x) m + c * F * (1 + sup x + F).
Proof. exact (explicit_rounded np Huu Hux Hxx fu fx g Au Ax b nu nx m q fuel step crs). Qed.
Print Assumptions C99_explicit.

(** feedback_explicit with rounded operations: before the solution is stored it raises ValueError; afterwards it never raises, and returns None or a first input that differs from the exact value of the law of the region found by at most the rounding errors of one matrix-vector product and one sum *)
Theorem C99_feedback u eta rnd C crs x E nx nu N :
  rounding u eta rnd -> table_ok crs nx -> length x = nx -> lnu (c_S C) = nu -> c_N C = N -> (0 < N)%nat ->
  (forall c, In c crs -> shape (cr_ux c) (nu * N) nx /\ length (cr_u0 c) = (nu * N)%nat /\ residual_bound u eta E (pA (cr_poly c)) (pb (cr_poly c)) x) ->
  (forall r, fl_feedback_explicit rnd C None x r <-> r = Err ValueError) /\
  (exists r, fl_feedback_explicit rnd C (Some crs) x r) /\
  forall r, fl_feedback_explicit rnd C (Some crs) x r ->
    (r = Ok None /\ forall c, In c crs -> ~ MpqpThms.within (tol7 - E) (cr_poly c) x) \/
    exists pre c post w, crs = pre ++ c :: post /\ r = Ok (Some w) /\ MpqpThms.within (tol7 + E) (cr_poly c) x /\ (forall c', In c' pre -> ~ MpqpThms.within (tol7 - E) (cr_poly c') x) /\ length w = nu /\
      forall i, (i < nu)%nat -> Rabs (nth i w 0 - (dot (row (cr_ux c) i) x + nth i (cr_u0 c) 0)) <= rounding_error u eta (nx + 1) (abs_dot (row (cr_ux c) i) x + Rabs (nth i (cr_u0 c) 0)).
Proof. exact (feedback_rounded u eta rnd C crs x E nx nu N). Qed.
Print Assumptions C99_feedback.

(** In float64, up to 999 parameters and terms that add up to at most 10^5: every parameter of a region is found, by a region whose inequalities it violates by at most 1.125e-7, and every input is within 1.25e-8 of its exact value *)
Theorem C99_float64 C crs x nx nu N c r :
  table_ok crs nx -> length x = nx -> (nx < 1000)%nat -> lnu (c_S C) = nu -> c_N C = N -> (0 < N)%nat ->
  (forall c, In c crs -> shape (cr_ux c) (nu * N) nx /\ length (cr_u0 c) = (nu * N)%nat /\ (forall i, (i < length (pb (cr_poly c)))%nat -> abs_dot (row (pA (cr_poly c)) i) x + Rabs (nth i (pb (cr_poly c)) 0) <= 10 ^ 5) /\
     forall i, (i < nu)%nat -> abs_dot (row (cr_ux c) i) x + Rabs (nth i (cr_u0 c) 0) <= 10 ^ 5) ->
  In c crs -> in_poly (cr_poly c) x -> fl_feedback_explicit binary64 C (Some crs) x r ->
  exists c' w, In c' crs /\ r = Ok (Some w) /\ length w = nu /\ MpqpThms.within (9 / 8 / 10 ^ 7) (cr_poly c') x /\ forall i, (i < nu)%nat -> Rabs (nth i w 0 - (dot (row (cr_ux c') i) x + nth i (cr_u0 c') 0)) <= / 8 / 10 ^ 7.
Proof. exact (explicit_64 C crs x nx nu N c r). Qed.
Print Assumptions C99_float64.

(** The table stored by a controller has the shapes that C99_feedback and C99_float64 ask for, if its quadratic program has at least one inequality *)
Theorem C99_stored np S N Q Rm P D X_N nx nu C fuel step crs :
  exact_np np -> mpc_data S N Q Rm P D X_N nx nu -> ModelPredictiveController np S N Q Rm P D X_N = Ok C -> (0 < length (q_b (c_mpqp C)))%nat ->
  store_explicit_solution np fuel step C = Ok crs -> lnu (c_S C) = nu /\ c_N C = N /\ (0 < N)%nat /\ table_ok crs nx /\ forall c, In c crs -> shape (cr_ux c) (nu * N) nx /\ length (cr_u0 c) = (nu * N)%nat.
Proof. exact (stored_table np S N Q Rm P D X_N nx nu C fuel step crs). Qed.
Print Assumptions C99_stored.

(** Without rounding the relation is the exact membership test, whatever the order of the sums, also where it raises *)
Theorem C93_unrounded tol p x r :
  fl_contains (fun a => a) tol p x r <-> contains tol p x = r.
Proof. exact (fl_contains_id tol p x r). Qed.
Print Assumptions C93_unrounded.

(** Without rounding the relations are the exact explicit controller: the stored input law, and feedback_explicit with its errors *)
Theorem C99_unrounded C es crs x :
  (forall r, fl_es_u (fun a => a) crs x r <-> es_u crs x = r) /\ (forall r, fl_feedback_explicit (fun a => a) C es x r <-> feedback_explicit C es x = r).
Proof. exact (explicit_unrounded C es crs x). Qed.
Print Assumptions C99_unrounded.

(** In float64, far from the origin a parameter of a stored region may not be found, and a region may answer whose inequality is violated by 1 *)
Theorem C99_far_refuted :
  exists c1 c2 x, table_ok [c1] 2 /\ table_ok [c2] 2 /\ Forall float64 (x ++ List.concat (rows (pA (cr_poly c1)) ++ rows (pA (cr_poly c2))) ++ pb (cr_poly c1) ++ pb (cr_poly c2)) /\
  (in_poly (cr_poly c1) x /\ es_u [c1] x = Ok (Some [0]) /\ fl_es_u binary64 [c1] x (Ok None)) /\
  (dot (row (pA (cr_poly c2)) 0) x = nth 0 (pb (cr_poly c2)) 0 + 1 /\ es_u [c2] x = Ok None /\ exists v, fl_es_u binary64 [c2] x (Ok (Some v))).
Proof. exact (explicit_far). Qed.
Print Assumptions C99_far_refuted.

(** min 1/2 u^2 s.t. x <= u in float64: the hypotheses hold for every |x| <= 10^4 with E = F = 1e-7/8, and the stored table answers there with an input within 1e-7/8 of 0 or of x *)
Example C99_example np :
  exact_np np -> exists q crs,
  mp_data (Mat 1 [[1]]) (Mat 1 [[0]]) (Mat 1 [[0]]) [0] [0] (Mat 1 [[-1]]) (Mat 1 [[1]]) [0] 1 1 1 /\
  MultiParametricQuadraticProgram np (Mat 1 [[1]]) (Mat 1 [[0]]) (Mat 1 [[0]]) [0] [0] 0 (Mat 1 [[-1]]) (Mat 1 [[1]]) [0] = Ok q /\
  explicit_solve np 3 (/ 100000) q = Ok crs /\ table_ok crs 1 /\
  forall x, Rabs x <= 10 ^ 4 -> (forall cr, In cr crs -> residual_bound u64 eta64 (tol7 / 8) (pA (cr_poly cr)) (pb (cr_poly cr)) [x] /\ forall i, (i < 1)%nat -> rounding_error u64 eta64 (1 + 1) (abs_dot (row (cr_ux cr) i) [x] + Rabs (nth i (cr_u0 cr) 0)) <= tol7 / 8) /\
    (exists r, fl_es_u binary64 crs [x] r) /\ forall r, fl_es_u binary64 crs [x] r -> exists v, r = Ok (Some [v]) /\ (Rabs v <= tol7 / 8 \/ Rabs (v - x) <= tol7 / 8).
Proof. exact (rounded_example np). Qed.
