(** * PropsRoundVal: the property theorems of this part, restated; proofs are in RoundValThms.
    Generated by tools/gen_props.py: this file contains only statements, [exact] and Print Assumptions. *)
From Coq Require Import Lra Lia.
From Verif Require Import Arr ArrFacts Spec SpecMpc SpecDyn SpecEig SpecRound SpecValue Numpy Pnnls PnnlsFacts QpFacts Polyhedron PolyThms Dynamics Mpqp MpqpThms TolThms Controllers CtrlThms Round RoundExpl RoundValue RoundThms RoundSimThms Round64 Round64Thms RoundPwaThms RoundExplThms ExplGapThms ExplValThms.
From Verif Require Import RoundValThms.
Local Open Scope list_scope.

(** The value of a critical region, evaluated with rounded operations in any order of summation, differs from the exact one by at most the error of 2 n + 3 roundings, n the number of parameters *)
Theorem C103_form u eta rnd :
  rounding u eta rnd -> forall c x v n, shape (cr_Vxx c) n n -> length (cr_Vx c) = n -> length x = n -> fl_cr_V rnd c x v ->
  Rabs (v - cr_V c x) <= value_error u eta n (abs_form (cr_Vxx c) x / 2 + SpecRound.abs_dot (cr_Vx c) x + Rabs (cr_V0 c)) x.
Proof. exact (fl_cr_V_err u eta rnd). Qed.
Print Assumptions C103_form.

(** The stored value of a quadratic program, looked up and evaluated with rounded operations in any order: there is a constant c of the problem such that the evaluation never raises, and returns either None, in which case no region contains the parameter if the rounding errors E of the residuals are at most 1e-7, or a number that differs from the optimal value at the parameter, if the program is feasible there, by at most c (1e-7 + E) (1 + |x| + 1e-7 + E) + G, where G bounds the rounding errors of the quadratic functions *)
Theorem C103_explicit np Huu Hux Hxx fu fx g Au Ax b nu nx m q fuel step crs :
  exact_np np -> mp_data Huu Hux Hxx fu fx Au Ax b nu nx m -> (0 < m)%nat -> MultiParametricQuadraticProgram np Huu Hux Hxx fu fx g Au Ax b = Ok q -> explicit_solve np fuel step q = Ok crs ->
  exists c, 0 <= c /\ forall u eta rnd x E G, rounding u eta rnd -> length x = nx -> 0 <= E ->
    (forall cr, In cr crs -> residual_bound u eta E (pA (cr_poly cr)) (pb (cr_poly cr)) x /\ value_error u eta nx (abs_form (cr_Vxx cr) x / 2 + SpecRound.abs_dot (cr_Vx cr) x + Rabs (cr_V0 cr)) x <= G) ->
    (exists r, fl_es_V rnd crs x r) /\ forall r, fl_es_V rnd crs x r ->
      (r = Ok None /\ (E <= tol7 -> forall cr, In cr crs -> ~ in_poly (cr_poly cr) x)) \/
      exists v, r = Ok (Some v) /\ forall w, mp_minimizer Huu Hux Hxx fu fx g Au Ax b x w -> Rabs (v - mp_cost Huu Hux Hxx fu fx g x w) <= c * (tol7 + E) * (1 + sup x + (tol7 + E)) + G.
Proof. exact (value_rounded np Huu Hux Hxx fu fx g Au Ax b nu nx m q fuel step crs). Qed.
Print Assumptions C103_explicit.

(** In float64, up to 498 parameters, terms that add up to at most 10^5 and entries of x that add up to at most 10^5: the rounding error of the value is at most 2.5e-8 *)
Theorem C103_float64 n s x :
  (n < 499)%nat -> 0 <= s <= 10 ^ 5 -> vsum (map Rabs x) <= 10 ^ 5 -> value_error u64 eta64 n s x <= / 4 / 10 ^ 7.
Proof. exact (value_64 n s x). Qed.
Print Assumptions C103_float64.

(** feedforward_explicit with its value: the inputs it returns, and its errors, are those of C99_feedback, and the value is that of C103_explicit *)
Theorem C103_feedforward rnd C es x :
  (forall r, fl_feedforward_both rnd C es x r -> fl_feedforward_explicit rnd C es x (bind r (fun p => Ok (fst p)))) /\
  (forall r, fl_feedforward_explicit rnd C es x r -> exists r', fl_feedforward_both rnd C es x r' /\ r = bind r' (fun p => Ok (fst p))) /\
  forall crs us V, es = Some crs -> fl_feedforward_both rnd C es x (Ok (us, V)) -> fl_es_V rnd crs x (Ok V).
Proof. exact (feedforward_both rnd C es x). Qed.
Print Assumptions C103_feedforward.

(** Without rounding the relations are the exact value function of the table and the exact feedforward_explicit, with its errors *)
Theorem C103_unrounded C es crs x nx :
  length x = nx -> Forall (fun c => shape (cr_Vxx c) nx nx) crs -> (forall r, fl_es_V (fun a => a) crs x r <-> es_V crs x = r) /\ (forall r, es = Some crs -> fl_feedforward_both (fun a => a) C es x r <-> feedforward_explicit C es x = r).
Proof. exact (value_unrounded C es crs x nx). Qed.
Print Assumptions C103_unrounded.

(** min 1/2 u^2 s.t. x <= u in float64: the hypotheses of C103_explicit hold for every |x| <= 100 with E = 1e-7/8 and G = 2.5e-8, and the stored table answers there with a value within 2.5e-8 of 0 or of 1/2 x^2 *)
Example C103_example np :
  exact_np np -> exists q crs,
  mp_data (Mat 1 [[1]]) (Mat 1 [[0]]) (Mat 1 [[0]]) [0] [0] (Mat 1 [[-1]]) (Mat 1 [[1]]) [0] 1 1 1 /\
  MultiParametricQuadraticProgram np (Mat 1 [[1]]) (Mat 1 [[0]]) (Mat 1 [[0]]) [0] [0] 0 (Mat 1 [[-1]]) (Mat 1 [[1]]) [0] = Ok q /\
  explicit_solve np 3 (/ 100000) q = Ok crs /\
  forall x, Rabs x <= 100 -> (forall cr, In cr crs -> residual_bound u64 eta64 (tol7 / 8) (pA (cr_poly cr)) (pb (cr_poly cr)) [x] /\ value_error u64 eta64 1 (abs_form (cr_Vxx cr) [x] / 2 + SpecRound.abs_dot (cr_Vx cr) [x] + Rabs (cr_V0 cr)) [x] <= / 4 / 10 ^ 7) /\
    (exists r, fl_es_V binary64 crs [x] r) /\ forall r, fl_es_V binary64 crs [x] r -> exists v, r = Ok (Some v) /\ (Rabs v <= / 4 / 10 ^ 7 \/ Rabs (v - / 2 * (x * x)) <= / 4 / 10 ^ 7).
Proof. exact (value_rounded_example np). Qed.
