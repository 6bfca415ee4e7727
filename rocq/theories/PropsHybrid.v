(** * PropsHybrid: the property theorems of this part, restated; proofs are in HybridThms.
    Generated by tools/gen_props.py: this file contains only statements, [exact] and Print Assumptions. *)
From Coq Require Import ZArith String Classical.
From Verif Require Import Arr ArrFacts Spec SpecMpc SpecProg Numpy Pnnls PnnlsFacts QpFacts GeomUtils Polyhedron PolyThms Oracle SolverThms NullFacts PolySolveThms PolyMore SpecDyn Dynamics DynThms CondenseThms LqrThms McaisThms Mpqp MpqpThms Controllers CtrlThms Gurobi Programs ProgThms Hybrid.
From Verif Require Import HybridThms.

(** If no domain is empty, none has an empty list of inequalities, and over every domain all components of all the affine dynamics and all left-hand sides of all the domains are bounded, the controller's big-M constants are computed, and alpha_ij, beta_ij, gamma_ij are the exact (attained) minima and maxima over the domain j of the dynamics i and of the inequalities i. *)
Theorem C49_bigM_exact np W nx nu :
  exact_np np -> hyb_data W nx nu -> (0 < nx)%nat ->
  (forall D, In D (w_dom W) -> (exists xu, in_poly D xu) /\ pb D <> []) ->
  let s := length (w_sys W) in
  (forall i j, (i < s)%nat -> (j < s)%nat -> (forall r, (r < nx)%nat -> bounded_on (in_poly (dom_at W j)) (fun xu => nth r (f_at W nx i xu) 0)) /\
     forall r, (r < length (pb (dom_at W i)))%nat -> bounded_on (in_poly (dom_at W j)) (fun xu => dot (row (pA (dom_at W i)) r) xu)) ->
  exists alpha beta gamma, get_bigM_dynamics np W = Ok (alpha, beta) /\ get_bigM_domains np W = Ok gamma /\ bigm_shape W nx alpha beta gamma /\
  forall i j, (i < s)%nat -> (j < s)%nat ->
    (forall r, (r < nx)%nat -> least (in_poly (dom_at W j)) (fun xu => nth r (f_at W nx i xu) 0) (nth r (nth j (nth i alpha []) []) 0) /\
                               greatest (in_poly (dom_at W j)) (fun xu => nth r (f_at W nx i xu) 0) (nth r (nth j (nth i beta []) []) 0)) /\
    (forall r, (r < length (pb (dom_at W i)))%nat -> greatest (in_poly (dom_at W j)) (fun xu => dot (row (pA (dom_at W i)) r) xu - nth r (pb (dom_at W i)) 0) (nth r (nth j (nth i gamma []) []) 0)).
Proof. exact (bigM_exact np W nx nu). Qed.
Print Assumptions C49_bigM_exact.

(** The constructor of the hybrid controller raises if some domain is infeasible by more than the solver tolerance, or if over some domain a component of some dynamics, or some inequality, is unbounded along a ray with a slope above the tolerance.  (Unqualified, the claim is false: see C49_empty_refuted and C49_unbounded_refuted.) *)
Theorem C49_raises_partial np W nx nu N Q Rm P X_N :
  exact_np np -> hyb_data W nx nu -> (0 < nx)%nat ->
  let s := length (w_sys W) in
  (exists j, (j < s)%nat /\ far_from_feasible (dom_at W j)) \/
  (exists i j r z, (i < s)%nat /\ (j < s)%nat /\ (r < nx)%nat /\
     let f := row (aA (sys_at W i)) r ++ row (aB (sys_at W i)) r in steep_ray (dom_at W j) f z \/ steep_ray (dom_at W j) (vneg f) z) \/
  (exists i j r z, (i < s)%nat /\ (j < s)%nat /\ (r < length (pb (dom_at W i)))%nat /\ steep_ray (dom_at W j) (vneg (row (pA (dom_at W i)) r)) z) ->
  exists e, HybridModelPredictiveController np W N Q Rm P X_N = Err e.
Proof. exact (bigM_raises np W nx nu N Q Rm P X_N). Qed.
Print Assumptions C49_raises_partial.

(** The construction does not always raise for an unbounded domain: with the dynamics 1e-8 x + u on the domain |u| <= 1 (x free) the controller is built although the next state is unbounded on the domain. *)
Theorem C49_unbounded_refuted :
  exists W N Q Rm P X_N, hyb_data W 1 1 /\ (forall M, exists xu, in_poly (dom_at W 0) xu /\ M < nth 0 (f_at W 1 0 xu) 0) /\
  forall np, exact_np np -> exists C, HybridModelPredictiveController np W N Q Rm P X_N = Ok C.
Proof. exact (bigM_unbounded). Qed.
Print Assumptions C49_unbounded_refuted.

(** The construction does not always raise for an empty domain: for the domain x <= 0, x >= 1e-8, |u| <= 1 the controller is built. *)
Theorem C49_empty_refuted :
  exists W N Q Rm P X_N, hyb_data W 1 1 /\ (forall xu, ~ in_poly (dom_at W 0) xu) /\
  forall np, exact_np np -> exists C, HybridModelPredictiveController np W N Q Rm P X_N = Ok C.
Proof. exact (bigM_empty). Qed.
Print Assumptions C49_empty_refuted.

(** For non-empty bounded domains (each with at least one inequality) the controller is built; a point (u, z, delta) with binary delta that is feasible for its program stacks a run of the system that respects the inequalities of the domains and of the terminal set, and every admissible run is feasible.
   Missing: the equalities of domains and terminal set are not enforced (C47_equalities_refuted); without equalities see C47_encoding. *)
Theorem C47_encoding_partial np W N Q Rm P X_N nx nu mN meN :
  exact_np np -> hyb_data W nx nu -> (0 < nx)%nat -> (0 < N)%nat -> hyb_domains W ->
  shape Q nx nx -> shape P nx nx -> shape Rm nu nu -> wf X_N mN meN nx ->
  exists C, HybridModelPredictiveController np W N Q Rm P X_N = Ok C /\ forall x u z d, length x = nx ->
    let q := k_mpmiqp C in let s := length (w_sys W) in
    (mi_feasible (h_Au q) (h_Az q) (h_Ad q) (h_Ax q) (h_b q) x u z d ->
       exists us modes xs, admissible (relaxed W) (without_equalities X_N) N x us modes xs /\ encodes s nx us modes xs u z d) /\
    ((exists us modes xs, admissible W X_N N x us modes xs /\ encodes s nx us modes xs u z d) -> mi_feasible (h_Au q) (h_Az q) (h_Ad q) (h_Ax q) (h_b q) x u z d).
Proof. exact (hybrid_encoding np W N Q Rm P X_N nx nu mN meN). Qed.
Print Assumptions C47_encoding_partial.

(** Without equalities in the domains and in the terminal set: (u, z, delta) with binary delta is feasible for the program iff it stacks the inputs, states and modes of an admissible run of the system. *)
Theorem C47_encoding np W N Q Rm P X_N nx nu mN meN :
  exact_np np -> hyb_data W nx nu -> (0 < nx)%nat -> (0 < N)%nat -> hyb_domains W ->
  shape Q nx nx -> shape P nx nx -> shape Rm nu nu -> wf X_N mN meN nx -> (forall D, In D (w_dom W) -> pd D = []) -> pd X_N = [] ->
  exists C, HybridModelPredictiveController np W N Q Rm P X_N = Ok C /\ forall x u z d, length x = nx ->
    let q := k_mpmiqp C in
    (mi_feasible (h_Au q) (h_Az q) (h_Ad q) (h_Ax q) (h_b q) x u z d <->
     exists us modes xs, pwa_admissible (map aA (w_sys W)) (map aB (w_sys W)) (map ac (w_sys W)) (map in_poly (w_dom W)) (in_poly X_N) nu N x us modes xs /\
       encodes (length (w_sys W)) nx us modes xs u z d).
Proof. exact (hybrid_encoding_iff np W N Q Rm P X_N nx nu mN meN). Qed.
Print Assumptions C47_encoding.

(** A system with two modes meets the hypotheses of C49_bigM_exact; the maximum over the domain of mode 1 (0 <= x <= 1) of the dynamics x + u of mode 0 is 2, its minimum -1. *)
Example C49_example :
  hyb_data W2 1 1 /\ (forall D, In D (w_dom W2) -> (exists xu, in_poly D xu) /\ pb D <> []) /\
  (forall i j, (i < 2)%nat -> (j < 2)%nat -> (forall r, (r < 1)%nat -> bounded_on (in_poly (dom_at W2 j)) (fun xu => nth r (f_at W2 1 i xu) 0)) /\
     forall r, (r < length (pb (dom_at W2 i)))%nat -> bounded_on (in_poly (dom_at W2 j)) (fun xu => dot (row (pA (dom_at W2 i)) r) xu)) /\
  forall np, exact_np np -> exists alpha beta, get_bigM_dynamics np W2 = Ok (alpha, beta) /\ nth 0 (nth 1 (nth 0 alpha []) []) 0 = -1 /\ nth 0 (nth 1 (nth 0 beta []) []) 0 = 2.
Proof. exact (bigM_example). Qed.

(** The system with two modes and horizon 2: the run -1/2, 1/2, -1/2 with inputs 1, 0 and modes 0, 1 is admissible and its encoding is feasible for the program of the controller. *)
Example C47_example :
  hyb_data W2 1 1 /\ hyb_domains W2 /\ wf X_int 2 0 1 /\ (forall D, In D (w_dom W2) -> pd D = []) /\ pd X_int = [] /\
  forall np, exact_np np -> exists C, HybridModelPredictiveController np W2 2 I_1 I_1 I_1 X_int = Ok C /\
    let q := k_mpmiqp C in mi_feasible (h_Au q) (h_Az q) (h_Ad q) (h_Ax q) (h_b q) [- / 2] [1; 0] [/ 2; 0; 0; - / 2] [1; 0; 0; 1].
Proof. exact (encoding_example). Qed.

(** The equalities of a domain are ignored by the program: with the equality u = 0 in the (only) domain, the point u = 1/2 is feasible for the program although it stacks no admissible run. *)
Theorem C47_equalities_refuted :
  exists W N Q Rm P X_N x u z d, hyb_data W 1 1 /\ hyb_domains W /\ wf X_N 2 0 1 /\
  (forall us modes xs, admissible W X_N N x us modes xs -> ~ encodes 1 1 us modes xs u z d) /\
  forall np, exact_np np -> exists C, HybridModelPredictiveController np W N Q Rm P X_N = Ok C /\
    let q := k_mpmiqp C in mi_feasible (h_Au q) (h_Az q) (h_Ad q) (h_Ax q) (h_b q) x u z d.
Proof. exact (encoding_equalities). Qed.
Print Assumptions C47_equalities_refuted.
