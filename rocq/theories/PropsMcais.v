(** * PropsMcais: the property theorems of this part, restated; proofs are in McaisThms.
    Generated by tools/gen_props.py: this file contains only statements, [exact] and Print Assumptions. *)
From Coq Require Import ZArith Classical.
From Verif Require Import Arr ArrFacts Spec SpecDyn Numpy Pnnls PnnlsFacts QpFacts GeomUtils Polyhedron PolyThms Oracle SolverThms NullFacts PolySolveThms PolySetThms PolyBoundThms PolyMore Dynamics DynThms.
From Verif Require Import McaisThms.

(** If mcais returns O, there is O1, made of inequalities of X imposed at some times, containing exactly the points whose whole trajectory stays in X; O is O1 after redundancy removal: it contains all of these points, and what was dropped is implied, one row after the other, up to less than tol. *)
Theorem C30_mcais np fuel A X m n O X' :
  exact_np np -> accepted np A X m n ->
  mcais np fuel A X = (Ok O, X') ->
  exists O1 mO mf, wf O1 mO 0 n /\ rows_of_flow A X O1 m mO n /\ (forall x, in_poly O1 x <-> admissible A X x) /\
    pA O = mtake (pA O1) mf /\ pb O = vtake (pb O1) mf /\ pC O = Mat n [] /\ pd O = [] /\ removal O1 tol7 (seq 0 mO) mf /\
    (forall x, admissible A X x -> in_poly O x).
Proof. exact (mcais_ok np fuel A X m n O X'). Qed.
Print Assumptions C30_mcais.

(** If moreover no inequality generated by the recursion is redundant by less than tol, then x0 is in O iff the trajectory from x0 stays in X for all times.
   Missing: inputs for which an inequality is redundant by less than tol (see the refutation), and X with equality constraints. *)
Theorem C30_mcais_exact_partial np fuel A X m n O X' :
  exact_np np -> accepted np A X m n ->
  mcais np fuel A X = (Ok O, X') ->
  (forall O1 mO, wf O1 mO 0 n -> rows_of_flow A X O1 m mO n -> redundancy_gap O1 mO tol7) ->
  forall x, in_poly O x <-> admissible A X x.
Proof. exact (mcais_exact np fuel A X m n O X'). Qed.
Print Assumptions C30_mcais_exact_partial.

(** On an accepted input the loop of mcais ends iff for some T >= 1 staying in X at the times 0, .., T-1 implies being in X at time T; T iterations are then enough, and otherwise no number of iterations is enough. *)
Theorem C31_mcais_halts_iff np A X m n :
  exact_np np -> accepted np A X m n ->
  (forall T, (1 <= T)%nat -> determined A X T -> exists O X', mcais np T A X = (Ok O, X')) /\
  (forall fuel, (exists O X', mcais np fuel A X = (Ok O, X')) \/
     (fst (mcais np fuel A X) = Err OutOfFuel /\ forall T, (1 <= T <= fuel)%nat -> ~ determined A X T)).
Proof. exact (mcais_halts np A X m n). Qed.
Print Assumptions C31_mcais_halts_iff.

(** If every trajectory converges to the origin and the origin is in the interior of X (b > 0), mcais ends.
   Missing: marginally stable A and X with the origin on its boundary, for which the loop can run forever (see the refutations). *)
Theorem C31_stable_halts_partial np A X m n :
  exact_np np -> accepted np A X m n ->
  (forall i, (i < m)%nat -> 0 < nth i (pb X) 0) ->
  (forall x, length x = n -> forall eps, 0 < eps -> exists T, forall t, (T <= t)%nat -> norm (flow A t x) <= eps) ->
  exists fuel O X', mcais np fuel A X = (Ok O, X').
Proof. exact (stable_halts np A X m n). Qed.
Print Assumptions C31_stable_halts_partial.

(** x1+ = x1 + x2, x2+ = x2 (eigenvalues 1 and 1) with X the unit box passes the checks, and the loop never ends. *)
Theorem C31_marginal_refuted :
  exists A X, forall np, exact_np np -> np_eig_max np A <= 1 ->
  accepted np A X 4 2 /\ forall fuel, fst (mcais np fuel A X) = Err OutOfFuel.
Proof. exact (marginal_refuted). Qed.
Print Assumptions C31_marginal_refuted.

(** The asymptotically stable A = diag(1/2, 1/3) with X the unit box cut by x1 <= x2 passes the checks, and the loop never ends. *)
Theorem C31_stable_refuted :
  exists A X, forall np, exact_np np -> np_eig_max np A <= 1 ->
  accepted np A X 5 2 /\ (forall a b t, flow A t [a; b] = [(/ 2) ^ t * a; (/ 3) ^ t * b]) /\
  forall fuel, fst (mcais np fuel A X) = Err OutOfFuel.
Proof. exact (stable_refuted). Qed.
Print Assumptions C31_stable_refuted.

(** For x+ = x/2 and X = {x <= 1, x <= 1 + tol/2, -x <= 1} the returned set contains 1 + tol/2, which is not in X. *)
Theorem C30_tolerance_refuted :
  exists A X, forall np, exact_np np -> np_eig_max np A <= 1 ->
  accepted np A X 3 1 /\ exists O X' x, mcais np 1 A X = (Ok O, X') /\ in_poly O x /\ ~ in_poly X x.
Proof. exact (mcais_tolerance_refuted). Qed.
Print Assumptions C30_tolerance_refuted.

(** LinearSystem.mcais with D given by inequalities: the same, with "(x(t), K x(t)) is in D for all t" along x(t+1) = (A + B K) x(t). *)
Theorem C30_linear_mcais np fuel S K D nx nu m O :
  exact_np np ->
  shape (lA S) nx nx -> shape (lB S) nx nu -> shape K nu nx -> wf D m 0 (nx + nu) ->
  (0 < m)%nat -> (0 < nx)%nat -> np_eig_max np (A_closed S K) <= 1 ->
  in_poly D (zeros (nx + nu)) -> bounded_set (fun x => in_poly D (x ++ mv K x) /\ length x = nx) ->
  lin_mcais np fuel S K D = Ok O ->
  exists O1 mO mf, wf O1 mO 0 nx /\
    (forall x, length x = nx -> (in_poly O1 x <-> forall t, in_poly D (flow (A_closed S K) t x ++ mv K (flow (A_closed S K) t x)))) /\
    pA O = mtake (pA O1) mf /\ pb O = vtake (pb O1) mf /\ removal O1 tol7 (seq 0 mO) mf /\
    (forall x, length x = nx -> (forall t, in_poly D (flow (A_closed S K) t x ++ mv K (flow (A_closed S K) t x))) -> in_poly O x) /\
    (redundancy_gap O1 mO tol7 -> forall x, length x = nx ->
       (in_poly O x <-> forall t, in_poly D (flow (A_closed S K) t x ++ mv K (flow (A_closed S K) t x)))).
Proof. exact (linear_mcais np fuel S K D nx nu m O). Qed.
Print Assumptions C30_linear_mcais.

(** LinearSystem.mcais ignores the equalities of D: for x+ = x + u, u = -x/2 and D = {-1 <= x <= 1, u = 0} the returned set contains x = 1, although (1, -1/2) is not in D. *)
Theorem C30_equalities_refuted :
  exists S K D x, forall np, exact_np np -> np_eig_max np (A_closed S K) <= 1 ->
  exists O, lin_mcais np 1 S K D = Ok O /\ in_poly O x /\ ~ in_poly D (x ++ mv K x).
Proof. exact (mcais_equalities_refuted). Qed.
Print Assumptions C30_equalities_refuted.

(** x+ = x/2 with X = [-1,1]: the hypotheses of the exactness theorem hold, mcais ends after one iteration and returns exactly the interval. *)
Example C30_example :
  np_eig_max np0 A_half <= 1 /\ accepted np0 A_half X_box1 2 1 /\
  (forall O1 mO, wf O1 mO 0 1 -> rows_of_flow A_half X_box1 O1 2 mO 1 -> redundancy_gap O1 mO tol7) /\
  exists O X', mcais np0 1 A_half X_box1 = (Ok O, X') /\ (forall x, in_poly O x <-> admissible A_half X_box1 x) /\
    forall a, in_poly O [a] <-> -1 <= a <= 1.
Proof. exact (mcais_example). Qed.

(** x+ = x/2 with X = [-1,1] meets the hypotheses of the termination theorem, and mcais ends after one iteration. *)
Example C31_example :
  accepted np0 A_half X_box1 2 1 /\ (forall i, (i < 2)%nat -> 0 < nth i (pb X_box1) 0) /\
  (forall x, length x = 1%nat -> forall eps, 0 < eps -> exists T, forall t, (T <= t)%nat -> norm (flow A_half t x) <= eps) /\
  exists O X', mcais np0 1 A_half X_box1 = (Ok O, X').
Proof. exact (halts_example). Qed.
