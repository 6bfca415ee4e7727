(** * PropsDisj: the property theorems of this part, restated; proofs are in DisjThms.
    Generated by tools/gen_props.py: this file contains only statements, [exact] and Print Assumptions. *)
From Coq Require Import ZArith Classical.
From Verif Require Import Arr ArrFacts Spec SpecGeom SpecDisj Numpy Pnnls PnnlsFacts QpFacts GeomUtils Polyhedron PolyThms Oracle SolverThms NullFacts PolySolveThms PolySetThms PolyBoundThms PolyChebThms PolyCacheThms GeomThms HullOracle VertThms Projection ProjThms Disj.
From Verif Require Import DisjThms.

(** for two nonempty polytopes P1 and P2 of the same dimension, the constraints of the convex-hull method are built without exceptions; with the indicator delta at 0 they say x in P1, with delta at 1 they say x in P2; and the points x for which some auxiliary y and delta in [0, 1] satisfy them are exactly the convex hull of the union of P1 and P2 *)
Theorem C74_convex_hull A1 b1 A2 b2 m1 m2 n :
  shape A1 m1 n -> shape A2 m2 n -> length b1 = m1 -> length b2 = m2 ->
  (exists q, points A1 b1 q) -> (exists q, points A2 b2 q) -> bounded_set (points A1 b1) -> bounded_set (points A2 b2) ->
  exists cs m, hull_constraints A1 b1 A2 b2 = Ok cs /\ wf cs m 0 (n + n + 1) /\ bounded_set (in_poly cs) /\
    (forall x, length x = n -> ((exists y, length y = n /\ in_poly cs (x ++ y ++ [0])) <-> points A1 b1 x)) /\
    (forall x, length x = n -> ((exists y, length y = n /\ in_poly cs (x ++ y ++ [1])) <-> points A2 b2 x)) /\
    (forall x, projection (in_poly cs) (seq 0 n) x <-> length x = n /\ conv n (union (points A1 b1) (points A2 b2)) x).
Proof. exact (hull_ok_all A1 b1 A2 b2 m1 m2 n). Qed.
Print Assumptions C74_convex_hull.

(** the relaxation drawn by the notebook for the convex-hull method (two or more variables, diameter of the union at most D, a point of P1 of moderate size): a polyhedron inside the convex hull of the union of P1 and P2 that fills it up to the error of project_to; otherwise LinAlgError, only for an unlucky random offset, or QhullError, only if that convex hull is thinner than the tolerance.
   Missing: the error and the exceptions of project_to (see C17). *)
Theorem C74_hull_drawn_partial np A1 b1 A2 b2 m1 m2 n D :
  exact_np np -> hull_ok np -> hull_total np -> rand_ok np -> (2 <= n)%nat ->
  shape A1 m1 n -> shape A2 m2 n -> length b1 = m1 -> length b2 = m2 ->
  (exists q, points A1 b1 q /\ near (q ++ q)) -> (exists q, points A2 b2 q) -> bounded_set (points A1 b1) -> bounded_set (points A2 b2) ->
  let S := fun x => length x = n /\ conv n (union (points A1 b1) (points A2 b2)) x in
  (forall y y', S y -> S y' -> norm (vsub y y') <= D) ->
  exists F, forall fuel, let r := relaxation np fuel n (hull_constraints A1 b1 A2 b2) in
  (exists q k, r = Ok q /\ wf q k 0 n /\ (forall x, in_poly q x -> S x) /\ Forall (fun a => norm a = 1) (rows (pA q)) /\
     (forall x, S x -> forall i, (i < k)%nat -> dot (row (pA q) i) x <= nth i (pb q) 0 + (tol7 + (/ 100000 + INR n * / 100000000) * D))) \/
  (r = Err LinAlgError /\ unlucky np S n) \/ (r = Err QhullError /\ thin S n) \/ (r = Err OutOfFuel /\ (fuel < F)%nat).
Proof. exact (hull_drawn np A1 b1 A2 b2 m1 m2 n D). Qed.
Print Assumptions C74_hull_drawn_partial.

(** what the big-M cell computes, M nonnegative: the projection of its constraints is the set of x with A_1 x <= b_1 + M and A_2 x <= b_2 + M, because the second disjunct gets M delta instead of M (1 - delta); this set contains the big-M relaxation the notebook describes, hence the union of P1 and P2 if M is large enough.
   Missing: it is not that relaxation (see C74_big_m_refuted). *)
Theorem C74_big_m_partial A1 b1 A2 b2 M m n :
  shape A1 m n -> shape A2 m n -> length b1 = m -> length b2 = m -> length M = m -> nonneg M ->
  exists cs k, big_m_constraints A1 b1 A2 b2 M = Ok cs /\ wf cs k 0 (n + 1) /\
  (forall x, projection (in_poly cs) (seq 0 n) x <-> points A1 (vadd b1 M) x /\ points A2 (vadd b2 M) x) /\
  (forall x delta, 0 <= delta <= 1 -> big_m A1 b1 A2 b2 M x delta -> projection (in_poly cs) (seq 0 n) x) /\
  ((forall x, points A2 b2 x -> points A1 (vadd b1 M) x) -> (forall x, points A1 b1 x -> points A2 (vadd b2 M) x) -> forall x, union (points A1 b1) (points A2 b2) x -> projection (in_poly cs) (seq 0 n) x).
Proof. exact (big_m_drawn A1 b1 A2 b2 M m n). Qed.
Print Assumptions C74_big_m_partial.

(** with the notebook's polytopes and its M (which is large enough), the drawn relaxation contains a point at which the notebook's own big-M constraints hold for no delta in [0, 1]; and no point at all satisfies the constraints with delta = 0, although P1 is not empty *)
Theorem C74_big_m_refuted :
  exists cs, big_m_constraints nA1 nb1 nA2 nb2 nM = Ok cs /\
  (forall x, points nA2 nb2 x -> points nA1 (vadd nb1 nM) x) /\ (forall x, points nA1 nb1 x -> points nA2 (vadd nb2 nM) x) /\
  (exists x, projection (in_poly cs) [0%nat; 1%nat] x /\ forall delta, 0 <= delta <= 1 -> ~ big_m nA1 nb1 nA2 nb2 nM x delta) /\
  (forall x, ~ in_poly cs (x ++ [0])) /\ (exists x, points nA1 nb1 x).
Proof. exact (big_m_wrong). Qed.
Print Assumptions C74_big_m_refuted.

(** the notebook's two triangles meet the hypotheses; the origin is in the convex hull of their union but in neither; and with an exact library the convex-hull relaxation is returned, inside that convex hull *)
Example C74_example :
  (exists q, points nA1 nb1 q /\ near (q ++ q)) /\ (exists q, points nA2 nb2 q) /\ bounded_set (points nA1 nb1) /\ bounded_set (points nA2 nb2) /\
  conv 2 (union (points nA1 nb1) (points nA2 nb2)) [0; 0] /\ ~ union (points nA1 nb1) (points nA2 nb2) [0; 0] /\
  exists F, forall fuel, (F <= fuel)%nat -> exists q, relaxation np_half fuel 2 (hull_constraints nA1 nb1 nA2 nb2) = Ok q /\ forall x, in_poly q x -> conv 2 (union (points nA1 nb1) (points nA2 nb2)) x.
Proof. exact (disj_example). Qed.
