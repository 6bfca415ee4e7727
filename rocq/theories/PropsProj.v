(** * PropsProj: the property theorems of this part, restated; proofs are in ProjThms.
    Generated by tools/gen_props.py: this file contains only statements, [exact] and Print Assumptions. *)
From Coq Require Import ZArith Permutation Classical.
From Verif Require Import Arr ArrFacts Spec SpecGeom Numpy Pnnls PnnlsFacts QpFacts GeomUtils Polyhedron PolyThms Oracle SolverThms NullFacts PolySolveThms PolySetThms PolyBoundThms PolyCacheThms Mpqp MpqpThms GeomThms HullOracle Projection.
From Verif Require Import ProjThms.

(** project_to on a polytope, at least two residual dimensions, any exact LP solver, any convex-hull routine meeting its contract, any random offsets: it terminates, and returns a polyhedron q with a list of vertices such that q is their convex hull, q is contained in the projection, its inequalities have unit normals, every point of the projection satisfies them up to tol plus (1e-5 + n 1e-8) times the diameter of the projection, and the vertices are not on one hyperplane unless the projection is thinner than tol in some direction; or it raises LinAlgError (only if the offset happens to lie on one certain hyperplane), or QhullError if the projection is thinner than tol in some direction.
   Missing: the second term of the error, which comes from skipping directions that are numerically close to explored ones (see C17_skip_refuted). *)
Theorem C17_projection_partial np p m N dims D :
  exact_np np -> hull_ok np -> hull_total np -> rand_ok np ->
  wf p m 0 N -> cache_ok np p -> (exists x, in_poly p x /\ near x) -> bounded_set (in_poly p) ->
  NoDup dims -> Forall (fun i => (i < N)%nat) dims -> (2 <= length dims)%nat ->
  let n := length dims in let S := projection (in_poly p) dims in
  (forall y y', S y -> S y' -> norm (vsub y y') <= D) ->
  exists F, forall fuel,
  (exists q vs k, fst (project_to np fuel dims p) = Ok q /\ wf q k 0 n /\ p_vertices q = Some vs /\ Forall S vs /\
     (forall y, in_poly q y <-> length y = n /\ in_hull n vs y) /\ (forall y, in_poly q y -> S y) /\
     (forall y, S y -> forall i, (i < k)%nat -> dot (row (pA q) i) y <= nth i (pb q) 0 + (tol7 + (/ 100000 + INR n * / 100000000) * D)) /\
     Forall (fun a => norm a = 1) (rows (pA q)) /\ (thin S n \/ forall a d, length a = n -> Forall (fun v => dot a v = d) vs -> a = zeros n)) \/
  (fst (project_to np fuel dims p) = Err LinAlgError /\ unlucky np S n) \/
  (fst (project_to np fuel dims p) = Err QhullError /\ thin S n) \/
  (fst (project_to np fuel dims p) = Err OutOfFuel /\ (fuel < F)%nat).
Proof. exact (project_to_ok np p m N dims D). Qed.
Print Assumptions C17_projection_partial.

(** projection of a polytope onto one dimension is exact and never fails *)
Theorem C17_interval np fuel p m N i :
  exact_np np -> wf p m 0 N -> cache_ok np p -> (exists x, in_poly p x /\ near x) -> bounded_set (in_poly p) -> (i < N)%nat ->
  let S := projection (in_poly p) [i] in
  exists q vs, fst (project_to np fuel [i] p) = Ok q /\ wf q 2 0 1 /\ p_vertices q = Some vs /\ Forall S vs /\
    forall y, (in_poly q y <-> S y) /\ (in_poly q y <-> length y = 1%nat /\ in_hull 1 vs y).
Proof. exact (project_to_interval np fuel p m N i). Qed.
Print Assumptions C17_interval.

(** empty polyhedra, polyhedra found unbounded and polyhedra with equalities are rejected with ValueError *)
Theorem C17_raises np fuel p m me N dims :
  exact_np np -> wf p m me N -> cache_ok np p ->
  (forall x, ~ in_poly p x) \/ (fst (get_bounded np (fresh p)) = Ok false) \/ (0 < me)%nat ->
  fst (project_to np fuel dims p) = Err ValueError.
Proof. exact (project_to_value_error np fuel p m me N dims). Qed.
Print Assumptions C17_raises.

(** whatever from_convex_hull returns is exactly the convex hull of the points *)
Theorem C62_from_convex_hull np pts n q :
  hull_ok np -> Forall (fun p => length p = n) pts -> from_convex_hull np pts = Ok q ->
  exists k, wf q k 0 n /\ forall x, in_poly q x <-> length x = n /\ in_hull n pts x.
Proof. exact (from_convex_hull_ok np pts n q). Qed.
Print Assumptions C62_from_convex_hull.

(** it raises only if the points are on one hyperplane *)
Theorem C62_from_convex_hull_total np pts n :
  hull_total np -> Forall (fun p => length p = n) pts -> (2 <= n)%nat -> pts <> [] -> hull_ok np ->
  (exists q, from_convex_hull np pts = Ok q) \/
  (from_convex_hull np pts = Err QhullError /\ exists a d, length a = n /\ a <> zeros n /\ Forall (fun p => dot a p = d) pts).
Proof. exact (from_convex_hull_total np pts n). Qed.
Print Assumptions C62_from_convex_hull_total.

(** get_feasible_set of an mpQP whose feasible pairs (x, u) form a polytope, at least two parameters: contained in the set of feasible parameters, the inequalities have unit normals, every feasible parameter satisfies them up to the error of project_to, and the vertices are not on one hyperplane unless the feasible parameters are thin; the other outcomes are those of project_to.
   Missing: unbounded feasible pairs (see C54_unbounded_refuted), the error, and the exceptions. *)
Theorem C54_feasible_set_partial np q m nu nx D :
  exact_np np -> hull_ok np -> hull_total np -> rand_ok np ->
  shape (q_Au q) m nu -> shape (q_Ax q) m nx -> length (q_b q) = m -> (2 <= nx)%nat ->
  let pair := feasible_pair (q_Au q) (q_Ax q) (q_b q) nu nx in let S := feasible_parameter (q_Au q) (q_Ax q) (q_b q) nu nx in
  (exists xu, pair xu /\ near xu) -> bounded_set pair -> (forall y y', S y -> S y' -> norm (vsub y y') <= D) ->
  exists F, forall fuel,
  (exists p vs k, get_feasible_set np fuel q = Ok p /\ wf p k 0 nx /\ p_vertices p = Some vs /\ Forall S vs /\
     (forall x, in_poly p x <-> length x = nx /\ in_hull nx vs x) /\ (forall x, in_poly p x -> S x) /\
     (forall x, S x -> forall i, (i < k)%nat -> dot (row (pA p) i) x <= nth i (pb p) 0 + (tol7 + (/ 100000 + INR nx * / 100000000) * D)) /\
     Forall (fun a => norm a = 1) (rows (pA p)) /\ (thin S nx \/ forall a d, length a = nx -> Forall (fun v => dot a v = d) vs -> a = zeros nx)) \/
  (get_feasible_set np fuel q = Err LinAlgError /\ unlucky np S nx) \/
  (get_feasible_set np fuel q = Err QhullError /\ thin S nx) \/
  (get_feasible_set np fuel q = Err OutOfFuel /\ (fuel < F)%nat).
Proof. exact (feasible_set_ok np q m nu nx D). Qed.
Print Assumptions C54_feasible_set_partial.

(** with one parameter (and a polytope of feasible pairs) the feasible set is exact and the computation never fails *)
Theorem C54_one_parameter np fuel q m nu :
  exact_np np -> shape (q_Au q) m nu -> shape (q_Ax q) m 1 -> length (q_b q) = m ->
  let pair := feasible_pair (q_Au q) (q_Ax q) (q_b q) nu 1 in
  (exists xu, pair xu /\ near xu) -> bounded_set pair ->
  exists p, get_feasible_set np fuel q = Ok p /\ forall x, in_poly p x <-> feasible_parameter (q_Au q) (q_Ax q) (q_b q) nu 1 x.
Proof. exact (feasible_set_interval np fuel q m nu). Qed.
Print Assumptions C54_one_parameter.

(** if the set of feasible pairs is unbounded, ValueError is raised although the feasible parameters are an interval *)
Theorem C54_unbounded_refuted :
  exists q, shape (q_Au q) 2 1 /\ shape (q_Ax q) 2 1 /\ length (q_b q) = 2%nat /\
  (forall x, feasible_parameter (q_Au q) (q_Ax q) (q_b q) 1 1 [x] <-> 0 <= x <= 1) /\
  forall np fuel, exact_np np -> get_feasible_set np fuel q = Err ValueError.
Proof. exact (feasible_set_unbounded). Qed.
Print Assumptions C54_unbounded_refuted.

(** the hypotheses of C17_projection_partial hold for the box [-1,1] x [3,5] x [0,1], residual dimensions 0 and 1 and an exact library; the polyhedron is returned *)
Example C17_example :
  (exact_np np_half /\ hull_ok np_half /\ hull_total np_half /\ rand_ok np_half) /\ wf box3 6 0 3 /\ cache_ok np_half box3 /\
  (exists x, in_poly box3 x /\ near x) /\ bounded_set (in_poly box3) /\
  (forall y y', projection (in_poly box3) [0%nat; 1%nat] y -> projection (in_poly box3) [0%nat; 1%nat] y' -> norm (vsub y y') <= 3) /\
  exists F, forall fuel, (F <= fuel)%nat -> exists q, fst (project_to np_half fuel [0%nat; 1%nat] box3) = Ok q.
Proof. exact (project_example). Qed.

(** |x| <= 1, 0 <= u <= 1, x + u >= 1/2: the feasible parameters are [-1/2, 1], and get_feasible_set returns them *)
Example C54_example np fuel :
  exact_np np -> exists p, get_feasible_set np fuel q_box = Ok p /\ forall x, in_poly p [x] <-> - / 2 <= x <= 1.
Proof. exact (feasible_example np fuel). Qed.

(** the triangle (0,0), (1,0), (0,1) *)
Example C62_example rnd :
  exists q, from_convex_hull (np_fm rnd) [[0; 0]; [1; 0]; [0; 1]] = Ok q /\ in_poly q [/ 2; / 2] /\ ~ in_poly q [1; 1].
Proof. exact (from_hull_example rnd). Qed.
