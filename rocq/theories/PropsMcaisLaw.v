(** * PropsMcaisLaw: the property theorems of this part, restated; proofs are in McaisLawThms.
    Generated by tools/gen_props.py: this file contains only statements, [exact] and Print Assumptions. *)
From Coq Require Import ZArith Classical.
From Verif Require Import Arr ArrFacts Spec SpecDyn Numpy Pnnls PnnlsFacts QpFacts GeomUtils Polyhedron PolyThms Oracle SolverThms NullFacts PolySolveThms PolySetThms PolyBoundThms PolyMore Dynamics DynThms McaisThms.
From Verif Require Import McaisLawThms.

(** If a map f carries the trajectories of A' into trajectories of A and X' is the preimage of X (other coordinates, scaling, an invariant subspace, another description of the same set), then mcais(A', X') ends whenever mcais(A, X) does, in as many iterations, and its result is the preimage of the result for X, if no redundancy is within the tolerance. *)
Theorem C106_map np np' f A A' X X' m n m' n' :
  exact_np np -> exact_np np' -> accepted np A X m n -> accepted np' A' X' m' n' -> carries f A' A X' X n' n ->
  (forall fuel, (exists O Y, mcais np fuel A X = (Ok O, Y)) -> exists O Y, mcais np' fuel A' X' = (Ok O, Y)) /\
  (forall fuel fuel' O Y O' Y', mcais np fuel A X = (Ok O, Y) -> mcais np' fuel' A' X' = (Ok O', Y') ->
    (clear_cut A' X' m' n' -> forall z, in_poly O' z -> in_poly O (f z)) /\
    (clear_cut A X m n -> forall z, length z = n' -> in_poly O (f z) -> in_poly O' z)).
Proof. exact (map_law np np' f A A' X X' m n m' n'). Qed.
Print Assumptions C106_map.

(** A larger X gives a larger result: only redundancies of the smaller X have to be clear. *)
Theorem C106_monotone np np' A X X' m m' n :
  exact_np np -> exact_np np' -> accepted np A X m n -> accepted np' A X' m' n -> (forall x, in_poly X x -> in_poly X' x) ->
  forall fuel fuel' O Y O' Y', mcais np fuel A X = (Ok O, Y) -> mcais np' fuel' A X' = (Ok O', Y') -> clear_cut A X m n -> forall x, in_poly O x -> in_poly O' x.
Proof. exact (monotone_law np np' A X X' m m' n). Qed.
Print Assumptions C106_monotone.

(** For the Polyhedron Z returned by X.intersection(Y): if mcais ends for X within f1 and for Y within f2 iterations, it ends for Z within the larger of the two numbers; the result is the intersection of the results, if no redundancy is within the tolerance. *)
Theorem C106_intersection np A X Y m1 m2 n :
  exact_np np -> accepted np A X m1 n -> accepted np A Y m2 n -> exists Z, intersection X Y = Ok Z /\ accepted np A Z (m2 + m1) n /\
  forall f1 f2 O1 O2 X' Y', mcais np f1 A X = (Ok O1, X') -> mcais np f2 A Y = (Ok O2, Y') ->
    exists O Z', mcais np (Nat.max f1 f2) A Z = (Ok O, Z') /\
      (clear_cut A Z (m2 + m1) n -> forall x, in_poly O x -> in_poly O1 x /\ in_poly O2 x) /\
      (clear_cut A X m1 n -> clear_cut A Y m2 n -> forall x, in_poly O1 x -> in_poly O2 x -> in_poly O x).
Proof. exact (intersection_law np A X Y m1 m2 n). Qed.
Print Assumptions C106_intersection.

(** Calling mcais on a polyhedron P with the points of a result (no redundancy within the tolerance) ends after one iteration and loses no point of P; the points are the same if no redundancy is within the tolerance in the second call either. *)
Theorem C106_again np A X m n fuel O Y P mP :
  exact_np np -> accepted np A X m n -> mcais np fuel A X = (Ok O, Y) -> clear_cut A X m n -> accepted np A P mP n -> (forall x, in_poly P x <-> in_poly O x) ->
  exists O' P', mcais np 1 A P = (Ok O', P') /\ (forall x, in_poly O x -> in_poly O' x) /\ (clear_cut A P mP n -> forall x, in_poly O' x -> in_poly O x).
Proof. exact (again_law np A X m n fuel O Y P mP). Qed.
Print Assumptions C106_again.

(** Sampling k times slower (A replaced by A^k) can only enlarge the result. *)
Theorem C106_power np np' A X m n k :
  exact_np np -> exact_np np' -> accepted np A X m n -> accepted np' (mpow A k) X m n ->
  forall fuel fuel' O Y O' Y', mcais np fuel A X = (Ok O, Y) -> mcais np' fuel' (mpow A k) X = (Ok O', Y') -> clear_cut A X m n -> forall x, in_poly O x -> in_poly O' x.
Proof. exact (power_law np np' A X m n k). Qed.
Print Assumptions C106_power.

(** The condition on redundancies cannot be dropped: {x <= 1, x <= 1 + tol/2, -x <= 1} and {x <= 1, -x <= 1} are the same set, but for x+ = x/2 mcais returns a set containing 1 + tol/2 for the first description and the interval [-1, 1] for the second. *)
Theorem C106_description_refuted :
  exists A X X' x, (forall y, in_poly X y <-> in_poly X' y) /\ forall np, exact_np np -> np_eig_max np A <= 1 -> accepted np A X 3 1 /\ accepted np A X' 2 1 /\
  exists O O' Y Y', mcais np 1 A X = (Ok O, Y) /\ mcais np 1 A X' = (Ok O', Y') /\ in_poly O x /\ ~ in_poly O' x.
Proof. exact (description_refuted). Qed.
Print Assumptions C106_description_refuted.

(** x+ = x/2 with [-1, 1] and [-2, 2]: all hypotheses of the laws hold. mcais ends after one iteration for both, for their intersection and for x+ = x/4; z -> z/2 carries the second problem to the first; the results are the intervals themselves. *)
Example C106_example np :
  exact_np np -> np_eig_max np A_half <= 1 -> np_eig_max np (mpow A_half 2) <= 1 ->
  accepted np A_half X_box1 2 1 /\ accepted np A_half X_box2 2 1 /\ accepted np (mpow A_half 2) X_box1 2 1 /\ clear_cut A_half X_box1 2 1 /\ clear_cut A_half X_box2 2 1 /\
  (forall x, in_poly X_box1 x -> in_poly X_box2 x) /\ carries (vscale (/ 2)) A_half A_half X_box2 X_box1 1 1 /\
  (exists Z, intersection X_box1 X_box2 = Ok Z /\ clear_cut A_half Z 4 1) /\
  exists O1 O2 O3 Y1 Y2 Y3, mcais np 1 A_half X_box1 = (Ok O1, Y1) /\ mcais np 1 A_half X_box2 = (Ok O2, Y2) /\ mcais np 1 (mpow A_half 2) X_box1 = (Ok O3, Y3) /\
    (forall x, in_poly O1 x <-> in_poly X_box1 x) /\ (forall x, in_poly O2 x <-> in_poly X_box2 x).
Proof. exact (laws_example np). Qed.
