(** * PropsNeigh: the property theorems of this part, restated; proofs are in NeighThms.
    Generated by tools/gen_props.py: this file contains only statements, [exact] and Print Assumptions. *)
From Coq Require Import ZArith Classical Permutation Sorted.
From Verif Require Import Arr ArrFacts Spec SpecMpc Numpy Pnnls PnnlsFacts QpFacts GeomUtils Polyhedron PolyThms Oracle SolverThms NullFacts PolySolveThms PolyMore PolyChebThms GeomThms SpecDyn Dynamics DynThms CondenseThms LqrThms Mpqp MpqpThms.
From Verif Require Import NeighThms.

(** The guessed active set is the active set with one index added or removed, in increasing order. *)
Theorem C63_guess act i :
  StronglySorted lt (flip act i) /\ forall j, In j (flip act i) <-> (if Nat.eq_dec j i then ~ In j act else In j act).
Proof. exact (flip_ok act i). Qed.
Print Assumptions C63_guess.

(** Row i of a region belongs to constraint c of the program, where c runs through the active constraints first and the others after them: for an active one the row says that its multiplier is nonnegative, for another one that it is satisfied; the row is tight exactly where the multiplier is zero, or the constraint is tight. *)
Theorem C63_rows np Huu Hux Hxx fu fx g Au Ax b nu nx m q act cr i :
  exact_np np -> mp_data Huu Hux Hxx fu fx Au Ax b nu nx m ->
  MultiParametricQuadraticProgram np Huu Hux Hxx fu fx g Au Ax b = Ok q ->
  explicit_solve_given_active_set np q act = Ok (Some cr) -> (i < m)%nat ->
  let c := facet_constraint act m i in
  let lhs x := dot (row (pA (cr_poly cr)) i) x in let rhs := nth i (pb (cr_poly cr)) 0 in
  (c < m)%nat /\ (In c act <-> (i < length act)%nat) /\
  forall x, length x = nx ->
    (In c act -> (lhs x <= rhs <-> 0 <= nth c (cr_p cr x) 0) /\ (lhs x = rhs <-> nth c (cr_p cr x) 0 = 0)) /\
    (~ In c act -> (lhs x <= rhs <-> dot (row Au c) (cr_u cr x) + dot (row Ax c) x <= nth c b 0) /\
                   (lhs x = rhs <-> dot (row Au c) (cr_u cr x) + dot (row Ax c) x = nth c b 0)).
Proof. exact (facet_rows np Huu Hux Hxx fu fx g Au Ax b nu nx m q act cr i). Qed.
Print Assumptions C63_rows.

(** The right guess: flipping constraint c (not: row i) in the active set gives an active set that is optimal on the whole facet, with the same minimizer, value and multipliers there.  Beyond a multiplier facet its region always exists; beyond a constraint facet it exists unless row c of Au depends on the active ones. *)
Theorem C63_neighbour np Huu Hux Hxx fu fx g Au Ax b nu nx m q act cr i x :
  exact_np np -> mp_data Huu Hux Hxx fu fx Au Ax b nu nx m ->
  MultiParametricQuadraticProgram np Huu Hux Hxx fu fx g Au Ax b = Ok q ->
  explicit_solve_given_active_set np q act = Ok (Some cr) -> (i < m)%nat ->
  in_poly (cr_poly cr) x -> dot (row (pA (cr_poly cr)) i) x = nth i (pb (cr_poly cr)) 0 ->
  let c := facet_constraint act m i in let guess := flip act c in
  (exists cr', explicit_solve_given_active_set np q guess = Ok (Some cr') /\ in_poly (cr_poly cr') x /\
     cr_u cr' x = cr_u cr x /\ cr_p cr' x = cr_p cr x /\ cr_V cr' x = cr_V cr x) \/
  (~ In c act /\ explicit_solve_given_active_set np q guess = Ok None /\ ~ indep_rows (mtake Au guess) (length guess)).
Proof. exact (neighbour np Huu Hux Hxx fu fx g Au Ax b nu nx m q act cr i x). Qed.
Print Assumptions C63_neighbour.

(** When the active constraints are the first ones, row i belongs to constraint i, and the guess of explicit_solve, which flips i, is the right one. *)
Theorem C63_initial k m i :
  (i < m)%nat -> (k <= m)%nat -> facet_constraint (seq 0 k) m i = i.
Proof. exact (facet_initial k m i). Qed.
Print Assumptions C63_initial.

(** The guess of explicit_solve flips the number of the row instead of the number of the constraint: for min 1/2 u^2 s.t. u <= 10, u >= x, beyond the facet x = 0 of the region of the active set {1} it guesses {0, 1}, which is optimal nowhere (dependent constraints); the right guess {} is optimal on the facet. *)
Theorem C63_guess_refuted :
  exists Huu Hux Hxx fu fx g Au Ax b act i x, mp_data Huu Hux Hxx fu fx Au Ax b 1 1 2 /\
  forall np, exact_np np -> exists q cr cr', MultiParametricQuadraticProgram np Huu Hux Hxx fu fx g Au Ax b = Ok q /\
    explicit_solve_given_active_set np q act = Ok (Some cr) /\ (i < 2)%nat /\ in_poly (cr_poly cr) x /\ dot (row (pA (cr_poly cr)) i) x = nth i (pb (cr_poly cr)) 0 /\
    explicit_solve_given_active_set np q (flip act i) = Ok None /\
    explicit_solve_given_active_set np q (flip act (facet_constraint act 2 i)) = Ok (Some cr') /\ in_poly (cr_poly cr') x.
Proof. exact (guess_refuted). Qed.
Print Assumptions C63_guess_refuted.

(** In two or more dimensions facet_center(i) is the center of a largest ball of the facet: a point of the region on the hyperplane of row i, and no ball of the hyperplane inside the region has a larger radius. *)
Theorem C64_facet_center np p m n i :
  exact_np np -> wf p m 0 n -> (2 <= n)%nat -> (i < m)%nat -> row (pA p) i <> zeros n ->
  (exists x, in_poly p x /\ dot (row (pA p) i) x = nth i (pb p) 0) -> (exists M, forall c r, 0 <= r -> facet_ball p i c r -> r <= M) ->
  exists c r, facet_center np p i = Ok (Some c) /\ in_poly p c /\ 0 <= r /\ facet_ball p i c r /\ forall c' r', 0 <= r' -> facet_ball p i c' r' -> r' <= r.
Proof. exact (facet_center_ok np p m n i). Qed.
Print Assumptions C64_facet_center.

(** In one dimension facet_center(i) is the point of the row (when the row is not zero). *)
Theorem C64_facet_center_1d np p m i :
  wf p m 0 1 -> (i < m)%nat -> row (pA p) i <> [0] -> exists c, facet_center np p i = Ok (Some [c]) /\ forall y, dot (row (pA p) i) [y] = nth i (pb p) 0 <-> y = c.
Proof. exact (facet_center_1d np p m i). Qed.
Print Assumptions C64_facet_center_1d.

(** From a point c of the hyperplane of a row of norm one, the point c + step a_i violates the row by exactly the step: if the step exceeds the tolerance of contains the exploration leaves the region, and every point of the region is at distance at least step. *)
Theorem C64_step p m n i c step :
  wf p m 0 n -> (i < m)%nat -> norm (row (pA p) i) = 1 -> length c = n -> dot (row (pA p) i) c = nth i (pb p) 0 -> 0 <= step ->
  let x := vadd c (vscale step (row (pA p) i)) in
  dot (row (pA p) i) x = nth i (pb p) 0 + step /\ dist2 x c = step * step /\ (tol7 < step -> contains tol7 p x = Ok false) /\ forall y, in_poly p y -> step * step <= dist2 x y.
Proof. exact (step_outside p m n i c step). Qed.
Print Assumptions C64_step.

(** Two constraints with active set {1}: row 0 belongs to constraint 1 and row 1 to constraint 0; the right guesses are {} and {0, 1}, the code guesses {0, 1} and {}.  For the active set {0} both agree. *)
Example C63_example :
  map (facet_constraint [1%nat] 2) [0%nat; 1%nat] = [1%nat; 0%nat] /\ map (fun i => flip [1%nat] (facet_constraint [1%nat] 2 i)) [0%nat; 1%nat] = [[]; [0%nat; 1%nat]] /\ map (flip [1%nat]) [0%nat; 1%nat] = [[0%nat; 1%nat]; []] /\
  map (facet_constraint [0%nat] 2) [0%nat; 1%nat] = [0%nat; 1%nat] /\ flip [4%nat; 2%nat] 3 = [2%nat; 3%nat; 4%nat].
Proof. exact (neighbour_example). Qed.

(** The facet x = 1 of the square |x| <= 1, |y| <= 1 meets the hypotheses, and its center is (1, 0). *)
Example C64_example np :
  exact_np np -> let p := Poly (Mat 2 [[1; 0]; [-1; 0]; [0; 1]; [0; -1]]) [1; 1; 1; 1] (Mat 2 []) [] None None None None None in
  wf p 4 0 2 /\ row (pA p) 0 <> zeros 2 /\ norm (row (pA p) 0) = 1 /\ (exists x, in_poly p x /\ dot (row (pA p) 0) x = nth 0 (pb p) 0) /\ (exists M, forall c r, 0 <= r -> facet_ball p 0 c r -> r <= M) /\ facet_center np p 0 = Ok (Some [1; 0]).
Proof. exact (facet_center_example np). Qed.
