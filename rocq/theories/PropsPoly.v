(** * PropsPoly: the property theorems of this part, restated; proofs are in PolyThms.
    Generated by tools/gen_props.py: this file contains only statements, [exact] and Print Assumptions. *)
From Coq Require Import ZArith.
From Verif Require Import Arr ArrFacts Spec Numpy Pnnls PnnlsFacts GeomUtils Polyhedron.
From Verif Require Import PolyThms.

(** After any history of successful add_* calls the stored constraints describe the original set intersected with everything that was added. *)
Theorem C01_accumulation p ops p' m me n :
  wf p m me n -> Forall args_rect ops -> calls p ops p' ->
  forall x, in_poly p' x <-> in_poly p x /\ Forall (fun o => asks o x) ops.
Proof. exact (accumulation p ops p' m me n). Qed.
Print Assumptions C01_accumulation.

(** With a strictly increasing list of indices, a call constrains exactly the listed coordinates, in the listed order. *)
Theorem C02_selected_coordinates p m me n A b l p' :
  wf p m me n -> rect A -> increasing n l -> add_inequality A (D1 b) (Some (map Z.of_nat l)) p = (Ok tt, p') ->
  forall x, in_poly p' x <-> in_poly p x /\ ineq_holds A b (map (fun i => nth i x 0) l).
Proof. exact (selected_coordinates p m me n A b l p'). Qed.
Print Assumptions C02_selected_coordinates.

(** The same for equalities. *)
Theorem C02_selected_equalities p m me n C d l p' :
  wf p m me n -> rect C -> increasing n l -> add_equality C (D1 d) (Some (map Z.of_nat l)) p = (Ok tt, p') ->
  forall x, in_poly p' x <-> in_poly p x /\ eq_holds C d (map (fun i => nth i x 0) l).
Proof. exact (selected_coordinates_eq p m me n C d l p'). Qed.
Print Assumptions C02_selected_equalities.

(** Bounds on listed coordinates: x_min_k <= x[l_k] <= x_max_k and nothing else. *)
Theorem C02_selected_bounds p m me n lo hi l p' :
  wf p m me n -> increasing n l -> add_bounds (BArr (D1 lo)) (BArr (D1 hi)) (Some (map Z.of_nat l)) p = (Ok tt, p') ->
  forall x, in_poly p' x <-> in_poly p x /\
    Forall2 (fun a i => a <= nth i x 0) lo l /\ Forall2 (fun i a => nth i x 0 <= a) l hi.
Proof. exact (selected_bounds p m me n lo hi l p'). Qed.
Print Assumptions C02_selected_bounds.

(** The order of the listed indices is not respected: x[1] + 2 x[0] <= 1 (indices [1,0]) is stored as x[0] + 2 x[1] <= 1. *)
Theorem C02_order_refuted :
  exists p', add_inequality (Mat 2 [[1; 2]]) (D1 [1]) (Some [1%Z; 0%Z]) (whole 2) = (Ok tt, p') /\
    exists x, length x = 2%nat /\ in_poly p' x /\ ~ 1 * nth 1 x 0 + 2 * nth 0 x 0 <= 1.
Proof. exact (order_refuted). Qed.
Print Assumptions C02_order_refuted.

(** Negative indices are dropped silently: a bound on x[-1] given to add_upper_bound is rejected with an exception and one given with a zero-column matrix is lost. *)
Theorem C02_negative_refuted :
  add_upper_bound (BFloat 1) (Some [(-1)%Z]) (whole 2) = (Err ValueError, whole 2) /\
  exists p', add_upper_bound (BArr (D1 [])) (Some [(-1)%Z]) (whole 2) = (Ok tt, p') /\ forall x, length x = 2%nat -> in_poly p' x.
Proof. exact (negative_refuted). Qed.
Print Assumptions C02_negative_refuted.

(** The intersection always exists and contains exactly the common points. *)
Theorem C04_intersection p1 p2 m1 me1 m2 me2 n :
  wf p1 m1 me1 n -> wf p2 m2 me2 n ->
  exists p3, intersection p1 p2 = Ok p3 /\ wf p3 (m2 + m1) (me2 + me1) n /\
    (forall x, in_poly p3 x <-> in_poly p1 x /\ in_poly p2 x) /\
    p_empty p3 = None /\ p_bounded p3 = None /\ p_radius p3 = None /\ p_center p3 = None /\ p_vertices p3 = None.
Proof. exact (intersection_ok p1 p2 m1 me1 m2 me2 n). Qed.
Print Assumptions C04_intersection.

(** (x, y) is in the product iff x is in the first and y in the second factor, with any number (including zero) of inequalities and equalities. *)
Theorem C05_cartesian_product p1 p2 m1 me1 n1 m2 me2 n2 :
  wf p1 m1 me1 n1 -> wf p2 m2 me2 n2 ->
  exists p3, cartesian_product p1 p2 = Ok p3 /\ wf p3 (m1 + m2) (me1 + me2) (n1 + n2) /\
    forall x y, length x = n1 -> in_poly p3 (x ++ y) <-> in_poly p1 x /\ in_poly p2 y.
Proof. exact (cartesian_product_ok p1 p2 m1 me1 n1 m2 me2 n2). Qed.
Print Assumptions C05_cartesian_product.

(** contains(x, tol) for a polyhedron with at least one inequality and at most one equality.
   Missing: several equalities and zero inequalities, for which the statement is false (see the refutations). *)
Theorem C06_contains_partial p m me n x tol :
  wf p m me n -> (0 < m)%nat -> (me <= 1)%nat -> length x = n ->
  exists r, contains tol p x = Ok r /\
    (r = true <-> Forall2 (fun a bi => dot a x <= bi + tol) (rows (pA p)) (pb p) /\
                  Forall2 (fun c di => Rabs (dot c x - di) <= tol) (rows (pC p)) (pd p)).
Proof. exact (contains_ok p m me n x tol). Qed.
Print Assumptions C06_contains_partial.

(** With any number of equalities: True is returned iff all inequalities hold within tol and the LARGEST equality residual (with sign) is within tol of zero. *)
Theorem C06_contains_general p m me n x tol :
  wf p m me n -> (0 < m)%nat -> length x = n ->
  exists r, contains tol p x = Ok r /\
    (r = true <-> Forall2 (fun a bi => dot a x <= bi + tol) (rows (pA p)) (pb p) /\
       (Forall2 (fun c di => dot c x - di <= tol) (rows (pC p)) (pd p) /\
        ((0 < me)%nat -> exists i, (i < me)%nat /\ - tol <= dot (row (pC p) i) x - nth i (pd p) 0))).
Proof. exact (contains_general p m me n x tol). Qed.
Print Assumptions C06_contains_general.

(** Two equalities: (0, -5) is accepted as a point of {x0 = 0, x1 = 0}, for every tol >= 0. *)
Theorem C06_contains_refuted :
  exists p x, wf p 1 2 2 /\ length x = 2%nat /\ ~ Forall2 (fun c di => Rabs (dot c x - di) <= 4) (rows (pC p)) (pd p) /\
    forall tol, 0 <= tol -> contains tol p x = Ok true.
Proof. exact (contains_refuted). Qed.
Print Assumptions C06_contains_refuted.

(** Without inequalities the membership test always raises. *)
Theorem C06_contains_no_inequalities_refuted p me n x tol :
  wf p 0 me n -> length x = n -> contains tol p x = Err ValueError.
Proof. exact (contains_raises p me n x tol). Qed.
Print Assumptions C06_contains_no_inequalities_refuted.

(** With floating-point storage, normalize() keeps the set, the number of rows, and gives unit norm to every row whose norm exceeds tol. *)
Theorem C07_normalize p m me n tol :
  wf p m me n -> 0 <= tol ->
  wf (normalize tol p) m me n /\
  (forall x, in_poly (normalize tol p) x <-> in_poly p x) /\
  (forall i, (i < m)%nat -> norm (row (pA (normalize tol p)) i) = if Rltb tol (norm (row (pA p) i)) then 1 else norm (row (pA p) i)) /\
  (forall i, (i < me)%nat -> norm (row (pC (normalize tol p)) i) = if Rltb tol (norm (row (pC p) i)) then 1 else norm (row (pC p) i)).
Proof. exact (normalize_ok p m me n tol). Qed.
Print Assumptions C07_normalize.

(** With integer arrays normalize() truncates: {x0 + x1 <= 1} becomes {0 <= 0}, i.e. the whole plane. *)
Theorem C07_integer_storage_refuted :
  exists p, wf p 1 0 2 /\ (exists x, length x = 2%nat /\ ~ in_poly p x) /\
    forall x, length x = 2%nat -> in_poly (normalize_with truncate tol7 p) x.
Proof. exact (integer_storage_refuted). Qed.
Print Assumptions C07_integer_storage_refuted.

(** A rejected add_inequality / add_equality with a one-dimensional right-hand side leaves all constraints unchanged.
   Missing: two-dimensional right-hand sides and add_bounds, for which the statement is false (see the refutations). *)
Theorem C15_rejected_unchanged_partial p m me n A b idx e p' :
  wf p m me n ->
  (add_inequality A (D1 b) idx p = (Err e, p') \/ add_equality A (D1 b) idx p = (Err e, p')) ->
  e = ValueError /\ same_constraints p p'.
Proof. exact (rejected_unchanged p m me n A b idx e p'). Qed.
Print Assumptions C15_rejected_unchanged_partial.

(** add_inequality with b of shape (1,1) raises, but A has one row more than b afterwards. *)
Theorem C15_column_vector_refuted :
  exists p', add_inequality (Mat 1 [[1]]) (D2 (Mat 1 [[1]])) None (whole 1) = (Err ValueError, p') /\
    nrows (pA p') = 1%nat /\ length (pb p') = 0%nat /\ (forall x, ~ in_poly p' x) /\ (forall x, length x = 1%nat -> in_poly (whole 1) x).
Proof. exact (column_vector_refuted). Qed.
Print Assumptions C15_column_vector_refuted.

(** add_bounds with an x_max of the wrong size raises after the lower bounds have been added. *)
Theorem C15_add_bounds_refuted :
  exists p', add_bounds (BArr (D1 [0])) (BArr (D1 [1; 1])) None (whole 1) = (Err ValueError, p') /\
    in_poly (whole 1) [-1] /\ ~ in_poly p' [-1].
Proof. exact (add_bounds_refuted). Qed.
Print Assumptions C15_add_bounds_refuted.

(** Exactly which arguments the constructor accepts, and what it stores. *)
Theorem C36_polyhedron_constructor A b C d :
  (forall p, Polyhedron A b C d = Ok p <->
     exists bv Cm dv, b = D1 bv /\ eq_args (ncols A) C (match d with Some (D1 v) => Some v | _ => None end) Cm dv /\
       (forall M, d <> Some (D2 M)) /\ nrows A = length bv /\ nrows Cm = length dv /\
       p = Poly A bv Cm dv None None None None None) /\
  (forall e, Polyhedron A b C d = Err e -> e = ValueError).
Proof. exact (polyhedron_constructor A b C d). Qed.
Print Assumptions C36_polyhedron_constructor.

(** C with a number of columns different from A is accepted. *)
Theorem C36_polyhedron_columns_refuted :
  exists A b C d p, shape A 1 1 /\ shape C 1 2 /\ Polyhedron A (D1 b) (Some C) (Some (D1 d)) = Ok p.
Proof. exact (polyhedron_columns_refuted). Qed.
Print Assumptions C36_polyhedron_columns_refuted.

(** Polyhedron.from_bounds(x_min, x_max) is the box. *)
Theorem C02_from_bounds lo hi :
  length lo = length hi ->
  exists p, from_bounds (D1 lo) (D1 hi) None None = Ok p /\ wf p (length lo + length lo) 0 (length lo) /\
    forall x, in_poly p x <-> Forall2 Rle lo x /\ Forall2 Rle x hi.
Proof. exact (from_bounds_ok lo hi). Qed.
Print Assumptions C02_from_bounds.

(** Polyhedron.from_lower_bound(x_min) is the shifted orthant. *)
Theorem C02_from_lower_bound lo :
  exists p, from_lower_bound (D1 lo) None None = Ok p /\ wf p (length lo) 0 (length lo) /\ forall x, in_poly p x <-> Forall2 Rle lo x.
Proof. exact (from_lower_bound_ok lo). Qed.
Print Assumptions C02_from_lower_bound.

(** Polyhedron.from_upper_bound(x_max) is the set of x with x <= x_max. *)
Theorem C02_from_upper_bound hi :
  exists p, from_upper_bound (D1 hi) None None = Ok p /\ wf p (length hi) 0 (length hi) /\ forall x, in_poly p x <-> Forall2 Rle x hi.
Proof. exact (from_upper_bound_ok hi). Qed.
Print Assumptions C02_from_upper_bound.

(** A history on the plane: 0 <= x0 <= 1 by bounds on coordinate 0, then x0 + x1 = 1: all calls return, and (1/2, 1/2) is in the result. *)
Example C01_example :
  exists p', wf (whole 2) 0 0 2 /\
    calls (whole 2) [AddBounds (BFloat 0) (BFloat 1) (Some [0%Z]); AddEquality (Mat 2 [[1; 1]]) (D1 [1]) None] p' /\
    in_poly p' [/2; /2] /\ ~ in_poly p' [2; -1].
Proof. exact (accumulation_example). Qed.

(** A segment times a point (one factor with an equality and no inequality). *)
Example C05_example :
  let p1 := Poly (Mat 1 [[1]; [-1]]) [1; 0] (Mat 1 []) [] None None None None None in
  let p2 := Poly (Mat 1 []) [] (Mat 1 [[2]]) [4] None None None None None in
  exists p3, cartesian_product p1 p2 = Ok p3 /\ in_poly p3 [/2; 2] /\ ~ in_poly p3 [/2; 3].
Proof. exact (cartesian_example). Qed.
