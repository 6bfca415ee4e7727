(** * Spec: what the properties are about, independently of the code model.

    Only inner products, list positions and quantifiers are used here. *)
From Verif Require Import Arr.

(** ** Polyhedra: {x in R^n | A x <= b, C x = d} *)
Definition ineq_holds (A : mat) (b x : vec) : Prop :=
  Forall2 (fun a bi => dot a x <= bi) (rows A) b.
Definition eq_holds (C : mat) (d x : vec) : Prop :=
  Forall2 (fun c di => dot c x = di) (rows C) d.
Definition in_set (A : mat) (b : vec) (C : mat) (d : vec) (x : vec) : Prop :=
  length x = ncols A /\ ineq_holds A b x /\ eq_holds C d x.

(** nonnegative vector *)
Definition nonneg (v : vec) : Prop := Forall (fun a => 0 <= a) v.

(** ** Linear programs: min f'x s.t. A x <= b, C x = d *)
Definition lp_optimal (f : vec) (A : mat) (b : vec) (C : mat) (d : vec) (x : vec) : Prop :=
  in_set A b C d x /\ forall x', in_set A b C d x' -> dot f x <= dot f x'.
Definition lp_bounded_below (f : vec) (A : mat) (b : vec) (C : mat) (d : vec) : Prop :=
  exists m, forall x, in_set A b C d x -> m <= dot f x.
(** solvable: feasible and bounded below *)
Definition lp_solvable f A b C d : Prop :=
  (exists x, in_set A b C d x) /\ lp_bounded_below f A b C d.

(** ** Quadratic programs: min 1/2 x'Hx + f'x s.t. A x <= b, C x = d *)
Definition qp_cost (H : mat) (f x : vec) : R := / 2 * dot x (mv H x) + dot f x.
Definition qp_optimal (H : mat) (f : vec) (A : mat) (b : vec) (C : mat) (d : vec) (x : vec) : Prop :=
  in_set A b C d x /\ forall x', in_set A b C d x' -> qp_cost H f x <= qp_cost H f x'.

(** positive (semi)definite, symmetric *)
Definition psd (H : mat) (n : nat) : Prop :=
  tr H = H /\ forall x, length x = n -> 0 <= dot x (mv H x).
Definition pd (H : mat) (n : nat) : Prop :=
  tr H = H /\ forall x, length x = n -> x <> zeros n -> 0 < dot x (mv H x).

(** the gradient of the Lagrangian: [gr + A'l + C'v = 0], said by testing against all directions *)
Definition stationary (gr : vec) (A : mat) (l : vec) (C : mat) (v : vec) (n : nat) : Prop :=
  forall x, length x = n -> dot gr x + dot l (mv A x) + dot v (mv C x) = 0.
(** complementary slackness: [l_i (b_i - A_i x) = 0] for every i *)
Definition compl_slack (A : mat) (b l x : vec) : Prop :=
  forall i, (i < length b)%nat -> nth i l 0 * (nth i b 0 - dot (row A i) x) = 0.

(** convex combinations of points *)
Definition in_hull (n : nat) (pts : list vec) (x : vec) : Prop :=
  exists l, length l = length pts /\ nonneg l /\ vsum l = 1 /\ x = lincomb n l pts.

(** Euclidean balls *)
Definition dist2 (x y : vec) : R := dot (vsub x y) (vsub x y).
Definition bounded_set (S : vec -> Prop) : Prop := exists M, forall x, S x -> norm x <= M.

(** the optional equality arguments of the solvers denote the constraints C x = d *)
Definition eq_args (n : nat) (Co : option mat) (d_o : option vec) (C : mat) (d : vec) : Prop :=
  (Co = Some C /\ d_o = Some d) \/ (Co = None /\ d_o = None /\ C = Mat n [] /\ d = []).
