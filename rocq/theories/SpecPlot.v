(** * SpecPlot: what curves, step functions and polygons show, independently of the code model *)
From Verif Require Import Arr.

(** the step function through the samples (ts_k, ys_k), constant on each (ts_k, ts_(k+1)], has value v at time s
    (where='pre', the default of matplotlib's step) *)
Definition step_graph (ts ys : vec) (s v : R) : Prop :=
  exists k, (S k < length ts)%nat /\ nth k ts 0 < s <= nth (S k) ts 0 /\ v = nth (S k) ys 0.
(** the point (a, b) is on the broken line through the samples *)
Definition on_polyline (xs ys : vec) (a b : R) : Prop :=
  exists k l, (S k < length xs)%nat /\ 0 <= l <= 1 /\
    a = (1 - l) * nth k xs 0 + l * nth (S k) xs 0 /\ b = (1 - l) * nth k ys 0 + l * nth (S k) ys 0.
(** consecutive points of a path *)
Definition edge (path : list vec) (a b : vec) : Prop :=
  exists k, (S k < length path)%nat /\ a = nth k path [] /\ b = nth (S k) path [].
(** x is on the left of (or on) the line from a to b *)
Definition left_of (a b x : vec) : Prop :=
  0 <= (nth 0 b 0 - nth 0 a 0) * (nth 1 x 0 - nth 1 a 0) - (nth 1 b 0 - nth 1 a 0) * (nth 0 x 0 - nth 0 a 0).
Definition closed_path (path : list vec) : Prop :=
  (2 <= length path)%nat /\ nth 0 path [] = nth (length path - 1) path [].
(** a closed path that goes counterclockwise around the convex set S of the plane *)
Definition goes_around (path : list vec) (T : vec -> Prop) : Prop :=
  closed_path path /\ Forall (fun v => length v = 2%nat) path /\
  forall x, length x = 2%nat -> (T x <-> forall a b, edge path a b -> left_of a b x).
(** the points are on one line *)
Definition collinear (pts : list vec) : Prop :=
  exists a d, length a = 2%nat /\ a <> zeros 2 /\ Forall (fun p => dot a p = d) pts.
