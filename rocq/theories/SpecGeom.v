(** * SpecGeom: linear independence, closeness and matchings, independently of the code model *)
From Coq Require Import Permutation.
From Verif Require Import Arr.

(** the rows of A with indices [idx] (all distinct) are linearly independent *)
Definition indep_at (A : mat) (n : nat) (idx : list nat) : Prop :=
  NoDup idx /\ forall c : nat -> R,
    (forall k, (k < n)%nat -> vsum (map (fun i => c i * nth k (row A i) 0) idx) = 0) ->
    forall i, In i idx -> c i = 0.

(** row i of A is farther than [tol] from every linear combination of the rows before it *)
Definition far_from_previous (A : mat) (n : nat) (tol : R) (i : nat) : Prop :=
  forall (c : nat -> R) v, length v = n ->
    (forall k, (k < n)%nat -> nth k v 0 = nth k (row A i) 0 - vsum (map (fun j => c j * nth k (row A j) 0) (seq 0 i))) ->
    tol < norm v.

(** entrywise closeness of numpy.allclose *)
Definition close (a b : vec) : Prop :=
  Forall2 (fun x y => Rabs (x - y) <= / 100000000 + / 100000 * Rabs y) a b.
(** the same for the directions of two nonzero vectors *)
Definition close_directions (a b : vec) : Prop :=
  0 < norm a /\ 0 < norm b /\ close (vscale (/ norm a) a) (vscale (/ norm b) b).

(** the elements of A can be matched one-to-one with those of B *)
Definition matched {T} (r : T -> T -> Prop) (A B : list T) : Prop :=
  exists B', Permutation B B' /\ Forall2 r A B'.
(** ... so that, in addition, no element of A is related to a partner of a later element *)
Definition matched_in_order {T} (d : T) (r : T -> T -> Prop) (A B : list T) : Prop :=
  exists B', Permutation B B' /\ Forall2 r A B' /\
    forall i j, (i < j < length A)%nat -> ~ r (nth i A d) (nth j B' d).

(** p is one of the points closest to x *)
Definition closest (p : vec) (points : list vec) (x : vec) : Prop :=
  forall q, In q points -> norm (vsub x p) <= norm (vsub x q).
