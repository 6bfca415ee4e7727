(** * SpecEig: eigenvalues and spectral radius of a real matrix, written without the model *)
From Verif Require Import Arr Spec SpecDyn.

(** a + i b is an eigenvalue of the n x n matrix A: A (v + i w) = (a + i b) (v + i w) for some v + i w other than 0 *)
Definition eigenvalue (A : mat) (n : nat) (a b : R) : Prop :=
  exists v w, length v = n /\ length w = n /\ (v <> zeros n \/ w <> zeros n) /\
    mv A v = vsub (vscale a v) (vscale b w) /\ mv A w = vadd (vscale b v) (vscale a w).
(** r is the largest modulus of an eigenvalue of A *)
Definition spectral_radius (A : mat) (n : nat) (r : R) : Prop :=
  (exists a b, eigenvalue A n a b /\ r = sqrt (a * a + b * b)) /\ forall a b, eigenvalue A n a b -> sqrt (a * a + b * b) <= r.
(** every trajectory of x+ = A x converges to the origin *)
Definition attractive (A : mat) (n : nat) : Prop :=
  forall x, length x = n -> forall eps, 0 < eps -> exists T, forall t, (T <= t)%nat -> norm (flow A t x) <= eps.
