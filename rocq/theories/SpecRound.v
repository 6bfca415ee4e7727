(** * SpecRound: rounding errors, written without the model *)
From Verif Require Import Arr.

(** every result is rounded with relative error at most u, plus at most eta (underflow) *)
Definition rounding (u eta : R) (rnd : R -> R) : Prop := 0 <= u /\ 0 <= eta /\ forall x, Rabs (rnd x - x) <= u * Rabs x + eta.
(** |a_1| |x_1| + .. + |a_n| |x_n| *)
Definition abs_dot (a x : vec) : R := dot (map Rabs a) (map Rabs x).
(** error of n operations on terms whose absolute values add up to s *)
Definition rounding_error (u eta : R) (n : nat) (s : R) : R := ((1 + u) ^ n - 1) * s + 2 * INR n * (1 + u) ^ n * eta.
(** largest absolute value of the entries *)
Definition sup (v : vec) : R := fold_right (fun a m => Rmax (Rabs a) m) 0 v.
(** 1 + a + .. + a^(k-1) *)
Definition geometric (a : R) (k : nat) : R := fold_right (fun i s => a ^ i + s) 0 (seq 0 k).
(** E bounds the rounding error of each entry of M x - b *)
Definition residual_bound (u eta E : R) (M : mat) (b x : vec) : Prop :=
  forall i, (i < nrows M)%nat -> rounding_error u eta (length x + 1) (abs_dot (row M i) x + Rabs (nth i b 0)) <= E.
(** error of x -> (A + B K) x, relative to the largest entry of x and absolute, for nx states, nu inputs and |A| + |B| |K| at most be *)
Definition loop_relative (u eta : R) (nx nu : nat) (be : R) : R :=
  let mu := rounding_error u eta (nu + 1) be in INR nx * (mu + ((1 + u) ^ nx - 1) * (be + mu)).
Definition loop_absolute (u eta : R) (nx : nat) : R := 2 * INR nx * (1 + u) ^ nx * eta.
