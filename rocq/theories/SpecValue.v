(** * SpecValue: rounding error of a quadratic function, written without the model *)
From Verif Require Import Arr SpecRound.

(** sum of |M_ij| |x_i| |x_j| *)
Definition abs_form (M : mat) (x : vec) : R := dot (map (fun r => abs_dot r x) (rows M)) (map Rabs x).
(** error of 1/2 x' M x + l' x + k for n variables and terms whose absolute values add up to s: 2n + 3 roundings on the way of a
    term into the result, and underflows, the early ones multiplied by entries of x *)
Definition value_error (u eta : R) (n : nat) (s : R) (x : vec) : R :=
  ((1 + u) ^ (2 * n + 3) - 1) * s + (INR n * (vsum (map Rabs x) + 3) + 3) * (1 + u) ^ (2 * n + 3) * eta.
