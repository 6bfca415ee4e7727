(** * PropsRoundSim: the property theorems of this part, restated; proofs are in RoundSimThms.
    Generated by tools/gen_props.py: this file contains only statements, [exact] and Print Assumptions. *)
From Coq Require Import Permutation.
From Verif Require Import Arr ArrFacts Spec SpecDyn SpecEig SpecRound Pnnls PnnlsFacts Polyhedron PolyThms MembThms Dynamics DynThms McaisThms SpectralThms Round RoundThms.
From Verif Require Import RoundSimThms.

(** every list of states that LinearSystem.simulate can return with rounded operations has as many states as the exact one, and if E bounds the rounding error of each step and al the sums of absolute values of the rows of A, the state at time t differs from the exact one by at most E (1 + al + .. + al^(t-1)) in each entry *)
Theorem C94_linear u eta rnd S nx nu x0 us xs :
  rounding u eta rnd -> system_shape (lA S) (lB S) nx nu -> length x0 = nx -> Forall (fun v => length v = nu) us -> fl_lin_simulate rnd S x0 us xs ->
  exists ys, lin_simulate S x0 us = Ok ys /\ length xs = length ys /\ forall al E, 0 <= al -> (forall i, (i < nx)%nat -> abs_dot (row (lA S) i) (ones nx) <= al) -> 0 <= E ->
  (forall t i, (t < length us)%nat -> (i < nx)%nat -> rounding_error u eta (nx + nu + 1) (abs_dot (row (lA S) i) (nth t xs []) + abs_dot (row (lB S) i) (nth t us [])) <= E) ->
  forall t, (t <= length us)%nat -> sup (vsub (nth t xs []) (nth t ys [])) <= E * geometric al t.
Proof. exact (lin_rounded u eta rnd S nx nu x0 us xs). Qed.
Print Assumptions C94_linear.

(** if the spectral radius of A is less than one there is a constant c, depending on A only, such that for all inputs, lengths and ways to round the simulated states never differ from the exact ones by more than c times a bound E on the rounding error of one step *)
Theorem C94_stable A nx r :
  shape A nx nx -> spectral_radius A nx r -> r < 1 -> exists c, 0 <= c /\ forall u eta rnd S nu x0 us xs E, lA S = A -> shape (lB S) nx nu ->
  rounding u eta rnd -> length x0 = nx -> Forall (fun v => length v = nu) us -> fl_lin_simulate rnd S x0 us xs -> 0 <= E ->
  (forall t i, (t < length us)%nat -> (i < nx)%nat -> rounding_error u eta (nx + nu + 1) (abs_dot (row A i) (nth t xs []) + abs_dot (row (lB S) i) (nth t us [])) <= E) ->
  exists ys, lin_simulate S x0 us = Ok ys /\ forall t, (t <= length us)%nat -> sup (vsub (nth t xs []) (nth t ys [])) <= c * E.
Proof. exact (lin_rounded_stable A nx r). Qed.
Print Assumptions C94_stable.

(** the same for AffineSystem.simulate *)
Theorem C94_affine u eta rnd S nx nu x0 us xs :
  rounding u eta rnd -> system_shape (aA S) (aB S) nx nu -> length (ac S) = nx -> length x0 = nx -> Forall (fun v => length v = nu) us -> fl_aff_simulate rnd S x0 us xs ->
  exists ys, aff_simulate S x0 us = Ok ys /\ length xs = length ys /\ forall E, 0 <= E ->
  (forall t i, (t < length us)%nat -> (i < nx)%nat -> rounding_error u eta (nx + nu + 2) (abs_dot (row (aA S) i) (nth t xs []) + abs_dot (row (aB S) i) (nth t us []) + Rabs (nth i (ac S) 0)) <= E) ->
  (forall al, 0 <= al -> (forall i, (i < nx)%nat -> abs_dot (row (aA S) i) (ones nx) <= al) -> forall t, (t <= length us)%nat -> sup (vsub (nth t xs []) (nth t ys [])) <= E * geometric al t) /\
  (forall t i, (t < length us)%nat -> (i < nx)%nat -> Rabs (nth i (nth (Datatypes.S t) xs []) 0 - nth i (affine_step (aA S) (aB S) (ac S) (nth t xs []) (nth t us [])) 0) <= E).
Proof. exact (aff_rounded u eta rnd S nx nu x0 us xs). Qed.
Print Assumptions C94_affine.

(** if m steps of the exact closed loop x -> (A + B K) x halve the largest entry and the relative error of one rounded step (loop_relative, about (nu + nx) nx u be) is small compared to explicit constants, all states of simulate_closed_loop satisfy |x(t)| <= c (3/4)^(t / m) |x(0)| + c loop_absolute: the rounded loop converges, except for a ball of the size of the underflow threshold *)
Theorem C94_contraction u eta rnd S K nx nu be m al N x0 xs :
  rounding u eta rnd -> system_shape (lA S) (lB S) nx nu -> shape K nu nx -> 0 <= be ->
  (forall i j, (i < nx)%nat -> (j < nx)%nat -> Rabs (nth j (row (lA S) i) 0) + abs_dot (row (lB S) i) (row (tr K) j) <= be) ->
  (0 < m)%nat -> (forall x, length x = nx -> sup (flow (madd (lA S) (mm (lB S) K)) m x) <= / 2 * sup x) ->
  0 <= al -> (forall i, (i < nx)%nat -> abs_dot (row (madd (lA S) (mm (lB S) K)) i) (ones nx) <= al) ->
  loop_relative u eta nx nu be <= 1 -> loop_relative u eta nx nu be * (4 * (geometric al m + 1) * (al + 2) ^ m) <= 1 ->
  length x0 = nx -> fl_closed_loop rnd S K x0 N xs -> let c := (al + 2) ^ m * (4 * geometric al m + 2) in
  length xs = Datatypes.S N /\ forall t, (t <= N)%nat -> sup (nth t xs []) <= c * (3 / 4) ^ (t / m) * sup x0 + c * loop_absolute u eta nx.
Proof. exact (closed_loop_contraction u eta rnd S K nx nu be m al N x0 xs). Qed.
Print Assumptions C94_contraction.

(** if the spectral radius of A + B K is less than one there are constants m, c, d, depending on A, B, K only, such that for every way to round whose relative error over one step is at most d, all states of simulate_closed_loop satisfy |x(t)| <= c (3/4)^(t / m) |x(0)| + c loop_absolute *)
Theorem C94_closed_loop S K nx nu r :
  system_shape (lA S) (lB S) nx nu -> shape K nu nx -> spectral_radius (madd (lA S) (mm (lB S) K)) nx r -> r < 1 ->
  exists m c d, (0 < m)%nat /\ 0 <= c /\ 0 < d /\ forall u eta rnd be N x0 xs, rounding u eta rnd -> 0 <= be ->
    (forall i j, (i < nx)%nat -> (j < nx)%nat -> Rabs (nth j (row (lA S) i) 0) + abs_dot (row (lB S) i) (row (tr K) j) <= be) ->
    loop_relative u eta nx nu be <= d -> length x0 = nx -> fl_closed_loop rnd S K x0 N xs ->
    length xs = Datatypes.S N /\ forall t, (t <= N)%nat -> sup (nth t xs []) <= c * (3 / 4) ^ (t / m) * sup x0 + c * loop_absolute u eta nx.
Proof. exact (closed_loop_rounded S K nx nu r). Qed.
Print Assumptions C94_closed_loop.
