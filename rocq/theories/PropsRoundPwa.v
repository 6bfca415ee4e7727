(** * PropsRoundPwa: the property theorems of this part, restated; proofs are in RoundPwaThms.
    Generated by tools/gen_props.py: this file contains only statements, [exact] and Print Assumptions. *)
From Coq Require Import Permutation.
From Flocq Require Import Core.
From Verif Require Import Arr ArrFacts Spec SpecDyn SpecEig SpecRound Pnnls PnnlsFacts Polyhedron PolyThms MembThms Dynamics DynThms McaisThms SpectralThms Round RoundThms Round64 Round64Thms RoundSimThms.
From Verif Require Import RoundPwaThms.

(** for polyhedra without equalities: if no residual is within the rounding error E of the tolerance, contains with rounded operations returns exactly what exact evaluation returns *)
Theorem C93_clear u eta rnd tol p x E m n r :
  rounding u eta rnd -> wf p m 0 n -> (0 < m)%nat -> length x = n -> residual_bound u eta E (pA p) (pb p) x ->
  (forall i, (i < m)%nat -> E < Rabs (dot (row (pA p) i) x - nth i (pb p) 0 - tol)) -> fl_contains rnd tol p x r -> r = contains tol p x.
Proof. exact (fl_contains_clear u eta rnd tol p x E m n r). Qed.
Print Assumptions C93_clear.

(** let E bound the rounding errors of the membership tests and F those of the dynamics near the exact trajectory, al the row sums of the matrices A and be those of the normals of the domains.  If along the exact trajectory no residual of a domain is closer to the tolerance than E + be F (1 + .. + al^(t-1)), PieceWiseAffineSystem.simulate with rounded operations does not raise, visits exactly the modes of the exact simulation, and at time t its state differs by at most F (1 + .. + al^(t-1)) *)
Theorem C94_pwa u eta rnd W nx nu al be E F x0 us ys ms :
  rounding u eta rnd -> pwa_sizes W nx nu -> length x0 = nx -> Forall (fun v => length v = nu) us -> 
  0 <= al -> 0 <= be -> 0 <= F -> (forall s i, In s (w_sys W) -> (i < nx)%nat -> abs_dot (row (aA s) i) (ones nx) <= al) ->
  (forall d i, In d (w_dom W) -> (i < nrows (pA d))%nat -> abs_dot (row (pA d) i) (ones (nx + nu)) <= be) ->
  pwa_simulate W x0 us = Ok (ys, ms) ->
  (forall t x, (t < length us)%nat -> length x = nx -> sup (vsub x (nth t ys [])) <= F * geometric al t ->
     (forall d, In d (w_dom W) -> residual_bound u eta E (pA d) (pb d) (x ++ nth t us [])) /\
     forall s i, In s (w_sys W) -> (i < nx)%nat -> rounding_error u eta (nx + nu + 2) (abs_dot (row (aA s) i) x + abs_dot (row (aB s) i) (nth t us []) + Rabs (nth i (ac s) 0)) <= F) ->
  (forall t d i, (t < length us)%nat -> In d (w_dom W) -> (i < nrows (pA d))%nat ->
     E + be * (F * geometric al t) < Rabs (dot (row (pA d) i) (nth t ys [] ++ nth t us []) - nth i (pb d) 0 - tol7)) ->
  forall q, fl_pwa_simulate rnd W x0 us q -> exists xs, q = Ok (xs, ms) /\ length xs = length ys /\ forall t, (t <= length us)%nat -> length (nth t xs []) = nx /\ sup (vsub (nth t xs []) (nth t ys [])) <= F * geometric al t.
Proof. exact (pwa_rounded u eta rnd W nx nu al be E F x0 us ys ms). Qed.
Print Assumptions C94_pwa.

(** for every way to round, every system and all data, each of the four simulations has a rounded evaluation *)
Theorem C94_total rnd :
  (forall S x us, exists xs, fl_lin_simulate rnd S x us xs) /\ (forall S x us, exists xs, fl_aff_simulate rnd S x us xs) /\
  (forall S K x N, exists xs, fl_closed_loop rnd S K x N xs) /\ (forall W x us, exists q, fl_pwa_simulate rnd W x us q).
Proof. exact (fl_total rnd). Qed.
Print Assumptions C94_total.

(** the triangle x1 + x2 <= 1, x >= 0 in float64: contains does not raise for any point with coordinates up to 1000, accepts every point of the triangle, and accepts no point that violates an inequality by more than 1.125e-7 *)
Example C93_example a b :
  Rabs a <= 1000 -> Rabs b <= 1000 -> (exists r, fl_contains binary64 tol7 tri_poly [a; b] r) /\ forall r, fl_contains binary64 tol7 tri_poly [a; b] r ->
  exists c, r = Ok c /\ (0 <= a -> 0 <= b -> a + b <= 1 -> c = true) /\ (c = true -> a + b <= 1 + 9 / 8 / 10 ^ 7 /\ - (9 / 8 / 10 ^ 7) <= a /\ - (9 / 8 / 10 ^ 7) <= b).
Proof. exact (tri_float a b). Qed.

(** x(t+1) = 2 x(t) + u(t) with u = -1.5 x in float64: however the operations are evaluated, |x(t)| <= 15 (3/4)^t |x(0)| + 15 * 2^-1073 for every initial state and every number of steps *)
Example C94_example x0 N :
  (exists xs, fl_closed_loop binary64 loop_sys loop_gain [x0] N xs) /\ forall xs, fl_closed_loop binary64 loop_sys loop_gain [x0] N xs ->
  length xs = S N /\ forall t, (t <= N)%nat -> Rabs (nth 0 (nth t xs []) 0) <= 15 * (3 / 4) ^ t * Rabs x0 + 15 * / 2 ^ 1073.
Proof. exact (loop_float x0 N). Qed.

(** x(t+1) = |x(t)| / 2 + u(t) from 8 with the inputs -10 and 1 in float64: however the operations are evaluated, the modes are x >= 0, then x <= 0, and the states are 8, -6, 4 up to 2.5e-8 *)
Example C94_pwa_example :
  (exists q, fl_pwa_simulate binary64 fold_pwa [8] [[-10]; [1]] q) /\ forall q, fl_pwa_simulate binary64 fold_pwa [8] [[-10]; [1]] q ->
  exists x1 x2, q = Ok ([[8]; [x1]; [x2]], [1; 0]%nat) /\ Rabs (x1 - -6) <= 5 / 2 / 10 ^ 8 /\ Rabs (x2 - 4) <= 5 / 2 / 10 ^ 8.
Proof. exact (fold_float). Qed.
