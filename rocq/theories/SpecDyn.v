(** * SpecDyn: trajectories, controllability, invariance -- independently of the code model *)
From Verif Require Import Arr Spec.

(** a sequence of states x(0), .., x(N) driven by the inputs u(0), .., u(N-1) *)
Definition is_trajectory (step : vec -> vec -> vec) (x0 : vec) (u xs : list vec) : Prop :=
  length xs = S (length u) /\ nth 0 xs [] = x0 /\
  forall t, (t < length u)%nat -> nth (S t) xs [] = step (nth t xs []) (nth t u []).

(** x+ = A x + B u + c *)
Definition affine_step (A B : mat) (c : vec) (x u : vec) : vec := vadd (vadd (mv A x) (mv B u)) c.
Definition linear_step (A B : mat) (x u : vec) : vec := vadd (mv A x) (mv B u).

(** coherent shapes of an affine system with nx states and nu inputs *)
Definition system_shape (A B : mat) (nx nu : nat) : Prop := shape A nx nx /\ shape B nx nu.

(** a run of a switched affine system: at time t the dynamics number [nth t modes] is applied *)
Definition is_switched_trajectory (As Bs : list mat) (cs : list vec) (modes : list nat) (x0 : vec) (u xs : list vec) : Prop :=
  length xs = S (length u) /\ nth 0 xs [] = x0 /\
  forall t, (t < length u)%nat ->
    let m := nth t modes O in
    nth (S t) xs [] = affine_step (nth m As (Mat 0 [])) (nth m Bs (Mat 0 [])) (nth m cs []) (nth t xs []) (nth t u []).

(** x(t) = A^t x0 for the autonomous system x+ = A x *)
Fixpoint flow (A : mat) (t : nat) (x : vec) : vec :=
  match t with O => x | S t' => mv A (flow A t' x) end.

(** x(t) for x+ = A x + B u driven by an input signal u(0), u(1), .. *)
Fixpoint state (A B : mat) (x0 : vec) (u : nat -> vec) (t : nat) : vec :=
  match t with O => x0 | S t' => vadd (mv A (state A B x0 u t')) (mv B (u t')) end.
(** 1/2 sum over t < N of x(t)' Q x(t) + u(t)' R u(t) *)
Fixpoint lq_cost (A B Q Rm : mat) (x0 : vec) (u : nat -> vec) (N : nat) : R :=
  match N with
  | O => 0
  | S N' => lq_cost A B Q Rm x0 u N' + / 2 * (dot (state A B x0 u N') (mv Q (state A B x0 u N')) + dot (u N') (mv Rm (u N')))
  end.
(** every state can be steered to every state in N steps *)
Definition steerable (A B : mat) (nx nu N : nat) : Prop :=
  forall x0 xf, length x0 = nx -> length xf = nx ->
    exists u, (forall t, length (u t) = nu) /\ state A B x0 u N = xf.
(** discrete algebraic Riccati equation A'PA - P - (A'PB)(R + B'PB)^-1 (B'PA) + Q = 0 *)
Definition riccati (A B Q Rm P : mat) (nx nu : nat) : Prop :=
  shape P nx nx /\
  forall Mi, shape Mi nu nu -> mm Mi (madd (mm (mm (tr B) P) B) Rm) = eye nu ->
    madd (msub (mm (mm (tr A) P) A) (mm (mm (mm (mm (tr A) P) B) Mi) (mm (mm (tr B) P) A))) Q = P.

(** ** Sampled continuous-time systems *)
(** partial sums of the exponential series I + M + M^2/2 + ... *)
Fixpoint exp_sum (M : mat) (n N : nat) : mat :=
  match N with
  | O => zmat n n
  | S N' => madd (exp_sum M n N') (mscale (/ INR (fact N')) (mpow M N'))
  end.
(** E is the matrix exponential of M: the entrywise limit of the partial sums *)
Definition is_expm (M E : mat) (n : nat) : Prop :=
  shape E n n /\ forall i j, (i < n)%nat -> (j < n)%nat -> Un_cv (fun N => nth j (row (exp_sum M n N) i) 0) (nth j (row E i) 0).
(** x is a solution of dx/dt = A x + B u + c on [0,h] *)
Definition ode_solution (A B : mat) (c u : vec) (nx : nat) (h : R) (x : R -> vec) : Prop :=
  (forall t, length (x t) = nx) /\
  forall t, 0 <= t <= h -> forall i, (i < nx)%nat ->
    derivable_pt_lim (fun s => nth i (x s) 0) t (nth i (vadd (vadd (mv A (x t)) (mv B u)) c) 0).
