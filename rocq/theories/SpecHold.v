(** * SpecHold: continuous-time plants whose input is held between samples -- independently of the code model *)
From Verif Require Import Arr Spec SpecDyn SpecRound.

(** x is a solution of dx/dt = f(x, u) on [0,h], with the constant input u *)
Definition held_solution (f : vec -> vec -> vec) (u : vec) (nx : nat) (h : R) (x : R -> vec) : Prop :=
  (forall t, length (x t) = nx) /\
  forall t, 0 <= t <= h -> forall i, (i < nx)%nat -> derivable_pt_lim (fun s => nth i (x s) 0) t (nth i (f (x t) u) 0).
(** the plant seen at the samples: some solution leads from x to y in the time h *)
Definition sampled_plant (f : vec -> vec -> vec) (nx : nat) (h : R) (x u y : vec) : Prop :=
  exists phi, held_solution f u nx h phi /\ phi 0 = x /\ phi h = y.
(** the origin is an equilibrium, and the derivative of f there is A dx + B du *)
Definition field_derivative (f : vec -> vec -> vec) (A B : mat) (nx nu : nat) : Prop :=
  (forall x u, length x = nx -> length u = nu -> length (f x u) = nx) /\
  forall eps, 0 < eps -> exists dl, 0 < dl /\ forall x u, length x = nx -> length u = nu -> sup x <= dl -> sup u <= dl ->
    sup (vsub (f x u) (linear_step A B x u)) <= eps * (sup x + sup u).
(** a run of the plant with the control law ctrl: x(t) = phi k (t - k h) for k h <= t <= (k+1) h; ctrl is evaluated at the samples *)
Definition sampled_run (f : vec -> vec -> vec) (ctrl : vec -> vec -> Prop) (nx : nat) (h : R) (phi : nat -> R -> vec) (T : nat) : Prop :=
  forall k, (k < T)%nat -> phi (S k) 0 = phi k h /\ exists u, ctrl (phi k 0) u /\ held_solution f u nx h (phi k).
