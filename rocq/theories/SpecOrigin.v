(** * SpecOrigin: steering to the origin at least cost -- independently of the code model *)
From Verif Require Import Arr Spec SpecDyn SpecMpc SpecEig SpecRound.

(** the input signal u brings x+ = A x + B u from x to the origin in N steps *)
Definition steers (A B : mat) (nx nu N : nat) (x : vec) (u : nat -> vec) : Prop := (forall t, length (u t) = nu) /\ state A B x u N = zeros nx.
(** an N-step run from x to the origin, without constraints *)
Definition run_home (A B : mat) (nx nu N : nat) (x : vec) (us xs : list vec) : Prop := mpc_admissible A B nu N (fun _ => True) (fun y => y = zeros nx) x us xs.
(** among the runs to the origin there is one of least cost from every x (whatever the terminal cost); it is unique, its first input is K x, it stays within a multiple of |x|, its cost is within a multiple of |x|^2, and x+ = (A + B K) x converges to 0 *)
Definition origin_law (A B Q Rm : mat) (nx nu N : nat) (K : mat) (c : R) : Prop :=
  shape K nu nx /\ attractive (madd A (mm B K)) nx /\ 0 <= c /\
  forall x, length x = nx -> exists us xs, run_home A B nx nu N x us xs /\ nth 0 us [] = mv K x /\ (forall t, (t < N)%nat -> sup (nth t xs [] ++ nth t us []) <= c * sup x) /\
    forall P, trajectory_cost Q Rm P us xs <= c * (sup x * sup x) /\
    forall us' xs', run_home A B nx nu N x us' xs' -> trajectory_cost Q Rm P us xs <= trajectory_cost Q Rm P us' xs' /\ (trajectory_cost Q Rm P us' xs' = trajectory_cost Q Rm P us xs -> us' = us).
