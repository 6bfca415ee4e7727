(** * SpecKkt: optimality conditions with a set of active constraints -- independently of the code model *)
From Verif Require Import Arr Spec.

(** l (inequalities) and v (equalities) are Lagrange multipliers at x, where gr is the gradient of the cost *)
Definition multipliers (gr : vec) (A : mat) (b : vec) (C : mat) (l v x : vec) (n : nat) : Prop :=
  nonneg l /\ stationary gr A l C v n /\ compl_slack A b l x.
(** the rows of A in act and the rows of C are linearly independent *)
Definition independent (A C : mat) (act : list nat) (m me n : nat) : Prop :=
  forall l v, length l = m -> length v = me -> (forall i, ~ In i act -> nth i l 0 = 0) ->
  (forall z, length z = n -> dot l (mv A z) + dot v (mv C z) = 0) -> l = zeros m /\ v = zeros me.
(** numbers of the constraints that hold at x with slack below tol *)
Definition nearly_active (A : mat) (b x : vec) (tol : R) (act : list nat) : Prop :=
  NoDup act /\ forall i, In i act <-> (i < length b)%nat /\ nth i b 0 - dot (row A i) x < tol.
