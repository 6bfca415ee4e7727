(** * SpecMpc: parametric programs and optimal control problems -- independently of the code model *)
From Verif Require Import Arr Spec SpecDyn.

(** ** min_u 1/2 [u;x]'[Huu Hux; Hux' Hxx][u;x] + fu'u + fx'x + g  s.t. Au u + Ax x <= b *)
Definition mp_cost (Huu Hux Hxx : mat) (fu fx : vec) (g : R) (x u : vec) : R :=
  / 2 * (dot u (mv Huu u) + 2 * dot u (mv Hux x) + dot x (mv Hxx x)) + dot fu u + dot fx x + g.
Definition mp_feasible (Au Ax : mat) (b : vec) (x u : vec) : Prop :=
  length u = ncols Au /\
  forall i, (i < length b)%nat -> dot (row Au i) u + dot (row Ax i) x <= nth i b 0.
(** u is the one and only minimizer at x *)
Definition mp_minimizer (Huu Hux Hxx : mat) (fu fx : vec) (g : R) (Au Ax : mat) (b : vec) (x u : vec) : Prop :=
  mp_feasible Au Ax b x u /\
  forall v, mp_feasible Au Ax b x v ->
    mp_cost Huu Hux Hxx fu fx g x u <= mp_cost Huu Hux Hxx fu fx g x v /\
    (mp_cost Huu Hux Hxx fu fx g x v = mp_cost Huu Hux Hxx fu fx g x u -> v = u).
(** p are multipliers of u at x *)
Definition mp_multipliers (Huu Hux : mat) (fu : vec) (Au Ax : mat) (b : vec) (x u p : vec) : Prop :=
  length p = length b /\ nonneg p /\
  (forall v, length v = ncols Au -> dot (mv Huu u) v + dot (mv Hux x) v + dot fu v + dot p (mv Au v) = 0) /\
  (forall i, (i < length b)%nat -> nth i p 0 * (nth i b 0 - dot (row Au i) u - dot (row Ax i) x) = 0).

(** well-formed data of a strictly convex parametric program with nu variables, nx parameters and m constraints *)
Definition mp_data (Huu Hux Hxx : mat) (fu fx : vec) (Au Ax : mat) (b : vec) (nu nx m : nat) : Prop :=
  shape Huu nu nu /\ pd Huu nu /\ shape Hux nu nx /\ shape Hxx nx nx /\ length fu = nu /\ length fx = nx /\
  shape Au m nu /\ shape Ax m nx /\ length b = m.

(** ** Finite-horizon optimal control *)
Fixpoint sum_upto (f : nat -> R) (N : nat) : R :=
  match N with O => 0 | S N' => sum_upto f N' + f N' end.
(** 1/2 sum_{t<N} (x(t)'Q x(t) + u(t)'R u(t)) + 1/2 x(N)'P x(N) *)
Definition trajectory_cost (Q Rm P : mat) (us xs : list vec) : R :=
  sum_upto (fun t => / 2 * (dot (nth t xs []) (mv Q (nth t xs [])) + dot (nth t us []) (mv Rm (nth t us [])))) (length us) +
  / 2 * dot (nth (length us) xs []) (mv P (nth (length us) xs [])).
(** the pairs (x(t),u(t)) are in the stage sets, the last state in the terminal set *)
Definition stage_constraints (stage : nat -> vec -> Prop) (terminal : vec -> Prop) (us xs : list vec) : Prop :=
  (forall t, (t < length us)%nat -> stage t (nth t xs [] ++ nth t us [])) /\ terminal (nth (length us) xs []).

(** us is an N-step input sequence for x+ = A x + B u whose trajectory xs from x satisfies all constraints *)
Definition mpc_admissible (A B : mat) (nu N : nat) (D XN : vec -> Prop) (x : vec) (us xs : list vec) : Prop :=
  length us = N /\ Forall (fun v => length v = nu) us /\ is_trajectory (linear_step A B) x us xs /\
  stage_constraints (fun _ => D) XN us xs.
(** .. and it is the one of smallest cost *)
Definition mpc_optimal (A B Q Rm P : mat) (nu N : nat) (D XN : vec -> Prop) (x : vec) (us xs : list vec) : Prop :=
  mpc_admissible A B nu N D XN x us xs /\
  forall us' xs', mpc_admissible A B nu N D XN x us' xs' ->
    trajectory_cost Q Rm P us xs <= trajectory_cost Q Rm P us' xs' /\
    (trajectory_cost Q Rm P us' xs' = trajectory_cost Q Rm P us xs -> us' = us).
(** XN is admissible and invariant under u = K x *)
Definition terminal_invariant (A B K : mat) (D XN : vec -> Prop) : Prop :=
  forall x, XN x -> D (x ++ mv K x) /\ XN (linear_step A B x (mv K x)).

(** ** Extreme values *)
Definition least (S : vec -> Prop) (g : vec -> R) (v : R) : Prop := (exists x, S x /\ g x = v) /\ forall x, S x -> v <= g x.
Definition greatest (S : vec -> Prop) (g : vec -> R) (v : R) : Prop := (exists x, S x /\ g x = v) /\ forall x, S x -> g x <= v.
Definition bounded_on (S : vec -> Prop) (g : vec -> R) : Prop := exists M, forall x, S x -> Rabs (g x) <= M.

(** ** Piecewise affine systems: mode i has the dynamics A_i x + B_i u + c_i and the domain dom_i *)
(** us, modes, xs: inputs, modes and states of an N-step run from x inside the domains that ends in XN *)
Definition pwa_admissible (As Bs : list mat) (cs : list vec) (doms : list (vec -> Prop)) (XN : vec -> Prop) (nu N : nat) (x : vec) (us : list vec) (modes : list nat) (xs : list vec) : Prop :=
  length us = N /\ Forall (fun v => length v = nu) us /\ length modes = N /\ (forall m, In m modes -> (m < length As)%nat) /\
  is_switched_trajectory As Bs cs modes x us xs /\
  stage_constraints (fun t xu => nth (nth t modes O) doms (fun _ => False) xu) XN us xs.
(** .. of smallest cost among all of them *)
Definition pwa_optimal (As Bs : list mat) (cs : list vec) (doms : list (vec -> Prop)) (XN : vec -> Prop) (Q Rm P : mat) (nu N : nat) (x : vec) (us : list vec) (modes : list nat) (xs : list vec) : Prop :=
  pwa_admissible As Bs cs doms XN nu N x us modes xs /\
  forall us' modes' xs', pwa_admissible As Bs cs doms XN nu N x us' modes' xs' -> trajectory_cost Q Rm P us xs <= trajectory_cost Q Rm P us' xs'.

(** Au u + Az z + Ad d + Ax x <= b with binary d *)
Definition mi_feasible (Au Az Ad Ax : mat) (b x u z d : vec) : Prop :=
  length u = ncols Au /\ length z = ncols Az /\ length d = ncols Ad /\ Forall (fun a => a = 0 \/ a = 1) d /\
  forall i, (i < length b)%nat -> dot (row Au i) u + dot (row Az i) z + dot (row Ad i) d + dot (row Ax i) x <= nth i b 0.
(** u, z, d stack the inputs, the auxiliary states (z_i(t) is x(t+1) if i is the mode of step t and 0 otherwise) and the mode indicators *)
Definition encodes (s nx : nat) (us : list vec) (modes : list nat) (xs : list vec) (u z d : vec) : Prop :=
  u = List.concat us /\
  z = List.concat (map (fun t => List.concat (map (fun i => if Nat.eqb i (nth t modes O) then nth (S t) xs [] else zeros nx) (seq 0 s))) (seq 0 (length modes))) /\
  d = List.concat (map (fun m => map (fun i => if Nat.eqb i m then 1 else 0) (seq 0 s)) modes).
