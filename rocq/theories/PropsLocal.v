(** * PropsLocal: the property theorems of this part, restated; proofs are in LocalThms.
    Generated by tools/gen_props.py: this file contains only statements, [exact] and Print Assumptions. *)
From Coq Require Import Lra Lia.
From Verif Require Import Arr ArrFacts Spec SpecDyn SpecEig SpecSym SpecRound SpecCart Numpy Dynamics DynThms LqrThms McaisThms CtrlThms NoteThms Symbolic SymThms SpectralThms RoundThms RoundSimThms Walls WallThms CartDyn CartDynThms.
From Verif Require Import LocalThms.

(** Let the plant x+ = F(x, u) be differentiable at the origin, with the derivative A, B of the linear system S. The gain K that solve_dare computes for S stabilizes the plant locally: there are a radius rho > 0 and constants c, m with |x(t)| <= c (3/4)^(t / m) |x(0)| for all t and all runs of x+ = F(x, K x) with |x(0)| <= rho *)
Theorem C95_local np S Q Rm nx nu P K (F : vec -> vec -> vec -> Prop) :
  lqr_problem np S Q Rm nx nu -> fst (solve_dare np S Q Rm) = Ok (P, K) -> (forall x u y, length x = nx -> length u = nu -> F x u y -> length y = nx) -> linearizes F (lA S) (lB S) nx nu ->
  exists m c rho, (0 < m)%nat /\ 0 <= c /\ 0 < rho /\ forall z : nat -> vec, length (z 0%nat) = nx -> sup (z 0%nat) <= rho -> (forall t, F (z t) (mv K (z t)) (z (Datatypes.S t))) ->
  forall t, sup (z t) <= c * (3 / 4) ^ (t / m) * sup (z 0%nat).
Proof. exact (lqr_local np S Q Rm nx nu P K F). Qed.
Print Assumptions C95_local.

(** The vector field of the script has a value at every state and input, in all three modes (no division by zero), for all positive masses and lengths *)
Theorem C95_total mc mp l d k g x u :
  0 < mc -> 0 < mp -> 0 < l -> exists f, cart_flow mc mp l d k g x u = Ok f /\ length f = 4%nat.
Proof. exact (cart_flow_ok mc mp l d k g x u). Qed.
Print Assumptions C95_total.

(** The LQR gain that the notebook computes for its linearized cart-pole between the walls stabilizes the nonlinear cart-pole of the script locally: for all positive masses, lengths, gaps and steps there are rho > 0, c and m such that every run of the explicit Euler discretization of the nonlinear three-mode dynamics with u = K x and |x(0)| <= rho satisfies |x(t)| <= c (3/4)^(t / m) |x(0)| *)
Theorem C95_stabilized np mc mp l d k g h S1 S2 S3 Q Rm P K :
  0 < mc -> 0 < mp -> 0 < l -> 0 < d -> 0 < h -> cart_systems np mc mp l d k g h = Ok (S1, S2, S3) -> lqr_problem np S2 Q Rm 4 1 -> fst (solve_dare np S2 Q Rm) = Ok (P, K) ->
  exists m c rho, (0 < m)%nat /\ 0 <= c /\ 0 < rho /\ forall z : nat -> vec, length (z 0%nat) = 4%nat -> sup (z 0%nat) <= rho ->
  (forall t, exists f, cart_flow mc mp l d k g (z t) (mv K (z t)) = Ok f /\ z (S t) = vadd (z t) (vscale h f)) ->
  forall t, sup (z t) <= c * (3 / 4) ^ (t / m) * sup (z 0%nat).
Proof. exact (cart_stabilized np mc mp l d k g h S1 S2 S3 Q Rm P K). Qed.
Print Assumptions C95_stabilized.

(** The numbers of the notebook and of the script (Q and R identities): there are exact libraries for which the hypotheses of C95_stabilized hold, and from every state there is a run of the closed loop *)
Example C95_stabilized_example :
  exists np S1 S2 S3 P K, cart_systems np 1 1 1 1 100 10 (/ 20) = Ok (S1, S2, S3) /\ lqr_problem np S2 (eye 4) (eye 1) 4 1 /\ fst (solve_dare np S2 (eye 4) (eye 1)) = Ok (P, K) /\
  forall x0, length x0 = 4%nat -> exists z, z 0%nat = x0 /\ forall t, exists f, cart_flow 1 1 1 1 100 10 (z t) (mv K (z t)) = Ok f /\ z (S t) = vadd (z t) (vscale (/ 20) f).
Proof. exact (cart_stabilized_example). Qed.
