(** * PropsCartDyn: the property theorems of this part, restated; proofs are in CartDynThms.
    Generated by tools/gen_props.py: this file contains only statements, [exact] and Print Assumptions. *)
From Coq Require Import Lra Lia.
From Verif Require Import Arr ArrFacts Spec SpecDyn SpecSym SpecRound SpecCart RoundSimThms Symbolic SymThms Walls CartDyn.
From Verif Require Import CartDynThms.

(** In each of the three modes, for all positive masses and lengths, a motion of the cart and the pole satisfies the Euler-Lagrange equations of the physical system (cart, point mass at the tip, gravity, the spring of the mode; force u on the cart) at the time t if and only if the vector field f computed by cart_pole_dynamics.m gives its velocities and accelerations *)
Theorem C95_equations mc mp l d k g U k' e q1 q2 v1 v2 t u a1 a2 env :
  0 < mc -> 0 < mp -> 0 < l -> In (U, k', e) (springs mp l d k g) ->
  (forall s, derivable_pt_lim q1 s (v1 s)) -> (forall s, derivable_pt_lim q2 s (v2 s)) -> derivable_pt_lim v1 t a1 -> derivable_pt_lim v2 t a2 ->
  env = cart_env [q1 t; q2 t; v1 t; v2 t] [u] ->
  euler_lagrange (lagrangian mc mp l g k' e) u 0 q1 q2 v1 v2 t <-> map (value env) (ff mc mp l U) = map Some [v1 t; v2 t; a1; a2].
Proof. exact (script_motion mc mp l d k g U k' e q1 q2 v1 v2 t u a1 a2 env). Qed.
Print Assumptions C95_equations.

(** Along every motion that follows the vector field of a mode, the total energy (kinetic, gravity, spring) grows at the rate u v1, the power of the input *)
Theorem C95_energy mc mp l d k g U k' e q1 q2 v1 v2 t u a1 a2 env :
  0 < mc -> 0 < mp -> 0 < l -> In (U, k', e) (springs mp l d k g) ->
  (forall s, derivable_pt_lim q1 s (v1 s)) -> (forall s, derivable_pt_lim q2 s (v2 s)) -> derivable_pt_lim v1 t a1 -> derivable_pt_lim v2 t a2 ->
  env = cart_env [q1 t; q2 t; v1 t; v2 t] [u] -> map (value env) (ff mc mp l U) = map Some [v1 t; v2 t; a1; a2] ->
  derivable_pt_lim (fun s => energy mc mp l g k' e (q1 s) (q2 s) (v1 s) (v2 s)) t (u * v1 t).
Proof. exact (script_energy mc mp l d k g U k' e q1 q2 v1 v2 t u a1 a2 env). Qed.
Print Assumptions C95_energy.

(** The linearizations the script prints for the modes 0, 1, 2 are, for all positive masses and lengths and all d, k, g, the matrices that hybrid_mpc_2.ipynb contains as constants *)
Theorem C95_notebook mc mp l d k g :
  0 < mc -> 0 < mp -> 0 < l ->
  cart_script mc mp l d k g = Ok ((cart_A_wall mc mp l k g, cart_B mc l, [0; 0; 0; (d * k) / (l * mp)]), (cart_A_free mc mp l g, cart_B mc l, zeros 4), (cart_A_wall mc mp l k g, cart_B mc l, [0; 0; 0; - (d * k) / (l * mp)])).
Proof. exact (script_notebook mc mp l d k g). Qed.
Print Assumptions C95_notebook.

(** In each mode the affine model A x + B u + c of the script differs from its vector field by at most K r^2, for all states and inputs with entries at most r <= 1, with one constant K for the parameters *)
Theorem C95_error mc mp l d k g U k' e A B c :
  0 < mc -> 0 < mp -> 0 < l -> In (U, k', e) (springs mp l d k g) -> linearize mc mp l U = Ok (A, B, c) ->
  exists K, 0 <= K /\ forall x u r, length x = 4%nat -> length u = 1%nat -> 0 <= r <= 1 -> sup x <= r -> sup u <= r ->
  exists f, map (value (cart_env x u)) (ff mc mp l U) = map Some f /\ length f = 4%nat /\ sup (vsub f (affine_step A B c x u)) <= K * (r * r).
Proof. exact (script_error mc mp l d k g U k' e A B c). Qed.
Print Assumptions C95_error.

(** The numbers of the script (mc = mp = l = d = 1, k = 100, g = 10): the cart oscillates as 1 + cos(10 t) with the pole upright, pushed by u = -100 cos(10 t), against the spring of mode 2. The motion meets the hypotheses of C95_equations and satisfies the Euler-Lagrange equations at all times *)
Example C95_example :
  let q1 := fun t => 1 + cos (10 * t) in let v1 := fun t => - (10 * sin (10 * t)) in let o := fun _ : R => 0 in In (U2 1 1 1 100 10, 100, 1) (springs 1 1 1 100 10) /\
  (forall s, derivable_pt_lim q1 s (v1 s)) /\ (forall s, derivable_pt_lim o s (o s)) /\ (forall t, derivable_pt_lim v1 t (- (100 * cos (10 * t)))) /\
  forall t, euler_lagrange (lagrangian 1 1 1 10 100 1) (- (100 * cos (10 * t))) 0 q1 o v1 o t.
Proof. exact (script_example). Qed.
