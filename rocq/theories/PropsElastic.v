(** * PropsElastic: the property theorems of this part, restated; proofs are in ElasticThms.
    Generated by tools/gen_props.py: this file contains only statements, [exact] and Print Assumptions. *)
From Coq Require Import Lra Lia.
From Verif Require Import Arr ArrFacts Spec SpecDyn SpecSym SpecCart Symbolic SymThms CartDyn CartDynThms LocalThms.
From Verif Require Import ElasticThms.

(** The three modes together are the cart-pole between two elastic walls: at all states, also on the boundaries of the modes, a motion satisfies the Euler-Lagrange equations of the wall potential k/2 max(0, tip - d)^2 + k/2 max(0, -d - tip)^2 if and only if the vector field of the script in the mode of the state gives its velocities and accelerations *)
Theorem C95_walls mc mp l d k g (q1 q2 v1 v2 : R -> R) t u a1 a2 :
  0 < mc -> 0 < mp -> 0 < l -> 0 <= d ->
  (forall s, derivable_pt_lim q1 s (v1 s)) -> (forall s, derivable_pt_lim q2 s (v2 s)) -> derivable_pt_lim v1 t a1 -> derivable_pt_lim v2 t a2 ->
  euler_lagrange (wall_lagrangian mc mp l g k d) u 0 q1 q2 v1 v2 t <-> cart_flow mc mp l d k g [q1 t; q2 t; v1 t; v2 t] [u] = Ok [v1 t; v2 t; a1; a2].
Proof. exact (elastic_motion mc mp l d k g q1 q2 v1 v2 t u a1 a2). Qed.
Print Assumptions C95_walls.

(** Without input, the total energy (kinetic, gravity, walls) of a motion that follows the three-mode vector field from the time T to the time T' does not change, whatever contacts are made or lost in between *)
Theorem C95_conservation mc mp l d k g (q1 q2 v1 v2 a1 a2 : R -> R) T T' :
  0 < mc -> 0 < mp -> 0 < l -> 0 <= d -> T <= T' ->
  (forall s, derivable_pt_lim q1 s (v1 s)) -> (forall s, derivable_pt_lim q2 s (v2 s)) -> (forall s, derivable_pt_lim v1 s (a1 s)) -> (forall s, derivable_pt_lim v2 s (a2 s)) ->
  (forall t, T <= t <= T' -> cart_flow mc mp l d k g [q1 t; q2 t; v1 t; v2 t] [0] = Ok [v1 t; v2 t; a1 t; a2 t]) ->
  wall_energy mc mp l g k d (q1 T) (q2 T) (v1 T) (v2 T) = wall_energy mc mp l g k d (q1 T') (q2 T') (v1 T') (v2 T').
Proof. exact (elastic_conservation mc mp l d k g q1 q2 v1 v2 a1 a2 T T'). Qed.
Print Assumptions C95_conservation.

(** The numbers of the script. In contact with the right wall: the motion 1 + cos(10 t) of C95_example, with u = -100 cos(10 t), at the time 0 (the tip is at 2, one unit beyond the wall). Without input: the cart moves with speed 1 from -1 to 1, the pole upright, and meets the hypotheses of C95_conservation from the time -1 to the time 1 *)
Example C95_walls_example :
  cart_flow 1 1 1 1 100 10 [1 + cos (10 * 0); 0; - (10 * sin (10 * 0)); 0] [- (100 * cos (10 * 0))] = Ok [- (10 * sin (10 * 0)); 0; - (100 * cos (10 * 0)); 0] /\
  forall t, -1 <= t <= 1 -> cart_flow 1 1 1 1 100 10 [t; 0; 1; 0] [0] = Ok [1; 0; 0; 0].
Proof. exact (elastic_example). Qed.
