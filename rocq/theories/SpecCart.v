(** * SpecCart: mechanics of the cart-pole -- independently of the code model *)
From Verif Require Import Arr Spec.

(** horizontal position of the tip of the pole: q1 is the position of the cart, q2 the angle of the pole, counterclockwise from the vertical *)
Definition tip (l q1 q2 : R) : R := q1 - l * sin q2.
(** kinetic energy of the cart and of the mass at the tip, for velocities v1, v2 *)
Definition kinetic (mc mp l q2 v1 v2 : R) : R := / 2 * mc * (v1 * v1) + / 2 * mp * ((v1 - l * cos q2 * v2) * (v1 - l * cos q2 * v2) + l * sin q2 * v2 * (l * sin q2 * v2)).
(** potential energy: gravity, and a linear spring of stiffness k whose rest position is e, attached to the tip *)
Definition potential (mp l g k e q1 q2 : R) : R := mp * g * (l * cos q2) + / 2 * k * ((tip l q1 q2 - e) * (tip l q1 q2 - e)).
Definition lagrangian (mc mp l g k e q1 q2 v1 v2 : R) : R := kinetic mc mp l q2 v1 v2 - potential mp l g k e q1 q2.
Definition energy (mc mp l g k e q1 q2 v1 v2 : R) : R := kinetic mc mp l q2 v1 v2 + potential mp l g k e q1 q2.

(** g1, g2, p1, p2 are the partial derivatives of L *)
Definition partials (L g1 g2 p1 p2 : R -> R -> R -> R -> R) : Prop := forall q1 q2 v1 v2,
  derivable_pt_lim (fun s => L s q2 v1 v2) q1 (g1 q1 q2 v1 v2) /\ derivable_pt_lim (fun s => L q1 s v1 v2) q2 (g2 q1 q2 v1 v2) /\
  derivable_pt_lim (fun s => L q1 q2 s v2) v1 (p1 q1 q2 v1 v2) /\ derivable_pt_lim (fun s => L q1 q2 v1 s) v2 (p2 q1 q2 v1 v2).
(** d/dt (dL/dv_i) - dL/dq_i = F_i at the time t, along the motion q1, q2 with the velocities v1, v2 *)
Definition euler_lagrange (L : R -> R -> R -> R -> R) (F1 F2 : R) (q1 q2 v1 v2 : R -> R) (t : R) : Prop :=
  exists g1 g2 p1 p2, partials L g1 g2 p1 p2 /\
  derivable_pt_lim (fun s => p1 (q1 s) (q2 s) (v1 s) (v2 s)) t (g1 (q1 t) (q2 t) (v1 t) (v2 t) + F1) /\
  derivable_pt_lim (fun s => p2 (q1 s) (q2 s) (v1 s) (v2 s)) t (g2 (q1 t) (q2 t) (v1 t) (v2 t) + F2).
(** accelerations of the cart and of the angle under a horizontal force u on the cart *)
Definition cart_acceleration (mc mp l g k e q1 q2 v1 v2 u : R) : R :=
  (u + mp * sin q2 * (g * cos q2 - l * (v2 * v2)) - k * (tip l q1 q2 - e) * (sin q2 * sin q2)) / (mc + mp * (sin q2 * sin q2)).
Definition pole_acceleration (mc mp l g k e q1 q2 v1 v2 u : R) : R :=
  (u * cos q2 + (mc + mp) * g * sin q2 - mp * l * sin q2 * cos q2 * (v2 * v2) + mc / mp * k * (tip l q1 q2 - e) * cos q2) / (l * (mc + mp * (sin q2 * sin q2))).
(** the cart-pole between two elastic walls at -d and d: the wall pushes back on the tip as a linear spring of stiffness k as long as the tip is beyond it *)
Definition wall_potential (mp l g k d q1 q2 : R) : R :=
  mp * g * (l * cos q2) + / 2 * k * (Rmax 0 (tip l q1 q2 - d) * Rmax 0 (tip l q1 q2 - d)) + / 2 * k * (Rmax 0 (- d - tip l q1 q2) * Rmax 0 (- d - tip l q1 q2)).
Definition wall_lagrangian (mc mp l g k d q1 q2 v1 v2 : R) : R := kinetic mc mp l q2 v1 v2 - wall_potential mp l g k d q1 q2.
Definition wall_energy (mc mp l g k d q1 q2 v1 v2 : R) : R := kinetic mc mp l q2 v1 v2 + wall_potential mp l g k d q1 q2.
