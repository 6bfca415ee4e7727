(** * PropsZoh: the property theorems of this part, restated; proofs are in ZohThms.
    Generated by tools/gen_props.py: this file contains only statements, [exact] and Print Assumptions. *)
From Coq Require Import Rseries SeqProp Lra Lia String.
From Verif Require Import Arr ArrFacts Spec Numpy Pnnls GeomUtils Polyhedron SpecDyn Dynamics Oracle PolyMore DynThms.
From Verif Require Import ZohThms.
Local Open Scope list_scope.

(** If the library computes the matrix exponential exactly, zero_order_hold(A, B, c, h) returns A_d, B_d, c_d such that every solution of dx/dt = A x + B u + c with constant u satisfies x(h) = A_d x(0) + B_d u + c_d. *)
Theorem C34_zero_order_hold np A B c nx nu h :
  system_shape A B nx nu -> length c = nx -> 0 <= h ->
  is_expm (mscale h (zoh_matrix A B c)) (np_expm np (mscale h (zoh_matrix A B c))) (nx + nu + 1) ->
  exists A_d B_d c_d, zero_order_hold np A B (D1 c) h = Ok (A_d, B_d, c_d) /\ system_shape A_d B_d nx nu /\ length c_d = nx /\
    forall u x, length u = nu -> ode_solution A B c u nx h x -> x h = vadd (vadd (mv A_d (x 0)) (mv B_d u)) c_d.
Proof. exact (zoh_ok np A B c nx nu h). Qed.
Print Assumptions C34_zero_order_hold.

(** There is a library with an exact matrix exponential; for dx/dt = u + 1 it satisfies the hypothesis of the theorem for every h, and x(t) = x0 + (u + 1) t is a solution, so A_d x0 + B_d u + c_d = x0 + (u + 1) h. *)
Example C34_zoh_example h x0 u :
  0 <= h ->
  let A := Mat 1 [[0]] in let B := Mat 1 [[1]] in let c := [1] in
  system_shape A B 1 1 /\ is_expm (mscale h (zoh_matrix A B c)) (np_expm np_exp (mscale h (zoh_matrix A B c))) 3 /\
  ode_solution A B c [u] 1 h (fun t => [x0 + (u + 1) * t]) /\
  exists A_d B_d c_d, zero_order_hold np_exp A B (D1 c) h = Ok (A_d, B_d, c_d) /\ vadd (vadd (mv A_d [x0]) (mv B_d [u])) c_d = [x0 + (u + 1) * h].
Proof. exact (zoh_example h x0 u). Qed.
