(** * PropsCondense: the property theorems of this part, restated; proofs are in CondenseThms.
    Generated by tools/gen_props.py: this file contains only statements, [exact] and Print Assumptions. *)
From Coq Require Import ZArith.
From Verif Require Import Arr ArrFacts Spec SpecDyn Numpy Pnnls PnnlsFacts GeomUtils Polyhedron PolyThms Dynamics DynThms.
From Verif Require Import CondenseThms.

(** For every non-empty mode sequence condense returns matrices of the expected shapes with A_bar x0 + B_bar u_bar + c_bar = (x(0), ..., x(N)), for every initial state and inputs. *)
Theorem C27_condensed_dynamics S modes nx nu :
  coherent_systems S nx nu -> modes <> [] -> (forall m, In m modes -> (m < length S)%nat) ->
  let N := length modes in
  exists A_bar B_bar c_bar, condense_pwa_system S modes = Ok (A_bar, B_bar, c_bar) /\
    shape A_bar (nx * (N + 1)) nx /\ shape B_bar (nx * (N + 1)) (nu * N) /\ length c_bar = (nx * (N + 1))%nat /\
    forall x0 u xs, length x0 = nx -> length u = N -> Forall (fun v => length v = nu) u ->
      is_switched_trajectory (map aA S) (map aB S) (map ac S) modes x0 u xs ->
      vadd (vadd (mv A_bar x0) (mv B_bar (List.concat u))) c_bar = List.concat xs.
Proof. exact (condensed_dynamics S modes nx nu). Qed.
Print Assumptions C27_condensed_dynamics.

(** AffineSystem.condense(N), N >= 1: the stacked states are those of simulate. *)
Theorem C27_affine_condense A B c nx nu N :
  system_shape A B nx nu -> length c = nx -> (0 < N)%nat ->
  exists A_bar B_bar c_bar, aff_condense (ASys A B c) N = Ok (A_bar, B_bar, c_bar) /\
    shape A_bar (nx * (N + 1)) nx /\ shape B_bar (nx * (N + 1)) (nu * N) /\ length c_bar = (nx * (N + 1))%nat /\
    forall x0 u, length x0 = nx -> length u = N -> Forall (fun v => length v = nu) u ->
      exists xs, aff_simulate (ASys A B c) x0 u = Ok xs /\
        vadd (vadd (mv A_bar x0) (mv B_bar (List.concat u))) c_bar = List.concat xs.
Proof. exact (affine_condense A B c nx nu N). Qed.
Print Assumptions C27_affine_condense.

(** LinearSystem.condense(N), N >= 1: A_bar x0 + B_bar u_bar stacks the states of simulate. *)
Theorem C27_linear_condense A B k nx nu N :
  system_shape A B nx nu -> (0 < N)%nat ->
  exists A_bar B_bar, lin_condense (LSys A B k) N = Ok (A_bar, B_bar) /\
    shape A_bar (nx * (N + 1)) nx /\ shape B_bar (nx * (N + 1)) (nu * N) /\
    forall x0 u, length x0 = nx -> length u = N -> Forall (fun v => length v = nu) u ->
      exists xs, lin_simulate (LSys A B k) x0 u = Ok xs /\ vadd (mv A_bar x0) (mv B_bar (List.concat u)) = List.concat xs.
Proof. exact (linear_condense A B k nx nu N). Qed.
Print Assumptions C27_linear_condense.

(** The empty mode sequence (horizon zero) is rejected with ValueError. *)
Theorem C27_empty_sequence_raises S0 S :
  condense_pwa_system (S0 :: S) [] = Err ValueError.
Proof. exact (condense_empty S0 S). Qed.
Print Assumptions C27_empty_sequence_raises.

(** A mode beyond the last one is rejected with IndexError. *)
Theorem C27_unknown_mode_raises S modes m :
  S <> [] -> In m modes -> (length S <= m)%nat -> condense_pwa_system S modes = Err IndexError.
Proof. exact (condense_unknown S modes m). Qed.
Print Assumptions C27_unknown_mode_raises.

(** Modes 0, 1 of a scalar system with two modes: the condensed matrices. *)
Example C27_example :
  let S := [ASys (Mat 1 [[2]]) (Mat 1 [[1]]) [5]; ASys (Mat 1 [[3]]) (Mat 1 [[4]]) [7]] in
  coherent_systems S 1 1 /\
  condense_pwa_system S [0%nat; 1%nat] = Ok (Mat 1 [[1]; [2]; [6]], Mat 2 [[0; 0]; [1; 0]; [3; 4]], [0; 5; 22]).
Proof. exact (condense_example). Qed.
