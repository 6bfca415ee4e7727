(** * SpecDisj: unions of polytopes, their convex hulls, and the big-M relaxation, independently of the code model *)
From Verif Require Import Arr Spec.

(** the points of A x <= b *)
Definition points (A : mat) (b : vec) (x : vec) : Prop := length x = ncols A /\ ineq_holds A b x.
(** convex combinations of finitely many points of T *)
Definition conv (n : nat) (T : vec -> Prop) (x : vec) : Prop := exists pts, Forall T pts /\ in_hull n pts x.
Definition union (S T : vec -> Prop) (x : vec) : Prop := S x \/ T x.
(** the big-M constraints as written in the notebook: A_1 x <= b_1 + M delta, A_2 x <= b_2 + M (1 - delta) *)
Definition big_m (A1 : mat) (b1 : vec) (A2 : mat) (b2 M : vec) (x : vec) (delta : R) : Prop :=
  points A1 (vadd b1 (vscale delta M)) x /\ points A2 (vadd b2 (vscale (1 - delta) M)) x.
