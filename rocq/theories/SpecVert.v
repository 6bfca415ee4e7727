(** * SpecVert: extreme points, independently of the code model *)
From Verif Require Import Arr Spec.

(** v is in S and not the midpoint of two different points of S *)
Definition extreme (S : vec -> Prop) (v : vec) : Prop :=
  S v /\ forall y z, S y -> S z -> vscale 2 v = vadd y z -> y = z.
(** the points of A x <= b *)
Definition ineq_set (A : mat) (b : vec) (x : vec) : Prop := length x = ncols A /\ ineq_holds A b x.
(** c satisfies all the inequalities strictly *)
Definition strictly_inside (A : mat) (b : vec) (c : vec) : Prop :=
  length c = ncols A /\ Forall2 (fun a bi => dot a c < bi) (rows A) b.
