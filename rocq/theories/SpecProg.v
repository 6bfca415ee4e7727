(** * SpecProg: mathematical programs with tiny entries and binary variables -- independently of the code model *)
From Verif Require Import Arr Spec.

(** entries of absolute value at most 1e-9 replaced by zero *)
Definition cut (a : R) : R := if Rle_dec (Rabs a) (/ 10 ^ 9) then 0 else a.
Definition vcut (v : vec) : vec := map cut v.
Definition mcut (M : mat) : mat := Mat (ncols M) (map vcut (rows M)).
(** no entry is that small, except exact zeros *)
Definition sharp (v : vec) : Prop := forall a, In a v -> a = 0 \/ / 10 ^ 9 < Rabs a.
Definition msharp (M : mat) : Prop := forall r, In r (rows M) -> sharp r.

(** mixed-integer quadratic programs: the variables from number nc on are 0 or 1 *)
Definition binary_from (nc : nat) (x : vec) : Prop := Forall (fun a => a = 0 \/ a = 1) (skipn nc x).
Definition miqp_feasible (nc : nat) (A : mat) (b : vec) (C : mat) (d : vec) (x : vec) : Prop :=
  in_set A b C d x /\ binary_from nc x.
Definition miqp_optimal (nc : nat) (H : mat) (f : vec) (A : mat) (b : vec) (C : mat) (d : vec) (x : vec) : Prop :=
  miqp_feasible nc A b C d x /\ forall y, miqp_feasible nc A b C d y -> qp_cost H f x <= qp_cost H f y.

(** coherent shapes of a linear (H = None) or quadratic program; none of its entries is tiny *)
Definition prog_data (H : option mat) (f : vec) (A : mat) (b : vec) (C : mat) (d : vec) (m me n : nat) : Prop :=
  shape A m n /\ length b = m /\ shape C me n /\ length d = me /\ length f = n /\ match H with Some H => shape H n n | None => True end.
Definition sharp_data (H : option mat) (f : vec) (A : mat) (b : vec) (C : mat) (d : vec) : Prop :=
  match H with Some H => msharp H | None => True end /\ sharp f /\ msharp A /\ sharp b /\ msharp C /\ sharp d.
