(** * SpecSym: symbolic expressions and their values -- independently of the code model *)
From Verif Require Import Arr Spec.

(** expressions in the symbols number 0, 1, .. *)
Inductive sx : Type :=
| SVar (i : nat) | SNum (r : R) | SAdd (e f : sx) | SMul (e f : sx) | SDiv (e f : sx) | SPow (e : sx) (n : nat)
| SSqrt (e : sx) | SSin (e : sx) | SCos (e : sx) | SExp (e : sx).

Definition omap (f : R -> option R) (a : option R) : option R := match a with Some v => f v | None => None end.
Definition omap2 (f : R -> R -> option R) (a b : option R) : option R :=
  match a, b with Some v, Some w => f v w | _, _ => None end.
(** the value of an expression, if defined, when the symbol number i has the value [env i] *)
Fixpoint value (env : nat -> R) (e : sx) : option R :=
  match e with
  | SVar i => Some (env i)
  | SNum r => Some r
  | SAdd e f => omap2 (fun v w => Some (v + w)) (value env e) (value env f)
  | SMul e f => omap2 (fun v w => Some (v * w)) (value env e) (value env f)
  | SDiv e f => omap2 (fun v w => if Req_EM_T w 0 then None else Some (v / w)) (value env e) (value env f)
  | SPow e n => omap (fun v => Some (v ^ n)) (value env e)
  | SSqrt e => omap (fun v => if Rlt_dec v 0 then None else Some (sqrt v)) (value env e)
  | SSin e => omap (fun v => Some (sin v)) (value env e)
  | SCos e => omap (fun v => Some (cos v)) (value env e)
  | SExp e => omap (fun v => Some (exp v)) (value env e)
  end.

(** denominators never vanish and the arguments of square roots are positive, at every point; in particular all
    expressions without divisions and square roots *)
Fixpoint regular (e : sx) : Prop :=
  match e with
  | SVar _ | SNum _ => True
  | SAdd e f | SMul e f => regular e /\ regular f
  | SDiv e f => regular e /\ regular f /\ forall env, value env f <> Some 0
  | SSqrt e => regular e /\ forall env v, value env e = Some v -> 0 < v
  | SPow e _ | SSin e | SCos e | SExp e => regular e
  end.

(** the symbols xs take the values x *)
Definition assigns (env : nat -> R) (xs : list nat) (x : vec) : Prop := map env xs = x.
(** at every point the expressions es have the values A x - b, where x are the values of the symbols xs *)
Definition is_affine_map (xs : list nat) (es : list sx) (A : mat) (b : vec) : Prop :=
  shape A (length es) (length xs) /\ length b = length es /\
  forall env, map (value env) es = map Some (vsub (mv A (map env xs)) b).
(** there are such A and b *)
Definition affine_in (xs : list nat) (es : list sx) : Prop := exists A b, is_affine_map xs es A b.

(** expressions without symbols *)
Fixpoint closed (e : sx) : Prop :=
  match e with
  | SVar _ => False
  | SNum _ => True
  | SAdd e f | SMul e f | SDiv e f => closed e /\ closed f
  | SPow e _ | SSqrt e | SSin e | SCos e | SExp e => closed e
  end.
(** sums and multiples (by expressions without symbols) of symbols of xs and of numbers *)
Inductive affine_syntax (xs : list nat) : sx -> Prop :=
| as_var i : In i xs -> affine_syntax xs (SVar i)
| as_num e : closed e -> regular e -> affine_syntax xs e
| as_add e f : affine_syntax xs e -> affine_syntax xs f -> affine_syntax xs (SAdd e f)
| as_mul e f : closed e -> regular e -> affine_syntax xs f -> affine_syntax xs (SMul e f)
| as_mul' e f : affine_syntax xs e -> closed f -> regular f -> affine_syntax xs (SMul e f)
| as_div e f : affine_syntax xs e -> closed f -> regular f -> (forall env, value env f <> Some 0) -> affine_syntax xs (SDiv e f).

(** the constraints e <= 0 and e = 0 hold at a point *)
Definition nonpositive (env : nat -> R) (e : sx) : Prop := exists v, value env e = Some v /\ v <= 0.
Definition vanishes (env : nat -> R) (e : sx) : Prop := value env e = Some 0.
