(** * Round: the membership test and the simulations with rounded arithmetic

    The rest of the model computes with exact real numbers.  Here the arithmetic operations of four methods are rounded:
    [rnd] maps the exact result of one operation to the float that is stored (float64 without overflow; nan and inf are
    not modelled).  The entries of the arrays are the real numbers that the floats denote.  Since BLAS may sum the products
    of A.dot(x) in any order, in blocks and with fused multiply-add, a dot product is not a function but the relation
    [fl_dot]; comparisons, max and abs are exact. *)
From Coq Require Import Permutation.
From Verif Require Import Arr Polyhedron Dynamics Pnnls.

Section Round.
Variable rnd : R -> R.

(** s is a possible result of the sum of the products of the pairs *)
Inductive fl_dot : list (R * R) -> R -> Prop :=
| fd_nil : fl_dot [] 0
| fd_one a x : fl_dot [(a, x)] (rnd (a * x))
| fd_add l1 l2 s1 s2 : l1 <> [] -> l2 <> [] -> fl_dot l1 s1 -> fl_dot l2 s2 -> fl_dot (l1 ++ l2) (rnd (s1 + s2))
| fd_fma l s a x : l <> [] -> fl_dot l s -> fl_dot (l ++ [(a, x)]) (rnd (s + a * x))
| fd_perm l l' s : Permutation l l' -> fl_dot l s -> fl_dot l' s.
(** A.dot(x) for a vector x, and A.dot(B) row by row *)
Definition fl_mv (A : mat) (x y : vec) : Prop := Forall2 (fun r s => fl_dot (combine r x) s) (rows A) y.
Definition fl_mm (A B M : mat) : Prop := ncols M = ncols B /\
  Forall2 (fun r q => Forall2 (fun c s => fl_dot (combine r c) s) (rows (tr B)) q) (rows A) (rows M).
(** elementwise + and - *)
Definition fl_vadd (x y : vec) : vec := map2 (fun a b => rnd (a + b)) x y.
Definition fl_vsub (x y : vec) : vec := map2 (fun a b => rnd (a - b)) x y.
Definition fl_madd (A B : mat) : mat := Mat (ncols A) (map2 fl_vadd (rows A) (rows B)).

(** polyhedron.py:596, 601: np.max(A.dot(x) - b) *)
Definition fl_residual (A : mat) (x b : vec) (q : res R) : Prop :=
  if Nat.eqb (ncols A) (length x) then exists y, fl_mv A x y /\ q = vmax (fl_vsub y b) else q = Err ValueError.
(** polyhedron.py:578-604 *)
Definition fl_contains (tol : R) (p : poly) (x : vec) (r : res bool) : Prop :=
  exists q, fl_residual (pA p) x (pb p) q /\
  match q with
  | Err e => r = Err e
  | Ok mx => if (0 <? nrows (pC p))%nat then exists q', fl_residual (pC p) x (pd p) q' /\
                 r = (me <- q' ;; Ok (Rleb mx tol && Rleb (Rabs me) tol)%bool)
             else r = Ok (Rleb mx tol)
  end.

(** discrete_time_systems.py:64: the next state of a linear system *)
Definition fl_lin_step (S : lsys) (x v x' : vec) : Prop :=
  exists a b, fl_mv (lA S) x a /\ fl_mv (lB S) v b /\ x' = fl_vadd a b.
(** discrete_time_systems.py:335, 528: the next state of an affine system *)
Definition fl_aff_step (S : asys) (x v x' : vec) : Prop :=
  exists a b, fl_mv (aA S) x a /\ fl_mv (aB S) v b /\ x' = fl_vadd (fl_vadd a b) (ac S).
(** discrete_time_systems.py:44-66, 315-337: a list of states that [simulate] can return (sizes that match) *)
Inductive fl_run (step : vec -> vec -> vec -> Prop) : vec -> list vec -> list vec -> Prop :=
| fl_run_nil x : fl_run step x [] [x]
| fl_run_cons x v x' us xs : step x v x' -> fl_run step x' us xs -> fl_run step x (v :: us) (x :: xs).
Definition fl_lin_simulate (S : lsys) : vec -> list vec -> list vec -> Prop := fl_run (fl_lin_step S).
Definition fl_aff_simulate (S : asys) : vec -> list vec -> list vec -> Prop := fl_run (fl_aff_step S).
(** discrete_time_systems.py:68-92: (A + B.dot(K)).dot(x), evaluated anew at every step *)
Definition fl_closed_step (S : lsys) (K : mat) (x x' : vec) : Prop :=
  exists BK, fl_mm (lB S) K BK /\ fl_mv (fl_madd (lA S) BK) x x'.
Inductive fl_closed_loop (S : lsys) (K : mat) : vec -> nat -> list vec -> Prop :=
| fl_closed_O x : fl_closed_loop S K x 0 [x]
| fl_closed_S x x' N xs : fl_closed_step S K x x' -> fl_closed_loop S K x' N xs -> fl_closed_loop S K x (Datatypes.S N) (x :: xs).

(** discrete_time_systems.py:533-556 *)
Inductive fl_mode_from (xu : vec) : nat -> list poly -> res (option nat) -> Prop :=
| fl_mode_nil i : fl_mode_from xu i [] (Ok None)
| fl_mode_err i d D e : fl_contains tol7 d xu (Err e) -> fl_mode_from xu i (d :: D) (Err e)
| fl_mode_in i d D : fl_contains tol7 d xu (Ok true) -> fl_mode_from xu i (d :: D) (Ok (Some i))
| fl_mode_out i d D r : fl_contains tol7 d xu (Ok false) -> fl_mode_from xu (Datatypes.S i) D r -> fl_mode_from xu i (d :: D) r.
Definition fl_get_mode (W : pwa) (x u : vec) (r : res (option nat)) : Prop := fl_mode_from (x ++ u) 0 (w_dom W) r.
(** discrete_time_systems.py:493-531 *)
Inductive fl_pwa_simulate (W : pwa) : vec -> list vec -> res (list vec * list nat) -> Prop :=
| fl_pwa_nil x : fl_pwa_simulate W x [] (Ok ([x], []))
| fl_pwa_raise x v us e : fl_get_mode W x v (Err e) -> fl_pwa_simulate W x (v :: us) (Err e)
| fl_pwa_none x v us : fl_get_mode W x v (Ok None) -> fl_pwa_simulate W x (v :: us) (Err ValueError)
| fl_pwa_index x v us m : fl_get_mode W x v (Ok (Some m)) -> nth_error (w_sys W) m = None -> fl_pwa_simulate W x (v :: us) (Err IndexError)
| fl_pwa_step x v us m s x' q : fl_get_mode W x v (Ok (Some m)) -> nth_error (w_sys W) m = Some s -> fl_aff_step s x v x' ->
    fl_pwa_simulate W x' us q -> fl_pwa_simulate W x (v :: us) (r <- q ;; Ok (x :: fst r, m :: snd r)).
End Round.
