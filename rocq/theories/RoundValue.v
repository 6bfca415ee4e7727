(** * RoundValue: the stored optimal value with rounded arithmetic

    As in [Round] and [RoundExpl]; sizes that match. *)
From Verif Require Import Arr Polyhedron Dynamics Pnnls Mpqp Controllers Round RoundExpl.

Section RoundValue.
Variable rnd : R -> R.
(** parametric_programs.py:396: .5*x.dot(V['xx']).dot(x) + V['x'].dot(x) + V['0'], evaluated from left to right *)
Definition fl_cr_V (c : critical_region) (x : vec) (v : R) : Prop :=
  exists y s l, fl_mv rnd (tr (cr_Vxx c)) x y /\ fl_dot rnd (combine y x) s /\ fl_dot rnd (combine (cr_Vx c) x) l /\
    v = rnd (rnd (rnd (/ 2 * s) + l) + cr_V0 c).
(** parametric_programs.py:511-532 *)
Definition fl_es_V (crs : list critical_region) (x : vec) (r : res (option R)) : Prop :=
  exists q, fl_lookup rnd x crs q /\
  match q with
  | Err e => r = Err e
  | Ok None => r = Ok None
  | Ok (Some c) => exists v, fl_cr_V c x v /\ r = Ok (Some v)
  end.
(** controllers.py:138-164, with the value that [fl_feedforward_explicit] leaves out *)
Definition fl_feedforward_both (C : mpc) (es : option (list critical_region)) (x : vec) (r : res (option (list vec) * option R)) : Prop :=
  match es with
  | None => r = Err ValueError
  | Some crs => exists q q', fl_es_u rnd crs x q /\ fl_es_V crs x q' /\
      r = (u <- q ;; V <- q' ;; Ok (match u with Some u => Some (split_inputs (lnu (c_S C)) (c_N C) u) | None => None end, V))
  end.
End RoundValue.
