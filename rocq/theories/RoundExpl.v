(** * RoundExpl: the explicit controller with rounded arithmetic

    As in [Round]: the stored arrays are the real numbers their floats denote, every operation is rounded by [rnd], and dot
    products may be summed in any order.  The value V(x), which feedforward_explicit also computes, is left out: feedback_explicit
    discards it, and it raises only if the lookup, made a second time for V, raises. *)
From Verif Require Import Arr Polyhedron Dynamics Pnnls Mpqp Controllers Round.

Section RoundExpl.
Variable rnd : R -> R.
(** parametric_programs.py:442-463, with the membership test of lines 292-306: the first region that contains x *)
Inductive fl_lookup (x : vec) : list critical_region -> res (option critical_region) -> Prop :=
| fl_lookup_nil : fl_lookup x [] (Ok None)
| fl_lookup_err c crs e : fl_contains rnd tol7 (cr_poly c) x (Err e) -> fl_lookup x (c :: crs) (Err e)
| fl_lookup_in c crs : fl_contains rnd tol7 (cr_poly c) x (Ok true) -> fl_lookup x (c :: crs) (Ok (Some c))
| fl_lookup_out c crs r : fl_contains rnd tol7 (cr_poly c) x (Ok false) -> fl_lookup x crs r -> fl_lookup x (c :: crs) r.
(** parametric_programs.py:349-364 (sizes that match) *)
Definition fl_cr_u (c : critical_region) (x u : vec) : Prop := exists a, fl_mv rnd (cr_ux c) x a /\ u = fl_vadd rnd a (cr_u0 c).
(** parametric_programs.py:465-486 *)
Definition fl_es_u (crs : list critical_region) (x : vec) (r : res (option vec)) : Prop :=
  exists q, fl_lookup x crs q /\
  match q with
  | Err e => r = Err e
  | Ok None => r = Ok None
  | Ok (Some c) => exists u, fl_cr_u c x u /\ r = Ok (Some u)
  end.
(** controllers.py:136-187: the inputs, and the first one; [q'] is the lookup made for V *)
Definition fl_feedforward_explicit (C : mpc) (es : option (list critical_region)) (x : vec) (r : res (option (list vec))) : Prop :=
  match es with
  | None => r = Err ValueError
  | Some crs => exists q q', fl_es_u crs x q /\ fl_lookup x crs q' /\
      r = (u <- q ;; _ <- q' ;; Ok (match u with Some u => Some (split_inputs (lnu (c_S C)) (c_N C) u) | None => None end))
  end.
Definition fl_feedback_explicit (C : mpc) (es : option (list critical_region)) (x : vec) (r : res (option vec)) : Prop :=
  exists q, fl_feedforward_explicit C es x q /\ r = (us <- q ;; first_input us).
End RoundExpl.
