(** * ExampleCtrl: model of examples/pwa_from_urdf/utils.py:208-388 (the hybrid controller of the examples, built with drake)

    pydrake is outside this model: what a MathematicalProgram holds is the record [dprog], what it means is said by
    [d_feasible] and [d_objective], and [solver.Solve(prog)] is the argument [drake], which maps a program to the values
    of the variables (None if the result is not kSolutionFound).  Formulas that drake rejects because they contain no
    variable, solver options and the wrapping of the controller as a drake VectorSystem are not modelled. *)
From Coq Require Import String.
From Verif Require Import Arr Numpy Pnnls Polyhedron Dynamics Hybrid.

(** ** drake data *)
(** self.x[t][k], self.u[t][k], self.d[t][i] *)
Inductive dvar : Type := VX (t k : nat) | VU (t k : nat) | VD (t i : nat).
Definition dexp := list (R * dvar).
Definition ev (a : dvar -> R) (e : dexp) : R := fold_right (fun t acc => fst t * a (snd t) + acc) 0 e.
(** [e <= b + e'] and [e == b] *)
Inductive dcon : Type := DLe (e : dexp) (b : R) (e' : dexp) | DEq (e : dexp) (b : R).
Definition con_holds (a : dvar -> R) (c : dcon) : Prop :=
  match c with DLe e b e' => ev a e <= b + ev a e' | DEq e b => ev a e = b end.
Record dprog : Type := DProg { d_con : list dcon; d_bin : list dvar; d_obj : list (R * dvar * dvar) }.
Definition d_feasible (p : dprog) (a : dvar -> R) : Prop :=
  Forall (con_holds a) (d_con p) /\ Forall (fun v => a v = 0 \/ a v = 1) (d_bin p).
Definition d_objective (p : dprog) (a : dvar -> R) : R :=
  fold_right (fun t acc => let '(c, v, w) := t in c * a v * a w + acc) 0 (d_obj p).

(** arrays of variables *)
Definition xvars (nx t : nat) : list dvar := map (VX t) (seq 0 nx).
Definition uvars (nu t : nat) : list dvar := map (VU t) (seq 0 nu).
Definition dvars (nm t : nat) : list dvar := map (VD t) (seq 0 nm).
(** [c.dot(vs)] *)
Definition lin_dot (c : vec) (vs : list dvar) : res dexp :=
  if Nat.eqb (length c) (length vs) then Ok (combine c vs) else Err ValueError.
(** [k * vs.dot(M).dot(vs)] *)
Definition quad_dot (k : R) (M : mat) (vs : list dvar) : res (list (R * dvar * dvar)) :=
  if (Nat.eqb (nrows M) (length vs) && Nat.eqb (ncols M) (length vs))%bool
  then Ok (flat_map (fun vr => map (fun cw => (k * fst cw, fst vr, snd cw)) (combine (snd vr) vs)) (combine vs (rows M)))
  else Err ValueError.

Definition tol6 : R := / 1000000.
(** np.argmax *)
Fixpoint argmax_from (i best : nat) (m : R) (l : vec) : nat :=
  match l with [] => best | a :: l' => if Rltb m a then argmax_from (S i) i a l' else argmax_from (S i) best m l' end.
Definition argmax (l : vec) : res nat := match l with [] => Err ValueError | a :: l' => Ok (argmax_from 1 0 a l') end.

Section ExampleCtrl.
Variable np : numpy.
Variable drake : dprog -> option (dvar -> R).

(** lines 349-369 (the equalities of the domains are not used) *)
Definition graph_of (nx : nat) (Di : poly) (Si : asys) : res poly :=
  if negb (Nat.eqb (nrows (aA Si)) nx && Nat.eqb (nrows (aB Si)) nx)%bool then Err ValueError else
  let r1 := hstack (pA Di) (zmat (nrows (pA Di)) nx) in
  let r2 := hstack (aA Si) (hstack (aB Si) (mneg (eye nx))) in
  let r3 := hstack (mneg (aA Si)) (hstack (mneg (aB Si)) (eye nx)) in
  r23 <- np_vstack r2 r3 ;;
  Ai <- np_vstack r1 r23 ;;
  let bi := pb Di ++ vneg (ac Si) ++ ac Si in
  Polyhedron Ai (D1 bi) None None.
Definition graph_representation (S : pwa) : res (list poly) :=
  mapM (fun i => match nth_error (w_dom S) i, nth_error (w_sys S) i with
                 | Some Di, Some Si => graph_of (w_nx S) Di Si
                 | _, _ => Err IndexError
                 end) (seq 0 (length (w_sys S))).

(** lines 371-388; [- sol['min']] with None raises TypeError *)
Definition big_m_entry (Pi Pj : poly) (k : nat) : res R :=
  sol <- lp np (vneg (row (pA Pi) k)) (pA Pj) (pb Pj) None None ;;
  match s_min sol with
  | None => Err TypeError
  | Some v => let mijk := - v - nth k (pb Pi) 0 in Ok (if Rltb (Rabs mijk) tol6 then 0 else mijk)
  end.
Definition big_m (P_list : list poly) : res (list (list vec)) :=
  mapM (fun Pi => mapM (fun Pj => mapM (big_m_entry Pi Pj) (seq 0 (nrows (pA Pi)))) P_list) P_list.

(** lines 281-289, the constraints of step t.  With a single mode np.sum([], axis=0) is a scalar, and indexing it raises
    IndexError. *)
Definition mode_row (nx nu nm : nat) (m : list (list vec)) (t i : nat) (Pi : poly) (k : nat) : res dcon :=
  e <- lin_dot (row (pA Pi) k) (xvars nx t ++ uvars nu t ++ xvars nx (S t)) ;;
  match filter (fun j => negb (Nat.eqb j i)) (seq 0 nm) with
  | [] => Err IndexError
  | others => Ok (DLe e (nth k (pb Pi) 0) (map (fun j => (nth k (nth j (nth i m []) []) 0, VD t j)) others))
  end.
Definition step_constraints (nx nu nm : nat) (P : list poly) (m : list (list vec)) (t : nat) : res (list dcon) :=
  rows <- mapM (fun i => let Pi := nth i P (Poly (Mat 0 []) [] (Mat 0 []) [] None None None None None) in
                 mapM (mode_row nx nu nm m t i Pi) (seq 0 (nrows (pA Pi)))) (seq 0 nm) ;;
  Ok (List.concat rows ++ [DEq (map (fun v => (1, v)) (dvars nm t)) 1]).
Definition step_cost (nx nu : nat) (Q Rm : mat) (t : nat) : res (list (R * dvar * dvar)) :=
  a <- quad_dot (/ 2) Rm (uvars nu t) ;;
  b <- quad_dot (/ 2) Q (xvars nx t) ;;
  Ok (a ++ b).

(** lines 241-307.  The controller holds the program without its initial condition, which is set before each solve. *)
Record ectrl : Type := ECtrl { ec_S : pwa; ec_N : nat; ec_prog : dprog }.
Definition ExampleController (S : pwa) (N : nat) (Q Rm P : mat) (X_N : poly) : res ectrl :=
  let nx := w_nx S in
  let nu := w_nu S in
  let nm := length (w_sys S) in
  graphs <- graph_representation S ;;
  m <- big_m graphs ;;
  cons <- mapM (step_constraints nx nu nm graphs m) (seq 0 N) ;;
  costs <- mapM (step_cost nx nu Q Rm) (seq 0 N) ;;
  terminal <- mapM (fun k => e <- lin_dot (row (pA X_N) k) (xvars nx N) ;; Ok (DLe e (nth k (pb X_N) 0) [])) (seq 0 (nrows (pA X_N))) ;;
  terminal_cost <- quad_dot (/ 2) P (xvars nx N) ;;
  Ok (ECtrl S N (DProg (List.concat cons ++ terminal) (flat_map (dvars nm) (seq 0 N)) (List.concat costs ++ terminal_cost))).
(** lines 309-312; bounds of the wrong size are rejected by drake *)
Definition set_initial_condition (C : ectrl) (x0 : vec) : res dprog :=
  let nx := w_nx (ec_S C) in
  if (length x0 <? nx)%nat then Err ValueError
  else Ok (DProg (map (fun k => DEq [(1, VX 0 k)] (nth k x0 0)) (seq 0 nx) ++ d_con (ec_prog C)) (d_bin (ec_prog C)) (d_obj (ec_prog C))).
(** lines 314-337; None stands for (None, None, None, None) *)
Definition example_feedforward (C : ectrl) (x0 : vec) : res (option (list vec * list vec * list nat * R)) :=
  let nx := w_nx (ec_S C) in
  let nu := w_nu (ec_S C) in
  let nm := length (w_sys (ec_S C)) in
  let N := ec_N C in
  prog <- set_initial_condition C x0 ;;
  match drake prog with
  | None => Ok None
  | Some a =>
      let obj := d_objective prog a in
      let u := map (fun t => map a (uvars nu t)) (seq 0 N) in
      let x := map (fun t => map a (xvars nx t)) (seq 0 (S N)) in
      ms <- mapM (fun t => argmax (map a (dvars nm t))) (seq 0 N) ;;
      Ok (Some (u, x, ms, obj))
  end.
(** lines 340-347 *)
Definition example_feedback (C : ectrl) (x0 : vec) : res (option vec) :=
  r <- example_feedforward C x0 ;;
  match r with
  | None => Ok None
  | Some (u0 :: _, _, _, _) => Ok (Some u0)
  | Some ([], _, _, _) => Err IndexError
  end.
(** lines 208-233: Controller.__init__ passes Q in the place of P *)
Definition Controller (S : pwa) (N : nat) (Q Rm P : mat) (X_N : poly) : res ectrl := ExampleController S N Q Rm Q X_N.
End ExampleCtrl.
