(** * ExampleState: the example controller as an object with state (examples/pwa_from_urdf/utils.py:256-347)

    ExampleCtrl.v builds the program of each call from scratch.  In the code one MathematicalProgram lives as long as the controller, and
    each call overwrites the bounds of the constraints on x(0), one entry after the other.  The drake constraint lb <= x(0)[k] <= ub is one equality
    if lb = ub.  A call that raises leaves the entries overwritten so far. *)
From Verif Require Import Arr Numpy Pnnls Polyhedron Dynamics Hybrid ExampleCtrl.

Record estate : Type := EState { st_ctrl : ectrl; st_lb : vec; st_ub : vec }.
(** [v[k] = a] *)
Definition set_at (k : nat) (a : R) (v : vec) : vec := firstn k v ++ match skipn k v with [] => [] | _ :: r => a :: r end.

Section ExampleState.
Variable np : numpy.
Variable drake : dprog -> option (dvar -> R).

(** lines 241-307; lines 264-268: "self.x[0][k] == 0." *)
Definition new_controller (S : pwa) (N : nat) (Q Rm P : mat) (X_N : poly) : res estate :=
  C <- ExampleController np S N Q Rm P X_N ;;
  Ok (EState C (zeros (w_nx S)) (zeros (w_nx S))).
(** the constraint of entry k, and the program held by the object *)
Definition bound_con (k : nat) (l u : R) : list dcon :=
  if Reqb l u then [DEq [(1, VX 0 k)] l] else [DLe [(-1, VX 0 k)] (- l) []; DLe [(1, VX 0 k)] u []].
Definition held_program (s : estate) : dprog :=
  let p := ec_prog (st_ctrl s) in
  DProg (flat_map (fun k => bound_con k (nth k (st_lb s) 0) (nth k (st_ub s) 0)) (seq 0 (w_nx (ec_S (st_ctrl s)))) ++ d_con p) (d_bin p) (d_obj p).
(** lines 309-312, from entry k on; "c.UpdateLowerBound(x0[k:k+1])" raises if the slice is empty *)
Fixpoint set_entries (ks : list nat) (x0 : vec) (s : estate) : res Datatypes.unit * estate :=
  match ks with
  | [] => (Ok tt, s)
  | k :: ks =>
      match nth_error x0 k with
      | None => (Err ValueError, s)
      | Some a => set_entries ks x0 (EState (st_ctrl s) (set_at k a (st_lb s)) (set_at k a (st_ub s)))
      end
  end.
(** lines 314-337 *)
Definition st_feedforward (x0 : vec) (s : estate) : res (option (list vec * list vec * list nat * R)) * estate :=
  let C := st_ctrl s in
  let '(r, s) := set_entries (seq 0 (w_nx (ec_S C))) x0 s in
  (_ <- r ;;
   match drake (held_program s) with
   | None => Ok None
   | Some a =>
       let nm := length (w_sys (ec_S C)) in
       let u := map (fun t => map a (uvars (w_nu (ec_S C)) t)) (seq 0 (ec_N C)) in
       let x := map (fun t => map a (xvars (w_nx (ec_S C)) t)) (seq 0 (S (ec_N C))) in
       ms <- mapM (fun t => argmax (map a (dvars nm t))) (seq 0 (ec_N C)) ;;
       Ok (Some (u, x, ms, d_objective (held_program s) a))
   end, s).
(** lines 340-347 *)
Definition st_feedback (x0 : vec) (s : estate) : res (option vec) * estate :=
  let '(r, s) := st_feedforward x0 s in
  (r <- r ;;
   match r with
   | None => Ok None
   | Some (u0 :: _, _, _, _) => Ok (Some u0)
   | Some ([], _, _, _) => Err IndexError
   end, s).
(** a history of calls, the exceptions caught by the caller *)
Inductive ecall : Type := Feedforward (x0 : vec) | Feedback (x0 : vec).
Definition call (c : ecall) (s : estate) : estate := match c with Feedforward x0 => snd (st_feedforward x0 s) | Feedback x0 => snd (st_feedback x0 s) end.
Definition calls (cs : list ecall) (s : estate) : estate := fold_left (fun s c => call c s) cs s.
End ExampleState.
