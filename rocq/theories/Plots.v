(** * Plots: model of pympc/plot.py, of Polyhedron.plot (pympc/geometry/polyhedron.py:879-919) and of the plots of
    ModelPredictiveController (pympc/control/controllers.py:188-250)

    A plot is the list of the calls of matplotlib it makes, with their data; a call that raises ends the list.  Colours, line styles,
    fonts and the keyword arguments passed on to matplotlib are dropped.  Negative indices (legal in Python) are not modelled:
    indices are natural numbers.  UnboundLocalError is a subclass of NameError. *)
From Coq Require Import ZArith.
From Verif Require Import Arr Numpy Pnnls Polyhedron Dynamics Mpqp Controllers Projection.

Inductive cmd : Type :=
| Line (xs ys : vec) (labelled : bool)          (* plt.plot *)
| Steps (ts ys : vec)                           (* plt.step *)
| Text (a b : R) (t : nat)                      (* plt.text(a, b, '$x(t)$') *)
| SetText (a b : R) (active : list nat)         (* plt.text(a, b, str(active_set)) *)
| Scatter (a b : R)                             (* plt.scatter *)
| Subplot (n i : nat)                           (* plt.subplot(n, 1, i) *)
| XLabel (i : nat) | YLabel (i : nat)           (* the component plotted, from 1 *)
| TimeLabel                                     (* plt.xlabel('$t$') *)
| XLim (a b : R)
| Legend (bounds : bool)                        (* with or without the entry for the bounds *)
| Patch (path : list vec)                       (* ax.add_patch(PathPatch(Path(vertices, codes))) *)
| Contour (xs ys : vec) (Z : list (option R))   (* plt.contour; Z row by row, None where V is None *)
| Message.                                      (* print('Cannot plot unbounded or empty polyhedra.') *)

Definition dw (A : Type) : Type := (list cmd * res A)%type.
Definition dret {A} (a : A) : dw A := ([], Ok a).
Definition dlift {A} (r : res A) : dw A := ([], r).
Definition emit (c : cmd) : dw Datatypes.unit := ([c], Ok tt).
Definition dbind {A B} (m : dw A) (k : A -> dw B) : dw B :=
  match snd m with
  | Ok a => (fst m ++ fst (k a), snd (k a))
  | Err e => (fst m, Err e)
  end.
Notation "'let^' x := e1 'in' e2" := (dbind e1 (fun x => e2)) (at level 200, x binder, right associativity).
Notation "e1 ;^ e2" := (dbind e1 (fun _ => e2)) (at level 65, right associativity).
Fixpoint dfor {A} (l : list A) (f : A -> dw Datatypes.unit) : dw Datatypes.unit :=
  match l with
  | [] => dret tt
  | a :: l' => f a ;^ dfor l' f
  end.

(** v[i] *)
Definition getv (v : vec) (i : nat) : res R := if (i <? length v)%nat then Ok (nth i v 0) else Err IndexError.
Definition getl (l : list vec) (t : nat) : res vec := match nth_error l t with Some v => Ok v | None => Err IndexError end.
Definition gets (x : list vec) (t i : nat) : res R := v <- getl x t ;; getv v i.
(** numpy.linspace(a, b, n) *)
Definition linspace (a b : R) (n : nat) : vec :=
  match n with
  | 1%nat => [a]
  | _ => map (fun i => a + INR i * ((b - a) / INR (n - 1))) (seq 0 n)
  end.

(** plot.py:5-52 *)
Definition plot_state_space_trajectory (x : list vec) (dim : list nat) (text : bool) : dw Datatypes.unit :=
  match dim with
  | [d0; d1] =>
      let segment t lab :=
        let^ a := dlift (gets x t d0) in
        let^ a' := dlift (gets x (t + 1) d0) in
        let^ b := dlift (gets x t d1) in
        let^ b' := dlift (gets x (t + 1) d1) in
        emit (Line [a; a'] [b; b'] lab) in
      dfor (seq 0 (length x - 1)) (fun t =>
        (if Nat.eqb t 0 then segment 0%nat true else dret tt) ;^
        segment t false) ;^
      dfor (seq 0 (length x)) (fun t =>
        if text then
          let^ a := dlift (gets x t 0) in
          let^ b := dlift (gets x t 1) in
          emit (Text a b t)
        else dret tt) ;^
      let^ a := dlift (gets x 0 d0) in
      let^ b := dlift (gets x 0 d1) in
      emit (Scatter a b) ;^
      emit (XLabel (d0 + 1)) ;^
      emit (YLabel (d1 + 1))
  | _ => dlift (Err ValueError)
  end.

(** the bounds of one component and the legend: plot.py:82-103, 135-155, 192-212 *)
Definition plot_bounds (ts : vec) (i : nat) (bounds : option (list vec)) : dw Datatypes.unit :=
  match bounds with
  | None => dret tt
  | Some bs => dfor bs (fun b => let^ bi := dlift (getv b i) in emit (Steps ts (repeat bi (length ts))))
  end.
Definition plot_legend (i : nat) (bounds : option (list vec)) : dw Datatypes.unit :=
  if Nat.eqb i 0 then
    match bounds with
    | None => emit (Legend false)
    | Some [] => dlift (Err NameError)      (* bound_plot has not been assigned *)
    | Some _ => emit (Legend true)
    end
  else dret tt.
Definition plot_rest (ts : vec) (T : R) (i : nat) (bounds : option (list vec)) : dw Datatypes.unit :=
  plot_bounds ts i bounds ;^
  emit (YLabel (i + 1)) ;^
  emit (XLim 0 T) ;^
  plot_legend i bounds.

(** plot.py:54-104 *)
Definition plot_input_sequence (u : list vec) (h : R) (u_bounds : option (list vec)) : dw Datatypes.unit :=
  let^ u0 := dlift (getl u 0) in
  let nu := length u0 in
  let N := length u in
  let ts := linspace 0 (INR N * h) (N + 1) in
  dfor (seq 0 nu) (fun i =>
    emit (Subplot nu (i + 1)) ;^
    let^ us := dlift (mapM (fun k => gets u k i) (seq 0 N)) in
    emit (Steps ts (firstn 1 us ++ us)) ;^
    plot_rest ts (INR N * h) i u_bounds) ;^
  emit TimeLabel.

(** plot.py:106-156 *)
Definition plot_state_trajectory (x : list vec) (h : R) (x_bounds : option (list vec)) : dw Datatypes.unit :=
  let^ x0 := dlift (getl x 0) in
  let nx := length x0 in
  let N := (length x - 1)%nat in
  let ts := linspace 0 (INR N * h) (N + 1) in
  dfor (seq 0 nx) (fun i =>
    emit (Subplot nx (i + 1)) ;^
    let^ xs := dlift (mapM (fun k => gets x k i) (seq 0 (N + 1))) in
    emit (Line ts xs false) ;^
    plot_rest ts (INR N * h) i x_bounds) ;^
  emit TimeLabel.

(** plot.py:158-213.  Without states N = -1: the time axis is empty. *)
Definition plot_output_trajectory (C : mat) (x : list vec) (h : R) (y_bounds : option (list vec)) : dw Datatypes.unit :=
  let^ y := dlift (mapM (np_mv C) x) in
  let ny := nrows C in
  let T := IZR (Z.of_nat (length x) - 1) * h in
  let ts := linspace 0 T (length x) in
  dfor (seq 0 ny) (fun i =>
    emit (Subplot ny (i + 1)) ;^
    let^ ys := dlift (mapM (fun k => gets y k i) (seq 0 (length x))) in
    emit (Line ts ys false) ;^
    plot_rest ts T i y_bounds) ;^
  emit TimeLabel.

Section PolyPlot.
Variable np : numpy.
(** scipy.spatial.ConvexHull(points).vertices, for points of the plane: "For 2-D convex hulls, the vertices are in counterclockwise order" *)
Variable hull2 : list vec -> res (list nat).

(** np.vstack(vertices)[:,residual_dimensions]; np.vstack of an empty list raises ValueError *)
Definition pick (dims : list nat) (v : vec) : res vec := mapM (getv v) dims.
Definition polygon (dims : list nat) (V : list vec) : res (list vec) :=
  match V with
  | [] => Err ValueError
  | _ =>
      pts <- mapM (pick dims) V ;;
      idx <- hull2 pts ;;
      vertices <- mapM (getl pts) idx ;;
      v0 <- getl vertices 0 ;;
      Ok (vertices ++ [v0])
  end.
(** polyhedron.py:879-919; also returns the polyhedron, with its caches *)
Definition poly_plot (dims : list nat) (p : poly) : dw poly :=
  if negb (Nat.eqb (length dims) 2) then dlift (Err ValueError) else
  let (r, p') := get_vertices np p in
  let^ V := dlift r in
  match V with
  | None => emit Message ;^ dret p'
  | Some V =>
      let^ path := dlift (polygon dims V) in
      emit (Patch path) ;^
      emit (XLabel (nth 0 dims 0%nat + 1)) ;^
      emit (YLabel (nth 1 dims 0%nat + 1)) ;^
      dret p'
  end.

(** controllers.py:189-213.  A center None (Chebyshev problem without solution) raises TypeError. *)
Definition plot_state_space_partition (C : mpc) (es : option (list critical_region)) (print_active_set : bool) : dw Datatypes.unit :=
  if negb (Nat.eqb (lnx (c_S C)) 2) then dlift (Err ValueError) else
  match es with
  | None => dlift (Err ValueError)
  | Some crs =>
      dfor crs (fun cr =>
        let^ p := poly_plot [0; 1]%nat (cr_poly cr) in
        if print_active_set then
          let^ c := dlift (fst (get_center np p)) in
          match c with
          | None => dlift (Err TypeError)
          | Some c =>
              let^ a := dlift (getv c 0) in
              let^ b := dlift (getv c 1) in
              emit (SetText a b (cr_active cr))
          end
        else dret tt)
  end.

(** max and min of a list; ValueError if it is empty *)
Definition pymax (l : vec) : res R := match l with [] => Err ValueError | a :: l' => Ok (fold_left Rmax l' a) end.
Definition pymin (l : vec) : res R := match l with [] => Err ValueError | a :: l' => Ok (fold_left Rmin l' a) end.

(** controllers.py:215-250.  The feasible set returned by get_feasible_set has its vertices cached. *)
Definition plot_optimal_value_function (fuel : nat) (C : mpc) (es : option (list critical_region)) (resolution : nat) : dw Datatypes.unit :=
  if negb (Nat.eqb (lnx (c_S C)) 2) then dlift (Err ValueError) else
  match es with
  | None => dlift (Err ValueError)
  | Some crs =>
      let^ F := dlift (get_feasible_set np fuel (c_mpqp C)) in
      let (r, F') := get_vertices np F in
      let^ V := dlift r in
      match V with
      | None => dlift (Err TypeError)
      | Some V =>
          let^ v0 := dlift (mapM (fun v => getv v 0) V) in
          let^ x_max := dlift (pymax v0) in
          let^ x_min := dlift (pymin v0) in
          let^ v1 := dlift (mapM (fun v => getv v 1) V) in
          let^ y_max := dlift (pymax v1) in
          let^ y_min := dlift (pymin v1) in
          let xs := linspace x_min x_max resolution in
          let ys := linspace y_min y_max resolution in
          let^ zs := dlift (mapM (fun ab => es_V crs [fst ab; snd ab]) (flat_map (fun b => map (fun a => (a, b)) xs) ys)) in
          let^ _ := poly_plot [0; 1]%nat F' in
          emit (Contour xs ys zs)
      end
  end.
End PolyPlot.

(** Contract of ConvexHull(points).vertices in the plane: the indices of a closed path that goes counterclockwise around the convex hull
    of the points; QhullError only if the points are on one line.  (Stated for one call.) *)
From Verif Require Import Spec SpecPlot.
Definition hull2_ok (pts : list vec) (r : res (list nat)) : Prop :=
  match r with
  | Ok idx => idx <> [] /\ NoDup idx /\ Forall (fun i => (i < length pts)%nat) idx /\
      goes_around (map (fun i => nth i pts []) idx ++ [nth (hd 0%nat idx) pts []]) (in_hull 2 pts)
  | Err e => e = QhullError /\ collinear pts
  end.
