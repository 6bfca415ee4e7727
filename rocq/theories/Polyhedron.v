(** * Polyhedron: model of pympc/geometry/polyhedron.py

    A [Polyhedron] object is the record [poly]; methods that change the object are functions from
    the object to a result and the object after the call -- also when the call raises.
    The left-hand sides A, C given by callers are two-dimensional arrays; right-hand sides may have any number of dimensions.
    Linear and quadratic programs are solved with the default solver of
    optimization/programs.py, i.e. 'pnnls' with its default tolerance. *)
From Coq Require Import ZArith.
From Verif Require Import Arr Spec Numpy Pnnls GeomUtils.

Record poly : Type := Poly {
  pA : mat; pb : vec; pC : mat; pd : vec;
  p_empty : option bool;          (* self._empty *)
  p_bounded : option bool;        (* self._bounded *)
  p_radius : option R;            (* self._radius *)
  p_center : option vec;          (* self._center *)
  p_vertices : option (list vec)  (* self._vertices *)
}.

(** the set described by the stored constraints *)
Definition in_poly (p : poly) (x : vec) : Prop := in_set (pA p) (pb p) (pC p) (pd p) x.

(** polyhedron.py:362-377 *)
Definition same_number_rows (E : mat) (f : nd) : res Datatypes.unit :=
  if Nat.eqb (nrows E) (nd_size f) then Ok tt else Err ValueError.

(** polyhedron.py:20-61.  Note that the number of columns of C is not compared with that of A. *)
Definition Polyhedron (A : mat) (b : nd) (C : option mat) (d : option nd) : res poly :=
  match b with
  | D2 _ => Err ValueError
  | D1 bv =>
      _ <- same_number_rows A b ;;
      match C, d with
      | None, None => Ok (Poly A bv (zmat 0 (ncols A)) (zeros 0) None None None None None)
      | Some C, Some d =>
          match d with
          | D2 _ => Err ValueError
          | D1 dv => _ <- same_number_rows C d ;; Ok (Poly A bv C dv None None None None None)
          end
      | _, _ => Err ValueError
      end
  end.

(** polyhedron.py:201-211 *)
Definition delete_attributes (p : poly) : poly := Poly (pA p) (pb p) (pC p) (pd p) None None None None None.

(** polyhedron.py:213-237.  [complement = [i for i in range(n) if i not in indices]];
    the rows of eye(n) not in the complement are kept, in natural order. *)
Definition in_indices (indices : list Z) (i : nat) : bool := existsb (fun k => Z.eqb k (Z.of_nat i)) indices.
Definition selection_matrix (p : poly) (indices : option (list Z)) : mat :=
  let n := ncols (pA p) in
  let indices := match indices with None => map Z.of_nat (seq 0 n) | Some l => l end in
  Mat n (map (unit n) (filter (in_indices indices) (seq 0 n))).

Definition set_A (p : poly) (A : mat) : poly :=
  Poly A (pb p) (pC p) (pd p) (p_empty p) (p_bounded p) (p_radius p) (p_center p) (p_vertices p).
Definition set_b (p : poly) (b : vec) : poly :=
  Poly (pA p) b (pC p) (pd p) (p_empty p) (p_bounded p) (p_radius p) (p_center p) (p_vertices p).
Definition set_C (p : poly) (C : mat) : poly :=
  Poly (pA p) (pb p) C (pd p) (p_empty p) (p_bounded p) (p_radius p) (p_center p) (p_vertices p).
Definition set_d (p : poly) (d : vec) : poly :=
  Poly (pA p) (pb p) (pC p) d (p_empty p) (p_bounded p) (p_radius p) (p_center p) (p_vertices p).
Definition set_empty (p : poly) (e : bool) : poly :=
  Poly (pA p) (pb p) (pC p) (pd p) (Some e) (p_bounded p) (p_radius p) (p_center p) (p_vertices p).
Definition set_bounded (p : poly) (e : bool) : poly :=
  Poly (pA p) (pb p) (pC p) (pd p) (p_empty p) (Some e) (p_radius p) (p_center p) (p_vertices p).
Definition set_chebyshev (p : poly) (r : option R) (c : option vec) : poly :=
  Poly (pA p) (pb p) (pC p) (pd p) (p_empty p) (p_bounded p) r c (p_vertices p).
Definition set_vertices (p : poly) (v : option (list vec)) : poly :=
  Poly (pA p) (pb p) (pC p) (pd p) (p_empty p) (p_bounded p) (p_radius p) (p_center p) v.

(** state and exception monad over the object *)
Definition pm (A : Type) : Type := poly -> res A * poly.
Definition pret {A} (a : A) : pm A := fun p => (Ok a, p).
Definition praise {A} (e : err) : pm A := fun p => (Err e, p).
Definition pbind {A B} (c : pm A) (k : A -> pm B) : pm B :=
  fun p => match c p with (Ok a, p') => k a p' | (Err e, p') => (Err e, p') end.
Definition plift {A} (r : res A) : pm A := fun p => (r, p).
Definition pget : pm poly := fun p => (Ok p, p).
Definition pput (p' : poly) : pm Datatypes.unit := fun _ => (Ok tt, p').
Notation "'let!' x := c 'in' k" := (pbind c (fun x => k)) (at level 200, x pattern, right associativity).
Notation "c1 ';!' c2" := (pbind c1 (fun _ => c2)) (at level 60, right associativity).

(** polyhedron.py:63-86 *)
Definition add_inequality (A : mat) (b : nd) (indices : option (list Z)) : pm Datatypes.unit :=
  plift (same_number_rows A b) ;!
  (fun p => pput (delete_attributes p) p) ;!
  let! p := pget in
  let S := selection_matrix p indices in
  let! AS := plift (np_dot A S) in
  let! A' := plift (np_vstack (pA p) AS) in
  pput (set_A p A') ;!
  let! p := pget in
  let! b' := plift (np_concat (pb p) b) in
  pput (set_b p b').

(** polyhedron.py:102-125 *)
Definition add_equality (C : mat) (d : nd) (indices : option (list Z)) : pm Datatypes.unit :=
  plift (same_number_rows C d) ;!
  (fun p => pput (delete_attributes p) p) ;!
  let! p := pget in
  let S := selection_matrix p indices in
  let! CS := plift (np_dot C S) in
  let! C' := plift (np_vstack (pC p) CS) in
  pput (set_C p C') ;!
  let! p := pget in
  let! d' := plift (np_concat (pd p) d) in
  pput (set_d p d').

(** the bounds: a Python float or an array *)
Inductive bound : Type := BFloat (x : R) | BArr (a : nd).
(** polyhedron.py:155-156, 176-177 *)
Definition bound_array (x : bound) : nd := match x with BFloat r => D1 [r] | BArr a => a end.

(** polyhedron.py:141-160 *)
Definition add_lower_bound (x_min : bound) (indices : option (list Z)) : pm Datatypes.unit :=
  let! p := pget in
  add_inequality (mneg (selection_matrix p indices)) (nd_neg (bound_array x_min)) None.
(** polyhedron.py:162-181 *)
Definition add_upper_bound (x_max : bound) (indices : option (list Z)) : pm Datatypes.unit :=
  let! p := pget in
  add_inequality (selection_matrix p indices) (bound_array x_max) None.
(** polyhedron.py:183-199 *)
Definition add_bounds (x_min x_max : bound) (indices : option (list Z)) : pm Datatypes.unit :=
  add_lower_bound x_min indices ;! add_upper_bound x_max indices.

(** run a method on a freshly built object *)
Definition run_on {A} (r : res poly) (c : pm A) : res poly :=
  p <- r ;; match c p with (Ok _, p') => Ok p' | (Err e, _) => Err e end.

(** polyhedron.py:239-268 *)
Definition from_lower_bound (x_min : nd) (indices : option (list Z)) (n : option nat) : res poly :=
  match indices, n with
  | Some _, None => Err ValueError
  | _, _ =>
      let n := match n with None => nd_size x_min | Some n => n end in
      run_on (Polyhedron (zmat 0 n) (D1 (zeros 0)) None None) (add_lower_bound (BArr x_min) indices)
  end.
(** polyhedron.py:270-299 *)
Definition from_upper_bound (x_max : nd) (indices : option (list Z)) (n : option nat) : res poly :=
  match indices, n with
  | Some _, None => Err ValueError
  | _, _ =>
      let n := match n with None => nd_size x_max | Some n => n end in
      run_on (Polyhedron (zmat 0 n) (D1 (zeros 0)) None None) (add_upper_bound (BArr x_max) indices)
  end.
(** polyhedron.py:301-336 *)
Definition from_bounds (x_min x_max : nd) (indices : option (list Z)) (n : option nat) : res poly :=
  match indices, n with
  | Some _, None => Err ValueError
  | _, _ =>
      if Nat.eqb (nd_size x_min) (nd_size x_max) then
        let n := match n with None => nd_size x_min | Some n => n end in
        run_on (Polyhedron (zmat 0 n) (D1 (zeros 0)) None None) (add_bounds (BArr x_min) (BArr x_max) indices)
      else Err ValueError
  end.

(** polyhedron.py:379-401.  [st] is the conversion applied when a quotient is stored back in the array:
    the identity for arrays of floats, truncation for arrays of integers. *)
Definition normalize_lhs (st : R -> R) (tol : R) (A : mat) : mat :=
  Mat (ncols A) (map (fun r => if Rltb tol (norm r) then map (fun a => st (a / norm r)) r else r) (rows A)).
Definition normalize_rhs (st : R -> R) (tol : R) (A : mat) (b : vec) : vec :=
  map2 (fun r bi => if Rltb tol (norm r) then st (bi / norm r) else bi) (rows A) b.
Definition normalize_with (st : R -> R) (tol : R) (p : poly) : poly :=
  Poly (normalize_lhs st tol (pA p)) (normalize_rhs st tol (pA p) (pb p))
       (normalize_lhs st tol (pC p)) (normalize_rhs st tol (pC p) (pd p))
       (p_empty p) (p_bounded p) (p_radius p) (p_center p) (p_vertices p).
Definition normalize (tol : R) (p : poly) : poly := normalize_with (fun a => a) tol p.

(** polyhedron.py:578-604.  np.max raises ValueError on an empty array; [np.abs(np.max(..))] for the equalities. *)
Definition contains (tol : R) (p : poly) (x : vec) : res bool :=
  Ax <- np_mv (pA p) x ;;
  mx <- vmax (vsub Ax (pb p)) ;;
  let in_ineq := Rleb mx tol in
  in_eq <- (if (0 <? nrows (pC p))%nat then
              Cx <- np_mv (pC p) x ;;
              me <- vmax (vsub Cx (pd p)) ;;
              Ok (Rleb (Rabs me) tol)
            else Ok true) ;;
  Ok (in_ineq && in_eq)%bool.

(** polyhedron.py:643-663.  [copy] shares the arrays, but add_* only rebinds attributes (see [Heap]). *)
Definition intersection (p1 p2 : poly) : res poly :=
  match (add_inequality (pA p1) (D1 (pb p1)) None ;! add_equality (pC p1) (D1 (pd p1)) None) p2 with
  | (Ok _, p3) => Ok p3
  | (Err e, _) => Err e
  end.

(** polyhedron.py:665-685 *)
Definition cartesian_product (p1 p2 : poly) : res poly :=
  Polyhedron (block_diag [pA p1; pA p2]) (D1 (pb p1 ++ pb p2))
             (Some (block_diag [pC p1; pC p2])) (Some (D1 (pd p1 ++ pd p2))).

Section Solver.
Variable np : numpy.

(** optimization/programs.py:9-55 and 57-105 with the default solver='pnnls' *)
Definition lp (f : vec) (A : mat) (b : vec) (C : option mat) (d : option vec) : res sol :=
  linear_program np tol7 f A b C d.
Definition qp (H : mat) (f : vec) (A : mat) (b : vec) (C : option mat) (d : option vec) : res sol :=
  quadratic_program np tol7 H f A b C d.

(** polyhedron.py:505-526 *)
Definition get_empty : pm bool :=
  let! p := pget in
  match p_empty p with
  | Some e => pret e
  | None =>
      let n := ncols (pA p) in
      let! s := plift (qp (eye n) (zeros n) (pA p) (pb p) (Some (pC p)) (Some (pd p))) in
      let e := match s_min s with None => true | Some _ => false end in
      pput (set_empty p e) ;! pret e
  end.

(** polyhedron.py:468-503 *)
Definition remove_equalities (A : mat) (b : vec) (C : mat) (d : vec) : res (mat * vec * mat * mat) :=
  let N := nullspace_basis np C in
  if Nat.eqb (ncols N) 0 then Err ValueError
  else if negb (Z.eqb (Z.of_nat (ncols N)) (Z.of_nat (ncols C) - Z.of_nat (nrows C))) then Err ValueError
  else
    let R := nullspace_basis np (tr N) in
    let E := mm A N in
    CR1 <- np_inv np (mm C R) ;;
    let r := mv CR1 d in
    let f := vsub b (mv A (mv R r)) in
    Ok (E, f, N, R).

(** polyhedron.py:528-576.  The cache is written only when the linear program is solved. *)
Definition get_bounded : pm bool :=
  let! p := pget in
  match p_bounded p with
  | Some e => pret e
  | None =>
      let! e := get_empty in
      if e : bool then pret true
      else
        let! p := pget in
        let A := vstack (pA p) (vstack (pC p) (mneg (pC p))) in
        if (0 <? ncols (nullspace_basis np A))%nat then pret false
        else
          let n := nrows A in
          let m := ncols A in
          let! s := plift (lp (ones n) (mneg (eye n)) (vneg (ones n)) (Some (tr A)) (Some (zeros m))) in
          let e := match s_min s with None => false | Some _ => true end in
          pput (set_bounded p e) ;! pret e
  end.

(** polyhedron.py:434-448: one LP per facet; [mf] is the list minimal_facets.
    [- sol['min']] raises TypeError when the LP returned None. *)
Fixpoint facets_loop (tol : R) (E : mat) (f : vec) (todo : list nat) (mf : list nat) : res (list nat) :=
  match todo with
  | [] => Ok mf
  | i :: todo' =>
      let E_minimal := mtake E mf in
      let f_relaxation := unit (length f) i in
      let f_relaxed := vtake (vadd f f_relaxation) mf in
      s <- lp (vneg (row E i)) E_minimal f_relaxed None None ;;
      match s_min s with
      | None => Err TypeError
      | Some mn =>
          if Rltb (- mn - nth i f 0) tol
          then facets_loop tol E f todo' (remove Nat.eq_dec i mf)
          else facets_loop tol E f todo' mf
      end
  end.

(** polyhedron.py:403-450; None for an empty polyhedron.
    ([minimal_facets] never contains duplicates, so list.remove removes what [remove] does.) *)
Definition minimal_facets (tol : R) : pm (option (list nat)) :=
  let! e := get_empty in
  if e : bool then pret None
  else
    let! p := pget in
    let! Ef := plift (if (0 <? nrows (pC p))%nat
                      then q <- remove_equalities (pA p) (pb p) (pC p) (pd p) ;;
                           let '(E, f, _, _) := q in Ok (E, f)
                      else Ok (pA p, pb p)) in
    let '(E, f) := Ef in
    let! mf := plift (facets_loop tol E f (seq 0 (nrows E)) (seq 0 (nrows E))) in
    pret (Some mf).

(** polyhedron.py:452-466 *)
Definition remove_redundant_inequalities : pm Datatypes.unit :=
  let! mf := minimal_facets tol7 in
  match mf with
  | None => praise ValueError
  | Some mf =>
      let! p := pget in
      pput (set_b (set_A p (mtake (pA p) mf)) (vtake (pb p) mf))
  end.

(** polyhedron.py:632-639 *)
Fixpoint included_loop (tol : R) (A1 : mat) (b1 : vec) (facets : list (vec * R)) : res bool :=
  match facets with
  | [] => Ok true
  | (a, bi) :: rest =>
      s <- lp (vneg a) A1 b1 None None ;;
      match s_min s with
      | None => Err TypeError
      | Some mn => if Rltb tol (- mn - bi) then Ok false else included_loop tol A1 b1 rest
      end
  end.
(** polyhedron.py:606-641 *)
Definition is_included_in (tol : R) (p1 p2 : poly) : res bool :=
  let A1 := vstack (pA p1) (vstack (pC p1) (mneg (pC p1))) in
  let b1 := pb p1 ++ pd p1 ++ vneg (pd p1) in
  let A2 := vstack (pA p2) (vstack (pC p2) (mneg (pC p2))) in
  let b2 := pb p2 ++ pd p2 ++ vneg (pd p2) in
  included_loop tol A1 b1 (combine (rows A2) b2).

(** polyhedron.py:727-768.  np.concatenate((None, r)) raises ValueError. *)
Definition chebyshev (A0 : mat) (b0 : vec) (C : mat) (d : vec) : res (option R * option vec) :=
  let eqs := (0 <? nrows C)%nat in
  q <- (if eqs then remove_equalities A0 b0 C d else Ok (A0, b0, Mat 0 [], Mat 0 [])) ;;
  let '(A, b, N, R) := q in
  let f_lp := zeros (ncols A) ++ ones 1 in
  let A_lp := hstack A (Mat 1 (map (fun r => [- norm r]) (rows A))) in
  s <- lp f_lp A_lp b None None ;;
  let radius := match s_min s with None => None | Some r => Some (- r) end in
  let center := match s_min s, s_argmin s with
                | Some _, Some c => Some (removelast c)
                | _, c => c
                end in
  if eqs then
    CR1 <- np_inv np (mm C R) ;;
    match center with
    | None => Err ValueError
    | Some c => Ok (radius, Some (mv (hstack N R) (c ++ mv CR1 d)))
    end
  else Ok (radius, center).

(** polyhedron.py:687-705 *)
Definition get_radius : pm (option R) :=
  let! p := pget in
  match p_radius p with
  | Some r => pret (Some r)
  | None =>
      let! rc := plift (chebyshev (pA p) (pb p) (pC p) (pd p)) in
      pput (set_chebyshev p (fst rc) (snd rc)) ;! pret (fst rc)
  end.
(** polyhedron.py:707-725 *)
Definition get_center : pm (option vec) :=
  let! p := pget in
  match p_center p with
  | Some c => pret (Some c)
  | None =>
      let! rc := plift (chebyshev (pA p) (pb p) (pC p) (pd p)) in
      pput (set_chebyshev p (fst rc) (snd rc)) ;! pret (snd rc)
  end.

(** polyhedron.py:806-810: p.A[i,0], p.b[i] for i in [0,1]; IndexError if there are less than two facets *)
Definition vertices_1d (A : mat) (b : vec) : res (list vec) :=
  p <- run_on (Polyhedron A (D1 b) None None) remove_redundant_inequalities ;;
  if (2 <=? nrows (pA p))%nat then
    Ok (map (fun i => [nth i (pb p) 0 / nth 0 (row (pA p) i) 0]) [0%nat; 1%nat])
  else Err IndexError.

(** polyhedron.py:770-824, on Python 3 ([None < tol] raises TypeError) *)
Definition get_vertices : pm (option (list vec)) :=
  let! p := pget in
  match p_vertices p with
  | Some v => pret (Some v)
  | None =>
      let! bnd := get_bounded in
      if negb bnd then pret None
      else
        let! r := get_radius in
        match r with
        | None => praise TypeError
        | Some r =>
            if Rltb r tol7 then pret None
            else
              let! p := pget in
              if (0 <? nrows (pC p))%nat then
                let! q := plift (remove_equalities (pA p) (pb p) (pC p) (pd p)) in
                let '(A, b, N, R) := q in
                let T := hstack N R in
                let! T1 := plift (np_inv np T) in
                let! c := get_center in
                let center := firstn (ncols N) (mv T1 (match c with Some c => c | None => [] end)) in
                let! vs := plift (if Nat.eqb (ncols A) 1 then vertices_1d A b else np_halfspaces np A b center) in
                let! CR1 := plift (np_inv np (mm (pC p) R)) in
                let vs' := map (fun v => mv T (v ++ mv CR1 (pd p))) vs in
                let! p := pget in
                pput (set_vertices p (Some vs')) ;! pret (Some vs')
              else
                let! c := get_center in
                let center := match c with Some c => c | None => [] end in
                let! vs := plift (if Nat.eqb (ncols (pA p)) 1 then vertices_1d (pA p) (pb p)
                                  else np_halfspaces np (pA p) (pb p) center) in
                let! p := pget in
                pput (set_vertices p (Some vs)) ;! pret (Some vs)
        end
  end.
End Solver.
