(** * Dynamics: model of pympc/dynamics/discrete_time_systems.py, utils.py, discretization_methods.py

    (The symbolic constructors, lines 233-283, 393-432 and 753-775, are in [Symbolic].)
    Python 3 semantics: comparing None with a float raises TypeError. *)
From Coq Require Import ZArith String.
From Verif Require Import Arr Spec Numpy Pnnls GeomUtils Polyhedron.

(** numpy [A + B] of two-dimensional arrays; broadcasting of arrays with one row or one column
    is not modelled: it is a ValueError here. *)
Definition np_madd (A B : mat) : res mat :=
  if (Nat.eqb (nrows A) (nrows B) && Nat.eqb (ncols A) (ncols B))%bool then Ok (madd A B) else Err ValueError.

(** np.hstack of a list; ValueError on the empty list *)
Fixpoint hstack_list (l : list mat) : mat :=
  match l with
  | [] => Mat 0 []
  | [A] => A
  | A :: l' => hstack A (hstack_list l')
  end.
Definition np_hstack_list (l : list mat) : res mat :=
  match l with [] => Err ValueError | _ => Ok (hstack_list l) end.
Definition np_vstack_list (l : list mat) : res mat :=
  match l with [] => Err ValueError | _ => Ok (vstack_list l) end.

(** utils.py:4-38 *)
Definition check_affine_system (A B : mat) (c : option nd) (h : option R) : res Datatypes.unit :=
  if negb (Nat.eqb (nrows A) (ncols A)) then Err ValueError
  else if negb (Nat.eqb (nrows A) (nrows B)) then Err ValueError
  else
    _ <- match c with
         | None => Ok tt
         | Some c =>
             if (1 <? nd_ndim c)%nat then Err ValueError
             else if negb (Nat.eqb (nrows A) (nd_size c)) then Err ValueError
             else Ok tt
         end ;;
    match h with
    | None => Ok tt
    | Some h => if Rltb h 0 then Err ValueError else Ok tt
    end.

(** ** Linear and affine systems *)
Record lsys : Type := LSys { lA : mat; lB : mat; l_controllable : option bool }.
Record asys : Type := ASys { aA : mat; aB : mat; ac : vec }.
(** [self.nx, self.nu = B.shape] (lines 37, 313) *)
Definition anx (S : asys) : nat := nrows (aB S).
Definition anu (S : asys) : nat := ncols (aB S).
Definition lnx (S : lsys) : nat := nrows (lB S).
Definition lnu (S : lsys) : nat := ncols (lB S).

(** discrete_time_systems.py:17-42 *)
Definition LinearSystem (A B : mat) : res lsys :=
  _ <- check_affine_system A B None None ;; Ok (LSys A B None).
(** discrete_time_systems.py:290-313 *)
Definition AffineSystem (A B : mat) (c : nd) : res asys :=
  _ <- check_affine_system A B (Some c) None ;;
  match c with D1 c => Ok (ASys A B c) | D2 _ => Err ValueError end.

(** discrete_time_systems.py:44-66 *)
Fixpoint lin_simulate (S : lsys) (x : vec) (u : list vec) : res (list vec) :=
  match u with
  | [] => Ok [x]
  | v :: u' =>
      Ax <- np_mv (lA S) x ;;
      Bv <- np_mv (lB S) v ;;
      xs <- lin_simulate S (vadd Ax Bv) u' ;;
      Ok (x :: xs)
  end.
(** discrete_time_systems.py:315-337 *)
Fixpoint aff_simulate (S : asys) (x : vec) (u : list vec) : res (list vec) :=
  match u with
  | [] => Ok [x]
  | v :: u' =>
      Ax <- np_mv (aA S) x ;;
      Bv <- np_mv (aB S) v ;;
      xs <- aff_simulate S (vadd (vadd Ax Bv) (ac S)) u' ;;
      Ok (x :: xs)
  end.
(** discrete_time_systems.py:68-91 *)
Fixpoint simulate_closed_loop (S : lsys) (x : vec) (N : nat) (K : mat) : res (list vec) :=
  match N with
  | O => Ok [x]
  | Datatypes.S N' =>
      BK <- np_dot (lB S) K ;;
      Acl <- np_madd (lA S) BK ;;
      x' <- np_mv Acl x ;;
      xs <- simulate_closed_loop S x' N' K ;;
      Ok (x :: xs)
  end.

(** ** Condensed dynamics *)
(** [l[i::-1]] and [l[i:j:-1]] for 0 <= j <= i < len(l) *)
Definition rev_to {A} (i : nat) (l : list A) : list A := rev (firstn (S i) l).
Definition rev_slice {A} (i j : nat) (l : list A) : list A := rev (slice (S j) (S i) l).

(** discrete_time_systems.py:731-751 *)
Definition productory (l : list mat) : res mat :=
  match l with [] => Err IndexError | A :: l' => Ok (fold_left mm l' A) end.

(** lines 717-720: the i-th block row of B_bar; the blocks that are not assigned are zero *)
Definition condense_row (nx nu N : nat) (As Bs : list mat) (i : nat) : res mat :=
  blocks <- mapM (fun j =>
     if (j <? i)%nat then P <- productory (rev_slice i j As) ;; Ok (mm P (nth j Bs (Mat 0 [])))
     else if Nat.eqb j i then Ok (nth i Bs (Mat 0 []))
     else Ok (zmat nx nu)) (seq 0 N) ;;
  np_hstack_list blocks.
(** line 726; [sum] of a list of vectors starts from the integer 0 *)
Definition condense_offset (nx : nat) (As : list mat) (cs : list vec) (i : nat) : res vec :=
  ts <- mapM (fun j => P <- productory (rev_slice i j As) ;; Ok (mv P (nth j cs []))) (seq 0 i) ;;
  Ok (vadd (fold_left vadd ts (zeros nx)) (nth i cs [])).

(** discrete_time_systems.py:676-729.  Modes are nonnegative here (Python also accepts negative list indices).
    A mode beyond the end is an IndexError, an empty mode sequence a ValueError of np.vstack([]). *)
Definition condense_pwa_system (S : list asys) (modes : list nat) : res (mat * mat * vec) :=
  match S with
  | [] => Err IndexError
  | S0 :: _ =>
      let nx := anx S0 in
      let nu := anu S0 in
      let N := length modes in
      seq_ <- mapM (fun m => match nth_error S m with Some s => Ok s | None => Err IndexError end) modes ;;
      let As := map aA seq_ in
      let Bs := map aB seq_ in
      let cs := map ac seq_ in
      Arows <- mapM (fun i => productory (rev_to i As)) (seq 0 N) ;;
      A0 <- np_vstack_list Arows ;;
      let A_bar := vstack (eye nx) A0 in
      Brows <- mapM (condense_row nx nu N As Bs) (seq 0 N) ;;
      B0 <- np_vstack_list Brows ;;
      let B_bar := vstack (zmat nx (nu * N)) B0 in
      crows <- mapM (condense_offset nx As cs) (seq 1 (N - 1)) ;;
      let c_bar := (zeros nx ++ nth 0 cs []) ++ List.concat crows in
      Ok (A_bar, B_bar, c_bar)
  end.
(** discrete_time_systems.py:160-184, 339-359 *)
Definition aff_condense (S : asys) (N : nat) : res (mat * mat * vec) :=
  condense_pwa_system [S] (repeat 0%nat N).
Definition lin_condense (S : lsys) (N : nat) : res (mat * mat) :=
  s <- AffineSystem (lA S) (lB S) (D1 (zeros (nrows (lA S)))) ;;
  q <- aff_condense s N ;;
  let '(A_bar, B_bar, _) := q in Ok (A_bar, B_bar).

(** ** Piecewise affine systems *)
Inductive anysys : Type := Lin (s : lsys) | Aff (s : asys).
Definition sys_nx (s : anysys) := match s with Lin s => lnx s | Aff s => anx s end.
Definition sys_nu (s : anysys) := match s with Lin s => lnu s | Aff s => anu s end.
Record pwa : Type := PWA { w_nx : nat; w_nu : nat; w_sys : list asys; w_dom : list poly }.

(** [set(..)] of integers has exactly one element; that element *)
Definition only (l : list nat) : option nat := match nodup Nat.eq_dec l with [n] => Some n | _ => None end.

(** discrete_time_systems.py:476-480 *)
Definition to_affine (nx : nat) (s : anysys) : res asys :=
  match s with Lin s => AffineSystem (lA s) (lB s) (D1 (zeros nx)) | Aff s => Ok s end.
(** discrete_time_systems.py:439-485.  (The caller's list is updated in place with the converted systems.) *)
Definition PieceWiseAffineSystem (S : list anysys) (D : list poly) : res pwa :=
  if negb (Nat.eqb (length S) (length D)) then Err ValueError
  else match only (map sys_nx S) with
  | None => Err ValueError
  | Some nx =>
  match only (map sys_nu S) with
  | None => Err ValueError
  | Some nu =>
  match only (map (fun d => ncols (pA d)) D) with
  | None => Err ValueError
  | Some nxu =>
      if negb (Nat.eqb nxu (nx + nu)) then Err ValueError
      else S' <- mapM (to_affine nx) S ;; Ok (PWA nx nu S' D)
  end end end.

(** discrete_time_systems.py:533-556 *)
Fixpoint get_mode_from (i : nat) (D : list poly) (xu : vec) : res (option nat) :=
  match D with
  | [] => Ok None
  | d :: D' =>
      b <- contains tol7 d xu ;;
      if b : bool then Ok (Some i) else get_mode_from (S i) D' xu
  end.
Definition get_mode (W : pwa) (x u : vec) : res (option nat) := get_mode_from 0 (w_dom W) (x ++ u).

(** discrete_time_systems.py:493-531 *)
Fixpoint pwa_simulate (W : pwa) (x : vec) (u : list vec) : res (list vec * list nat) :=
  match u with
  | [] => Ok ([x], [])
  | v :: u' =>
      mode <- get_mode W x v ;;
      match mode with
      | None => Err ValueError
      | Some m =>
          match nth_error (w_sys W) m with
          | None => Err IndexError
          | Some s =>
              Ax <- np_mv (aA s) x ;;
              Bv <- np_mv (aB s) v ;;
              q <- pwa_simulate W (vadd (vadd Ax Bv) (ac s)) u' ;;
              let '(xs, ms) := q in Ok (x :: xs, m :: ms)
          end
      end
  end.

(** discrete_time_systems.py:487-491 *)
Definition pwa_condense (W : pwa) (modes : list nat) : res (mat * mat * vec) :=
  condense_pwa_system (w_sys W) modes.

Section Libraries.
Variable np : numpy.

(** discrete_time_systems.py:558-582.  The loop over i<j; [Di.intersection(Dj)] is a new object *)
Fixpoint well_posed_against (tol : R) (Di : poly) (Ds : list poly) : res bool :=
  match Ds with
  | [] => Ok true
  | Dj :: Ds' =>
      Dij <- intersection Di Dj ;;
      r <- fst (get_radius np Dij) ;;
      match r with
      | None => Err TypeError
      | Some r => if Rltb tol r then Ok false else well_posed_against tol Di Ds'
      end
  end.
Fixpoint well_posed_list (tol : R) (Ds : list poly) : res bool :=
  match Ds with
  | [] => Ok true
  | Di :: Ds' =>
      b <- well_posed_against tol Di Ds' ;;
      if b : bool then well_posed_list tol Ds' else Ok false
  end.
Definition is_well_posed (tol : R) (W : pwa) : res bool := well_posed_list tol (w_dom W).

(** ** Maximal constraint-admissible invariant sets *)
(** lines 644-648 *)
Definition mcais_residuals (J : mat) (b : vec) (O : poly) : res vec :=
  mapM (fun i =>
    s <- lp np (vneg (row J i)) (pA O) (pb O) None None ;;
    match s_min s with None => Err TypeError | Some mn => Ok (- mn - nth i b 0) end) (seq 0 (nrows J)).
(** lines 638-664; [fuel] bounds the number of iterations of the [while] loop *)
Fixpoint mcais_loop (fuel t : nat) (A : mat) (X O : poly) : res poly :=
  match fuel with
  | O%nat => Err OutOfFuel
  | Datatypes.S fuel' =>
      J <- np_dot (pA X) (mpow A t) ;;
      rs <- mcais_residuals J (pb X) O ;;
      let new_facets := where_ (fun r => Rltb 0 r) rs in
      match new_facets with
      | [] => Ok O
      | _ =>
          O' <- run_on (Ok O) (add_inequality (mtake J new_facets) (D1 (vtake (pb X) new_facets)) None) ;;
          mcais_loop fuel' (Datatypes.S t) A X O'
      end
  end.
(** discrete_time_systems.py:584-674, as a method of X (whose caches are filled by [X.bounded]).
    [X.contains(np.zeros((nx,1)))] broadcasts to a matrix whose largest entry is the largest entry of the vector
    computed by X.contains(np.zeros(nx)).  np.linalg.eig raises LinAlgError if A is not square, np.max raises ValueError if A is 0x0. *)
Definition mcais (fuel : nat) (A : mat) : pm poly :=
  plift (if Nat.eqb (nrows A) (ncols A) then if Nat.eqb (ncols A) 0 then Err ValueError else Ok tt else Err LinAlgError) ;!
  if Rltb 1 (np_eig_max np A) then praise ValueError else
  let! X := pget in
  let! c := plift (contains tol7 X (zeros (ncols (pA X)))) in
  if negb c then praise ValueError else
  let! b := get_bounded np in
  if negb b then praise ValueError else
  let! X := pget in
  plift (O <- mcais_loop fuel 1 A X X ;;
         run_on (Ok O) (remove_redundant_inequalities np)).

(** discrete_time_systems.py:128-158.  The equalities of D are not passed on (lines 152-155). *)
Definition lin_mcais (fuel : nat) (S : lsys) (K : mat) (D : poly) : res poly :=
  BK <- np_dot (lB S) K ;;
  A_cl <- np_madd (lA S) BK ;;
  DK <- np_dot (cols_from (pA D) (lnx S)) K ;;
  DA <- np_madd (cols_to (pA D) (lnx S)) DK ;;
  X_cl <- Polyhedron DA (D1 (pb D)) None None ;;
  fst (mcais fuel A_cl X_cl).

(** discrete_time_systems.py:186-198 *)
Definition reachability (A B : mat) (nx : nat) : res mat :=
  np_hstack_list (map (fun i => mm (mpow A i) B) (seq 0 nx)).
Definition get_controllable (S : lsys) : res bool * lsys :=
  match l_controllable S with
  | Some b => (Ok b, S)
  | None =>
      match reachability (lA S) (lB S) (lnx S) with
      | Err e => (Err e, S)
      | Ok Rm =>
          let b := Nat.eqb (np_rank np Rm) (lnx S) in
          (Ok b, LSys (lA S) (lB S) (Some b))
      end
  end.

(** discrete_time_systems.py:93-126 *)
Definition solve_dare (S : lsys) (Q Rm : mat) : res (mat * mat) * lsys :=
  match get_controllable S with
  | (Err e, S') => (Err e, S')
  | (Ok false, S') => (Err ValueError, S')
  | (Ok true, S') =>
      let A := lA S in
      let B := lB S in
      let P := np_dare np A B Q Rm in
      (M <- np_madd (mm (mm (tr B) P) B) Rm ;;
       M1 <- np_inv np M ;;
       Ok (P, mm (mm (mm (mneg M1) (tr B)) P) A), S')
  end.

(** discretization_methods.py:8-40 *)
Definition explicit_euler (A B : mat) (c : nd) (h : R) : res (mat * mat * vec) :=
  _ <- check_affine_system A B (Some c) (Some h) ;;
  match c with
  | D1 c => Ok (madd (mscale h A) (eye (nrows A)), mscale h B, vscale h c)
  | D2 _ => Err ValueError
  end.
(** discretization_methods.py:42-102 *)
Definition zoh_matrix (A B : mat) (c : vec) : mat :=
  vstack (hstack (hstack A B) (Mat 1 (map (fun ci => [ci]) c)))
         (zmat (ncols B + 1) (nrows A + ncols B + 1)).
Definition zero_order_hold (A B : mat) (c : nd) (h : R) : res (mat * mat * vec) :=
  _ <- check_affine_system A B (Some c) (Some h) ;;
  match c with
  | D1 c =>
      let n_x := nrows A in
      let n_u := ncols B in
      let M_d := np_expm np (mscale h (zoh_matrix A B c)) in
      let top := Mat (ncols M_d) (firstn n_x (rows M_d)) in
      Ok (cols_to top n_x,
          cols_to (cols_from top n_x) n_u,
          map (fun r => nth (n_x + n_u) r 0) (rows top))
  | D2 _ => Err ValueError
  end.

(** discrete_time_systems.py:200-231 *)
Definition lin_from_continuous (A B : mat) (h : R) (method : string) : res lsys :=
  _ <- check_affine_system A B None (Some h) ;;
  let c := D1 (zeros (nrows A)) in
  q <- (if String.eqb method "zero_order_hold" then zero_order_hold A B c h
        else if String.eqb method "explicit_euler" then explicit_euler A B c h
        else Err ValueError) ;;
  let '(A_d, B_d, _) := q in LinearSystem A_d B_d.
(** discrete_time_systems.py:361-391 *)
Definition aff_from_continuous (A B : mat) (c : nd) (h : R) (method : string) : res asys :=
  _ <- check_affine_system A B (Some c) (Some h) ;;
  q <- (if String.eqb method "zero_order_hold" then zero_order_hold A B c h
        else if String.eqb method "explicit_euler" then explicit_euler A B c h
        else Err ValueError) ;;
  let '(A_d, B_d, c_d) := q in AffineSystem A_d B_d (D1 c_d).
End Libraries.
