(** * Hybrid: model of the hybrid part of pympc/control/controllers.py (lines 249-680) and of
    pympc/optimization/parametric_programs.py:534-624 (multi-parametric mixed-integer quadratic programs) *)
From Coq Require Import String.
From Verif Require Import Arr Numpy Pnnls Polyhedron Dynamics Mpqp Gurobi Programs Controllers.

(** parametric_programs.py:550-567: the dictionaries H and A are the fields of the record *)
Record mpmiqp : Type := MPMIQP {
  h_Huu : mat; h_Hzz : mat; h_Hzx : mat; h_Hxx : mat;
  h_Au : mat; h_Az : mat; h_Ad : mat; h_Ax : mat; h_b : vec
}.
(** the dictionary returned by solve *)
Record msol : Type := MSol { m_min : option R; m_u : option vec; m_z : option vec; m_d : option vec }.

(** controllers.py:468-509: E with keys x, u, z, d, 0 *)
Record eblocks : Type := EB { e_x : mat; e_u : mat; e_z : mat; e_d : mat; e_0 : vec }.

(** np.vstack of a list of scalars: a column (ValueError if there is none); a column is its list of entries *)
Definition column (l : vec) : res vec := match l with [] => Err ValueError | _ => Ok l end.
Definition colmat (v : vec) : mat := Mat 1 (map (fun a => [a]) v).

(** controllers.py:513-538.  Row k of block i has bigM[i][j][k] in column j <> i and zero in column i
    (all bigM[i][j] of one i have the same length, else numpy raises ValueError in the assignment). *)
Definition bigM_matrices (bigM : list (list vec)) : mat :=
  let s := length bigM in
  Mat s (flat_map (fun i =>
           let bi := nth i bigM [] in
           map (fun k => map (fun j => if Nat.eqb j i then 0 else nth k (nth j bi []) 0) (seq 0 s))
               (seq 0 (length (nth 0 bi []))))
         (seq 0 s)).

Section Hybrid.
Variable np : numpy.
Variable grb : gmodel -> gsol.

(** parametric_programs.py:569-624 *)
Definition mpmiqp_solve (q : mpmiqp) (x : vec) : res msol :=
  let nu := ncols (h_Au q) in
  let nz := ncols (h_Az q) in
  let nd := ncols (h_Ad q) in
  let nc := (nu + nz)%nat in
  let H := block_diag [h_Huu q; h_Hzz q; zmat nd nd] in
  Hzxx <- np_mv (h_Hzx q) x ;;
  let f := zeros nu ++ Hzxx ++ zeros nd in
  A <- np_hstack_list [h_Au q; h_Az q; h_Ad q] ;;
  Axx <- np_mv (h_Ax q) x ;;
  b <- np_vsub (h_b q) Axx ;;
  s <- Programs.mixed_integer_quadratic_program grb nc H f A b None None "gurobi" ;;
  match s with
  | (None, _) => Ok (MSol None None None None)
  | (Some _, None) => Err TypeError
  | (Some v, Some y) =>
      Ok (MSol (Some (v + / 2 * dot x (mv (h_Hxx q) x)))
               (Some (firstn nu y)) (Some (slice nu (nu + nz) y)) (Some (skipn (nu + nz) y)))
  end.

(** one linear program: [sol['min']], used in an arithmetic expression (None raises TypeError) *)
Definition lp_min (f : vec) (D : poly) : res R :=
  s <- lp np f (pA D) (pb D) (Some (pC D)) (Some (pd D)) ;;
  match s_min s with Some v => Ok v | None => Err TypeError end.

(** controllers.py:289-358, innermost loop: (alpha_ij, beta_ij) *)
Definition bigM_dynamics_ij (S_i : asys) (D_j : poly) : res (vec * vec) :=
  let A_i := hstack (aA S_i) (aB S_i) in
  ab <- mapM (fun k =>
          let f := row A_i k in
          m <- lp_min f D_j ;;
          let a := m + nth k (ac S_i) 0 in
          m' <- lp_min (vneg f) D_j ;;
          let b := - m' + nth k (ac S_i) 0 in
          Ok (a, b)) (seq 0 (anx S_i)) ;;
  alpha_ij <- column (map fst ab) ;;
  beta_ij <- column (map snd ab) ;;
  Ok (alpha_ij, beta_ij).
Definition get_bigM_dynamics (W : pwa) : res (list (list vec) * list (list vec)) :=
  ab <- mapM (fun S_i =>
          mapM (fun j => match nth_error (w_dom W) j with
                         | None => Err IndexError
                         | Some D_j => bigM_dynamics_ij S_i D_j
                         end) (seq 0 (length (w_sys W)))) (w_sys W) ;;
  Ok (map (map fst) ab, map (map snd) ab).

(** controllers.py:360-405 *)
Definition bigM_domains_ij (D_i D_j : poly) : res vec :=
  g <- mapM (fun k =>
         m <- lp_min (vneg (row (pA D_i) k)) D_j ;;
         Ok (- m - nth k (pb D_i) 0)) (seq 0 (nrows (pA D_i))) ;;
  column g.
Definition get_bigM_domains (W : pwa) : res (list (list vec)) :=
  mapM (fun D_i => mapM (bigM_domains_ij D_i) (w_dom W)) (w_dom W).

(** controllers.py:449-511 *)
Definition build_inequalities (W : pwa) (alpha beta gamma : list (list vec)) : res eblocks :=
  let nx := w_nx W in
  let nu := w_nu W in
  let s := length (w_sys W) in
  let n_ineq := fold_right Nat.add 0%nat (map (fun D => nrows (pA D)) (w_dom W)) in
  let diag M := map (fun i => colmat (nth i (nth i M []) [])) (seq 0 s) in
  x3 <- np_vstack_list (map (fun S => mneg (aA S)) (w_sys W)) ;;
  x4 <- np_vstack_list (map aA (w_sys W)) ;;
  x5 <- np_vstack_list (map (fun D => cols_to (pA D) nx) (w_dom W)) ;;
  Ex <- np_vstack_list [zmat (nx * s) nx; zmat (nx * s) nx; x3; x4; x5; zmat 2 nx] ;;
  u3 <- np_vstack_list (map (fun S => mneg (aB S)) (w_sys W)) ;;
  u4 <- np_vstack_list (map aB (w_sys W)) ;;
  u5 <- np_vstack_list (map (fun D => cols_from (pA D) nx) (w_dom W)) ;;
  Eu <- np_vstack_list [zmat (nx * s) nu; zmat (nx * s) nu; u3; u4; u5; zmat 2 nu] ;;
  Ez <- np_vstack_list [block_diag (repeat (mneg (eye nx)) s); block_diag (repeat (eye nx) s);
                        block_diag (repeat (eye nx) s); block_diag (repeat (mneg (eye nx)) s);
                        zmat n_ineq (nx * s); zmat 2 (nx * s)] ;;
  Ed <- np_vstack_list [block_diag (diag alpha); mneg (block_diag (diag beta));
                        bigM_matrices alpha; mneg (bigM_matrices beta); mneg (bigM_matrices gamma);
                        vstack (rowmat (ones s)) (rowmat (vneg (ones s)))] ;;
  let E0 := zeros (nx * s) ++ zeros (nx * s) ++ List.concat (map ac (w_sys W)) ++
            List.concat (map (fun S => vneg (ac S)) (w_sys W)) ++ List.concat (map pb (w_dom W)) ++ [1; -1] in
  Ok (EB Ex Eu Ez Ed E0).

(** controllers.py:540-582 *)
Definition pad (M X : mat) : mat := vstack M (zmat (nrows X) (ncols M)).
Definition condense_inequalities (E : eblocks) (N : nat) (X_N : poly) : eblocks :=
  EB (block_diag (repeat (e_x E) N ++ [pA X_N]))
     (pad (block_diag (repeat (e_u E) N)) (pA X_N))
     (pad (block_diag (repeat (e_z E) N)) (pA X_N))
     (pad (block_diag (repeat (e_d E) N)) (pA X_N))
     (List.concat (repeat (e_0 E) N ++ [pb X_N])).

(** controllers.py:585-609 *)
Definition condense_equalities (W : pwa) (N : nat) : res (mat * mat) :=
  let nx := w_nx W in
  let A_bar := vstack (eye nx) (zmat (nx * N) nx) in
  Sum <- np_hstack_list (repeat (eye nx) (length (w_sys W))) ;;
  let Bz_bar := block_diag (repeat Sum N) in
  Ok (A_bar, vstack (zmat nx (ncols Bz_bar)) Bz_bar).

(** controllers.py:407-447 *)
Definition hybrid_condense_program (W : pwa) (N : nat) (Q Rm P : mat) (X_N : poly) (alpha beta gamma : list (list vec)) : res mpmiqp :=
  E <- build_inequalities W alpha beta gamma ;;
  let E_bar := condense_inequalities E N X_N in
  AB <- condense_equalities W N ;;
  let '(A_bar, Bz_bar) := AB in
  let Huu := block_diag (repeat Rm N) in
  let Q_bar := block_diag (repeat Q N ++ [P]) in
  BQ <- np_dot (tr Bz_bar) Q_bar ;;
  Hzz <- np_dot BQ Bz_bar ;;
  Hzx <- np_dot BQ A_bar ;;
  AQ <- np_dot (tr A_bar) Q_bar ;;
  Hxx <- np_dot AQ A_bar ;;
  ExB <- np_dot (e_x E_bar) Bz_bar ;;
  Az <- np_madd (e_z E_bar) ExB ;;
  Ax <- np_dot (e_x E_bar) A_bar ;;
  Ok (MPMIQP Huu Hzz Hzx Hxx (e_u E_bar) Az (e_d E_bar) Ax (e_0 E_bar)).

(** controllers.py:254-287 *)
Record hmpc : Type := HMPC {
  k_S : pwa; k_N : nat; k_Q : mat; k_R : mat; k_P : mat; k_XN : poly;
  k_alpha : list (list vec); k_beta : list (list vec); k_gamma : list (list vec);
  k_mpmiqp : mpmiqp
}.
Definition HybridModelPredictiveController (W : pwa) (N : nat) (Q Rm P : mat) (X_N : poly) : res hmpc :=
  ab <- get_bigM_dynamics W ;;
  let '(alpha, beta) := ab in
  gamma <- get_bigM_domains W ;;
  q <- hybrid_condense_program W N Q Rm P X_N alpha beta gamma ;;
  Ok (HMPC W N Q Rm P X_N alpha beta gamma q).

(** controllers.py:611-646; the result None stands for (None, None, None, None) *)
Definition hybrid_feedforward (C : hmpc) (x : vec) : res (option (list vec * list vec * list nat * R)) :=
  sol <- mpmiqp_solve (k_mpmiqp C) x ;;
  match sol with
  | MSol (Some V) (Some u) (Some z) (Some d) =>
      let nu := w_nu (k_S C) in
      let nx := w_nx (k_S C) in
      let s := length (w_sys (k_S C)) in
      let nz := (nx * s)%nat in
      let u_list := split_inputs nu (k_N C) u in
      let z_list := split_inputs nz (k_N C) z in
      let d_list := split_inputs s (k_N C) d in
      let x_list := x :: map (fun z => fold_right vadd (zeros nx) (split_inputs nx s z)) z_list in
      mode_sequence <- mapM (fun d => match where_ (fun a => Rltb (/ 2) a) d with
                                      | m :: _ => Ok m
                                      | [] => Err IndexError
                                      end) d_list ;;
      Ok (Some (u_list, x_list, mode_sequence, V))
  | MSol None _ _ _ => Ok None
  | _ => Err TypeError
  end.

(** controllers.py:648-666 *)
Definition hybrid_feedback (C : hmpc) (x : vec) : res (option vec) :=
  r <- hybrid_feedforward C x ;;
  match r with
  | None => Ok None
  | Some (u0 :: _, _, _, _) => Ok (Some u0)
  | Some ([], _, _, _) => Err IndexError
  end.

(** controllers.py:668-680 *)
Definition get_mpqp (C : hmpc) (mode_sequence : list nat) : res mpqp :=
  condense_optimal_control_problem np (k_S C) (k_Q C) (k_R C) (k_P C) (k_XN C) mode_sequence.
End Hybrid.
