(** * CartDyn: model of examples/cart_pole_dynamics.m

    A MATLAB script with the symbolic toolbox.  The symbols q1, q2, qd1, qd2, u have the numbers 0 to 4.  The parameters mc, mp, l, d, k, g are arbitrary numbers
    instead of symbols (differentiation with respect to the other symbols treats them alike).  simplify is left out: it changes the form of an expression, not its values.
    M\b for a 2 x 2 matrix is written with Cramer's rule. *)
From Verif Require Import Arr Spec SpecSym Symbolic.

(** jacobian(es, vs) *)
Definition m_jacobian (es : list sx) (vs : list nat) : list (list sx) := map (fun e => map (fun i => sdiff i e) vs) es.
Definition s_dot (a b : list sx) : sx := fold_right (fun t s => SAdd (SMul (fst t) (snd t)) s) (SNum 0) (combine a b).
Definition s_mv (M : list (list sx)) (v : list sx) : list sx := map (fun r => s_dot r v) M.
Definition s_neg (e : sx) : sx := SMul (SNum (-1)) e.
Definition s_sub (e f : sx) : sx := SAdd e (s_neg f).
(** M\b *)
Definition m_solve2 (M : list (list sx)) (b : list sx) : list sx :=
  match M, b with
  | [[m11; m12]; [m21; m22]], [b1; b2] =>
      let det := s_sub (SMul m11 m22) (SMul m12 m21) in
      [SDiv (s_sub (SMul m22 b1) (SMul m12 b2)) det; SDiv (s_sub (SMul m11 b2) (SMul m21 b1)) det]
  | _, _ => []
  end.

Section Script.
Variables mc mp l d k g : R.

(** cart_pole_dynamics.m:28-33 *)
Definition gr : list sx := [SNum 0; SNum (- g)].
Definition q : list nat := [0; 1]%nat.
Definition qd : list nat := [2; 3]%nat.
Definition xx : list nat := [0; 1; 2; 3]%nat.
Definition qds : list sx := map SVar qd.
(** cart_pole_dynamics.m:36-41: positions and velocities *)
Definition pc : list sx := [SVar 0; SNum 0].
Definition pp : list sx := [s_sub (SVar 0) (SMul (SNum l) (SSin (SVar 1))); SMul (SNum l) (SCos (SVar 1))].
Definition vc : list sx := s_mv (m_jacobian pc q) qds.
Definition vp : list sx := s_mv (m_jacobian pp q) qds.
(** cart_pole_dynamics.m:44-50: Lagrangian functions *)
Definition TT : sx := SAdd (SMul (SMul (SNum (/ 2)) (SNum mc)) (s_dot vc vc)) (SMul (SMul (SNum (/ 2)) (SNum mp)) (s_dot vp vp)).
Definition U1 : sx := SMul (s_neg (SNum mp)) (s_dot gr pp).
Definition U0 : sx := SAdd U1 (SMul (SMul (SNum (/ 2)) (SNum k)) (SPow (SAdd (nth 0 pp (SNum 0)) (SNum d)) 2)).
Definition U2 : sx := SAdd U1 (SMul (SMul (SNum (/ 2)) (SNum k)) (SPow (s_sub (nth 0 pp (SNum 0)) (SNum d)) 2)).
Definition LL (U : sx) : sx := s_sub TT U.
(** cart_pole_dynamics.m:53-54: generalized forces *)
Definition QQ : list sx := map (fun j => s_dot [SVar 4; SNum 0] (map (fun r => nth j r (SNum 0)) (m_jacobian pc q))) [0; 1]%nat.
(** cart_pole_dynamics.m:57-62: equations of motion *)
Definition MM (L : sx) : list (list sx) := m_jacobian (map (fun i => sdiff i L) qd) qd.
Definition CC (L : sx) : list sx := map (fun t => s_sub (fst t) (snd t)) (combine (s_mv (m_jacobian (map (fun i => sdiff i L) qd) q) qds) (map (fun i => sdiff i L) q)).
(** cart_pole_dynamics.m:65-67: state space form *)
Definition ff (U : sx) : list sx := qds ++ m_solve2 (MM (LL U)) (map (fun t => s_sub (fst t) (snd t)) (combine QQ (CC (LL U)))).

(** subs(e, var, var_n) with the values 0: division by zero is an error *)
Definition m_at0 (e : sx) : res R := match value (fun _ => 0) e with Some v => Ok v | None => Err ValueError end.
(** cart_pole_dynamics.m:70-80: A = subs(jacobian(f, x), ..), B, c, at the equilibrium x_eq = 0, u_eq = 0 (lines 24-25) *)
Definition linearize (U : sx) : res (mat * mat * vec) :=
  A <- mapM (mapM m_at0) (m_jacobian (ff U) xx) ;;
  B <- mapM (mapM m_at0) (m_jacobian (ff U) [4%nat]) ;;
  c <- mapM m_at0 (ff U) ;;
  Ok (Mat 4 A, Mat 1 B, c).
End Script.
(** the script: the matrices of the modes 0, 1, 2; lines 82-93 are the same with the numbers of lines 14-21 *)
Definition cart_script (mc mp l d k g : R) : res ((mat * mat * vec) * (mat * mat * vec) * (mat * mat * vec)) :=
  S0 <- linearize mc mp l (U0 mp l d k g) ;;
  S1 <- linearize mc mp l (U1 mp l g) ;;
  S2 <- linearize mc mp l (U2 mp l d k g) ;;
  Ok (S0, S1, S2).
(** state and input as values of the symbols *)
Definition cart_env (x u : vec) : nat -> R := fun i => nth i (x ++ u) 0.
(** cart_pole_dynamics.m:4-7: the mode is decided by the horizontal position pp(1) of the tip *)
Definition cart_mode (mp l d k g : R) (x u : vec) : sx :=
  match value (cart_env x u) (nth 0 (pp l) (SNum 0)) with
  | Some p => if Rlt_dec p (- d) then U0 mp l d k g else if Rle_dec p d then U1 mp l g else U2 mp l d k g
  | None => U1 mp l g
  end.
(** f of the mode, at the state x and the input u *)
Definition cart_flow (mc mp l d k g : R) (x u : vec) : res vec :=
  mapM (fun e => match value (cart_env x u) e with Some v => Ok v | None => Err ValueError end) (ff mc mp l (cart_mode mp l d k g x u)).
