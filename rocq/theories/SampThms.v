(** * SampThms: the constructors of sampled systems, LinearSystem.from_continuous, AffineSystem.from_continuous and their symbolic versions *)
From Coq Require Import String Lra Lia ZArith.
From Verif Require Import Arr ArrFacts Spec SpecSym SpecDyn SpecGeom Numpy Pnnls GeomUtils Polyhedron PolyThms Dynamics Symbolic Oracle PolyMore GeomThms DynThms ZohThms SymThms.

Lemma check_ok A B c h nx nu : system_shape A B nx nu -> match c with Some v => exists w, v = D1 w /\ length w = nx | None => True end -> match h with Some t => 0 <= t | None => True end -> check_affine_system A B c h = Ok tt.
Proof.
  intros (SA & SB) Hc Hh. assert (LA : nrows A = nx) by apply SA. assert (CA : ncols A = nx) by apply SA. assert (LB : nrows B = nx) by apply SB.
  unfold check_affine_system. rewrite LA, CA, LB, Nat.eqb_refl. cbn [negb]. assert (E : match c with None => Ok tt | Some c => if (1 <? nd_ndim c)%nat then Err ValueError else if negb (Nat.eqb nx (nd_size c)) then Err ValueError else Ok tt end = Ok tt).
  { destruct c as [c|]; [|reflexivity]. destruct Hc as (w & -> & Lw). cbn [nd_ndim nd_size]. rewrite Lw, Nat.eqb_refl. reflexivity. }
  rewrite E. cbn [bind]. destruct h as [t|]; [|reflexivity]. rewrite (proj2 (Rltb_false t 0)) by lra. reflexivity.
Qed.
Lemma check_bad A B c h : ~ (nrows A = ncols A /\ nrows A = nrows B /\ match c with Some v => exists w, v = D1 w /\ length w = nrows A | None => True end /\ 0 <= h) -> check_affine_system A B c (Some h) = Err ValueError.
Proof.
  intros H. unfold check_affine_system. destruct (Nat.eqb_spec (nrows A) (ncols A)) as [E1|]; [|reflexivity]. cbn [negb]. destruct (Nat.eqb_spec (nrows A) (nrows B)) as [E2|]; [|reflexivity]. cbn [negb].
  destruct c as [c|].
  - destruct c as [w|M].
    + cbn [nd_ndim nd_size]. change (1 <? 1)%nat with false. cbv iota. destruct (Nat.eqb_spec (nrows A) (length w)) as [E3|]; [|reflexivity]. cbn [negb bind]. destruct (Rltb h 0) eqn:Hh; [reflexivity|]. apply Rltb_false in Hh. elim H. repeat split; auto. exists w. auto.
    + reflexivity.
  - cbn [bind]. destruct (Rltb h 0) eqn:Hh; [reflexivity|]. apply Rltb_false in Hh. elim H. repeat split; auto.
Qed.
(** a constant solution: the offset of the discretised linear system is zero *)
Lemma zoh_offset np A B nx nu h : system_shape A B nx nu -> 0 <= h -> is_expm (mscale h (zoh_matrix A B (zeros nx))) (np_expm np (mscale h (zoh_matrix A B (zeros nx)))) (nx + nu + 1) ->
  exists A_d B_d c_d, zero_order_hold np A B (D1 (zeros nx)) h = Ok (A_d, B_d, c_d) /\ system_shape A_d B_d nx nu /\
    forall u x, length u = nu -> ode_solution A B (zeros nx) u nx h x -> x h = vadd (mv A_d (x 0)) (mv B_d u).
Proof.
  intros SS Hh HE. destruct (zoh_ok np A B (zeros nx) nx nu h SS ltac:(len) Hh HE) as (Ad & Bd & cd & EZ & SD & Ld & HZ). exists Ad, Bd, cd. split; [exact EZ|]. split; [exact SD|].
  assert (LA : length (rows A) = nx) by apply SS. assert (LB : length (rows B) = nx) by apply SS. assert (LAd : length (rows Ad) = nx) by apply SD. assert (LBd : length (rows Bd) = nx) by apply SD.
  assert (O : ode_solution A B (zeros nx) (zeros nu) nx h (fun _ => zeros nx)).
  { split; [intros t; len|]. intros t _ j Hj. rewrite !mv_zeros, LA, LB, !(vadd_zeros_r nx), nth_zeros by len. apply (derivable_pt_lim_const 0). }
  assert (C0 : cd = zeros nx).
  { pose proof (HZ (zeros nu) (fun _ => zeros nx) ltac:(len) O) as E. cbv beta in E. rewrite !mv_zeros, LAd, LBd, (vadd_zeros_r nx) in E by len.
    apply vec_ext; [len|]. intros i Hi. apply (f_equal (fun l => nth i l 0)) in E. rewrite nth_vadd, nth_zeros in E by len. rewrite nth_zeros. lra. }
  intros u x Lu HO. rewrite (HZ u x Lu HO), C0. apply (vadd_zeros_r nx). assert (length (x 0) = nx) by apply HO. len.
Qed.
(*@ Theorem C34_linear_system : LinearSystem.from_continuous(A, B, h, method): with zero_order_hold (exact matrix exponential) every solution of dx/dt = A x + B u, u constant, satisfies x(h) = A_d x(0) + B_d u; with explicit_euler A_d x + B_d u = x + h (A x + B u); other methods, negative h and incoherent shapes are rejected *)
Lemma lin_continuous np A B h : 
  (forall nx nu, system_shape A B nx nu -> 0 <= h ->
    (is_expm (mscale h (zoh_matrix A B (zeros nx))) (np_expm np (mscale h (zoh_matrix A B (zeros nx)))) (nx + nu + 1) ->
      exists S, lin_from_continuous np A B h "zero_order_hold" = Ok S /\ system_shape (lA S) (lB S) nx nu /\ forall u x, length u = nu -> ode_solution A B (zeros nx) u nx h x -> x h = linear_step (lA S) (lB S) (x 0) u) /\
    (exists S, lin_from_continuous np A B h "explicit_euler" = Ok S /\ system_shape (lA S) (lB S) nx nu /\ forall x u, length x = nx -> length u = nu -> linear_step (lA S) (lB S) x u = vadd x (vscale h (linear_step A B x u)))) /\
  (forall method, method <> "zero_order_hold"%string -> method <> "explicit_euler"%string -> lin_from_continuous np A B h method = Err ValueError) /\
  (forall method, ~ (nrows A = ncols A /\ nrows A = nrows B /\ 0 <= h) -> lin_from_continuous np A B h method = Err ValueError).
Proof.
  assert (CON : forall Ad Bd nx nu, system_shape Ad Bd nx nu -> LinearSystem Ad Bd = Ok (LSys Ad Bd None)).
  { intros Ad Bd nx nu (SA & SB). apply (proj1 (linear_constructor Ad Bd)). destruct SA as (R1 & R2 & _), SB as (R3 & _). unfold nrows. lia. }
  split; [|split].
  - intros nx nu SS Hh. assert (LA : nrows A = nx) by apply SS. unfold lin_from_continuous. rewrite (check_ok A B None (Some h) nx nu SS I Hh), LA. cbn [bind]. split.
    + intros HE. rewrite String.eqb_refl. destruct (zoh_offset np A B nx nu h SS Hh HE) as (Ad & Bd & cd & EZ & SD & HZ). rewrite EZ. cbn [bind]. rewrite (CON _ _ _ _ SD). eexists. split; [reflexivity|]. split; [exact SD|]. exact HZ.
    + change (String.eqb "explicit_euler" "zero_order_hold") with false. rewrite String.eqb_refl. cbv iota. destruct (explicit_euler_ok A B (zeros nx) nx nu h SS ltac:(len) Hh) as (Ad & Bd & cd & EZ & SD & Ld & HZ). rewrite EZ. cbn [bind]. rewrite (CON _ _ _ _ SD). eexists. split; [reflexivity|]. split; [exact SD|].
      assert (LAd : length (rows Ad) = nx) by apply SD. assert (LBd : length (rows Bd) = nx) by apply SD. assert (LA' : length (rows A) = nx) by apply SS. assert (LB' : length (rows B) = nx) by apply SS.
      assert (C0 : cd = zeros nx). { pose proof (HZ (zeros nx) (zeros nu) ltac:(len) ltac:(len)) as E. unfold affine_step in E. rewrite !mv_zeros, LAd, LBd, LA', LB', !(vadd_zeros_r nx) in E by len. apply vec_ext; [len|]. intros i Hi. apply (f_equal (fun l => nth i l 0)) in E. rewrite !nth_vadd, nth_vscale, nth_zeros in E by len. rewrite nth_zeros. lra. }
      intros x u Lx Lu. pose proof (HZ x u Lx Lu) as E. unfold affine_step in E. rewrite C0, !(vadd_zeros_r nx) in E by len. exact E.
  - intros m N1 N2. unfold lin_from_continuous. destruct (check_affine_system A B None (Some h)) as [[]|e] eqn:EC; cbn [bind].
    + rewrite (proj2 (String.eqb_neq _ _) N1), (proj2 (String.eqb_neq _ _) N2). reflexivity.
    + unfold check_affine_system in EC. destruct (negb _); [congruence|]. destruct (negb _); [congruence|]. cbn [bind] in EC. destruct (Rltb h 0); congruence.
  - intros m H. unfold lin_from_continuous. rewrite check_bad; [reflexivity|]. tauto.
Qed.
(*@ Theorem C34_affine_system : AffineSystem.from_continuous(A, B, c, h, method): with zero_order_hold (exact matrix exponential) every solution of dx/dt = A x + B u + c, u constant, satisfies x(h) = A_d x(0) + B_d u + c_d; with explicit_euler A_d x + B_d u + c_d = x + h (A x + B u + c); other methods, negative h and incoherent shapes are rejected *)
Lemma aff_continuous np A B c h : 
  (forall nx nu v, c = D1 v -> system_shape A B nx nu -> length v = nx -> 0 <= h ->
    (is_expm (mscale h (zoh_matrix A B v)) (np_expm np (mscale h (zoh_matrix A B v))) (nx + nu + 1) ->
      exists S, aff_from_continuous np A B c h "zero_order_hold" = Ok S /\ system_shape (aA S) (aB S) nx nu /\ length (ac S) = nx /\ forall u x, length u = nu -> ode_solution A B v u nx h x -> x h = affine_step (aA S) (aB S) (ac S) (x 0) u) /\
    (exists S, aff_from_continuous np A B c h "explicit_euler" = Ok S /\ system_shape (aA S) (aB S) nx nu /\ length (ac S) = nx /\ forall x u, length x = nx -> length u = nu -> affine_step (aA S) (aB S) (ac S) x u = vadd x (vscale h (affine_step A B v x u)))) /\
  (forall method, method <> "zero_order_hold"%string -> method <> "explicit_euler"%string -> aff_from_continuous np A B c h method = Err ValueError) /\
  (forall method, ~ (nrows A = ncols A /\ nrows A = nrows B /\ (exists v, c = D1 v /\ length v = nrows A) /\ 0 <= h) -> aff_from_continuous np A B c h method = Err ValueError).
Proof.
  assert (CON : forall Ad Bd cd nx nu, system_shape Ad Bd nx nu -> length cd = nx -> AffineSystem Ad Bd (D1 cd) = Ok (ASys Ad Bd cd)).
  { intros Ad Bd cd nx nu (SA & SB) Lc. destruct SA as (R1 & R2 & _), SB as (R3 & _). apply (proj1 (affine_constructor Ad Bd (D1 cd))); unfold nrows; try lia. reflexivity. }
  split; [|split].
  - intros nx nu v -> SS Lv Hh. unfold aff_from_continuous. rewrite (check_ok A B (Some (D1 v)) (Some h) nx nu SS ltac:(exists v; auto) Hh). cbn [bind]. split.
    + intros HE. rewrite String.eqb_refl. destruct (zoh_ok np A B v nx nu h SS Lv Hh HE) as (Ad & Bd & cd & EZ & SD & Ld & HZ). rewrite EZ. cbn [bind]. rewrite (CON _ _ _ _ _ SD Ld). eexists. split; [reflexivity|]. split; [exact SD|]. split; [exact Ld|]. exact HZ.
    + change (String.eqb "explicit_euler" "zero_order_hold") with false. rewrite String.eqb_refl. cbv iota. destruct (explicit_euler_ok A B v nx nu h SS Lv Hh) as (Ad & Bd & cd & EZ & SD & Ld & HZ). rewrite EZ. cbn [bind]. rewrite (CON _ _ _ _ _ SD Ld). eexists. split; [reflexivity|]. split; [exact SD|]. split; [exact Ld|]. exact HZ.
  - intros m N1 N2. unfold aff_from_continuous. destruct (check_affine_system A B (Some c) (Some h)) as [[]|e] eqn:EC; cbn [bind].
    + rewrite (proj2 (String.eqb_neq _ _) N1), (proj2 (String.eqb_neq _ _) N2). reflexivity.
    + unfold check_affine_system in EC. destruct (negb _); [congruence|]. destruct (negb _); [congruence|]. destruct (1 <? _)%nat; [cbn [bind] in EC; congruence|]. destruct (negb _); cbn [bind] in EC; [congruence|]. destruct (Rltb h 0); congruence.
  - intros m H. unfold aff_from_continuous. rewrite check_bad; [reflexivity|]. intros (H1 & H2 & H3 & H4). apply H. auto.
Qed.
(** what get_state_transition_matrices returns, with the time derivative in place of the next state *)
Lemma symbolic_ode sfloat xs us es A B c h : sfloat_ok sfloat -> NoDup (xs ++ us) -> Forall regular es -> get_state_transition_matrices sfloat xs us es = Ok (A, B, c) -> length es = length xs ->
  system_shape A B (length xs) (length us) /\ length c = length xs /\ (forall env, map (value env) es = map Some (affine_step A B c (map env xs) (map env us))) /\
  map (value (fun _ => 0)) es = map Some c /\
  forall (x : R -> vec) (env : R -> nat -> R) u e, length e = length xs ->
    (forall t, map (env t) xs = x t) -> (forall t, map (env t) us = u) ->
    (forall t, 0 <= t <= h -> forall i v, (i < length xs)%nat -> value (env t) (nth i es (SNum 0)) = Some v -> derivable_pt_lim (fun s => nth i (x s) 0) t (v - nth i e 0)) ->
    ode_solution A B (vsub c e) u (length xs) h x.
Proof.
  intros SF ND HR ET Q. destruct (transition_ok _ _ _ _ _ _ _ SF ND HR ET) as (SA & SB & Lc & HV). rewrite Q in *. split; [split; assumption|]. split; [exact Lc|]. split; [exact HV|].
  assert (LA : length (rows A) = length xs) by apply SA. assert (LB : length (rows B) = length xs) by apply SB. split.
  - rewrite (HV (fun _ => 0)). f_equal. unfold affine_step. assert (Z : forall l : list nat, map (fun _ => 0) l = zeros (length l)) by (induction l; cbn; f_equal; auto). rewrite !Z, !mv_zeros, LA, LB. apply vec_ext; [len|]. intros i Hi. rewrite !nth_vadd, !nth_zeros by len. ring.
  - intros x env u e Le Hx Hu HD. split; [intros t; rewrite <- Hx; len|]. intros t Ht i Hi. specialize (HV (env t)). rewrite Hx, Hu in HV. apply (f_equal (fun l => nth i l None)) in HV.
    rewrite (nth_indep (map (value (env t)) es) None (value (env t) (SNum 0))) in HV by (rewrite map_length; lia). rewrite map_nth in HV.
    assert (Lw : length (affine_step A B c (x t) u) = length xs) by (unfold affine_step; len). rewrite (nth_indep (map Some _) None (Some 0)) in HV by (rewrite map_length; lia). rewrite map_nth in HV.
    replace (nth i (vadd (vadd (mv A (x t)) (mv B u)) (vsub c e)) 0) with (nth i (affine_step A B c (x t) u) 0 - nth i e 0). 2:{ unfold affine_step. rewrite !nth_vadd, nth_vsub by len. ring. }
    apply HD; assumption.
Qed.
Lemma value_vec es env v n : map (value env) es = map Some v -> length es = n -> forall w, map (value env) es = map Some w -> w = v.
Proof. intros E _ w Ew. rewrite E in Ew. revert w Ew. clear. induction v as [|a v IH]; intros [|b w] E; cbn in E; try discriminate; [reflexivity|]. injection E as -> E. f_equal. apply IH, E. Qed.
(*@ Theorem C35_sampled_linear : LinearSystem.from_symbolic_continuous(x, u, x_dot, h, method) returns a system only if x_dot(0, 0) = c with components up to 1e-8; with zero_order_hold (exact matrix exponential) every solution of dx/dt = x_dot(x, u) - c, u constant, satisfies x(h) = A x(0) + B u; with explicit_euler A x + B u = x + h (x_dot(x, u) - c). In particular for linear x_dot, where c = 0. *)
Lemma lin_symbolic_sampled sfloat np xs us es h method S : sfloat_ok sfloat -> NoDup (xs ++ us) -> Forall regular es ->
  (method = "zero_order_hold"%string -> forall A B c, get_state_transition_matrices sfloat xs us es = Ok (A, B, c) ->
     is_expm (mscale h (zoh_matrix A B (zeros (length xs)))) (np_expm np (mscale h (zoh_matrix A B (zeros (length xs))))) (length xs + length us + 1)) ->
  lin_from_symbolic_continuous sfloat np xs us es h method = Ok S ->
  0 <= h /\ length es = length xs /\ system_shape (lA S) (lB S) (length xs) (length us) /\
  exists c, map (value (fun _ => 0)) es = map Some c /\ Forall (fun ci => Rabs ci <= / 100000000) c /\
  (method = "zero_order_hold"%string /\
   (forall (x : R -> vec) (env : R -> nat -> R) u,
     (forall t, map (env t) xs = x t) -> (forall t, map (env t) us = u) ->
     (forall t, 0 <= t <= h -> forall i v, (i < length xs)%nat -> value (env t) (nth i es (SNum 0)) = Some v -> derivable_pt_lim (fun s => nth i (x s) 0) t (v - nth i c 0)) ->
     x h = linear_step (lA S) (lB S) (x 0) u) \/
   method = "explicit_euler"%string /\
   forall env v, map (value env) es = map Some v -> linear_step (lA S) (lB S) (map env xs) (map env us) = vadd (map env xs) (vscale h (vsub v c))).
Proof.
  intros SF ND HR HX E. unfold lin_from_symbolic_continuous in E. destruct (get_state_transition_matrices sfloat xs us es) as [((A & B) & c)|] eqn:ET; [|discriminate]. cbn [bind] in E.
  destruct (allclose c (zeros (length xs))) eqn:EC; [|discriminate]. destruct (lin_continuous np A B h) as (L1 & L2 & L3).
  destruct (transition_ok _ _ _ _ _ _ _ SF ND HR ET) as (SA & SB & Lc & _). assert (LA : nrows A = length es) by apply SA. assert (CA : ncols A = length xs) by apply SA.
  destruct (Nat.eq_dec (length es) (length xs)) as [Q|Q]. 2:{ rewrite L3 in E; [discriminate|]. intros (Z & _). congruence. }
  destruct (Rle_dec 0 h) as [Hh|Hh]. 2:{ rewrite L3 in E; [discriminate|]. tauto. }
  destruct (symbolic_ode _ _ _ _ _ _ _ h SF ND HR ET Q) as (SS & Lc' & HV & H0 & HO). destruct (L1 _ _ SS Hh) as (LZ & LE).
  assert (CB : Forall (fun ci => Rabs ci <= / 100000000) c).
  { apply allclose_iff in EC; [|len]. unfold close in EC. replace (length xs) with (length c) in EC by lia. clear - EC.
    induction c as [|c0 c IH]; constructor; inversion EC as [|? ? ? ? H1 H2]; subst; [|apply IH; exact H2]. rewrite Rabs_R0, Rminus_0_r in H1. lra. }
  destruct (string_dec method "zero_order_hold") as [->|N1]; [|destruct (string_dec method "explicit_euler") as [->|N2]; [|rewrite L2 in E by assumption; discriminate]].
  - destruct (LZ (HX eq_refl _ _ _ eq_refl)) as (S' & E' & SD & HZ). rewrite E in E'. injection E' as <-. split; [exact Hh|]. split; [exact Q|]. split; [exact SD|]. exists c. split; [exact H0|]. split; [exact CB|]. left. split; [reflexivity|].
    intros x env u Hx Hu HD. apply HZ; [rewrite <- (Hu 0); len|]. replace (zeros (length xs)) with (vsub c c); [apply (HO x env u c Lc' Hx Hu HD)|]. apply vec_ext; [len|]. intros i Hi. rewrite nth_vsub, nth_zeros by len. ring.
  - destruct LE as (S' & E' & SD & HZ). rewrite E in E'. injection E' as <-. split; [exact Hh|]. split; [exact Q|]. split; [exact SD|]. exists c. split; [exact H0|]. split; [exact CB|]. right. split; [reflexivity|].
    intros env v Hv. rewrite HZ by len. rewrite <- (value_vec _ _ _ (length xs) Hv Q _ (HV env)). f_equal. f_equal. unfold affine_step, linear_step. assert (LA' : length (rows A) = length xs) by apply SS. assert (LB' : length (rows B) = length xs) by apply SS.
    apply vec_ext; [len|]. intros i Hi. rewrite nth_vsub, !nth_vadd by len. ring.
Qed.
(*@ Theorem C35_euler_affine : AffineSystem.from_symbolic_continuous with explicit_euler returns a system with A x + B u + c = x + h x_dot(x, u) for all x and u; a system is returned by no other methods than zero_order_hold and explicit_euler *)
Lemma aff_symbolic_euler sfloat np xs us es h method S : sfloat_ok sfloat -> NoDup (xs ++ us) -> Forall regular es ->
  aff_from_symbolic_continuous sfloat np xs us es h method = Ok S -> 0 <= h /\ length es = length xs /\
  (method = "zero_order_hold"%string \/ method = "explicit_euler"%string /\ system_shape (aA S) (aB S) (length xs) (length us) /\
   forall env v, map (value env) es = map Some v -> affine_step (aA S) (aB S) (ac S) (map env xs) (map env us) = vadd (map env xs) (vscale h v)).
Proof.
  intros SF ND HR E. unfold aff_from_symbolic_continuous in E. destruct (get_state_transition_matrices sfloat xs us es) as [((A & B) & c)|] eqn:ET; [|discriminate]. cbn [bind] in E.
  destruct (aff_continuous np A B (D1 c) h) as (L1 & L2 & L3).
  destruct (transition_ok _ _ _ _ _ _ _ SF ND HR ET) as (SA & SB & Lc & _). assert (LA : nrows A = length es) by apply SA. assert (CA : ncols A = length xs) by apply SA.
  destruct (Nat.eq_dec (length es) (length xs)) as [Q|Q]. 2:{ rewrite L3 in E; [discriminate|]. intros (Z & _). congruence. }
  destruct (Rle_dec 0 h) as [Hh|Hh]. 2:{ rewrite L3 in E; [discriminate|]. tauto. }
  destruct (symbolic_ode _ _ _ _ _ _ _ h SF ND HR ET Q) as (SS & Lc' & HV & H0 & HO). destruct (L1 _ _ c eq_refl SS Lc' Hh) as (_ & LE). split; [exact Hh|]. split; [exact Q|].
  destruct (string_dec method "zero_order_hold") as [->|N1]; [left; reflexivity|]. destruct (string_dec method "explicit_euler") as [->|N2]; [|rewrite L2 in E by assumption; discriminate].
  right. split; [reflexivity|]. destruct LE as (S' & E' & SD & Ld & HZ). rewrite E in E'. injection E' as <-. split; [exact SD|]. intros env v Hv. rewrite HZ by len. rewrite <- (value_vec _ _ _ (length xs) Hv Q _ (HV env)). reflexivity.
Qed.
(*@ Example C35_sampled_linear_example : dx/dt = 2 x + u meets the hypotheses of C35_sampled_linear and C35_euler_affine with an exact matrix exponential; systems are returned, explicit_euler gives x + h (2 x + u). The system of C34_linear_system and C34_affine_system is an example for these. *)
Lemma sampled_linear_example h : 0 <= h -> let es := [SAdd (SMul (SNum 2) (SVar 0)) (SVar 1)] in
  Forall regular es /\ NoDup ([0%nat] ++ [1%nat]) /\ get_state_transition_matrices sf_auto [0%nat] [1%nat] es = Ok (Mat 1 [[2]], Mat 1 [[1]], [0]) /\
  (forall v, length v = 1%nat -> is_expm (mscale h (zoh_matrix (Mat 1 [[2]]) (Mat 1 [[1]]) v)) (np_expm np_exp (mscale h (zoh_matrix (Mat 1 [[2]]) (Mat 1 [[1]]) v))) 3) /\
  (exists S, lin_from_symbolic_continuous sf_auto np_exp [0%nat] [1%nat] es h "zero_order_hold" = Ok S) /\
  (exists S, lin_from_symbolic_continuous sf_auto np_exp [0%nat] [1%nat] es h "explicit_euler" = Ok S /\ forall x u, linear_step (lA S) (lB S) [x] [u] = [x + h * (2 * x + u)]) /\
  exists S, aff_from_symbolic_continuous sf_auto np_exp [0%nat] [1%nat] es h "explicit_euler" = Ok S.
Proof.
  intros Hh es. set (e := SAdd (SMul (SNum 2) (SVar 0)) (SVar 1)) in es.
  assert (HA : affine_syntax [0%nat; 1%nat] e) by (repeat constructor; cbn; auto).
  assert (ET : get_state_transition_matrices sf_auto [0%nat] [1%nat] es = Ok (Mat 1 [[2]], Mat 1 [[1]], [0])).
  { unfold get_state_transition_matrices, jacobian, es. cbn [mapM app]. rewrite (sf_eq _ _ _ 0 2 sf_auto_ok HA) by (cbn; f_equal; ring). rewrite (sf_eq _ _ _ 1 1 sf_auto_ok HA) by (cbn; f_equal; ring). cbn [bind].
    rewrite (sf_eq0 _ _ _ 0 sf_auto_ok HA) by (cbn; f_equal; ring). reflexivity. }
  assert (SS : system_shape (Mat 1 [[2]]) (Mat 1 [[1]]) 1 1) by (repeat split; repeat constructor).
  assert (HX : forall v, length v = 1%nat -> is_expm (mscale h (zoh_matrix (Mat 1 [[2]]) (Mat 1 [[1]]) v)) (np_expm np_exp (mscale h (zoh_matrix (Mat 1 [[2]]) (Mat 1 [[1]]) v))) 3).
  { intros v Lv. apply expm0_ok, shape_mscale. apply (zoh_shape _ _ _ 1 1); [apply SS|apply SS|exact Lv]. }
  assert (AC : allclose [0] (zeros 1) = true). { apply allclose_iff; [reflexivity|]. constructor; [|constructor]. rewrite Rminus_0_r, Rabs_R0. lra. }
  split; [repeat constructor|]. split; [repeat constructor; cbn; intuition lia|]. split; [exact ET|]. split; [exact HX|].
  destruct (lin_continuous np_exp (Mat 1 [[2]]) (Mat 1 [[1]]) h) as (L1 & _). destruct (L1 1%nat 1%nat SS Hh) as (LZ & S1 & E1 & _ & H1). destruct (LZ (HX (zeros 1) eq_refl)) as (S2 & E2 & _).
  destruct (aff_continuous np_exp (Mat 1 [[2]]) (Mat 1 [[1]]) (D1 [0]) h) as (A1 & _). destruct (A1 1%nat 1%nat [0] eq_refl SS eq_refl Hh) as (_ & S3 & E3 & _).
  split; [exists S2|split; [exists S1; split|exists S3]].
  - unfold lin_from_symbolic_continuous. rewrite ET. cbn [bind length]. rewrite AC. exact E2.
  - unfold lin_from_symbolic_continuous. rewrite ET. cbn [bind length]. rewrite AC. exact E1.
  - intros x u. rewrite H1 by reflexivity. cbn. f_equal. ring.
  - unfold aff_from_symbolic_continuous. rewrite ET. cbn [bind]. exact E3.
Qed.
