(** * SolverThms: statements about pnnls.py (C18-C23), proofs *)
From Verif Require Import Arr ArrFacts Spec Numpy Pnnls PnnlsFacts QpFacts Oracle.

(** an exact numerical library, used in the examples *)
Definition np0 : numpy :=
  exact_numpy (fun A => A) (fun _ => 0) (fun A => A) (fun _ _ Q _ => Q) (fun _ n => zeros n)
              (fun _ _ _ => Ok []) (fun _ => Err QhullError).

Lemma linear_program_core np tol f A b Co d_o C d m n : shape A m n -> eq_args n Co d_o C d ->
  linear_program np tol f A b Co d_o = Ok (lp_core np tol f A b C d).
Proof.
  intros (_ & HA & _) [(-> & ->)|(-> & -> & -> & ->)]; simpl; [reflexivity|]. now rewrite HA.
Qed.
Lemma quadratic_program_core np tol H f A b Co d_o C d m n : shape A m n -> eq_args n Co d_o C d ->
  quadratic_program np tol H f A b Co d_o = qp_core np tol H f A b C d.
Proof.
  intros (_ & HA & _) [(-> & ->)|(-> & -> & -> & ->)]; simpl; [reflexivity|]. now rewrite HA.
Qed.

(** ** LP *)
(*@ Theorem C18_lp_optimality : A feasible and bounded LP is solved to optimality. *)
Lemma lp_optimality np tol f A b Co d_o C d m me n :
  nnls_ok np -> pinv_ok np -> 0 < tol ->
  shape A m n -> length b = m -> shape C me n -> length d = me -> length f = n -> eq_args n Co d_o C d ->
  lp_solvable f A b C d ->
  exists s x, linear_program np tol f A b Co d_o = Ok s /\
    s_argmin s = Some x /\ s_min s = Some (dot f x) /\ lp_optimal f A b C d x.
Proof.
  intros NN PI Ht HA Hb HC Hd Hf EA S. rewrite (linear_program_core _ _ _ _ _ _ _ C d m n HA EA).
  destruct (lp_core_solvable np tol f A b C d m me n) as (x & l & nu & E & O & _); auto.
  rewrite E. do 2 eexists. split; [reflexivity|]. simpl. auto.
Qed.

(*@ Theorem C20_lp_multipliers : The returned multipliers satisfy the KKT system, with strong duality. *)
Lemma lp_multipliers np tol f A b Co d_o C d m me n :
  nnls_ok np -> pinv_ok np -> 0 < tol ->
  shape A m n -> length b = m -> shape C me n -> length d = me -> length f = n -> eq_args n Co d_o C d ->
  lp_solvable f A b C d ->
  exists s x l nu, linear_program np tol f A b Co d_o = Ok s /\ s_argmin s = Some x /\
    s_multiplier_inequality s = Some l /\ s_multiplier_equality s = (if (0 <? me)%nat then Some nu else None) /\
    length l = m /\ length nu = me /\
    nonneg l /\ stationary f A l C nu n /\ compl_slack A b l x /\ s_min s = Some (- dot b l - dot d nu).
Proof.
  intros NN PI Ht HA Hb HC Hd Hf EA S. rewrite (linear_program_core _ _ _ _ _ _ _ C d m n HA EA).
  destruct (lp_core_solvable np tol f A b C d m me n) as (x & l & nu & E & O & Lx & Ll & Ln & Nl & ST & CS & G); auto.
  rewrite E. exists (Sol (Some (dot f x)) (Some x) (Some (where_ (fun y => Rltb tol y) l)) (Some l)
          (if (0 <? me)%nat then Some nu else None)), x, l, nu. simpl.
  rewrite <- G. repeat match goal with |- _ /\ _ => split end; auto.
Qed.

(*@ Theorem C19_lp_none : None is returned only for LPs that are infeasible or unbounded; a returned point satisfies all constraints, dual feasibility and the duality gap within tol. *)
Lemma lp_none np tol f A b Co d_o C d m me n s :
  nnls_ok np -> pinv_ok np -> 0 < tol ->
  shape A m n -> length b = m -> shape C me n -> length d = me -> length f = n -> eq_args n Co d_o C d ->
  linear_program np tol f A b Co d_o = Ok s ->
  (s_min s = None <-> s = sol_none) /\
  (s = sol_none -> ~ lp_solvable f A b C d) /\
  (forall x, s_argmin s = Some x ->
     s_min s = Some (dot f x) /\ length x = n /\
     (forall i, (i < m)%nat -> dot (row A i) x < nth i b 0 + tol) /\
     (forall i, (i < me)%nat -> Rabs (dot (row C i) x - nth i d 0) < tol) /\
     exists l nu, length l = m /\ nonneg l /\ length nu = me /\ Rabs (dot f x + dot b l + dot d nu) < tol /\
       forall z, length z = n -> Rabs (dot f z + dot l (mv A z) + dot nu (mv C z)) <= tol * norm z).
Proof.
  intros NN PI Ht HA Hb HC Hd Hf EA E. rewrite (linear_program_core _ _ _ _ _ _ _ C d m n HA EA) in E. injection E as <-.
  destruct (lp_core_spec np tol f A b C d m me n) as (x & l & nu & r & E & Hr & Lx & Ll & Ln & Nl & F1 & F2 & F3 & F4 & F5); auto.
  rewrite E. destruct (Rltb r tol) eqn:Er; cbn.
  - apply Rltb_true in Er. split; [split; intros; discriminate|]. split; [discriminate|].
    intros x' [= <-]. split; [reflexivity|]. split; [exact Lx|]. split.
    { intros i Hi. specialize (F1 i Hi). lra. } split.
    { intros i Hi. specialize (F2 i Hi). lra. }
    exists l, nu. split; [exact Ll|]. split; [exact Nl|]. split; [exact Ln|]. split; [lra|].
    intros z Lz. eapply Rle_trans; [apply F3; exact Lz|]. apply Rmult_le_compat_r; [apply norm_nonneg|lra].
  - apply Rltb_false in Er. split; [tauto|]. split; [|discriminate].
    intros _ S. specialize (F5 S). lra.
Qed.

(** the residual computed by pnnls is minimal *)
Lemma pnnls_min np A B c p q k v u r v' u' :
  nnls_ok np -> pinv_ok np -> shape A p q -> shape B p k -> length c = p ->
  pnnls np A B c = (v, u, r) -> length v' = q -> nonneg v' -> length u' = k ->
  r <= norm (vsub c (vadd (mv A v') (mv B u'))).
Proof.
  intros NN PI HA HB Hc E Lv' Nv' Lu'.
  destruct (pnnls_vi np A B c p q k v u r NN PI HA HB Hc E) as (Lv & Nv & Lu & Er & V1 & V2 & V3). cbv zeta in *.
  assert (LA : length (rows A) = p) by apply HA. assert (LB : length (rows B) = p) by apply HB.
  set (w := vsub c (vadd (mv A v) (mv B u))) in *. rewrite Er. apply norm_le_of_dot.
  set (w' := vsub c (vadd (mv A v') (mv B u'))).
  assert (Lw : length w = p) by (unfold w; len). assert (Lw' : length w' = p) by (unfold w'; len).
  assert (D : w' = vadd w (vadd (vsub (mv A v) (mv A v')) (vsub (mv B u) (mv B u')))).
  { unfold w, w'. vring. }
  set (e := vadd (vsub (mv A v) (mv A v')) (vsub (mv B u) (mv B u'))) in *.
  assert (Le : length e = p) by (unfold e; len).
  assert (G : 0 <= dot w e).
  { unfold e. rewrite dot_vadd_r, !dot_vsub_r by len. rewrite V2, (V3 u Lu), (V3 u' Lu'). specialize (V1 v' Lv' Nv'). lra. }
  rewrite D. rewrite dot_vadd_l, !dot_vadd_r by len. rewrite (dot_comm e w).
  pose proof (dot_self_nonneg e). lra.
Qed.

Lemma lp_small_residual np tol f A b m n x y sl :
  nnls_ok np -> pinv_ok np -> shape A m n -> length b = m -> length f = n ->
  length x = n -> length y = m -> length sl = m -> nonneg y -> nonneg sl ->
  norm (vsub (0 :: b ++ vneg f) ((dot b y + dot f x) :: vadd sl (mv A x) ++ mv (tr A) y)) < tol ->
  exists s x', linear_program np tol f A b None None = Ok s /\ s_argmin s = Some x'.
Proof.
  intros NN PI HA Hb Hf Lx Ly Ls Ny Ns H.
  rewrite (linear_program_core np tol f A b None None (Mat n []) [] m n HA) by (right; auto).
  unfold lp_core, stack_eq. replace (nrows (Mat n [])) with O by reflexivity. replace (0 <? 0)%nat with false by reflexivity.
  destruct (pnnls np (A_pnnls A b) (B_pnnls f A) (c_pnnls f b)) as ((ys, x'), r) eqn:E.
  assert (LA : length (rows A) = m) by apply HA.
  assert (LT : length (rows (tr A)) = n) by (apply shape_tr in HA; apply HA).
  assert (G : r <= norm (vsub (0 :: b ++ vneg f) ((dot b y + dot f x) :: vadd sl (mv A x) ++ mv (tr A) y))).
  { assert (Lc : length (c_pnnls f b) = (1 + (m + n))%nat) by (unfold c_pnnls; len).
    assert (Lv : length (y ++ sl) = (m + m)%nat) by len.
    eapply Rle_trans.
    - exact (pnnls_min np _ _ _ _ _ _ _ _ _ (y ++ sl) x NN PI (shape_A_pnnls A b m n HA Hb) (shape_B_pnnls f A m n HA Hf)
               Lc E Lv (proj2 (nonneg_app y sl) (conj Ny Ns)) Lx).
    - right. unfold c_pnnls. rewrite (mv_A_pnnls A b m n) by auto. rewrite (mv_B_pnnls f A m n) by auto.
      f_equal. f_equal. cbn [app]. unfold vadd at 1. simpl. f_equal.
      fold (vadd (sl ++ mv (tr A) y) (mv A x ++ zeros n)).
      rewrite vadd_app by len. f_equal. apply vadd_zeros_r. len. }
  destruct (Rltb r tol) eqn:Er.
  - eexists _, _. split; reflexivity.
  - exfalso. apply Rltb_false in Er. lra.
Qed.

(** an infeasible LP for which a "solution" is returned, whatever exact library is used *)
(*@ Theorem C19_lp_none_iff_refuted : The converse is false: some infeasible LPs get a solution, with whatever exact library. *)
Lemma lp_none_iff_refuted :
  exists f A b, shape A 2 1 /\ length b = 2%nat /\ length f = 1%nat /\
    (forall x, ~ in_set A b (Mat 1 []) [] x) /\
    forall np, nnls_ok np -> pinv_ok np ->
      exists s x, linear_program np tol7 f A b None None = Ok s /\ s_argmin s = Some x.
Proof.
  exists [0], (Mat 1 [[1]; [-1]]), [- / 100000000; - / 100000000].
  split; [repeat split; repeat constructor|]. split; [reflexivity|]. split; [reflexivity|]. split.
  - intros x (_ & H & _). inversion H as [|? ? ? ? H1 H2]; subst. inversion H2 as [|? ? ? ? H3 H4]; subst.
    destruct x as [|x0 x]; simpl in *; lra.
  - intros np NN PI. 
    apply (lp_small_residual np tol7 [0] (Mat 1 [[1]; [-1]]) _ 2 1 [0] [0; 0] [0; 0]); auto;
      try (repeat split; repeat constructor; lra).
    unfold norm. rewrite <- (sqrt_Rsqr tol7) by (unfold tol7; lra).
    apply sqrt_lt_1; try apply dot_self_nonneg; [unfold Rsqr, tol7; lra|]. unfold tol7, Rsqr. simpl. lra.
Qed.

(** ** QP *)
(*@ Theorem C21_qp_optimality : A returned QP solution is the unique minimizer and its multipliers satisfy the KKT system. *)
Lemma qp_optimality np tol H f A b Co d_o C d m me n s x :
  nnls_ok np -> chol_ok np -> inv_ok np -> 0 <= tol -> shape H n n -> pd H n ->
  shape A m n -> length b = m -> shape C me n -> length d = me -> length f = n -> eq_args n Co d_o C d ->
  quadratic_program np tol H f A b Co d_o = Ok s -> s_argmin s = Some x ->
  qp_optimal H f A b C d x /\
  (forall z, qp_optimal H f A b C d z -> z = x) /\
  s_min s = Some (qp_cost H f x) /\
  exists l nu, s_multiplier_inequality s = Some l /\
    s_multiplier_equality s = (if (0 <? me)%nat then Some nu else None) /\
    length l = m /\ length nu = me /\ nonneg l /\
    stationary (vadd (mv H x) f) A l C nu n /\ compl_slack A b l x.
Proof.
  intros NN CO IO Ht HH PD HA Hb HC Hd Hf EA E Ex. rewrite (quadratic_program_core _ _ _ _ _ _ _ _ C d m n HA EA) in E.
  destruct (qp_core_spec np tol H f A b C d m me n) as (x' & l & nu & r & E' & Hr & K & _); auto.
  rewrite E' in E. injection E as <-. destruct (Rltb tol r) eqn:Er; [|discriminate]. cbn in *. injection Ex as ->.
  apply Rltb_true in Er. destruct (K ltac:(lra)) as (F & Ll & Ln & Nl & ST & CS).
  pose proof (kkt_qp H f A b C d m me n x l nu HH (pd_psd H n PD) HA Hb HC Hd Hf Ll Nl F ST CS) as Q.
  assert (Lx : length x = n) by (destruct F as (F & _); destruct HA as (_ & -> & _) in F; exact F).
  assert (O : qp_optimal H f A b C d x).
  { split; [exact F|]. intros z Hz. specialize (Q z Hz).
    assert (0 <= dot (vsub z x) (mv H (vsub z x))); [|lra].
    apply (pd_psd H n PD). destruct Hz as (Lz & _). destruct HA as (_ & Hn & _). len. }
  split; [exact O|]. split.
  { intros z (Fz & Oz). specialize (Q z Fz). specialize (Oz x F).
    assert (Lz : length z = n) by (destruct Fz as (Lz & _); destruct HA as (_ & Hn & _); lia).
    apply (vsub_zero_eq _ _ n); auto.
    destruct (list_eq_dec Req_EM_T (vsub z x) (zeros n)) as [Z|NZ]; [exact Z|].
    exfalso. destruct PD as (_ & PD). specialize (PD (vsub z x) ltac:(len) NZ). lra. }
  split; [reflexivity|]. exists l, nu. repeat match goal with |- _ /\ _ => split end; auto.
Qed.

(** exact criterion used by the code: feasible points far from the unconstrained minimizer x0 do not count *)
(*@ Theorem C22_qp_none_iff : Exact criterion for None: no feasible point within distance sqrt(1/tol^2 - 1) (in the metric of H) of the unconstrained minimizer x0. *)
Lemma qp_none_iff np tol H f A b Co d_o C d m me n x0 :
  nnls_ok np -> chol_ok np -> inv_ok np -> 0 < tol -> shape H n n -> pd H n ->
  shape A m n -> length b = m -> shape C me n -> length d = me -> length f = n -> eq_args n Co d_o C d ->
  length x0 = n -> mv H x0 = vneg f ->
  exists s, quadratic_program np tol H f A b Co d_o = Ok s /\
    (s_min s = None <-> s = sol_none) /\
    (s = sol_none <->
     ~ exists z, in_set A b C d z /\ tol * tol * (1 + dot (vsub z x0) (mv H (vsub z x0))) < 1).
Proof.
  intros NN CO IO Ht HH PD HA Hb HC Hd Hf EA L0 E0. rewrite (quadratic_program_core _ _ _ _ _ _ _ _ C d m n HA EA).
  destruct (qp_core_spec np tol H f A b C d m me n) as (x & l & nu & r & E' & Hr & K & Q1 & Q2 & _); auto.
  rewrite E'. eexists. split; [reflexivity|]. split.
  { destruct (Rltb tol r); split; intros; try discriminate; auto. }
  destruct (Rltb tol r) eqn:Er.
  - apply Rltb_true in Er. split; [discriminate|]. intros N. exfalso. apply N. exists x.
    destruct (K ltac:(lra)) as (F & _). split; [exact F|]. specialize (Q2 x0 L0 E0 ltac:(lra)).
    assert (P : 0 < 1 + dot (vsub x x0) (mv H (vsub x x0))).
    { assert (0 <= dot (vsub x x0) (mv H (vsub x x0))); [|lra]. apply (pd_psd H n PD).
      destruct F as (Lx & _). destruct HA as (_ & Hn & _). len. }
    rewrite <- Q2 at 2. apply Rmult_lt_compat_r; [exact P|]. nra.
  - apply Rltb_false in Er. split; [|reflexivity]. intros _ (z & Fz & Cz).
    specialize (Q1 x0 z L0 E0 Fz).
    assert (P : 0 <= 1 + dot (vsub z x0) (mv H (vsub z x0))).
    { assert (0 <= dot (vsub z x0) (mv H (vsub z x0))); [|lra]. apply (pd_psd H n PD).
      destruct Fz as (Lx & _). destruct HA as (_ & Hn & _). len. }
    assert (r * r * (1 + dot (vsub z x0) (mv H (vsub z x0))) <= tol * tol * (1 + dot (vsub z x0) (mv H (vsub z x0)))).
    { apply Rmult_le_compat_r; [exact P|]. nra. }
    lra.
Qed.

(*@ Theorem C22_qp_infeasible_none : Infeasible QPs are always reported. *)
Lemma qp_infeasible_none np tol H f A b Co d_o C d m me n :
  nnls_ok np -> chol_ok np -> inv_ok np -> 0 <= tol -> shape H n n -> pd H n ->
  shape A m n -> length b = m -> shape C me n -> length d = me -> length f = n -> eq_args n Co d_o C d ->
  (forall z, ~ in_set A b C d z) -> quadratic_program np tol H f A b Co d_o = Ok sol_none.
Proof.
  intros NN CO IO Ht HH PD HA Hb HC Hd Hf EA N. rewrite (quadratic_program_core _ _ _ _ _ _ _ _ C d m n HA EA).
  destruct (qp_core_spec np tol H f A b C d m me n) as (x & l & nu & r & E' & Hr & K & Q1 & Q2 & _); auto.
  rewrite E'. destruct (Rltb tol r) eqn:Er; [|reflexivity]. exfalso. apply Rltb_true in Er.
  destruct (K ltac:(lra)) as (F & _). exact (N x F).
Qed.

(** H must be positive definite, otherwise LinAlgError *)
(*@ Theorem C21_qp_not_pd : A Hessian that is symmetric but not positive definite raises LinAlgError. *)
Lemma qp_not_pd np tol H f A b Co d_o C d m n :
  chol_ok np -> shape H n n -> tr H = H -> ~ pd H n -> shape A m n -> eq_args n Co d_o C d ->
  quadratic_program np tol H f A b Co d_o = Err LinAlgError.
Proof.
  intros CO HH T N HA EA. rewrite (quadratic_program_core _ _ _ _ _ _ _ _ C d m n HA EA).
  destruct (CO H n HH T) as [(P & _)|(_ & E)]; [contradiction|].
  unfold qp_core. destruct (stack_eq A b C d). rewrite E. reflexivity.
Qed.

Lemma pd_eye n : pd (eye n) n.
Proof.
  split; [apply tr_eye|]. intros x Lx Nx. rewrite mv_eye by exact Lx.
  destruct (Rle_lt_or_eq_dec _ _ (dot_self_nonneg x)) as [G|G]; [exact G|].
  exfalso. apply Nx. symmetry in G. apply dot_self_zero in G. now rewrite Lx in G.
Qed.

(** min 1/2 x^2, x >= 10^8: feasible, but reported infeasible *)
(*@ Theorem C22_qp_none_refuted : The literal property is false: a feasible QP is reported infeasible. *)
Lemma qp_none_refuted :
  exists H f A b, shape H 1 1 /\ pd H 1 /\ shape A 1 1 /\ length b = 1%nat /\ length f = 1%nat /\
    (exists x, in_set A b (Mat 1 []) [] x) /\
    forall np, nnls_ok np -> chol_ok np -> inv_ok np ->
      quadratic_program np tol7 H f A b None None = Ok sol_none.
Proof.
  exists (eye 1), [0], (Mat 1 [[-1]]), [- 100000000].
  split; [apply shape_eye|]. split; [apply pd_eye|]. split; [repeat split; repeat constructor|].
  split; [reflexivity|]. split; [reflexivity|]. split.
  { exists [100000000]. split; [reflexivity|]. split; [|constructor]. constructor; [simpl; lra|constructor]. }
  intros np NN CO IO.
  destruct (qp_none_iff np tol7 (eye 1) [0] (Mat 1 [[-1]]) [- 100000000] None None (Mat 1 []) [] 1 0 1 [0])
    as (s & E & _ & S).
  1-3: assumption.
  { unfold tol7; lra. } { apply shape_eye. } { apply pd_eye. }
  { repeat split; repeat constructor. } { reflexivity. } { repeat split; repeat constructor. }
  { reflexivity. } { reflexivity. } { right; auto. } { reflexivity. }
  { cbn. unfold vneg. simpl. f_equal. ring. }
  - rewrite E. f_equal. apply S. intros (z & (Lz & Fz & _) & C).
    destruct z as [|z [|]]; try discriminate Lz. inversion Fz as [|? ? ? ? G]; subst. simpl in G.
    assert (Z : 100000000 <= z) by lra.
    assert (ZZ : 10000000000000000 <= z * z) by nra.
    unfold tol7 in C. cbn in C. ring_simplify in C. simpl in C. lra.
Qed.

(** ** Active sets *)
(*@ Theorem C23_lp_active_set : Every inequality reported active by the LP solver holds with equality. *)
Lemma lp_active_set np tol f A b Co d_o C d m me n :
  nnls_ok np -> pinv_ok np -> 0 < tol ->
  shape A m n -> length b = m -> shape C me n -> length d = me -> length f = n -> eq_args n Co d_o C d ->
  lp_solvable f A b C d ->
  exists s x act, linear_program np tol f A b Co d_o = Ok s /\ s_argmin s = Some x /\ s_active_set s = Some act /\
    forall i, In i act -> (i < m)%nat /\ dot (row A i) x = nth i b 0.
Proof.
  intros NN PI Ht HA Hb HC Hd Hf EA S. rewrite (linear_program_core _ _ _ _ _ _ _ C d m n HA EA).
  destruct (lp_core_solvable np tol f A b C d m me n) as (x & l & nu & E & O & Lx & Ll & Ln & Nl & ST & CS & G); auto.
  rewrite E. do 3 eexists. split; [reflexivity|]. split; [reflexivity|]. split; [reflexivity|].
  intros i Hi. apply (In_where _ _ 0) in Hi. destruct Hi as (Hi & P). apply Rltb_true in P. split; [lia|].
  specialize (CS i ltac:(lia)). apply Rmult_integral in CS. destruct CS; lra.
Qed.

(*@ Theorem C23_qp_active_set : Every inequality reported active by the QP solver holds with equality. *)
Lemma qp_active_set np tol H f A b Co d_o C d m me n s x :
  nnls_ok np -> chol_ok np -> inv_ok np -> 0 <= tol -> shape H n n -> pd H n ->
  shape A m n -> length b = m -> shape C me n -> length d = me -> length f = n -> eq_args n Co d_o C d ->
  quadratic_program np tol H f A b Co d_o = Ok s -> s_argmin s = Some x ->
  exists act, s_active_set s = Some act /\ forall i, In i act -> (i < m)%nat /\ dot (row A i) x = nth i b 0.
Proof.
  intros NN CO IO Ht HH PD HA Hb HC Hd Hf EA E Ex. rewrite (quadratic_program_core _ _ _ _ _ _ _ _ C d m n HA EA) in E.
  destruct (qp_core_spec np tol H f A b C d m me n) as (x' & l & nu & r & E' & Hr & K & _); auto.
  rewrite E' in E. injection E as <-. destruct (Rltb tol r) eqn:Er; [|discriminate]. cbn in *. injection Ex as ->.
  apply Rltb_true in Er. destruct (K ltac:(lra)) as (F & Ll & Ln & Nl & ST & CS).
  eexists. split; [reflexivity|].
  intros i Hi. apply (In_where _ _ 0) in Hi. destruct Hi as (Hi & P). apply Rltb_true in P. split; [lia|].
  specialize (CS i ltac:(lia)). apply Rmult_integral in CS. destruct CS; lra.
Qed.

(** min 1/2 x^2, x <= 0: the constraint is active at the minimizer 0, but not reported *)
(*@ Theorem C23_active_set_refuted : Not every inequality that holds with equality is reported active. *)
Lemma active_set_refuted :
  exists H f A b, shape H 1 1 /\ pd H 1 /\ shape A 1 1 /\ length b = 1%nat /\ length f = 1%nat /\
    forall np, nnls_ok np -> chol_ok np -> inv_ok np ->
      exists s x, quadratic_program np tol7 H f A b None None = Ok s /\ s_argmin s = Some x /\
        dot (row A 0) x = nth 0 b 0 /\ s_active_set s = Some [].
Proof.
  exists (eye 1), [0], (Mat 1 [[1]]), [0].
  split; [apply shape_eye|]. split; [apply pd_eye|]. split; [repeat split; repeat constructor|].
  split; [reflexivity|]. split; [reflexivity|].
  intros np NN CO IO.
  assert (HA : shape (Mat 1 [[1]]) 1 1) by (repeat split; repeat constructor).
  assert (HC : shape (Mat 1 []) 0 1) by (repeat split; repeat constructor).
  rewrite (quadratic_program_core _ _ _ _ _ _ _ _ (Mat 1 []) [] 1 1 HA) by (right; auto).
  destruct (qp_core_spec np tol7 (eye 1) [0] (Mat 1 [[1]]) [0] (Mat 1 []) [] 1 0 1)
    as (x & l & nu & r & E' & Hr & K & Q1 & Q2 & _); auto using shape_eye, pd_eye.
  assert (F0 : in_set (Mat 1 [[1]]) [0] (Mat 1 []) [] [0]).
  { split; [reflexivity|]. split; [|constructor]. constructor; [simpl; lra|constructor]. }
  assert (M0 : mv (eye 1) [0] = vneg [0]) by (cbn; unfold vneg; simpl; f_equal; ring).
  assert (R1 : 1 <= r * r) by (specialize (Q1 [0] [0] eq_refl M0 F0); cbn in Q1; lra).
  assert (Rt : tol7 < r) by (unfold tol7; nra).
  rewrite E'. rewrite (proj2 (Rltb_true tol7 r) Rt).
  destruct (K ltac:(unfold tol7 in Rt; lra)) as (F & Ll & Ln & Nl & ST & CS).
  specialize (Q2 [0] eq_refl M0 ltac:(unfold tol7 in Rt; lra)).
  destruct x as [|x [|]]; destruct F as (F & FI & _); try discriminate F.
  destruct l as [|l [|]]; try discriminate Ll. destruct nu; [|discriminate Ln].
  assert (X0 : x = 0) by (cbn in Q2; nra).
  subst x. specialize (ST [1] eq_refl). cbn in ST. assert (L0 : l = 0) by lra. subst l.
  do 2 eexists. split; [reflexivity|]. split; [reflexivity|]. split; [cbn; ring|]. simpl.
  unfold where_. simpl. unfold Rltb. destruct (Rlt_dec tol7 0) as [C|C]; [unfold tol7 in C; lra|reflexivity].
Qed.

(** ** Examples: the hypotheses are met *)
Lemma np0_ok : nnls_ok np0 /\ pinv_ok np0 /\ chol_ok np0 /\ inv_ok np0 /\ solve_ok np0 /\ svd_ok np0.
Proof.
  repeat match goal with |- _ /\ _ => split end.
  - apply exact_nnls_ok.
  - apply exact_pinv_ok.
  - apply exact_chol_ok.
  - apply exact_inv_ok.
  - apply exact_solve_ok.
  - apply exact_svd_ok.
Qed.

(** min x0 s.t. -x0 <= 0, -x1 <= 0, x0 + x1 = 1 *)
Definition exA : mat := Mat 2 [[-1; 0]; [0; -1]].
Definition exC : mat := Mat 2 [[1; 1]].
Lemma shape_exA : shape exA 2 2. Proof. repeat split; repeat constructor. Qed.
Lemma shape_exC : shape exC 1 2. Proof. repeat split; repeat constructor. Qed.

(** a point of an explicit polyhedron *)
Lemma ex_set x : in_set exA [0; 0] exC [1] x <-> exists a, 0 <= a <= 1 /\ x = [a; 1 - a].
Proof.
  split.
  - intros (L & F & G). destruct x as [|a [|b [|]]]; try discriminate L. unfold ineq_holds, exA in F. simpl in F. unfold eq_holds, exC in G. simpl in G. inv2 F. inv2 G.
    exists a. split; [lra|]. f_equal. f_equal. lra.
  - intros (a & H & ->). split; [reflexivity|]. split.
    + repeat (apply Forall2_cons; [cbn; lra|]). constructor.
    + repeat (apply Forall2_cons; [cbn; lra|]). constructor.
Qed.

(*@ Example C18_example : The hypotheses of the LP theorems are met by min x0, x >= 0, x0 + x1 = 1. *)
Lemma lp_example : lp_solvable [1; 0] exA [0; 0] exC [1] /\
  exists s, linear_program np0 tol7 [1; 0] exA [0; 0] (Some exC) (Some [1]) = Ok s /\
    s_argmin s = Some [0; 1] /\ s_min s = Some 0.
Proof.
  assert (S : lp_solvable [1; 0] exA [0; 0] exC [1]).
  { split.
    - exists [0; 1]. apply ex_set. exists 0. split; [lra|]. f_equal. f_equal. lra.
    - exists 0. intros x Hx. apply ex_set in Hx. destruct Hx as (a & H & ->). cbn. lra. }
  split; [exact S|]. pose proof np0_ok as (NN & PI & _).
  destruct (lp_optimality np0 tol7 [1; 0] exA [0; 0] (Some exC) (Some [1]) exC [1] 2 1 2)
    as (s & x & E & Ex & Em & (F & O)); auto using shape_exA, shape_exC; try (unfold tol7; lra).
  { left; auto. }
  exists s. split; [exact E|]. apply ex_set in F. destruct F as (a & H & ->).
  assert (O1 := O [0; 1]). cbn in O1.
  assert (a = 0).
  { assert (1 * a + (0 * (1 - a) + 0) <= 1 * 0 + (0 * 1 + 0)); [|lra]. apply O1. apply ex_set. exists 0. split; [lra|]. f_equal. f_equal. lra. }
  subst a. rewrite Ex, Em. cbn. split; f_equal; [f_equal; f_equal; lra|lra].
Qed.

(*@ Example C21_example : min 1/2 |x|^2, x >= 0, x0 + x1 = 1 is solved: argmin (1/2, 1/2), min 1/4. *)
Lemma qp_example : pd (eye 2) 2 /\
  exists s, quadratic_program np0 tol7 (eye 2) [0; 0] exA [0; 0] (Some exC) (Some [1]) = Ok s /\
    s_argmin s = Some [/2; /2] /\ s_min s = Some (/4).
Proof.
  split; [apply pd_eye|]. pose proof np0_ok as (NN & PI & CO & IO & _).
  assert (F0 : in_set exA [0; 0] exC [1] [/2; /2]) by (apply ex_set; exists (/2); split; [lra|f_equal; f_equal; lra]).
  destruct (qp_none_iff np0 tol7 (eye 2) [0; 0] exA [0; 0] (Some exC) (Some [1]) exC [1] 2 1 2 [0; 0])
    as (s & E & S1 & S2); auto using shape_exA, shape_exC, shape_eye, pd_eye; try (unfold tol7; lra).
  { left; auto. } { cbn. unfold vneg. simpl. f_equal; [lra|]. f_equal. lra. }
  exists s. split; [exact E|].
  assert (NS : s <> sol_none).
  { intros Z. apply S2 in Z. apply Z. exists [/2; /2]. split; [exact F0|]. cbn. unfold tol7. lra. }
  destruct (qp_core_spec np0 tol7 (eye 2) [0;0] exA [0;0] exC [1] 2 1 2) as (x & l & nu & r & E' & _);
    auto using shape_exA, shape_exC, shape_eye, pd_eye.
  assert (Es : s_argmin s = Some x).
  { cbn [quadratic_program] in E. rewrite E' in E. injection E as <-. destruct (Rltb tol7 r); [reflexivity|]. now elim NS. }
  destruct (qp_optimality np0 tol7 (eye 2) [0; 0] exA [0; 0] (Some exC) (Some [1]) exC [1] 2 1 2 s x)
    as (O & U & M & _); auto using shape_exA, shape_exC, shape_eye, pd_eye; try (unfold tol7; lra).
  { left; auto. }
  assert (X : [/2; /2] = x).
  { apply U. split; [exact F0|]. intros z Hz. apply ex_set in Hz. destruct Hz as (a & H & ->). unfold qp_cost. cbn.
    pose proof (Rle_0_sqr (a - /2)) as Sq. unfold Rsqr in Sq. lra. }
  subst x. split; [exact Es|]. rewrite M. f_equal. unfold qp_cost. cbn. lra.
Qed.
