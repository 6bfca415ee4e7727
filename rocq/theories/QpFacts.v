(** * QpFacts: the quadratic program solver of pnnls.py, given exact nnls / cholesky / inv *)
From Verif Require Import Arr ArrFacts Spec Numpy Pnnls PnnlsFacts.

(** dot with a single possibly nonzero product *)
Lemma dot_single u x i : (forall j, j <> i -> nth j u 0 * nth j x 0 = 0) -> 
  (i < length u)%nat -> (i < length x)%nat -> dot u x = nth i u 0 * nth i x 0.
Proof.
  revert x i; induction u as [|a u IH]; intros [|b x] i H Hu Hx; simpl in *; try lia.
  destruct i as [|i].
  - assert (Z : dot u x = 0).
    { assert (G : forall j, nth j u 0 * nth j x 0 = 0) by (intros j; apply (H (S j)); lia).
      clear - G. revert x G. induction u as [|a u IH]; intros [|b x] G; simpl; auto.
      pose proof (G O) as G0; simpl in G0. rewrite G0, IH; [ring|]. intros j; apply (G (S j)). }
    rewrite Z; ring.
  - pose proof (H O ltac:(lia)) as H0; simpl in H0. rewrite H0, Rplus_0_l.
    apply IH; try lia. intros j Hj. apply (H (S j)); lia.
Qed.

Lemma lower_tri_inj L n : shape L n n ->
  (forall i j, (i < j < n)%nat -> nth j (row L i) 0 = 0) -> (forall i, (i < n)%nat -> 0 < nth i (row L i) 0) ->
  forall x, length x = n -> mv L x = zeros n -> x = zeros n.
Proof.
  intros HL Lo Di x Lx E.
  assert (G : forall k, (k <= n)%nat -> forall i, (i < k)%nat -> nth i x 0 = 0).
  { induction k as [|k IH]; intros Hk i Hi; [lia|].
    destruct (Nat.eq_dec i k) as [->|]; [|apply IH; lia].
    assert (D : dot (row L k) x = 0).
    { unfold row. rewrite <- nth_mv, E. apply nth_zeros. }
    rewrite (dot_single _ _ k) in D.
    - specialize (Di k ltac:(lia)). nra.
    - intros j Hj. destruct (lt_dec j k).
      + rewrite IH by lia. ring.
      + destruct (lt_dec j n).
        * rewrite Lo by lia. ring.
        * rewrite (nth_overflow x) by lia. ring.
    - rewrite (shape_row L n n) by (auto; lia). lia.
    - lia. }
  apply vec_ext; [len|]. intros i Hi. rewrite nth_zeros. apply (G n); lia.
Qed.

Lemma chol_inv np H n : chol_ok np -> inv_ok np -> shape H n n -> pd H n ->
  exists L Li, np_chol np H = Ok L /\ np_inv np L = Ok Li /\ shape L n n /\ shape Li n n /\
    mm L (tr L) = H /\ mm L Li = eye n /\ mm Li L = eye n.
Proof.
  intros Hc Hi HH Hpd.
  destruct (Hc H n HH (proj1 Hpd)) as [[_ [L [E [SL [LL [Lo Di]]]]]]|[Hn _]]; [|tauto].
  destruct (Hi L n SL) as [[_ [Li [E2 [SLi [I1 I2]]]]]|[[x [Lx [Nx Kx]]] _]].
  - exists L, Li. auto 10.
  - exfalso. apply Nx. eapply lower_tri_inj; eauto.
Qed.

(** ** The nnls problem of the QP *)
Section QP.
Variables (AC H L Li : mat) (bd f : vec) (N n : nat).
Hypothesis HAC : shape AC N n.
Hypothesis HH : shape H n n.
Hypothesis HL : shape L n n.
Hypothesis HLi : shape Li n n.
Hypothesis Hbd : length bd = N.
Hypothesis Hf : length f = n.
Hypothesis LL : mm L (tr L) = H.
Hypothesis LI1 : mm L Li = eye n.
Hypothesis LI2 : mm Li L = eye n.

Let Hinv := mm (tr Li) Li.
Let M := mm AC (tr Li).
Let mvec := vadd bd (mv (mm AC Hinv) f).
Let An := vstack (mneg (tr M)) (rowmat (vneg mvec)).
Let bn := zeros n ++ [1].

Lemma qp_shapes : shape Hinv n n /\ shape M N n /\ length mvec = N /\ shape An (n + 1) N /\ length bn = (n + 1)%nat.
Proof.
  assert (S1 : shape Hinv n n) by (unfold Hinv; eauto with shp).
  assert (S2 : shape M N n) by (unfold M; eauto with shp).
  assert (S3 : length mvec = N).
  { unfold mvec. rewrite vadd_length, mv_length. rewrite (shape_rows _ N n); [lia|]. eauto with shp. }
  assert (S4 : shape An (n + 1) N).
  { unfold An. apply (shape_vstack _ _ n 1 N); auto with shp.
    replace N with (length (vneg mvec)) by len. apply shape_rowmat. }
  assert (S5 : length bn = (n + 1)%nat) by (unfold bn; len).
  auto.
Qed.

Lemma mv_An y : length y = N -> mv An y = vneg (vm y M) ++ [- dot mvec y].
Proof.
  intros Hy. destruct qp_shapes as [_ [SM _]]. unfold An. rewrite mv_vstack, mv_mneg, mv_rowmat, dot_vneg_l.
  rewrite (mv_tr M N n) by auto. auto.
Qed.

Lemma Li_inv x : length x = n -> mv L (mv Li x) = x.
Proof. intros Hx. rewrite <- (mv_mm L Li n n) by auto. rewrite LI1. apply mv_eye; auto. Qed.
Lemma Li_inv' x : length x = n -> mv Li (mv L x) = x.
Proof. intros Hx. rewrite <- (mv_mm Li L n n) by auto. rewrite LI2. apply mv_eye; auto. Qed.
Lemma Lit_inv x : length x = n -> mv (tr Li) (mv (tr L) x) = x.
Proof.
  intros Hx. rewrite <- (mv_mm _ _ n n) by auto with shp. rewrite <- (tr_mm L Li n n n) by auto.
  rewrite LI1, tr_eye. apply mv_eye; auto.
Qed.
Lemma Lt_inv x : length x = n -> mv (tr L) (mv (tr Li) x) = x.
Proof.
  intros Hx. rewrite <- (mv_mm _ _ n n) by auto with shp. rewrite <- (tr_mm Li L n n n) by auto.
  rewrite LI2, tr_eye. apply mv_eye; auto.
Qed.
Lemma mvH x : mv H x = mv L (mv (tr L) x).
Proof. rewrite <- LL. apply (mv_mm _ _ n n); auto with shp. Qed.
Lemma mvHinv x : mv Hinv x = mv (tr Li) (mv Li x).
Proof. unfold Hinv. apply (mv_mm _ _ n n); auto with shp. Qed.
Lemma len_rows A m k x : shape A m k -> length (mv A x) = m.
Proof. intros S. rewrite mv_length. apply S. Qed.
Lemma H_Hinv x : length x = n -> mv H (mv Hinv x) = x.
Proof.
  intros Hx. rewrite mvHinv, mvH. rewrite Lt_inv by (eapply len_rows; eauto).
  apply Li_inv; auto.
Qed.
Lemma Hinv_H x : length x = n -> mv Hinv (mv H x) = x.
Proof.
  intros Hx. rewrite mvHinv, mvH. rewrite Li_inv' by (eapply len_rows; eauto with shp).
  apply Lit_inv; auto.
Qed.
Lemma dot_H x z : length x = n -> length z = n -> dot x (mv H z) = dot (mv (tr L) x) (mv (tr L) z).
Proof.
  intros Hx Hz. rewrite mvH. symmetry. apply (dot_mv_tr L n n); auto.
Qed.

(** consequences of the nnls solution *)
Lemma qp_nnls np y r : nnls_ok np -> np_nnls np An bn = (y, r) ->
  let g := vm y M in
  length y = N /\ nonneg y /\ 0 <= r /\ r * r = 1 + dot mvec y /\ length g = n /\
  dot g g = r * r * (1 - r * r) /\
  (forall z, length z = N -> nonneg z -> 0 <= dot g (vm z M) + r * r * dot mvec z).
Proof.
  intros Hn E g. destruct qp_shapes as [SHi [SM [Lm [SAn Lbn]]]].
  destruct (nnls_vi np An bn (n + 1) N y r Hn SAn Lbn E) as [Ly [Py [Hr [VI Z]]]].
  set (w := vsub bn (mv An y)) in *.
  assert (Lg : length g = n) by (unfold g; eapply vm_length; eauto).
  assert (Ew : w = g ++ [1 + dot mvec y]).
  { unfold w. rewrite mv_An by auto. unfold bn. fold g. rewrite vsub_app by len. f_equal.
    - vring.
    - simpl. unfold vsub; simpl. apply (f_equal (fun v => [v])). ring. }
  assert (T : forall z, length z = N -> dot w (mv An z) = - dot g (vm z M) - (1 + dot mvec y) * dot mvec z).
  { intros z Lz. rewrite mv_An by auto. rewrite Ew. rewrite dot_app.
    - rewrite dot_vneg_r. simpl. ring.
    - rewrite vneg_length. rewrite (vm_length z M N n); auto. }
  assert (R2 : r * r = 1 + dot mvec y).
  { rewrite Hr, norm_sqr.
    assert (E1 : dot w w = dot w bn - dot w (mv An y)).
    { replace (dot w w) with (dot w (vsub bn (mv An y))) by reflexivity. apply dot_vsub_r.
      rewrite mv_length. rewrite Lbn. symmetry. apply SAn. }
    rewrite E1, Z, Ew. unfold bn. rewrite dot_app by len. rewrite dot_zeros_r. simpl. ring. }
  repeat split; auto.
  - rewrite Hr. apply norm_nonneg.
  - rewrite T in Z by auto. fold g in Z. rewrite R2. nra.
  - intros z Lz Pz. specialize (VI z Lz Pz). rewrite T in VI by auto. rewrite R2. lra.
Qed.

(** distance (in the metric of H) from the unconstrained minimizer x0 *)
Lemma qp_feasible_bound np y r x x0 : nnls_ok np -> np_nnls np An bn = (y, r) ->
  length x = n -> vle (mv AC x) bd -> length x0 = n -> mv H x0 = vneg f ->
  1 <= r * r * (1 + dot (vsub x x0) (mv H (vsub x x0))).
Proof.
  intros Hn E Lx Fx Lx0 E0. destruct qp_shapes as [SHi [SM [Lm [SAn Lbn]]]].
  destruct (qp_nnls np y r Hn E) as [Ly [Py [Hr [R2 [Lg [Gg VI]]]]]].
  set (g := vm y M) in *.
  set (q := mv (tr L) (vsub x x0)).
  assert (Lq : length q = n) by (unfold q; eapply len_rows; eauto with shp).
  assert (Q2 : dot (vsub x x0) (mv H (vsub x x0)) = dot q q) by (unfold q; apply dot_H; len).
  rewrite Q2.
  assert (Mq : vle (mv M q) mvec).
  { unfold M, q. rewrite (mv_mm AC (tr Li) n n) by auto with shp. rewrite Lit_inv by len.
    rewrite (mv_vsub AC N n) by auto. unfold mvec. rewrite (mv_mm AC Hinv n n) by auto.
    assert (Ex0 : x0 = vneg (mv Hinv f)).
    { rewrite <- mv_vneg, <- E0. symmetry. apply Hinv_H; auto. }
    rewrite Ex0, mv_vneg. rewrite vsub_vneg, vneg_vneg. apply vle_vadd_compat; auto. apply vle_refl. }
  assert (D : dot g q <= r * r - 1).
  { unfold g. rewrite (dot_vm y M N n) by auto. 
    pose proof (dot_vle' y _ _ Py Mq). rewrite (dot_comm y mvec) in H0. lra. }
  pose proof (cauchy_schwarz g q) as CS. unfold Rsqr in CS. rewrite Gg in CS.
  pose proof (dot_self_nonneg g) as G0. rewrite Gg in G0.
  pose proof (dot_self_nonneg q) as Q0.
  set (s := r * r) in *. assert (0 <= s) by (unfold s; nra).
  set (t := dot g q) in *. set (k := dot q q) in *.
  (* t <= s - 1, t^2 <= s(1-s)k *)
  destruct (Rle_lt_dec 1 s) as [H1|H1]; [nra|].
  assert (0 < 1 - s) by lra.
  assert ((1 - s) * (1 - s) <= t * t) by nra.
  assert ((1 - s) * (1 - s) <= s * (1 - s) * k) by lra.
  assert ((1 - s) <= s * k).
  { apply Rmult_le_reg_l with (1 - s); auto. lra. }
  lra.
Qed.

Lemma qp_solution np y r : nnls_ok np -> np_nnls np An bn = (y, r) -> 0 < r ->
  let lam := vscale (/ (1 + dot mvec y)) y in
  let x := vneg (mv Hinv (vadd f (mv (tr AC) lam))) in
  length x = n /\ length lam = N /\ nonneg lam /\ vle (mv AC x) bd /\
  mv H x = vneg (vadd f (mv (tr AC) lam)) /\
  dot lam (vsub bd (mv AC x)) = 0 /\
  (forall x0, length x0 = n -> mv H x0 = vneg f ->
     r * r * (1 + dot (vsub x x0) (mv H (vsub x x0))) = 1).
Proof.
  intros Hn E Rp lam x. destruct qp_shapes as [SHi [SM [Lm [SAn Lbn]]]].
  destruct (qp_nnls np y r Hn E) as [Ly [Py [Hr [R2 [Lg [Gg VI]]]]]].
  set (g := vm y M) in *.
  assert (LACr : length (rows AC) = N) by apply HAC.
  assert (LACt : length (rows (tr AC)) = n) by (apply (shape_rows _ n N); auto with shp).
  assert (LHi : length (rows Hinv) = n) by apply SHi.
  assert (LLi : length (rows Li) = n) by apply HLi.
  assert (S0 : 0 < r * r) by nra.
  assert (Il : lam = vscale (/ (r * r)) y) by (unfold lam; rewrite <- R2; auto).
  assert (Llam : length lam = N) by (unfold lam; len).
  assert (Plam : nonneg lam).
  { rewrite Il. apply nonneg_vscale; auto. apply Rlt_le, Rinv_0_lt_compat; auto. }
  assert (Lx : length x = n) by (unfold x; len).
  (* z . (bd - AC x) = z.m + (M'z).(M'lam) *)
  assert (K : forall z, length z = N -> dot z (vsub bd (mv AC x)) = dot mvec z + / (r * r) * dot g (vm z M)).
  { intros z Lz. unfold x. rewrite mv_vneg, vsub_vneg, vneg_vneg.
    rewrite (mv_vadd Hinv n n) by (auto; len). rewrite (mv_vadd AC N n) by (auto; len).
    unfold mvec. rewrite (mv_mm AC Hinv n n) by auto.
    rewrite vadd_assoc. rewrite dot_vadd_r by len.
    rewrite (dot_comm _ z). f_equal.
    rewrite mvHinv. rewrite <- (mv_mm AC (tr Li) n n) by auto with shp. fold M.
    rewrite <- (dot_vm z M N n) by auto. rewrite dot_comm.
    rewrite Il, !mv_vscale, dot_vscale_l. f_equal.
    apply (f_equal (fun v => dot v (vm z M))).
    unfold g, M.
    apply dot_eq_ext.
    - rewrite (vm_length y (mm AC (tr Li)) N n); eauto with shp. len.
    - intros v Lv. lenh Lv. rewrite (dot_vm y (mm AC (tr Li)) N n) by eauto with shp.
      rewrite (mv_mm AC (tr Li) n n) by auto with shp.
      rewrite <- (dot_mv_tr AC N n) by auto. 
      rewrite (dot_mv_tr_r Li n n) by (auto; len). auto. }
  repeat split; auto.
  - apply vle_nth. split; [len|]. intros i Hi. lenh Hi.
    assert (G : 0 <= dot (unit N i) (vsub bd (mv AC x))).
    { rewrite K by len. specialize (VI (unit N i) ltac:(len) (nonneg_unit _ _)).
      assert (0 <= / (r * r) * (dot g (vm (unit N i) M) + r * r * dot mvec (unit N i))).
      { apply Rmult_le_pos; auto. apply Rlt_le, Rinv_0_lt_compat; auto. }
      replace (dot mvec (unit N i) + / (r * r) * dot g (vm (unit N i) M))
        with (/ (r * r) * (dot g (vm (unit N i) M) + r * r * dot mvec (unit N i))); auto.
      field. lra. }
    rewrite dot_unit in G by len. rewrite nth_vsub in G by len. lra.
  - unfold x. rewrite mv_vneg. rewrite H_Hinv by len. auto.
  - rewrite Il, dot_vscale_l, K by auto. fold g. rewrite Gg.
    replace (dot mvec y) with (r * r - 1) by lra. field. lra.
  - intros x0 Lx0 E0.
    assert (Q : mv (tr L) (vsub x x0) = vneg (vscale (/ (r * r)) g)).
    { assert (Ex0 : x0 = vneg (mv Hinv f)).
      { rewrite <- mv_vneg, <- E0. symmetry. apply Hinv_H; auto. }
      assert (D : vsub x x0 = vneg (mv Hinv (mv (tr AC) lam))).
      { rewrite Ex0. unfold x. rewrite (mv_vadd Hinv n n) by (auto; len). 
        vring. }
      rewrite D, mv_vneg, mvHinv. rewrite Lt_inv by len. f_equal.
      rewrite Il, !mv_vscale. f_equal.
      apply dot_eq_ext; [len|].
      intros v Lv. lenh Lv. unfold g. rewrite (dot_vm y M N n) by auto. unfold M.
      rewrite (mv_mm AC (tr Li) n n) by auto with shp.
      rewrite <- (dot_mv_tr AC N n) by auto. 
      rewrite (dot_mv_tr_r Li n n) by (auto; len). auto. }
    rewrite dot_H by len. rewrite Q. autorewrite with dotx. rewrite Gg. field. lra.
Qed.
End QP.

(** ** KKT conditions are sufficient for a convex QP *)
Lemma qp_expand H f n x z : shape H n n -> tr H = H -> length x = n -> length z = n -> length f = n ->
  qp_cost H f z = qp_cost H f x + dot (vadd (mv H x) f) (vsub z x) + / 2 * dot (vsub z x) (mv H (vsub z x)).
Proof.
  intros SH HS Lx Lz Lf. unfold qp_cost.
  assert (LH : forall v, length (mv H v) = n) by (intros; rewrite mv_length; apply SH).
  pose proof (LH x) as L1. pose proof (LH z) as L2.
  rewrite (mv_vsub H n n) by auto. autorewrite with dotx.
  rewrite (sym_dot H n x z) by auto. rewrite (dot_comm (mv H x) z), (dot_comm (mv H x) x).
  field.
Qed.

Lemma kkt_qp H f A b C d m me n x l nu : shape H n n -> psd H n -> shape A m n -> length b = m -> shape C me n ->
  length d = me -> length f = n -> length l = m -> nonneg l -> in_set A b C d x ->
  stationary (vadd (mv H x) f) A l C nu n -> compl_slack A b l x ->
  forall z, in_set A b C d z -> qp_cost H f x + / 2 * dot (vsub z x) (mv H (vsub z x)) <= qp_cost H f z.
Proof.
  intros SH [HS Hp] HA Hb HC Hd Hf Hl Pl Hx St K z Hz.
  assert (NA : ncols A = n) by apply HA. assert (LA : length (rows A) = m) by apply HA.
  apply in_set_vle in Hx. apply in_set_vle in Hz. destruct Hx as [Lx [Ix Ex]]. destruct Hz as [Lz [Iz Ez]].
  rewrite (qp_expand H f n x z) by (auto; lia).
  specialize (St (vsub z x) ltac:(len)).
  rewrite (mv_vsub A m n), (mv_vsub C me n) in St by (auto; lia).
  rewrite Ex, Ez, vsub_self, dot_zeros_r in St.
  rewrite (dot_vsub_r (mv A z) (mv A x)) in St by len.
  assert (Z : dot l (mv A x) = dot l b).
  { assert (dot l (vsub b (mv A x)) = 0).
    { assert (G : forall (k : nat) u v, length u = length v -> (forall i, (i < length v)%nat -> nth i u 0 * nth i v 0 = 0) -> dot u v = 0).
      { clear. intros _ u. induction u as [|a u IH]; intros [|c v] L G; simpl in *; try lia; auto.
        rewrite IH; [|lia|intros i Hi; apply (G (S i)); lia]. pose proof (G O ltac:(lia)). simpl in H. lra. }
      apply (G O); [len|]. intros i Hi. rewrite nth_vsub, nth_mv by len. apply K. len. }
    rewrite dot_vsub_r in H0 by len. lra. }
  pose proof (dot_vle' l _ _ Pl Iz). lra.
Qed.

Lemma pd_psd H n : pd H n -> psd H n.
Proof.
  intros [S P]. split; auto. intros x Lx.
  destruct (list_eq_dec Req_EM_T x (zeros n)) as [->|Nx].
  - rewrite dot_zeros_l. lra.
  - apply Rlt_le. apply P; auto.
Qed.

Lemma vsub_zero_eq x z n : length x = n -> length z = n -> vsub x z = zeros n -> x = z.
Proof.
  intros Lx Lz E. apply vec_ext; [lia|]. intros i Hi.
  assert (nth i (vsub x z) 0 = 0) by (rewrite E; apply nth_zeros).
  rewrite nth_vsub in H by lia. lra.
Qed.

(** everything about one call of the QP solver *)
Lemma qp_core_spec np tol H f A b C d m me n :
  nnls_ok np -> chol_ok np -> inv_ok np -> shape H n n -> pd H n ->
  shape A m n -> length b = m -> shape C me n -> length d = me -> length f = n ->
  exists x l nu r,
    qp_core np tol H f A b C d =
      Ok (if Rltb tol r then
         Sol (Some (qp_cost H f x)) (Some x) (Some (where_ (fun y => Rltb tol y) l)) (Some l)
             (if (0 <? me)%nat then Some nu else None)
       else sol_none) /\
    0 <= r /\
    (0 < r -> in_set A b C d x /\ length l = m /\ length nu = me /\ nonneg l /\
       stationary (vadd (mv H x) f) A l C nu n /\ compl_slack A b l x) /\
    (forall x0 z, length x0 = n -> mv H x0 = vneg f -> in_set A b C d z ->
       1 <= r * r * (1 + dot (vsub z x0) (mv H (vsub z x0)))) /\
    (forall x0, length x0 = n -> mv H x0 = vneg f -> 0 < r ->
       r * r * (1 + dot (vsub x x0) (mv H (vsub x x0))) = 1) /\
    (exists x0, length x0 = n /\ mv H x0 = vneg f).
Proof.
  intros Hn Hc Hi SH Hpd HA Hb HC Hd Hf. unfold qp_core.
  destruct (stack_eq A b C d) as [AC bd] eqn:Es.
  destruct (stack_eq_ok A b C d m me n AC bd HA Hb HC Hd Es) as [HAC [Hbd Hin]].
  set (N := if (0 <? me)%nat then (m + (me + me))%nat else m) in *.
  destruct (chol_inv np H n Hc Hi SH Hpd) as (L & Li & EL & ELi & SL & SLi & LL & LI1 & LI2).
  rewrite EL. cbn [bind]. rewrite ELi. cbn [bind].
  assert (NA : ncols A = n) by apply HA. rewrite NA.
  set (Hinv := mm (tr Li) Li). set (M := mm AC (tr Li)). set (mvec := vadd bd (mv (mm AC Hinv) f)).
  destruct (np_nnls np (vstack (mneg (tr M)) (rowmat (vneg mvec))) (zeros n ++ [1])) as [y r] eqn:En.
  assert (R0 : 0 <= r).
  { destruct (qp_nnls AC Li bd f N n HAC SLi Hbd Hf np y r Hn En) as (_ & _ & ? & _); auto. }
  set (lam := vscale (/ (1 + dot mvec y)) y).
  set (x := vneg (mv Hinv (vadd f (mv (tr AC) lam)))).
  unfold nrows. rewrite (shape_rows _ _ _ HA), (shape_rows _ _ _ HC).
  assert (LA : length (rows A) = m) by apply HA.
  assert (LC : length (rows C) = me) by apply HC.
  assert (LAC : length (rows AC) = N) by apply HAC.
  assert (SOL : 0 < r -> length x = n /\ length lam = N /\ nonneg lam /\ vle (mv AC x) bd /\
    mv H x = vneg (vadd f (mv (tr AC) lam)) /\ dot lam (vsub bd (mv AC x)) = 0 /\
    (forall x0, length x0 = n -> mv H x0 = vneg f ->
     r * r * (1 + dot (vsub x x0) (mv H (vsub x x0))) = 1)).
  { intros Rp. exact (qp_solution AC H L Li bd f N n HAC SL SLi Hbd Hf LL LI1 LI2 np y r Hn En Rp). }
  assert (FB : forall x0 z, length x0 = n -> mv H x0 = vneg f -> in_set A b C d z ->
       1 <= r * r * (1 + dot (vsub z x0) (mv H (vsub z x0)))).
  { intros x0 z Lx0 E0 Hz. assert (Lz : length z = n) by (destruct Hz as [Lz _]; lia).
    apply (qp_feasible_bound AC H L Li bd f N n HAC SL SLi Hbd Hf LL LI1 LI2 np y r z x0); auto.
    apply Hin; auto. }
  assert (EX : exists x0, length x0 = n /\ mv H x0 = vneg f).
  { assert (SHi : shape Hinv n n) by (unfold Hinv; eauto with shp).
    exists (mv Hinv (vneg f)). split; [rewrite mv_length; apply SHi|].
    apply (H_Hinv H L Li n SL SLi LL LI1 LI2). len. }
  assert (STAT : 0 < r -> forall z, length z = n -> dot (vadd (mv H x) f) z + dot lam (mv AC z) = 0).
  { intros Rp z Lz. destruct (SOL Rp) as (Lx & Llam & Plam & Fx & EH & Comp & _).
    rewrite EH. assert (Lt : length (mv (tr AC) lam) = n) by (rewrite mv_length; apply (shape_rows _ n N); auto with shp).
    autorewrite with dotx. rewrite (dot_mv_tr AC N n) by auto. ring. }
  unfold stack_eq, nrows in Es. rewrite LC in Es.
  destruct (Nat.ltb_spec 0 me) as [Hme|Hme].
  - injection Es as EAC Ebd. unfold N in *.
    set (l1 := firstn m lam). set (l2 := firstn me (skipn m lam)). set (l3 := firstn me (skipn me (skipn m lam))).
    assert (S1 : slice 0 m lam = l1) by (unfold slice, l1; rewrite Nat.sub_0_r; auto).
    assert (S2 : slice m (m + me) lam = l2).
    { unfold slice, l2. replace (m + me - m)%nat with me by lia; auto. }
    assert (S3 : slice (m + me) (m + 2 * me) lam = l3).
    { unfold slice, l3. replace (m + 2 * me - (m + me))%nat with me by lia. rewrite skipn_skipn'. auto. }
    rewrite S1, S2, S3. set (nu := vadd l2 (vneg l3)).
    exists x, l1, nu, r. split; [reflexivity|]. split; auto. split; [|split; [auto|split; [|auto]]].
    + intros Rp. destruct (SOL Rp) as (Lx & Llam & Plam & Fx & EH & Comp & _).
      assert (L1 : length l1 = m) by (unfold l1; len).
      assert (L2 : length l2 = me) by (unfold l2; len).
      assert (L3 : length l3 = me) by (unfold l3; len).
      assert (El : lam = l1 ++ l2 ++ l3).
      { unfold l1, l2, l3. rewrite <- (firstn_skipn m lam) at 1. f_equal.
        rewrite <- (firstn_skipn me (skipn m lam)) at 1. f_equal. symmetry. apply firstn_all2. len. }
      assert (I : in_set A b C d x) by (apply Hin; auto).
      assert (P1 : nonneg l1) by (unfold l1; apply nonneg_firstn; auto).
      assert (DZ : forall z, dot lam (mv AC z) = dot l1 (mv A z) + dot nu (mv C z)).
      { intros z. rewrite El, <- EAC, !mv_vstack, mv_mneg. rewrite !dot_app by len.
        unfold nu. autorewrite with dotx. ring. }
      repeat match goal with |- _ /\ _ => split end; auto.
      * unfold nu; len.
      * intros z Lz. specialize (STAT Rp z Lz). rewrite DZ in STAT. lra.
      * apply in_set_vle in I. destruct I as [_ [I E]].
        assert (P : nonneg (vsub b (mv A x))).
        { apply nonneg_of_nth. intros i Hii. apply vle_nth in I. destruct I as [_ I].
          rewrite nth_vsub by len. lenh Hii. specialize (I i ltac:(len)). lra. }
        assert (Z : dot l1 (vsub b (mv A x)) = 0).
        { rewrite dot_vsub_r in Comp by len. rewrite DZ in Comp. rewrite <- Ebd, El in Comp.
          rewrite !dot_app in Comp by len. rewrite E in Comp. unfold nu in Comp.
          rewrite dot_vadd_l, dot_vneg_l, dot_vneg_r in Comp by len.
          rewrite dot_vsub_r by len. lra. }
        intros i Hii. pose proof (dot_zero_nth _ _ P1 P Z i) as Zi.
        rewrite nth_vsub, nth_mv in Zi by len. exact Zi.
    + intros x0 Lx0 E0 Rp. destruct (SOL Rp) as (_ & _ & _ & _ & _ & _ & G). auto.
  - injection Es as EAC Ebd. assert (me = 0)%nat by lia. subst me. unfold N in *.
    destruct d; [|simpl in *; lia].
    assert (RC : rows C = []) by (destruct (rows C); [auto|simpl in *; lia]).
    exists x, (slice 0 m lam), [], r. split; [reflexivity|]. split; auto. split; [|split; [auto|split; [|auto]]].
    + intros Rp. destruct (SOL Rp) as (Lx & Llam & Plam & Fx & EH & Comp & _).
      assert (S1 : slice 0 m lam = lam).
      { unfold slice. rewrite Nat.sub_0_r. simpl. apply firstn_all2. lia. }
      rewrite S1. assert (I : in_set A b C [] x) by (apply Hin; auto). subst AC bd.
      repeat match goal with |- _ /\ _ => split end; auto.
      * intros z Lz. specialize (STAT Rp z Lz). simpl. lra.
      * apply in_set_vle in I. destruct I as [_ [I E]].
        assert (P : nonneg (vsub b (mv A x))).
        { apply nonneg_of_nth. intros i Hii. apply vle_nth in I. destruct I as [_ I].
          rewrite nth_vsub by len. lenh Hii. specialize (I i ltac:(len)). lra. }
        intros i Hii. pose proof (dot_zero_nth _ _ Plam P Comp i) as Zi.
        rewrite nth_vsub, nth_mv in Zi by len. exact Zi.
    + intros x0 Lx0 E0 Rp. destruct (SOL Rp) as (_ & _ & _ & _ & _ & _ & G). auto.
Qed.
