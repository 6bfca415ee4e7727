(** * PnnlsFacts: the pnnls LP and QP solvers, given an exact nnls *)
From Verif Require Import Arr ArrFacts Spec Numpy Pnnls.

(** ** Small facts *)
Lemma nonneg_app u v : nonneg (u ++ v) <-> nonneg u /\ nonneg v.
Proof. unfold nonneg; rewrite Forall_app; tauto. Qed.
Lemma nonneg_zeros n : nonneg (zeros n).
Proof. unfold nonneg, zeros; induction n; simpl; constructor; auto; lra. Qed.
Lemma nonneg_vscale k v : 0 <= k -> nonneg v -> nonneg (vscale k v).
Proof. intros Hk H; induction H; simpl; constructor; auto; nra. Qed.
Lemma nonneg_vadd u v : nonneg u -> nonneg v -> nonneg (vadd u v).
Proof.
  intros H; revert v; induction H; intros v Hv; simpl; [constructor|].
  destruct v; [constructor|]. inversion Hv; subst. constructor; [lra|]. apply IHForall; auto.
Qed.
Lemma nonneg_unit n i : nonneg (unit n i).
Proof. unfold nonneg, unit. apply Forall_forall. intros a Ha. apply in_map_iff in Ha.
  destruct Ha as [j [<- _]]. destruct (Nat.eqb j i); lra. Qed.
Lemma nonneg_nth v i : nonneg v -> 0 <= nth i v 0.
Proof.
  intros H. destruct (lt_dec i (length v)).
  - unfold nonneg in H. rewrite Forall_forall in H. apply H. apply nth_In; auto.
  - rewrite nth_overflow by lia. lra.
Qed.
Lemma nonneg_of_nth v : (forall i, (i < length v)%nat -> 0 <= nth i v 0) -> nonneg v.
Proof.
  intros H. apply Forall_forall. intros a Ha. apply (In_nth _ _ 0) in Ha.
  destruct Ha as [i [Hi <-]]. apply H; auto.
Qed.
Lemma dot_nonneg' u v : nonneg u -> nonneg v -> 0 <= dot u v.
Proof. intros; apply dot_nonneg; apply vle_zeros_Forall; auto. Qed.
Lemma dot_vle' y u v : nonneg y -> vle u v -> dot y u <= dot y v.
Proof. intros; apply dot_vle; auto; apply vle_zeros_Forall; auto. Qed.
Lemma nonneg_firstn k v : nonneg v -> nonneg (firstn k v).
Proof. intros H. rewrite <- (firstn_skipn k v) in H. apply nonneg_app in H. tauto. Qed.
Lemma nonneg_skipn k v : nonneg v -> nonneg (skipn k v).
Proof. intros H. rewrite <- (firstn_skipn k v) in H. apply nonneg_app in H. tauto. Qed.
Lemma vle_zeros_of_tests u : (forall z, length z = length u -> nonneg z -> dot z u <= 0) -> vle u (zeros (length u)).
Proof.
  intros H. apply vle_nth. split; [len|]. intros i Hi. rewrite nth_zeros.
  rewrite <- (dot_unit (length u) i u) by auto. apply H; [len|apply nonneg_unit].
Qed.
Lemma norm_le_dot u v : norm u <= norm v -> dot u u <= dot v v.
Proof. intros. rewrite <- !norm_sqr. pose proof (norm_nonneg u). nra. Qed.
Lemma norm_zero v : norm v = 0 -> v = zeros (length v).
Proof. intros H. apply dot_self_zero. rewrite <- norm_sqr, H. ring. Qed.
Lemma norm_zeros n : norm (zeros n) = 0.
Proof. unfold norm. rewrite dot_zeros_l. apply sqrt_0. Qed.
Lemma nth_sqr_le v i : nth i v 0 * nth i v 0 <= dot v v.
Proof.
  revert i; induction v as [|a v IH]; intros [|i]; simpl; try lra.
  - pose proof (dot_self_nonneg v). lra.
  - specialize (IH i). nra.
Qed.
Lemma nth_le_norm v i : Rabs (nth i v 0) <= norm v.
Proof.
  pose proof (nth_sqr_le v i) as H. rewrite <- norm_sqr in H. pose proof (norm_nonneg v).
  destruct (Rle_lt_dec (Rabs (nth i v 0)) (norm v)); auto.
  assert (Rabs (nth i v 0) * Rabs (nth i v 0) = nth i v 0 * nth i v 0).
  { rewrite <- Rabs_mult. apply Rabs_right. nra. }
  nra.
Qed.
Lemma norm_app_l u v : norm u <= norm (u ++ v).
Proof.
  unfold norm. apply sqrt_le_1_alt. rewrite dot_app by auto. pose proof (dot_self_nonneg v). lra.
Qed.
Lemma norm_app_r u v : norm v <= norm (u ++ v).
Proof.
  unfold norm. apply sqrt_le_1_alt. rewrite dot_app by auto. pose proof (dot_self_nonneg u). lra.
Qed.

(** ** membership in vector form *)
Lemma ineq_holds_vle A b x : ineq_holds A b x <-> vle (mv A x) b.
Proof.
  unfold ineq_holds, vle, mv. generalize (rows A) as rs. intros rs; revert b.
  induction rs as [|r rs IH]; intros b; split; intros H; inversion H; subst; simpl; constructor; auto; apply IH; auto.
Qed.
Lemma eq_holds_mv C d x : eq_holds C d x <-> mv C x = d.
Proof.
  unfold eq_holds, mv. generalize (rows C) as rs. intros rs; revert d.
  induction rs as [|r rs IH]; intros d; split; intros H; simpl in *.
  - inversion H; auto.
  - subst; constructor.
  - inversion H; subst. f_equal. apply IH; auto.
  - subst. constructor; auto. apply IH; auto.
Qed.
Lemma in_set_vle A b C d x : in_set A b C d x <-> length x = ncols A /\ vle (mv A x) b /\ mv C x = d.
Proof. unfold in_set. rewrite ineq_holds_vle, eq_holds_mv. tauto. Qed.

(** ** Variational inequality of nnls *)
Lemma quad_small a c : (forall t, 0 <= t <= 1 -> 0 <= -2 * t * a + t * t * c) -> 0 <= c -> a <= 0.
Proof.
  intros H Hc. destruct (Rle_lt_dec a 0) as [|Ha]; auto. exfalso.
  set (t := Rmin 1 (a / (c + 1))).
  assert (Hac : 0 < a / (c + 1)) by (apply Rdiv_lt_0_compat; lra).
  assert (Ht0 : 0 < t) by (apply Rmin_pos; lra).
  assert (Ht1 : t <= 1) by apply Rmin_l.
  assert (Ht2 : t <= a / (c + 1)) by apply Rmin_r.
  assert (Ht3 : t * (c + 1) <= a).
  { apply Rmult_le_compat_r with (r := c + 1) in Ht2; try lra.
    unfold Rdiv in Ht2. rewrite Rmult_assoc, Rinv_l in Ht2 by lra. lra. }
  specialize (H t ltac:(lra)). nra.
Qed.

Lemma nnls_vi np A b m n y r : nnls_ok np -> shape A m n -> length b = m -> np_nnls np A b = (y, r) ->
  let w := vsub b (mv A y) in
  length y = n /\ nonneg y /\ r = norm w /\
  (forall z, length z = n -> nonneg z -> dot w (mv A z) <= 0) /\ dot w (mv A y) = 0.
Proof.
  intros Hok HA Hb E w. specialize (Hok A b m n HA Hb). rewrite E in Hok.
  destruct Hok as [Ly [Py [Hr Hopt]]].
  assert (LA : length (rows A) = m) by apply HA.
  assert (Ew : vsub (mv A y) b = vneg w) by (unfold w; vring).
  assert (VI : forall z, length z = n -> nonneg z -> dot w (mv A z) <= dot w (mv A y)).
  { intros z Lz Pz. set (D := vsub (mv A z) (mv A y)).
    assert (HD : dot w D <= 0).
    { apply quad_small with (c := dot D D); [|apply dot_self_nonneg].
      intros t Ht.
      set (zt := vadd (vscale (1 - t) y) (vscale t z)).
      assert (Lzt : length zt = n) by (unfold zt; len).
      assert (Pzt : nonneg zt) by (apply nonneg_vadd; apply nonneg_vscale; auto; lra).
      specialize (Hopt zt Lzt Pzt). apply norm_le_dot in Hopt.
      assert (Ez : vsub (mv A zt) b = vadd (vneg w) (vscale t D)).
      { unfold zt. rewrite (mv_vadd A m n) by (auto; len). rewrite !mv_vscale.
        unfold w, D. vring. }
      rewrite Ez, Ew in Hopt. 
      assert (Lw : length w = m) by (unfold w; len).
      assert (LD : length D = m) by (unfold D; len).
      autorewrite with dotx in Hopt.
      rewrite (dot_comm D w) in Hopt. nra. }
    unfold D in HD. rewrite dot_vsub_r in HD by len. lra. }
  assert (Z : dot w (mv A y) = 0).
  { apply Rle_antisym.
    - specialize (VI (vscale 2 y) ltac:(len) ltac:(apply nonneg_vscale; auto; lra)).
      rewrite mv_vscale, dot_vscale_r in VI. lra.
    - specialize (VI (zeros n) ltac:(len) (nonneg_zeros n)).
      rewrite mv_zeros, dot_zeros_r in VI. lra. }
  repeat split; auto.
  - rewrite Hr, Ew. unfold norm. rewrite dot_vneg_l, dot_vneg_r. f_equal. ring.
  - intros z Lz Pz. rewrite <- Z. apply VI; auto.
Qed.

(** ** Partial nonnegative least squares *)
Lemma pnnls_vi np A B c p q k v u r :
  nnls_ok np -> pinv_ok np -> shape A p q -> shape B p k -> length c = p ->
  pnnls np A B c = (v, u, r) ->
  let w := vsub c (vadd (mv A v) (mv B u)) in
  length v = q /\ nonneg v /\ length u = k /\ r = norm w /\
  (forall z, length z = q -> nonneg z -> dot w (mv A z) <= 0) /\ dot w (mv A v) = 0 /\
  (forall u', length u' = k -> dot w (mv B u') = 0).
Proof.
  intros Hn Hp HA HB Hc E w.
  unfold pnnls in E.
  destruct (Hp B p k HB) as [HP [HPB HPs]].
  set (BP := mm B (np_pinv np B)) in *.
  assert (HBP : shape BP p p) by (unfold BP; eauto with shp).
  unfold nrows in E. rewrite (shape_rows _ _ _ HA) in E.
  set (Bb := msub (eye p) BP) in *.
  assert (HBb : shape Bb p p) by (unfold Bb; auto with shp).
  destruct (np_nnls np (mm Bb A) (mv Bb c)) as [v' r'] eqn:En.
  injection E as <- <- <-.
  assert (LBb : length (rows Bb) = p) by apply HBb.
  assert (LA : length (rows A) = p) by apply HA.
  assert (LB : length (rows B) = p) by apply HB.
  assert (LP : length (rows (np_pinv np B)) = k) by apply HP.
  assert (Hmv : shape (mm Bb A) p q) by eauto with shp.
  destruct (nnls_vi np _ (mv Bb c) p q v' r' Hn Hmv ltac:(len) En) as [Lv [Pv [Hr [VI Z]]]].
  assert (Bbx : forall x, length x = p -> mv Bb x = vsub x (mv BP x)).
  { intros x Hx. unfold Bb. rewrite (mv_msub _ _ p p) by auto with shp. rewrite mv_eye; auto. }
  assert (Ew : w = vsub (mv Bb c) (mv (mm Bb A) v')).
  { rewrite (mv_mm Bb A p q) by auto. rewrite <- (mv_vsub Bb p p) by (auto; len).
    rewrite Bbx by len.
    unfold w. rewrite mv_vneg. unfold BP. rewrite (mv_mm B _ k p) by auto.
    replace (vsub (mv A v') c) with (vneg (vsub c (mv A v'))) by vring.
    rewrite !mv_vneg. vring. }
  rewrite <- Ew in Hr, VI, Z.
  assert (Lw : length w = p) by (unfold w; len).
  (* Bb B = 0 and Bb symmetric *)
  assert (BbB : forall u', length u' = k -> mv Bb (mv B u') = zeros p).
  { intros u' Hu. rewrite Bbx by len. rewrite <- (mv_mm BP B p k) by auto.
    rewrite HPB. rewrite vsub_self. f_equal. len. }
  assert (BbS : forall x z, length x = p -> length z = p -> dot (mv Bb x) z = dot x (mv Bb z)).
  { intros x z Hx Hz. rewrite !Bbx by auto.
    assert (LBP : length (rows BP) = p) by apply HBP.
    rewrite dot_vsub_l, dot_vsub_r by len. f_equal. rewrite <- HPs at 1.
    apply (dot_mv_tr BP p p); auto. }
  assert (Ewc : w = mv Bb (vsub c (mv A v'))).
  { rewrite Ew. rewrite (mv_mm Bb A p q) by auto. symmetry. apply (mv_vsub Bb p p); auto; len. }
  assert (WB : forall u', length u' = k -> dot w (mv B u') = 0).
  { intros u' Hu. rewrite Ewc. rewrite BbS by len. rewrite BbB by auto. apply dot_zeros_r. }
  (* Bb w = w *)
  assert (Bbw : mv Bb w = w).
  { apply dot_eq_ext; [len|]. intros z Hz.
    assert (Lz : length z = p) by len.
    rewrite BbS by auto. rewrite Bbx by auto. rewrite dot_vsub_r by (rewrite mv_length; destruct HBP; lia).
    unfold BP. rewrite (mv_mm B _ k p) by auto. rewrite WB by len. ring. }
  assert (WA : forall z, length z = q -> dot w (mv (mm Bb A) z) = dot w (mv A z)).
  { intros z Hz. rewrite (mv_mm Bb A p q) by auto. rewrite <- BbS by len. rewrite Bbw; auto. }
  repeat split; auto.
  - len.
  - intros z Lz Pz. rewrite <- WA by auto. apply VI; auto.
  - rewrite <- WA by auto. auto.
Qed.

(** ** Equalities as pairs of inequalities *)
Lemma stack_eq_ok A b C d m me n AC bd : shape A m n -> length b = m -> shape C me n -> length d = me ->
  stack_eq A b C d = (AC, bd) ->
  let N := if (0 <? me)%nat then (m + (me + me))%nat else m in
  shape AC N n /\ length bd = N /\
  (forall x, length x = n -> (vle (mv AC x) bd <-> in_set A b C d x)).
Proof.
  intros HA Hb HC Hd E N. unfold stack_eq, nrows in E. rewrite (shape_rows _ _ _ HC) in E.
  unfold N. destruct (Nat.ltb_spec 0 me) as [Hme|Hme].
  - injection E as <- <-.
    assert (LA : length (rows A) = m) by apply HA.
    assert (LC : length (rows C) = me) by apply HC.
    split; [|split; [len|]].
    { apply (shape_vstack A _ m (me + me) n); auto with shp. }
    intros x Hx. rewrite in_set_vle, !mv_vstack, mv_mneg.
    rewrite vle_app by len. rewrite vle_app by len. split.
    + intros [H1 [H2 H3]]. split; [rewrite Hx; symmetry; apply HA|]. split; auto.
      apply vec_ext; [apply vle_length; auto|]. intros i Hi.
      apply vle_nth in H2. apply vle_nth in H3. destruct H2 as [L2 H2]. destruct H3 as [L3 H3].
      specialize (H2 i Hi). specialize (H3 i ltac:(len)). rewrite !nth_vneg in H3. lra.
    + intros [_ [H1 H2]]. rewrite H2. repeat split; auto; apply vle_refl.
  - injection E as <- <-. assert (me = 0)%nat by lia. subst me.
    destruct d; [|simpl in *; lia].
    split; [auto|]. split; [auto|]. intros x Hx. rewrite in_set_vle.
    assert (mv C x = []). { unfold mv. destruct HC as [HC _]. destruct (rows C); [auto|simpl in HC; lia]. }
    assert (ncols A = n) by apply HA. intuition congruence.
Qed.

(** ** The linear program *)
Lemma mv_A_pnnls AC bd N n y s : shape AC N n -> length bd = N -> length y = N -> length s = N ->
  mv (A_pnnls AC bd) (y ++ s) = dot bd y :: s ++ mv (tr AC) y.
Proof.
  intros HA Hb Hy Hs. unfold A_pnnls, nrows. rewrite (shape_rows _ _ _ HA), (shape_cols _ _ _ HA).
  rewrite !mv_vstack, mv_rowmat. rewrite dot_app by lia. rewrite dot_zeros_l, Rplus_0_r.
  rewrite (mv_hstack _ _ N N N) by auto with shp.
  rewrite (mv_hstack _ _ n N N) by auto with shp.
  rewrite !mv_zmat, mv_eye by auto. rewrite vadd_zeros_l by auto.
  rewrite vadd_zeros_r; [reflexivity|]. rewrite mv_length. apply (shape_rows _ n N). auto with shp.
Qed.
Lemma shape_A_pnnls AC bd N n : shape AC N n -> length bd = N ->
  shape (A_pnnls AC bd) (1 + (N + n)) (N + N).
Proof.
  intros HA Hb. unfold A_pnnls, nrows. rewrite (shape_rows _ _ _ HA), (shape_cols _ _ _ HA).
  apply shape_vstack.
  - replace (N + N)%nat with (length (bd ++ zeros N)) by len. apply shape_rowmat.
  - auto with shp.
Qed.
Lemma mv_B_pnnls f AC N n x : shape AC N n -> length x = n ->
  mv (B_pnnls f AC) x = dot f x :: mv AC x ++ zeros n.
Proof.
  intros HA Hx. unfold B_pnnls. rewrite (shape_cols _ _ _ HA). rewrite !mv_vstack, mv_rowmat, mv_zmat; auto.
Qed.
Lemma shape_B_pnnls f AC N n : shape AC N n -> length f = n -> shape (B_pnnls f AC) (1 + (N + n)) n.
Proof.
  intros HA Hf. unfold B_pnnls. rewrite (shape_cols _ _ _ HA). apply shape_vstack; auto with shp.
  rewrite <- Hf. apply shape_rowmat.
Qed.

(** the pnnls problem of the LP, in terms of primal-dual residuals *)
Lemma lp_pnnls_vi np f AC bd N n ys x r :
  nnls_ok np -> pinv_ok np -> shape AC N n -> length bd = N -> length f = n ->
  pnnls np (A_pnnls AC bd) (B_pnnls f AC) (c_pnnls f bd) = (ys, x, r) ->
  exists y s w0 w1 w2,
    ys = y ++ s /\ length y = N /\ length s = N /\ length x = n /\ nonneg y /\ nonneg s /\
    length w1 = N /\ length w2 = n /\
    w0 = - (dot bd y + dot f x) /\ w1 = vsub bd (vadd s (mv AC x)) /\ w2 = vneg (vadd f (mv (tr AC) y)) /\
    r = norm (w0 :: w1 ++ w2) /\
    r * r = dot w1 bd - dot w2 f /\
    (forall y', length y' = N -> nonneg y' -> dot y' (vadd (vscale w0 bd) (mv AC w2)) <= 0) /\
    (forall s', length s' = N -> nonneg s' -> dot s' w1 <= 0) /\
    (forall x', length x' = n -> w0 * dot f x' + dot w1 (mv AC x') = 0).
Proof.
  intros Hn Hp HA Hb Hf E.
  pose proof (shape_A_pnnls AC bd N n HA Hb) as SA.
  pose proof (shape_B_pnnls f AC N n HA Hf) as SB.
  assert (Lc : length (c_pnnls f bd) = (1 + (N + n))%nat) by (unfold c_pnnls; len).
  destruct (pnnls_vi np _ _ _ _ _ _ _ _ _ Hn Hp SA SB Lc E) as [Ly [Py [Lx [Hr [VI [Z WB]]]]]].
  set (w := vsub (c_pnnls f bd) (vadd (mv (A_pnnls AC bd) ys) (mv (B_pnnls f AC) x))) in *.
  assert (Eys : ys = firstn N ys ++ skipn N ys) by (symmetry; apply firstn_skipn).
  set (y := firstn N ys) in *. set (s := skipn N ys) in *.
  assert (Lyy : length y = N) by (unfold y; len).
  assert (Lss : length s = N) by (unfold s; len).
  assert (Pys : nonneg y /\ nonneg s) by (apply nonneg_app; rewrite <- Eys; auto).
  assert (LAC : length (rows AC) = N) by apply HA.
  assert (LACt : length (rows (tr AC)) = n) by (apply (shape_rows _ n N); auto with shp).
  set (w0 := - (dot bd y + dot f x)).
  set (w1 := vsub bd (vadd s (mv AC x))).
  set (w2 := vneg (vadd f (mv (tr AC) y))).
  assert (Lw1 : length w1 = N) by (unfold w1; len).
  assert (Lw2 : length w2 = n) by (unfold w2; len).
  assert (Ew : w = w0 :: w1 ++ w2).
  { unfold w. rewrite Eys. rewrite (mv_A_pnnls AC bd N n) by auto.
    rewrite (mv_B_pnnls f AC N n) by auto. unfold c_pnnls, vsub, vadd. simpl. f_equal.
    - unfold w0. ring.
    - rewrite map2_app by len. rewrite map2_app by len. f_equal.
      unfold w2. fold vadd vsub. change (map2 Rplus) with vadd. change (map2 Rminus) with vsub. vring. }
  assert (T : forall y' s', length y' = N -> length s' = N -> 
     dot w (mv (A_pnnls AC bd) (y' ++ s')) = dot y' (vadd (vscale w0 bd) (mv AC w2)) + dot s' w1).
  { intros y' s' Hy' Hs'. rewrite (mv_A_pnnls AC bd N n) by auto. rewrite Ew. simpl.
    rewrite dot_app by lia. rewrite dot_vadd_r by len. rewrite dot_vscale_r.
    rewrite (dot_comm w2). rewrite (dot_mv_tr AC N n) by auto. rewrite (dot_comm w1), (dot_comm bd y'). ring. }
  exists y, s, w0, w1, w2. repeat match goal with |- _ /\ _ => split end; auto; try tauto.
  - rewrite Hr, Ew; auto.
  - assert (R2 : r * r = dot w (c_pnnls f bd)).
    { rewrite Hr, norm_sqr.
      assert (Ec : dot w (c_pnnls f bd) = dot w w + dot w (mv (A_pnnls AC bd) ys) + dot w (mv (B_pnnls f AC) x)).
      { replace (c_pnnls f bd) with (vadd w (vadd (mv (A_pnnls AC bd) ys) (mv (B_pnnls f AC) x))) at 1.
        - assert (La : length (rows (A_pnnls AC bd)) = (1 + (N + n))%nat) by apply SA.
          assert (Lb : length (rows (B_pnnls f AC)) = (1 + (N + n))%nat) by apply SB.
          assert (Lw : length w = (1 + (N + n))%nat) by (rewrite Ew; len).
          rewrite !dot_vadd_r by len. ring.
        - assert (La : length (rows (A_pnnls AC bd)) = (1 + (N + n))%nat) by apply SA.
          assert (Lb : length (rows (B_pnnls f AC)) = (1 + (N + n))%nat) by apply SB.
          unfold w. vring. }
      rewrite Ec, Z, WB by auto. ring. }
    rewrite R2, Ew. unfold c_pnnls. simpl. rewrite dot_app by lia. rewrite dot_vneg_r. ring.
  - intros y' Hy' Py'. pose proof (VI (y' ++ zeros N) ltac:(len)) as V.
    rewrite T in V by len. rewrite dot_zeros_l in V.
    assert (nonneg (y' ++ zeros N)) by (apply nonneg_app; split; auto; apply nonneg_zeros).
    specialize (V H). lra.
  - intros s' Hs' Ps'. pose proof (VI (zeros N ++ s') ltac:(len)) as V.
    rewrite T in V by len. rewrite dot_zeros_l in V.
    assert (nonneg (zeros N ++ s')) by (apply nonneg_app; split; auto; apply nonneg_zeros).
    specialize (V H). lra.
  - intros x' Hx'. specialize (WB x' Hx'). rewrite (mv_B_pnnls f AC N n) in WB by auto.
    rewrite Ew in WB. simpl in WB. rewrite dot_app in WB by len. rewrite dot_zeros_r in WB. lra.
Qed.

(** feasible and bounded below => the residual of the pnnls problem is zero (strong duality) *)
Lemma lp_residual_zero (f : vec) AC bd N n w0 w1 w2 x0 lo :
  shape AC N n -> length bd = N -> length f = n -> length w1 = N -> length w2 = n ->
  (forall y', length y' = N -> nonneg y' -> dot y' (vadd (vscale w0 bd) (mv AC w2)) <= 0) ->
  (forall s', length s' = N -> nonneg s' -> dot s' w1 <= 0) ->
  (forall x', length x' = n -> w0 * dot f x' + dot w1 (mv AC x') = 0) ->
  length x0 = n -> vle (mv AC x0) bd ->
  (forall x, length x = n -> vle (mv AC x) bd -> lo <= dot f x) ->
  dot w1 bd - dot w2 f <= 0.
Proof.
  intros HA Hb Hf Lw1 Lw2 K1 K2 K3 Lx0 F0 LB.
  assert (LAC : length (rows AC) = N) by apply HA.
  assert (C1 : vle (vadd (vscale w0 bd) (mv AC w2)) (zeros N)).
  { replace N with (length (vadd (vscale w0 bd) (mv AC w2))) at 1 by len. apply vle_zeros_of_tests.
    intros z Lz Pz. apply K1; auto. len. }
  assert (C2 : nonneg (vneg w1)).
  { apply nonneg_of_nth. intros i Hi. rewrite nth_vneg.
    specialize (K2 (unit N i) ltac:(len) (nonneg_unit _ _)). rewrite dot_unit in K2 by len. lra. }
  (* consequence of recession: any g with AC g <= 0 has f.g >= 0 *)
  assert (REC : forall g, length g = n -> vle (mv AC g) (zeros N) -> 0 <= dot f g).
  { intros g Lg Hg. destruct (Rle_lt_dec 0 (dot f g)) as [|Hneg]; auto. exfalso.
    set (t := (dot f x0 - lo + 1) / - dot f g).
    assert (Ht : 0 <= t).
    { specialize (LB x0 Lx0 F0). unfold t. apply Rmult_le_pos; [lra|]. apply Rlt_le, Rinv_0_lt_compat. lra. }
    assert (Hft : t * dot f g = - (dot f x0 - lo + 1)) by (unfold t; field; lra).
    specialize (LB (vadd x0 (vscale t g)) ltac:(len)).
    rewrite dot_vadd_r, dot_vscale_r in LB by len.
    assert (vle (mv AC (vadd x0 (vscale t g))) bd).
    { rewrite (mv_vadd AC N n) by (auto; len). rewrite mv_vscale.
      replace bd with (vadd bd (zeros N)) by (apply vadd_zeros_r; auto).
      apply vle_vadd_compat; auto. apply vle_nth. apply vle_nth in Hg. destruct Hg as [Lg' Hg]. split; [len|].
      intros i Hi. autorewrite with nthv. specialize (Hg i). autorewrite with nthv in Hg.
      assert (i < length (mv AC g))%nat by len. specialize (Hg H). nra. }
    specialize (LB H). lra. }
  assert (WD : forall x, length x = n -> vle (mv AC x) bd -> dot w1 bd <= - w0 * dot f x).
  { intros x Lx Fx. pose proof (dot_vle' (vneg w1) _ _ C2 Fx) as D. rewrite !dot_vneg_l in D.
    specialize (K3 x Lx). lra. }
  destruct (Rtotal_order w0 0) as [H0|[H0|H0]].
  - (* w0 < 0: w2/(-w0) is primal feasible *)
    set (xh := vscale (/ - w0) w2).
    assert (Hi : 0 < / - w0) by (apply Rinv_0_lt_compat; lra).
    assert (Fh : vle (mv AC xh) bd).
    { unfold xh. rewrite mv_vscale. apply vle_nth. apply vle_nth in C1. destruct C1 as [LC1 C1]. split; [len|].
      intros i Hii. specialize (C1 i). autorewrite with nthv in *.
      assert (i < length (vadd (vscale w0 bd) (mv AC w2)))%nat by len. specialize (C1 H).
      assert (E : nth i bd 0 = / - w0 * (- w0 * nth i bd 0)) by (field; lra).
      rewrite E. apply Rmult_le_compat_l; lra. }
    pose proof (WD xh ltac:(unfold xh; len) Fh) as W. unfold xh in W. rewrite dot_vscale_r in W.
    replace (- w0 * (/ - w0 * dot f w2)) with (dot f w2) in W by (field; lra).
    rewrite (dot_comm w2 f). lra.
  - (* w0 = 0 *)
    subst w0. pose proof (WD x0 Lx0 F0) as W.
    assert (R0 : 0 <= dot f w2).
    { apply REC; auto. replace (mv AC w2) with (vadd (vscale 0 bd) (mv AC w2)); auto.
      rewrite vscale_0. apply vadd_zeros_l. len. }
    rewrite (dot_comm w2 f). lra.
  - (* w0 > 0 *)
    assert (Hi : 0 < / w0) by (apply Rinv_0_lt_compat; lra).
    assert (R0 : 0 <= dot f (vadd x0 (vscale (/ w0) w2))).
    { apply REC; [len|]. rewrite (mv_vadd AC N n) by (auto; len). rewrite mv_vscale.
      apply vle_nth. apply vle_nth in C1. destruct C1 as [LC1 C1]. 
      apply vle_nth in F0. destruct F0 as [LF0 F0]. split; [len|].
      intros i Hii. specialize (C1 i). specialize (F0 i). autorewrite with nthv in *.
      assert (i < length (vadd (vscale w0 bd) (mv AC w2)))%nat by len. specialize (C1 H).
      assert (i < length (mv AC x0))%nat by len. specialize (F0 H1).
      assert (nth i bd 0 + / w0 * dot (nth i (rows AC) []) w2 = / w0 * (w0 * nth i bd 0 + dot (nth i (rows AC) []) w2)).
      { field; lra. }
      assert (/ w0 * (w0 * nth i bd 0 + dot (nth i (rows AC) []) w2) <= / w0 * 0).
      { apply Rmult_le_compat_l; lra. }
      lra. }
    rewrite dot_vadd_r, dot_vscale_r in R0 by len.
    pose proof (WD x0 Lx0 F0) as W.
    assert (0 <= w0 * dot f x0 + dot f w2).
    { replace (w0 * dot f x0 + dot f w2) with (w0 * (dot f x0 + / w0 * dot f w2)) by (field; lra).
      apply Rmult_le_pos; lra. }
    rewrite (dot_comm w2 f). lra.
Qed.

(** sum of nonnegative products that is zero *)
Lemma dot_zero_nth u v : nonneg u -> nonneg v -> dot u v = 0 -> forall i, nth i u 0 * nth i v 0 = 0.
Proof.
  intros Hu; revert v; induction Hu as [|a u Ha Hu IH]; intros v Hv H i.
  - destruct i; simpl; ring.
  - destruct Hv as [|b v Hb Hv]; [destruct i; simpl; ring|]. simpl in H.
    pose proof (dot_nonneg' u v Hu Hv). assert (0 <= a * b) by nra.
    destruct i; simpl; [lra|]. apply IH; auto; lra.
Qed.

(** KKT conditions with zero duality gap give optimality *)
Lemma kkt_lp f A b C d m me n x l nu : shape A m n -> length b = m -> shape C me n -> length d = me ->
  length f = n -> length l = m -> length nu = me -> nonneg l -> in_set A b C d x ->
  stationary f A l C nu n -> dot f x + dot b l + dot d nu = 0 ->
  lp_optimal f A b C d x /\ compl_slack A b l x.
Proof.
  intros HA Hb HC Hd Hf Hl Hnu Pl Hx St Gap.
  assert (LA : length (rows A) = m) by apply HA.
  assert (NA : ncols A = n) by apply HA.
  split; [split; auto|].
  - intros x' Hx'. apply in_set_vle in Hx'. destruct Hx' as [Lx' [I' E']].
    specialize (St x' ltac:(lia)). rewrite E' in St.
    pose proof (dot_vle' l _ _ Pl I') as D. rewrite (dot_comm nu), (dot_comm l b) in *. lra.
  - apply in_set_vle in Hx. destruct Hx as [Lx [I E]].
    pose proof (St x ltac:(lia)) as Sx. rewrite E in Sx.
    assert (Z : dot l (vsub b (mv A x)) = 0).
    { rewrite dot_vsub_r by len. rewrite (dot_comm nu), (dot_comm b) in *. lra. }
    assert (P : nonneg (vsub b (mv A x))).
    { apply nonneg_of_nth. intros i Hi. apply vle_nth in I. destruct I as [_ I].
      rewrite nth_vsub by len. specialize (I i). lenh Hi. lenh I. specialize (I ltac:(lia)). lra. }
    intros i Hi. pose proof (dot_zero_nth _ _ Pl P Z i) as Zi.
    rewrite nth_vsub, nth_mv in Zi by len. exact Zi.
Qed.

Lemma slice_app_l {A} k (u v : list A) : (k <= length u)%nat -> slice 0 k (u ++ v) = firstn k u.
Proof. intros H. unfold slice. simpl. rewrite Nat.sub_0_r, firstn_app. replace (k - length u)%nat with O by lia. simpl. apply app_nil_r. Qed.
Lemma slice_app3 {A} (u v w : list A) i j : i = length u -> j = (i + length v)%nat -> slice i j (u ++ v ++ w) = v.
Proof.
  intros -> ->. unfold slice. rewrite skipn_app, skipn_all2 by lia. rewrite Nat.sub_diag. simpl.
  replace (length u + length v - length u)%nat with (length v) by lia.
  rewrite firstn_app, Nat.sub_diag, firstn_all. simpl. apply app_nil_r.
Qed.

(** everything about one call of the LP solver *)
Lemma lp_core_spec np tol f A b C d m me n :
  nnls_ok np -> pinv_ok np -> shape A m n -> length b = m -> shape C me n -> length d = me -> length f = n ->
  exists x l nu r,
    lp_core np tol f A b C d =
      (if Rltb r tol then
         Sol (Some (dot f x)) (Some x) (Some (where_ (fun y => Rltb tol y) l)) (Some l)
             (if (0 <? me)%nat then Some nu else None)
       else sol_none) /\
    0 <= r /\ length x = n /\ length l = m /\ length nu = me /\ nonneg l /\
    (forall i, (i < m)%nat -> dot (row A i) x <= nth i b 0 + r) /\
    (forall i, (i < me)%nat -> Rabs (dot (row C i) x - nth i d 0) <= r) /\
    (forall z, length z = n -> Rabs (dot f z + dot l (mv A z) + dot nu (mv C z)) <= r * norm z) /\
    Rabs (dot f x + dot b l + dot d nu) <= r /\
    (lp_solvable f A b C d -> r = 0).
Proof.
  intros Hn Hp HA Hb HC Hd Hf. unfold lp_core.
  destruct (stack_eq A b C d) as [AC bd] eqn:Es.
  destruct (stack_eq_ok A b C d m me n AC bd HA Hb HC Hd Es) as [HAC [Hbd Hin]].
  set (N := if (0 <? me)%nat then (m + (me + me))%nat else m) in *.
  destruct (pnnls np (A_pnnls AC bd) (B_pnnls f AC) (c_pnnls f bd)) as [[ys x] r] eqn:Ep.
  destruct (lp_pnnls_vi np f AC bd N n ys x r Hn Hp HAC Hbd Hf Ep)
    as (y & s & w0 & w1 & w2 & Eys & Ly & Ls & Lx & Py & Ps & Lw1 & Lw2 & E0 & E1 & E2 & Hr & Hr2 & K1 & K2 & K3).
  unfold nrows. rewrite (shape_rows _ _ _ HA), (shape_rows _ _ _ HC).
  assert (LA : length (rows A) = m) by apply HA.
  assert (LC : length (rows C) = me) by apply HC.
  assert (LAC : length (rows AC) = N) by apply HAC.
  assert (LACt : length (rows (tr AC)) = n) by (apply (shape_rows _ n N); auto with shp).
  assert (R0 : 0 <= r) by (rewrite Hr; apply norm_nonneg).
  assert (RS : lp_solvable f A b C d -> r = 0).
  { intros [[x0 F0] [lo LB]].
    assert (Lx0 : length x0 = n) by (destruct F0 as [L0 _]; rewrite L0; apply HA).
    assert (r * r <= 0).
    { rewrite Hr2. eapply lp_residual_zero with (f := f) (AC := AC) (x0 := x0) (lo := lo); eauto.
      - apply Hin; auto.
      - intros x' Lx' F'. apply LB. apply Hin; auto. }
    nra. }
  assert (Bw0 : Rabs w0 <= r).
  { rewrite Hr. apply (nth_le_norm (w0 :: w1 ++ w2) 0). }
  assert (Bw1 : forall i, Rabs (nth i w1 0) <= r).
  { intros i. eapply Rle_trans; [apply nth_le_norm|]. rewrite Hr.
    eapply Rle_trans; [apply norm_app_l|]. apply (norm_app_r [w0] (w1 ++ w2)). }
  assert (Bw2 : norm w2 <= r).
  { rewrite Hr. eapply Rle_trans; [apply (norm_app_r w1 w2)|]. apply (norm_app_r [w0] (w1 ++ w2)). }
  assert (Bst : forall z, length z = n -> Rabs (dot f z + dot y (mv AC z)) <= r * norm z).
  { intros z Lz. assert (D : dot f z + dot y (mv AC z) = dot (vneg w2) z).
    { rewrite E2, vneg_vneg. rewrite dot_vadd_l by len. rewrite (dot_mv_tr AC N n); auto. }
    rewrite D. pose proof (dot_le_norm (vneg w2) z) as P1. pose proof (dot_le_norm w2 z) as P2.
    assert (NN : norm (vneg w2) = norm w2).
    { unfold norm. rewrite dot_vneg_l, dot_vneg_r. f_equal; ring. }
    rewrite NN in P1. rewrite dot_vneg_l in *. 
    assert (norm w2 * norm z <= r * norm z).
    { apply Rmult_le_compat_r; auto. apply norm_nonneg. }
    apply Rabs_le. lra. }
  assert (Bf : forall i, (i < N)%nat -> dot (row AC i) x <= nth i bd 0 + r).
  { intros i Hi. specialize (Bw1 i). rewrite E1 in Bw1. rewrite nth_vsub, nth_vadd, nth_mv in Bw1 by len.
    pose proof (nonneg_nth s i Ps). unfold row.
    assert (- r <= nth i bd 0 - (nth i s 0 + dot (nth i (rows AC) []) x)).
    { revert Bw1. unfold Rabs. destruct (Rcase_abs _); intros; lra. }
    lra. }
  unfold stack_eq, nrows in Es. rewrite LC in Es.
  destruct (Nat.ltb_spec 0 me) as [Hme|Hme].
  - (* with equalities *)
    injection Es as <- <-.
    set (y1 := firstn m y). set (y2 := firstn me (skipn m y)). set (y3 := skipn me (skipn m y)).
    assert (Ey : y = y1 ++ y2 ++ y3).
    { unfold y1, y2, y3. rewrite firstn_skipn, firstn_skipn. auto. }
    unfold N in *.
    assert (L1 : length y1 = m) by (unfold y1; len).
    assert (L2 : length y2 = me) by (unfold y2; len).
    assert (L3 : length y3 = me) by (unfold y3; len).
    set (nu := vadd y2 (vneg y3)).
    assert (Lnu : length nu = me) by (unfold nu; len).
    exists x, y1, nu, r.
    assert (S1 : slice 0 m ys = y1).
    { rewrite Eys, Ey, <- !app_assoc. rewrite slice_app_l by lia. rewrite <- L1. apply firstn_all. }
    assert (S2 : slice m (m + me) ys = y2).
    { rewrite Eys, Ey, <- !app_assoc. apply slice_app3; lia. }
    assert (S3 : slice (m + me) (m + 2 * me) ys = y3).
    { rewrite Eys, Ey. replace (((y1 ++ y2 ++ y3) ++ s)) with ((y1 ++ y2) ++ y3 ++ s) by (rewrite <- !app_assoc; auto).
      apply slice_app3; len. }
    rewrite S1, S2, S3. split; [reflexivity|].
    assert (P1 : nonneg y1) by (rewrite Ey in Py; apply nonneg_app in Py; tauto).
    assert (Dy : forall z, length z = n -> dot y (mv (vstack A (vstack C (mneg C))) z) = dot y1 (mv A z) + dot nu (mv C z)).
    { intros z Lz. rewrite Ey, !mv_vstack, mv_mneg. rewrite dot_app, dot_app by len.
      unfold nu. rewrite dot_vadd_l by len. rewrite dot_vneg_l, dot_vneg_r. ring. }
    repeat match goal with |- _ /\ _ => split end; auto.
    + intros i Hi. specialize (Bf i ltac:(lia)). unfold row, vstack in Bf; simpl in Bf.
      rewrite !app_nth1 in Bf by lia. exact Bf.
    + intros i Hi. pose proof (Bf (m + i)%nat ltac:(lia)) as F1. pose proof (Bf (m + me + i)%nat ltac:(lia)) as F2.
      unfold row, vstack in F1, F2. rewrite !rows_Mat in F1, F2.
      rewrite !(app_nth2 (rows A)) in F1, F2 by lia. rewrite !(app_nth2 b) in F1, F2 by lia.
      replace (m + i - length (rows A))%nat with i in F1 by lia. replace (m + i - length b)%nat with i in F1 by lia.
      rewrite !app_nth1 in F1 by lia.
      replace (m + me + i - length (rows A))%nat with (me + i)%nat in F2 by lia.
      replace (m + me + i - length b)%nat with (me + i)%nat in F2 by lia.
      rewrite !app_nth2 in F2 by lia.
      replace (me + i - length (rows C))%nat with i in F2 by lia.
      replace (me + i - length d)%nat with i in F2 by lia.
      rewrite nth_vneg in F2.
      assert (EE : dot (nth i (rows (mneg C)) []) x = - dot (row C i) x).
      { rewrite <- nth_mv, mv_mneg, nth_vneg, nth_mv. auto. }
      rewrite EE in F2. unfold row in *. apply Rabs_le. lra.
    + intros z Lz. specialize (Bst z Lz). rewrite Dy in Bst by auto.
      rewrite <- Rplus_assoc in Bst. exact Bst.
    + rewrite E0 in Bw0. rewrite Rabs_Ropp in Bw0.
      replace (dot f x + dot b y1 + dot d nu) with (dot (b ++ d ++ vneg d) y + dot f x); auto.
      rewrite Ey. rewrite !dot_app by lia. unfold nu. rewrite dot_vadd_r by len.
      rewrite dot_vneg_l, dot_vneg_r. ring.
  - (* without equalities *)
    injection Es as <- <-. assert (me = 0)%nat by lia. subst me. unfold N in *.
    destruct d; [|simpl in *; lia].
    assert (RC : rows C = []) by (destruct (rows C); [auto|simpl in *; lia]).
    assert (S1 : slice 0 m ys = y).
    { rewrite Eys. rewrite slice_app_l by lia. rewrite <- Ly. apply firstn_all. }
    exists x, y, [], r. rewrite S1. split; [reflexivity|].
    repeat match goal with |- _ /\ _ => split end; auto.
    + intros i Hi; lia.
    + intros z Lz. specialize (Bst z Lz). simpl. rewrite Rplus_0_r. exact Bst.
    + rewrite E0 in Bw0. rewrite Rabs_Ropp in Bw0. simpl. 
      replace (dot f x + dot b y + 0) with (dot b y + dot f x) by ring. exact Bw0.
Qed.

Lemma Rabs_le_0 a : Rabs a <= 0 -> a = 0.
Proof. unfold Rabs. destruct (Rcase_abs a); intros; lra. Qed.

(** zero residual: exact solution *)
Lemma lp_exact_of_zero f A b C d m me n x l nu :
  shape A m n -> length b = m -> shape C me n -> length d = me -> length f = n ->
  length x = n -> length l = m -> length nu = me -> nonneg l ->
  (forall i, (i < m)%nat -> dot (row A i) x <= nth i b 0 + 0) ->
  (forall i, (i < me)%nat -> Rabs (dot (row C i) x - nth i d 0) <= 0) ->
  (forall z, length z = n -> Rabs (dot f z + dot l (mv A z) + dot nu (mv C z)) <= 0 * norm z) ->
  Rabs (dot f x + dot b l + dot d nu) <= 0 ->
  lp_optimal f A b C d x /\ stationary f A l C nu n /\ compl_slack A b l x /\ dot f x = - dot b l - dot d nu.
Proof.
  intros HA Hb HC Hd Hf Lx Ll Lnu Pl F G S D.
  assert (LA : length (rows A) = m) by apply HA.
  assert (LC : length (rows C) = me) by apply HC.
  assert (In_ : in_set A b C d x).
  { apply in_set_vle. split; [rewrite Lx; symmetry; apply HA|]. split.
    - apply vle_nth. split; [len|]. intros i Hi. rewrite nth_mv. lenh Hi.
      specialize (F i ltac:(lia)). unfold row in F. lra.
    - apply vec_ext; [len|]. intros i Hi. rewrite nth_mv. lenh Hi.
      specialize (G i ltac:(lia)). apply Rabs_le_0 in G. unfold row in G. lra. }
  assert (St : stationary f A l C nu n).
  { intros z Lz. specialize (S z Lz). apply Rabs_le_0. lra. }
  apply Rabs_le_0 in D.
  destruct (kkt_lp f A b C d m me n x l nu) as [O K]; auto.
  repeat split; auto; try apply O. lra.
Qed.

(** main result on solvable LPs *)
Lemma lp_core_solvable np tol f A b C d m me n :
  nnls_ok np -> pinv_ok np -> 0 < tol ->
  shape A m n -> length b = m -> shape C me n -> length d = me -> length f = n ->
  lp_solvable f A b C d ->
  exists x l nu,
    lp_core np tol f A b C d =
      Sol (Some (dot f x)) (Some x) (Some (where_ (fun y => Rltb tol y) l)) (Some l)
          (if (0 <? me)%nat then Some nu else None) /\
    lp_optimal f A b C d x /\ length x = n /\ length l = m /\ length nu = me /\
    nonneg l /\ stationary f A l C nu n /\ compl_slack A b l x /\ dot f x = - dot b l - dot d nu.
Proof.
  intros Hn Hp Ht HA Hb HC Hd Hf Hs.
  destruct (lp_core_spec np tol f A b C d m me n Hn Hp HA Hb HC Hd Hf)
    as (x & l & nu & r & E & R0 & Lx & Ll & Lnu & Pl & F & G & S & D & Z).
  specialize (Z Hs). subst r.
  exists x, l, nu. rewrite E.
  destruct (Rltb 0 tol) eqn:T; [|apply Rltb_false in T; lra].
  destruct (lp_exact_of_zero f A b C d m me n x l nu) as (O & St & K & Gap); auto.
  repeat split; auto; apply O.
Qed.
