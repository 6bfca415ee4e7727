(** * PolyBoundThms: boundedness and Chebyshev ball (C09, C13), proofs *)
From Coq Require Import ZArith.
From Verif Require Import Arr ArrFacts Spec Numpy Pnnls PnnlsFacts QpFacts GeomUtils Polyhedron PolyThms Oracle SolverThms NullFacts PolySolveThms PolySetThms.

(** ** C09: boundedness *)

(** Stiemke: if A d <= 0 only for A d = 0, then A'y = 0 for some y >= 1 *)
Lemma stiemke A m n : shape A m n -> (forall d, length d = n -> vle (mv A d) (zeros m) -> mv A d = zeros m) ->
  exists y, length y = m /\ (forall i, (i < m)%nat -> 1 <= nth i y 0) /\ forall d, length d = n -> dot y (mv A d) = 0.
Proof.
  intros HA Hd. assert (LA : length (rows A) = m) by apply HA.
  assert (G : forall k, (k <= m)%nat -> exists y, length y = m /\ nonneg y /\ (forall i, (i < k)%nat -> 1 <= nth i y 0) /\
                forall d, length d = n -> dot y (mv A d) = 0).
  { induction k as [|k IH]; intros Hk.
    - exists (zeros m). split; [len|]. split; [apply nonneg_zeros|]. split; [lia|]. intros d _. apply dot_zeros_l.
    - destruct IH as (y & Ly & Ny & Iy & Ey); [lia|].
      assert (Lr : length (row A k) = n) by (eapply shape_row; eauto; lia).
      destruct (lp_solved np0 (row A k) A (zeros m) m n (zeros n) 0 np0_exact HA (zeros_length m) Lr (zeros_length n))
        as (s & x & l & _ & _ & _ & _ & _ & _ & Ll & Nl & El).
      { rewrite mv_zeros, LA. apply vle_refl. }
      { intros x Lx Vx. specialize (Hd x Lx Vx). right.
        transitivity (nth k (mv A x) 0); [rewrite Hd, nth_zeros; reflexivity|]. now rewrite nth_mv. }
      exists (vadd y (vadd (unit m k) l)). split; [len|]. split; [apply nonneg_vadd; auto; apply nonneg_vadd; auto; apply nonneg_unit|].
      split.
      + intros i Hi. rewrite nth_vadd by len. rewrite nth_vadd by len. rewrite nth_unit by lia.
        pose proof (nonneg_nth l i Nl). pose proof (nonneg_nth y i Ny).
        destruct (Nat.eqb_spec i k); [lra|]. specialize (Iy i ltac:(lia)). lra.
      + intros d Ld. rewrite dot_vadd_l by len. rewrite dot_vadd_l by len. rewrite Ey by auto.
        rewrite dot_unit by (len; lia). rewrite nth_mv. specialize (El d Ld). unfold row in El. lra. }
  destruct (G m (le_n m)) as (y & Ly & _ & Iy & Ey). exists y. auto.
Qed.

(** a bounded non-empty set has no recession direction *)
Lemma bounded_no_recession A b m n x0 M : shape A m n -> length b = m -> length x0 = n -> vle (mv A x0) b ->
  (forall x, length x = n -> vle (mv A x) b -> norm x <= M) ->
  forall d, length d = n -> vle (mv A d) (zeros m) -> d = zeros n.
Proof.
  intros HA Hb L0 V0 HM d Ld Vd. assert (LA : length (rows A) = m) by apply HA.
  assert (Hin : forall t, 0 <= t -> norm (vadd x0 (vscale t d)) <= M).
  { intros t Ht. apply HM; [len|]. rewrite (mv_vadd A m n) by (auto; len). rewrite mv_vscale.
    apply vle_nth. split; [len|]. intros i Hi. lenh Hi. rewrite nth_vadd by len. rewrite nth_vscale.
    apply vle_nth in V0. destruct V0 as (_ & V0). specialize (V0 i ltac:(len)).
    apply vle_nth in Vd. destruct Vd as (_ & Vd). specialize (Vd i ltac:(len)). rewrite nth_zeros in Vd.
    assert (t * nth i (mv A d) 0 <= 0) by nra. lra. }
  rewrite <- Ld. apply dot_self_zero.
  pose proof (dot_self_nonneg d) as D0. destruct (Rle_lt_or_eq_dec _ _ D0) as [D1|D1]; [|auto]. exfalso.
  set (c := norm d * M - dot d x0).
  assert (Ht : forall t, 0 <= t -> t * dot d d <= c).
  { intros t Ht. specialize (Hin t Ht). pose proof (dot_le_norm d (vadd x0 (vscale t d))) as Q.
    rewrite dot_vadd_r in Q by len. rewrite dot_vscale_r in Q.
    pose proof (norm_nonneg d). assert (norm d * norm (vadd x0 (vscale t d)) <= norm d * M) by (apply Rmult_le_compat_l; auto).
    unfold c. lra. }
  pose proof (Ht 0 (Rle_refl 0)) as H0. 
  assert (0 <= (c + 1) / dot d d) by (apply Rmult_le_pos; [lra|left; apply Rinv_0_lt_compat; auto]).
  specialize (Ht ((c + 1) / dot d d) H). unfold Rdiv in Ht. rewrite Rmult_assoc, Rinv_l in Ht by lra. lra.
Qed.

(** sum of absolute values *)
Definition norm1 (d : vec) : R := vsum (map Rabs d).
Lemma dot_norm1 u d t : (forall i, Rabs (nth i u 0) <= t) -> Rabs (dot u d) <= t * norm1 d.
Proof.
  unfold norm1, vsum. revert d; induction u as [|a u IH]; intros [|c d] H; simpl.
  - rewrite Rabs_R0. lra.
  - rewrite Rabs_R0. specialize (H O). simpl in H. rewrite Rabs_R0 in H.
    assert (G : 0 <= fold_right Rplus 0 (map Rabs d)) by (induction d; simpl; [lra|]; pose proof (Rabs_pos a); lra).
    pose proof (Rabs_pos c). nra.
  - rewrite Rabs_R0. lra.
  - eapply Rle_trans; [apply Rabs_triang|]. rewrite Rabs_mult.
    specialize (IH d (fun i => H (S i))). specialize (H O). simpl in H. pose proof (Rabs_pos c). nra.
Qed.

(** directions in which one can go forever: A d <= 0, C d = 0 *)
Definition recession (p : poly) (d : vec) : Prop :=
  length d = ncols (pA p) /\ Forall (fun a => dot a d <= 0) (rows (pA p)) /\ Forall (fun c => dot c d = 0) (rows (pC p)).

Lemma recession_all p m me n d : wf p m me n -> length d = n ->
  recession p d <-> vle (mv (allA p) d) (zeros (m + (me + me))).
Proof.
  intros (HA & Hb & HC & Hd) Ld. assert (LA : length (rows (pA p)) = m) by apply HA. assert (LC : length (rows (pC p)) = me) by apply HC.
  unfold recession, allA. rewrite !mv_vstack, !zeros_app, mv_mneg. rewrite vle_app by len. rewrite vle_app by len.
  replace (ncols (pA p)) with n by (symmetry; apply HA).
  assert (G1 : vle (mv (pA p) d) (zeros m) <-> Forall (fun a => dot a d <= 0) (rows (pA p))).
  { rewrite vle_nth. rewrite Forall_forall. split.
    - intros (_ & H) a Ha. destruct (In_nth _ _ [] Ha) as (i & Hi & <-). specialize (H i ltac:(len)). rewrite nth_mv, nth_zeros in H. exact H.
    - intros H. split; [len|]. intros i Hi. lenh Hi. rewrite nth_mv, nth_zeros. apply H, nth_In. exact Hi. }
  assert (G2 : Forall (fun c => dot c d = 0) (rows (pC p)) <-> mv (pC p) d = zeros me).
  { rewrite Forall_forall. split.
    - intros H. apply vec_ext; [len|]. intros i Hi. lenh Hi. rewrite nth_mv, nth_zeros. apply H, nth_In. exact Hi.
    - intros H c Hc. destruct (In_nth _ _ [] Hc) as (i & Hi & <-). rewrite <- nth_mv, H. apply nth_zeros. }
  rewrite G1, G2. split.
  - intros (_ & H1 & H2). rewrite H2, vneg_zeros. repeat split; auto; apply vle_refl.
  - intros (H1 & H2 & H3). repeat split; auto. apply vec_ext; [len|]. intros i Hi. lenh Hi.
    apply vle_nth in H2. destruct H2 as (_ & H2). apply vle_nth in H3. destruct H3 as (_ & H3).
    specialize (H2 i ltac:(len)). specialize (H3 i ltac:(len)). rewrite nth_vneg in H3. rewrite nth_zeros in *. lra.
Qed.

(** the LP of the boundedness test *)
Lemma bounded_lp np A N n : exact_np np -> shape A N n ->
  exists s, lp np (ones N) (mneg (eye N)) (vneg (ones N)) (Some (tr A)) (Some (zeros n)) = Ok s /\
    ((s_min s = None /\ ~ exists y, length y = N /\ (forall i, (i < N)%nat -> 1 <= nth i y 0) /\ forall d, length d = n -> dot y (mv A d) = 0) \/
     (s_min s <> None /\ exists y, length y = N /\ (forall i, (i < N)%nat -> 1 - tol7 <= nth i y 0) /\
        forall d, length d = n -> Rabs (dot y (mv A d)) <= tol7 * norm1 d)).
Proof.
  intros (NN & PI & _) HA. assert (LA : length (rows A) = N) by apply HA.
  assert (S1 : shape (mneg (eye N)) N N) by auto with shp.
  assert (S2 : shape (tr A) n N) by auto with shp. assert (LT : length (rows (tr A)) = n) by apply S2.
  unfold lp. rewrite (linear_program_core np tol7 _ _ _ _ _ (tr A) (zeros n) N N S1) by (left; auto).
  destruct (lp_core_spec np tol7 (ones N) (mneg (eye N)) (vneg (ones N)) (tr A) (zeros n) N n N NN PI S1 ltac:(len) S2 ltac:(len) ltac:(len))
    as (y & l & nu & r & E & Hr0 & Ly & Ll & Lnu & Nl & Hi & He & _ & _ & Hsolv).
  eexists. split; [reflexivity|]. rewrite E.
  assert (Hrow : forall i z, (i < N)%nat -> length z = N -> dot (row (mneg (eye N)) i) z = - nth i z 0).
  { intros i z Hi' Lz. unfold row. rewrite <- nth_mv, mv_mneg, mv_eye by auto. now rewrite nth_vneg. }
  assert (Htr : forall z d, length z = N -> length d = n -> dot z (mv A d) = dot (mv (tr A) z) d).
  { intros z d Lz Ld. symmetry. now apply (dot_mv_tr A N n). }
  destruct (Rltb r tol7) eqn:Er.
  - right. apply Rltb_true in Er. split; [cbn; discriminate|]. exists y. split; [exact Ly|]. split.
    + intros i Hi'. specialize (Hi i Hi'). rewrite Hrow in Hi by auto. rewrite nth_vneg, nth_ones in Hi by auto. lra.
    + intros d Ld. rewrite Htr by auto. apply dot_norm1. intros i. rewrite nth_mv. destruct (Nat.lt_ge_cases i n) as [Hin|Hin].
      * specialize (He i Hin). rewrite nth_zeros in He. unfold row in He. replace (dot (nth i (rows (tr A)) []) y - 0) with (dot (nth i (rows (tr A)) []) y) in He by ring. lra.
      * rewrite nth_overflow by (destruct S2 as (-> & _); lia). cbn. rewrite Rabs_R0. pose proof tol7_pos. lra.
  - left. apply Rltb_false in Er. split; [reflexivity|]. intros (z & Lz & Hz & Ez).
    assert (r = 0); [|pose proof tol7_pos; lra]. apply Hsolv. split.
    + exists z. apply in_set_vle. split; [cbn; auto|]. split.
      * rewrite mv_mneg, mv_eye by auto. apply vle_vneg. apply vle_nth. split; [len|]. intros i Hi'. lenh Hi'. rewrite nth_ones by auto. auto.
      * apply dot_eq_ext; [len|]. intros w Lw. rewrite dot_zeros_l.
        assert (Lw' : length w = n) by (rewrite Lw; len). rewrite <- Htr by auto. auto.
    + exists 0. intros x Hx. apply in_set_vle in Hx. destruct Hx as (Lx & Vx & _). cbn in Lx. rewrite mv_mneg, mv_eye in Vx by auto.
      rewrite vle_vneg in Vx. apply dot_nonneg'; [apply Forall_forall; intros a Ha; apply repeat_spec in Ha; lra|].
      apply nonneg_of_nth. intros i Hi'. apply vle_nth in Vx. destruct Vx as (_ & Vx). specialize (Vx i ltac:(len)).
      rewrite nth_ones in Vx by lia. lra.
Qed.

Lemma kernel_basis np A N n : svd_ok np -> shape A N n ->
  ((0 < ncols (nullspace_basis np A))%nat <-> exists d, length d = n /\ d <> zeros n /\ mv A d = zeros N).
Proof.
  intros Hs HA. destruct (nullspace_ok np A N n Hs HA) as (SN & Hr & _ & K & I' & J). set (k := (n - np_rank np A)%nat) in *.
  replace (ncols (nullspace_basis np A)) with k by (symmetry; apply SN). split.
  - intros Hk. exists (mv (nullspace_basis np A) (unit k 0)). split; [len; apply SN|]. split.
    + intros E. pose proof (isometry_inj _ _ _ SN I' (unit k 0) (unit_length k 0) E) as U.
      assert (Q : nth 0 (unit k 0) 0 = 0) by (rewrite U; apply nth_zeros). rewrite nth_unit in Q by auto. cbn in Q. lra.
    + apply K. apply unit_length.
  - intros (d & Ld & Nd & Kd). destruct (Nat.eq_0_gt_0_cases k) as [E|]; auto. exfalso. apply Nd.
    destruct (J d Ld Kd) as (z & Lz & ->). rewrite E in Lz. destruct z; [|discriminate].
    change (@nil R) with (zeros 0). rewrite mv_zeros. f_equal. apply SN.
Qed.

(*@ Theorem C09_bounded_partial : On a fresh polyhedron: False is returned only for non-empty unbounded polyhedra; True only if there is no point of norm below 10^7, or if the kernel is trivial and along every recession direction d every inequality is almost constant, |A_i d| <= 2 tol |d|_1.
   Missing: True implies bounded, which is false because of the tolerance of the LP solver (see the refutation). *)
Lemma get_bounded_ok np p m me n : exact_np np -> wf p m me n -> p_empty p = None -> p_bounded p = None ->
  exists r p', get_bounded np p = (Ok r, p') /\
    (r = false -> (exists x, in_poly p x) /\ ~ bounded_set (in_poly p)) /\
    (r = true -> (forall x, in_poly p x -> ~ near x) \/
       ((exists x, in_poly p x) /\ (forall d, length d = n -> mv (pA p) d = zeros m -> mv (pC p) d = zeros me -> d = zeros n) /\
        forall d, recession p d -> forall i, (i < m)%nat -> Rabs (dot (row (pA p) i) d) <= 2 * tol7 * norm1 d)).
Proof.
  intros Hnp W He Hb. pose proof (proj2 (proj2 (proj2 (proj2 (proj2 Hnp))))) as Hs.
  destruct (get_empty_ok np p m me n Hnp W He) as (e & Ee & He').
  destruct (shape_all p m me n W) as (SA & Lb).
  unfold get_bounded, pbind, pget. rewrite Hb, Ee. destruct e.
  { eexists _, _. split; [reflexivity|]. split; [discriminate|]. intros _. left. intros x Hx Nx. apply (proj1 He'); eauto. }
  assert (HX : exists x, in_poly p x /\ near x).
  { destruct (Classical_Prop.classic (exists x, in_poly p x /\ near x)) as [|Hn]; auto. apply He' in Hn. discriminate. }
  destruct HX as (x0 & Hx0 & _).
  assert (L0 : length x0 = n) by (apply (in_poly_vle _ _ _ _ _ W) in Hx0; apply Hx0).
  assert (V0 : vle (mv (allA p) x0) (allb p)) by now apply (all_poly p m me n x0 W L0).
  assert (NB : forall d, length d = n -> vle (mv (allA p) d) (zeros (m + (me + me))) -> bounded_set (in_poly p) -> d = zeros n).
  { intros d Ld Vd (M & HM). apply (bounded_no_recession (allA p) (allb p) _ n x0 M SA Lb L0 V0); auto.
    intros x Lx Vx. apply HM. now apply (all_poly p m me n x W Lx). }
  cbn [pA pC set_empty]. fold (allA p). pose proof (kernel_basis np (allA p) _ n Hs SA) as KB.
  destruct (0 <? ncols (nullspace_basis np (allA p)))%nat eqn:Ek.
  { apply Nat.ltb_lt in Ek. apply KB in Ek. destruct Ek as (d & Ld & Nd & Kd). eexists _, _. split; [reflexivity|]. split; [|discriminate].
    intros _. split; [eauto|]. intros B. apply Nd. apply NB; auto. rewrite Kd. apply vle_refl. }
  apply Nat.ltb_ge in Ek. cbn zeta. unfold plift.
  replace (nrows (allA p)) with (m + (me + me))%nat by (symmetry; apply SA). replace (ncols (allA p)) with n by (symmetry; apply SA).
  destruct (bounded_lp np (allA p) _ n Hnp SA) as (s & -> & [(E & Hno)|(E & y & Ly & Hy & Ey)]).
  - rewrite E. eexists _, _. split; [reflexivity|]. split; [|discriminate]. intros _. split; [eauto|].
    intros B. apply Hno. apply stiemke; auto. intros d Ld Vd. rewrite (NB d Ld Vd B). rewrite mv_zeros. f_equal. apply SA.
  - destruct (s_min s) as [mn|]; [|congruence]. eexists _, _. split; [reflexivity|]. split; [discriminate|]. intros _. right.
    assert (LA : length (rows (pA p)) = m) by apply W. assert (LC : length (rows (pC p)) = me) by apply W.
    split; [eauto|]. split.
    + intros d Ld E1 E2. destruct (Classical_Prop.classic (d = zeros n)) as [|Nd]; auto. exfalso.
      assert (0 < ncols (nullspace_basis np (allA p)))%nat; [|lia]. apply KB. exists d. split; [auto|]. split; [auto|].
      unfold allA. rewrite !mv_vstack, mv_mneg, E1, E2, vneg_zeros, !zeros_app. reflexivity.
    + intros d Hd i Hi. assert (Ld : length d = n) by (destruct Hd as (-> & _); apply W).
      pose proof Hd as Hd'. apply (recession_all p m me n d W Ld) in Hd'.
      specialize (Ey d Ld). set (w := mv (allA p) d) in *.
      assert (Lw : length w = (m + (me + me))%nat) by (unfold w; len; apply SA).
      assert (Nw : nonneg (vneg w)).
      { apply nonneg_of_nth. intros j Hj. rewrite nth_vneg. apply vle_nth in Hd'. destruct Hd' as (_ & Hd'). lenh Hj. specialize (Hd' j Hj).
        rewrite nth_zeros in Hd'. lra. }
      assert (T7 : 0 < tol7 < /10) by (unfold tol7; lra).
      assert (Ny : nonneg y). { apply nonneg_of_nth. intros j Hj. specialize (Hy j ltac:(lia)). lra. }
      assert (Hterm : nth i y 0 * nth i (vneg w) 0 <= dot y (vneg w)).
      { rewrite <- (dot_unit (m + (me + me)) i (vneg w)) by (len; lia).
        rewrite <- dot_vscale_l. rewrite (dot_comm _ (vneg w)), (dot_comm y). apply dot_vle'; [exact Nw|].
        apply vle_nth. split; [len|]. intros j Hj. lenh Hj. rewrite nth_vscale, nth_unit by lia.
        pose proof (nonneg_nth y j Ny). destruct (Nat.eqb_spec j i); [subst; lra|lra]. }
      assert (Hw : nth i (vneg w) 0 = - dot (row (pA p) i) d).
      { rewrite nth_vneg. unfold w, allA. rewrite mv_vstack, app_nth1 by (len). rewrite nth_mv. reflexivity. }
      rewrite Hw in Hterm. rewrite dot_vneg_r in Hterm.
      assert (Hneg : dot (row (pA p) i) d <= 0). { pose proof (nonneg_nth _ i Nw). lra. }
      specialize (Hy i ltac:(lia)). pose proof (Rle_abs (- dot y w)) as Q. rewrite Rabs_Ropp in Q.
      rewrite Rabs_left1 by auto. nra.
Qed.

(*@ Theorem C09_polytope_is_bounded : A polyhedron contained in a ball is always reported bounded. *)
Lemma polytope_is_bounded np p m me n : exact_np np -> wf p m me n -> p_empty p = None -> p_bounded p = None ->
  bounded_set (in_poly p) -> exists p', get_bounded np p = (Ok true, p').
Proof.
  intros Hnp W He Hb B. destruct (get_bounded_ok np p m me n Hnp W He Hb) as ([|] & p' & E & HF & _); [eauto|].
  exfalso. apply (proj2 (HF eq_refl)). exact B.
Qed.

Lemma lp_small_residual_eq np tol f A b C d AC bd N m n x y sl :
  nnls_ok np -> pinv_ok np -> shape A m n -> stack_eq A b C d = (AC, bd) -> shape AC N n -> length bd = N -> length f = n ->
  length x = n -> length y = N -> length sl = N -> nonneg y -> nonneg sl ->
  norm (vsub (0 :: bd ++ vneg f) ((dot bd y + dot f x) :: vadd sl (mv AC x) ++ mv (tr AC) y)) < tol ->
  exists s x' mn, linear_program np tol f A b (Some C) (Some d) = Ok s /\ s_argmin s = Some x' /\ s_min s = Some mn.
Proof.
  intros NN PI HA0 ES HA Hb Hf Lx Ly Ls Ny Ns H.
  rewrite (linear_program_core np tol f A b _ _ C d m n HA0) by (left; auto).
  unfold lp_core. rewrite ES.
  destruct (pnnls np (A_pnnls AC bd) (B_pnnls f AC) (c_pnnls f bd)) as ((ys, x'), r) eqn:E.
  assert (LA : length (rows AC) = N) by apply HA.
  assert (LT : length (rows (tr AC)) = n) by (apply shape_tr in HA; apply HA).
  assert (G : r <= norm (vsub (0 :: bd ++ vneg f) ((dot bd y + dot f x) :: vadd sl (mv AC x) ++ mv (tr AC) y))).
  { assert (Lc : length (c_pnnls f bd) = (1 + (N + n))%nat) by (unfold c_pnnls; len).
    assert (Lv : length (y ++ sl) = (N + N)%nat) by len.
    eapply Rle_trans.
    - exact (pnnls_min np _ _ _ _ _ _ _ _ _ (y ++ sl) x NN PI (shape_A_pnnls AC bd N n HA Hb) (shape_B_pnnls f AC N n HA Hf)
               Lc E Lv (proj2 (nonneg_app y sl) (conj Ny Ns)) Lx).
    - right. unfold c_pnnls. rewrite (mv_A_pnnls AC bd N n) by auto. rewrite (mv_B_pnnls f AC N n) by auto.
      f_equal. f_equal. cbn [app]. unfold vadd at 1. simpl. f_equal.
      fold (vadd (sl ++ mv (tr AC) y) (mv AC x ++ zeros n)).
      rewrite vadd_app by len. f_equal. apply vadd_zeros_r. len. }
  destruct (Rltb r tol) eqn:Er.
  - eexists _, _, _. split; [reflexivity|]. split; reflexivity.
  - exfalso. apply Rltb_false in Er. lra.
Qed.

(** {10^-9 x <= 1}, a half line *)
Definition p_flat : poly := Poly (Mat 1 [[/ 1000000000]]) [1] (Mat 1 []) [] None None None None None.
Lemma wf_p_flat : wf p_flat 1 0 1. Proof. unfold wf; simpl; repeat split; repeat constructor. Qed.
Lemma flat_unbounded : ~ bounded_set (in_poly p_flat).
Proof.
  intros (M & HM). pose proof (Rmax_l 0 M) as M0. pose proof (Rmax_r 0 M) as M1. set (k := Rmax 0 M) in *.
  assert (H : in_poly p_flat [- (k + 1)]).
  { split; [reflexivity|]. split; [apply Forall2_cons; [cbn; lra|constructor]|constructor]. }
  specialize (HM _ H). pose proof (nth_le_norm [- (k + 1)] 0) as Q. cbn in Q. rewrite Rabs_Ropp, Rabs_right in Q by lra. lra.
Qed.
Lemma flat_lp np : exact_np np -> exists s x mn,
  lp np (ones 1) (mneg (eye 1)) (vneg (ones 1)) (Some (tr (allA p_flat))) (Some (zeros 1)) = Ok s /\ s_argmin s = Some x /\ s_min s = Some mn.
Proof.
  intros (NN & PI & _). unfold lp.
  eapply (lp_small_residual_eq np tol7 (ones 1) (mneg (eye 1)) (vneg (ones 1)) _ _ _ _ 3 1 1 [1] [1; 0; 0] [0; 0; 0]); auto;
    try reflexivity; try (repeat split; repeat constructor; lra).
  unfold norm. rewrite <- (sqrt_Rsqr tol7) by (unfold tol7; lra).
  apply sqrt_lt_1; try apply dot_self_nonneg; [unfold Rsqr, tol7; lra|]. unfold tol7, Rsqr. cbn. lra.
Qed.

Lemma get_bounded_lp np p s : p_bounded p = None -> get_empty np p = (Ok false, set_empty p false) ->
  (0 <? ncols (nullspace_basis np (allA p)))%nat = false ->
  lp np (ones (nrows (allA p))) (mneg (eye (nrows (allA p)))) (vneg (ones (nrows (allA p)))) (Some (tr (allA p))) (Some (zeros (ncols (allA p)))) = Ok s ->
  let e := match s_min s with None => false | Some _ => true end in
  get_bounded np p = (Ok e, set_bounded (set_empty p false) e).
Proof.
  intros Hb He Hk Hl. unfold get_bounded, pbind, pget. rewrite Hb, He. cbn [pA pC set_empty]. fold (allA p). rewrite Hk. cbn zeta.
  unfold plift. rewrite Hl. reflexivity.
Qed.

Lemma get_bounded_empty np p p1 : p_bounded p = None -> get_empty np p = (Ok true, p1) -> get_bounded np p = (Ok true, p1).
Proof. intros Hb He. unfold get_bounded, pbind, pget. rewrite Hb, He. reflexivity. Qed.
Lemma get_bounded_kernel np p : p_bounded p = None -> get_empty np p = (Ok false, set_empty p false) ->
  (0 <? ncols (nullspace_basis np (allA p)))%nat = true -> get_bounded np p = (Ok false, set_empty p false).
Proof. intros Hb He Hk. unfold get_bounded, pbind, pget. rewrite Hb, He. cbn [pA pC set_empty]. fold (allA p). rewrite Hk. reflexivity. Qed.

(*@ Theorem C09_bounded_refuted : The half line {10^-9 x <= 1} is reported bounded, with whatever exact library. *)
Lemma bounded_refuted : exists p, wf p 1 0 1 /\ ~ bounded_set (in_poly p) /\
  forall np, exact_np np -> exists p', get_bounded np p = (Ok true, p').
Proof.
  exists p_flat. split; [apply wf_p_flat|]. split; [apply flat_unbounded|]. intros np Hnp.
  pose proof (proj2 (proj2 (proj2 (proj2 (proj2 Hnp))))) as Hs.
  destruct (get_empty_ok np p_flat 1 0 1 Hnp wf_p_flat eq_refl) as ([|] & Ee & He).
  { eexists. apply (get_bounded_empty np p_flat _ eq_refl Ee). }
  assert (SA : shape (allA p_flat) 1 1) by (repeat split; repeat constructor).
  pose proof (kernel_basis np (allA p_flat) _ 1 Hs SA) as KB.
  destruct (0 <? ncols (nullspace_basis np (allA p_flat)))%nat eqn:Ek.
  { exfalso. apply Nat.ltb_lt in Ek. apply KB in Ek. destruct Ek as (d & Ld & Nd & Kd). apply Nd.
    destruct d as [|a [|]]; try discriminate Ld. cbn in Kd. injection Kd as Kd. cbn. f_equal. lra. }
  destruct (flat_lp np Hnp) as (s & x & mn & E & _ & Em).
  eexists. rewrite (get_bounded_lp np p_flat s eq_refl Ee Ek E), Em. reflexivity.
Qed.

(*@ Example C09_example : The segment {x <= 1, -x <= 1} is contained in a ball (and reported bounded); the half line {x >= 0} is not, and is reported unbounded. *)
Lemma bounded_example :
  let p := Poly (Mat 1 [[1]; [-1]]) [1; 1] (Mat 1 []) [] None None None None None in
  let q := Poly (Mat 1 [[-1]]) [0] (Mat 1 []) [] None None None None None in
  bounded_set (in_poly p) /\ (exists p', get_bounded np0 p = (Ok true, p')) /\
  ~ bounded_set (in_poly q) /\ (exists q', get_bounded np0 q = (Ok false, q')).
Proof.
  intros p q.
  assert (Wp : wf p 2 0 1) by (unfold wf; simpl; repeat split; repeat constructor).
  assert (Wq : wf q 1 0 1) by (unfold wf; simpl; repeat split; repeat constructor).
  assert (B : bounded_set (in_poly p)).
  { exists 1. intros x (Lx & H & _). destruct x as [|a [|]]; try discriminate Lx. unfold ineq_holds in H. simpl in H. inv2 H.
    unfold norm. rewrite <- sqrt_1. apply sqrt_le_1_alt. cbn. nra. }
  split; [exact B|]. split; [now apply (polytope_is_bounded np0 p 2 0 1 np0_exact Wp)|].
  assert (Hq : forall a, 0 <= a -> in_poly q [a]).
  { intros a Ha. split; [reflexivity|]. split; [apply Forall2_cons; [cbn; lra|constructor]|constructor]. }
  split.
  - intros (M & HM). pose proof (Rmax_l 0 M) as M0. pose proof (Rmax_r 0 M) as M1. set (k := Rmax 0 M) in *.
    specialize (HM _ (Hq (k + 1) ltac:(lra))). pose proof (nth_le_norm [k + 1] 0) as Q. cbn in Q. rewrite Rabs_right in Q by lra. lra.
  - destruct (get_bounded_ok np0 q 1 0 1 np0_exact Wq eq_refl eq_refl) as ([|] & q' & E & _ & HT); [|eauto]. exfalso.
    destruct (HT eq_refl) as [H|(_ & _ & H)].
    + apply (H [0] (Hq 0 (Rle_refl 0))). unfold near, tol7. cbn. lra.
    + assert (R1 : recession q [1]). { split; [reflexivity|]. split; repeat constructor. cbn. lra. }
      specialize (H [1] R1 0%nat ltac:(lia)). cbn in H. unfold norm1, vsum, tol7 in H. cbn in H.
      replace (-1 * 1 + 0) with (-1) in H by ring. rewrite (Rabs_left (-1)) in H by lra. rewrite Rabs_R1 in H. lra.
Qed.
