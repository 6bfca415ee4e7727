(** * DareThms: the Riccati equation of a controllable system has a positive semidefinite solution (C32), proofs *)
From Coq Require Import ZArith Classical FunctionalExtensionality.
From Verif Require Import Arr ArrFacts Spec SpecMpc SpecProg Numpy Pnnls PnnlsFacts QpFacts GeomUtils Polyhedron PolyThms Oracle SolverThms NullFacts PolySolveThms PolyMore SpecDyn Dynamics DynThms CondenseThms LqrThms McaisThms.

Definition quadf (M : mat) (x : vec) : R := dot x (mv M x).
Lemma sym_intro X n : shape X n n -> (forall x y, length x = n -> length y = n -> dot x (mv X y) = dot (mv X x) y) -> tr X = X.
Proof.
  intros SX H. apply (mat_ext _ _ n n); [auto with shp|exact SX|]. intros y Ly. assert (L1 : length (rows X) = n) by apply SX. assert (L2 : length (rows (tr X)) = n) by (apply (shape_tr X n n SX)).
  apply dot_eq_ext; [len|]. intros w Hw. rewrite mv_length, L2 in Hw. rewrite (dot_mv_tr X n n) by auto. rewrite (dot_comm y), (dot_comm (mv X y)). symmetry. apply H; auto.
Qed.
Lemma polar M n x y : shape M n n -> tr M = M -> length x = n -> length y = n -> dot x (mv M y) = / 2 * (quadf M (vadd x y) - quadf M x - quadf M y).
Proof.
  intros SM TM Lx Ly. assert (L1 : length (rows M) = n) by apply SM. unfold quadf. rewrite (mv_vadd M n n) by auto. rewrite dot_vadd_l, !dot_vadd_r by len. rewrite (sym_dot M n y x) by auto. lra.
Qed.
Lemma sym_form_ext M N n : shape M n n -> shape N n n -> tr M = M -> tr N = N -> (forall x, length x = n -> quadf M x = quadf N x) -> M = N.
Proof.
  intros SM SN TM TN H. apply (mat_ext _ _ n n); auto. intros y Ly. assert (L1 : length (rows M) = n) by apply SM. assert (L2 : length (rows N) = n) by apply SN.
  apply dot_eq_ext; [len|]. intros w Hw. rewrite mv_length, L1 in Hw. rewrite !(dot_comm _ w). rewrite (polar M n), (polar N n) by auto. rewrite !H by len. reflexivity.
Qed.
Lemma quadf_nonneg M n x : psd M n -> length x = n -> 0 <= quadf M x.
Proof. intros H L. apply (proj2 H x L). Qed.

Section Riccati.
Variable np : numpy.
Hypothesis Hnp : exact_np np.
Variables (A B Q Rm : mat) (nx nu : nat).
Hypothesis HA : shape A nx nx.
Hypothesis HB : shape B nx nu.
Hypothesis HQ : shape Q nx nx.
Hypothesis HR : shape Rm nu nu.
Hypothesis PQ : psd Q nx.
Hypothesis PR : Spec.pd Rm nu.

(** x'Qx + u'Ru + y'Py with y = Ax + Bu *)
Definition one_step (P : mat) (x u : vec) : R := quadf Q x + quadf Rm u + quadf P (vadd (mv A x) (mv B u)).
Definition Mof (P : mat) : mat := madd (mm (mm (tr B) P) B) Rm.
Definition Miof (P : mat) : mat := match np_inv np (Mof P) with Ok X => X | Err _ => zmat nu nu end.
Definition Xof (P : mat) : mat := msub (mm (mm (tr A) P) A) (mm (mm (mm (mm (tr A) P) B) (Miof P)) (mm (mm (tr B) P) A)).
(** the right-hand side of the Riccati equation *)
Definition ric (P : mat) : mat := madd (Xof P) Q.
Definition Kof (P : mat) : mat := mm (mm (mm (mneg (Miof P)) (tr B)) P) A.

Lemma Mof_shape P : shape P nx nx -> shape (Mof P) nu nu.
Proof. intros SP. unfold Mof. apply shape_madd; [eauto with shp|exact HR]. Qed.
Lemma Miof_shape P : shape P nx nx -> shape (Miof P) nu nu.
Proof.
  intros SP. unfold Miof. destruct Hnp as (_ & _ & _ & Hi & _). destruct (Hi (Mof P) nu (Mof_shape P SP)) as [(_ & X & -> & SX & _)|(_ & ->)]; [exact SX|apply shape_zmat].
Qed.
Lemma Miof_unique P Mi : shape P nx nx -> shape Mi nu nu -> mm Mi (Mof P) = eye nu -> Mi = Miof P /\ mm (Mof P) (Miof P) = eye nu /\ mm (Miof P) (Mof P) = eye nu.
Proof.
  intros SP SMi E. pose proof (Mof_shape P SP) as SM. unfold Miof. destruct Hnp as (_ & _ & _ & Hi & _). destruct (Hi (Mof P) nu SM) as [(_ & X & -> & SX & E1 & E2)|((x & Lx & Nx & Ex) & _)].
  - split; [|auto]. rewrite <- (mm_eye_r Mi nu nu SMi), <- E1, (mm_assoc Mi (Mof P) X nu nu nu nu) by auto. rewrite E. apply (mm_eye_l X nu nu SX).
  - exfalso. apply Nx. rewrite <- (mv_eye nu x Lx), <- E, (mv_mm Mi (Mof P) nu nu) by auto. rewrite Ex, mv_zeros. f_equal. apply SMi.
Qed.
Lemma Xof_shape P : shape P nx nx -> shape (Xof P) nx nx.
Proof. intros SP. pose proof (Miof_shape P SP) as SMi. unfold Xof. assert (ST : shape (tr A) nx nx) by auto with shp. assert (STB : shape (tr B) nu nx) by auto with shp.
  assert (S1 : shape (mm (tr A) P) nx nx) by eauto with shp. assert (S2 : shape (mm (mm (tr A) P) B) nx nu) by eauto with shp. assert (S3 : shape (mm (mm (mm (tr A) P) B) (Miof P)) nx nu) by eauto with shp. assert (S4 : shape (mm (tr B) P) nu nx) by eauto with shp. assert (S5 : shape (mm (mm (tr B) P) A) nu nx) by eauto with shp.
  apply shape_msub; eauto with shp. Qed.
Lemma ric_shape P : shape P nx nx -> shape (ric P) nx nx.
Proof. intros SP. unfold ric. apply shape_madd; [apply Xof_shape; exact SP|exact HQ]. Qed.

(** P solves a Riccati equation with a suitable Q *)
Lemma fake_riccati P : shape P nx nx -> riccati A B (msub P (Xof P)) Rm P nx nu.
Proof.
  intros SP. pose proof (Xof_shape P SP) as SX. split; [exact SP|]. intros Mi SMi E. destruct (Miof_unique P Mi SP SMi E) as (-> & _). fold (Xof P).
  apply (mat_ext _ _ nx nx); [auto with shp|exact SP|]. intros x Lx. assert (L1 : length (rows P) = nx) by apply SP. assert (L2 : length (rows (Xof P)) = nx) by apply SX.
  rewrite (mv_madd _ _ nx nx), (mv_msub _ _ nx nx) by auto with shp. apply vec_ext; [len|]. intros i Hi. rewrite nth_vadd, nth_vsub by len. ring.
Qed.
Lemma gain_facts P : shape P nx nx -> psd P nx -> shape (Kof P) nu nx /\ Spec.pd (Mof P) nu /\ mm (Mof P) (Miof P) = eye nu /\ mm (Miof P) (Mof P) = eye nu /\
  forall x u, length x = nx -> length u = nu -> one_step P x u = quadf (ric P) x + quadf (Mof P) (vsub u (mv (Kof P) x)).
Proof.
  intros SP PP. pose proof (Xof_shape P SP) as SX. pose proof (fake_riccati P SP) as FR. pose proof (Miof_shape P SP) as SMi.
  destruct (M_inv np Hnp A B _ Rm P nx nu HB HR PR FR PP) as (Mi & _ & SM' & M1 & M2). destruct (Miof_unique P Mi SP SM' M2) as (_ & E1 & E2).
  assert (SF : shape (msub P (Xof P)) nx nx) by auto with shp.
  split; [apply (K_shape A B _ Rm P nx nu HA HB FR (Miof P) SMi)|]. split; [apply (M_pd A B _ Rm P nx nu HB HR PR FR PP)|]. split; [exact E1|]. split; [exact E2|].
  intros x u Lx Lu. pose proof (dare_identity A B _ Rm P nx nu HA HB SF HR PR FR PP (Miof P) SMi E1 E2 x u Lx Lu) as H.
  assert (L1 : length (rows P) = nx) by apply SP. assert (L2 : length (rows (Xof P)) = nx) by apply SX. assert (L3 : length (rows Q) = nx) by apply HQ.
  rewrite (mv_msub P (Xof P) nx nx) in H by auto. rewrite dot_vsub_r in H by len.
  unfold one_step, quadf, ric. rewrite (mv_madd (Xof P) Q nx nx) by auto. rewrite dot_vadd_r by len. fold (Kof P) in H. fold (Mof P) in H. lra.
Qed.
Lemma Xof_form P x y : shape P nx nx -> tr P = P -> length x = nx -> length y = nx ->
  dot x (mv (Xof P) y) = dot (mv A x) (mv P (mv A y)) - dot (mv (tr B) (mv P (mv A x))) (mv (Miof P) (mv (tr B) (mv P (mv A y)))).
Proof.
  intros SP TP Lx Ly. pose proof (Miof_shape P SP) as SMi. assert (LA : length (rows A) = nx) by apply HA. assert (LB : length (rows B) = nx) by apply HB. assert (LP : length (rows P) = nx) by apply SP. assert (LMi : length (rows (Miof P)) = nu) by apply SMi.
  assert (STB : shape (tr B) nu nx) by auto with shp. assert (LTB : length (rows (tr B)) = nu) by apply STB. assert (STA : shape (tr A) nx nx) by auto with shp. assert (LTA : length (rows (tr A)) = nx) by apply STA.
  assert (S1 : shape (mm (tr A) P) nx nx) by eauto with shp. assert (S2 : shape (mm (mm (tr A) P) A) nx nx) by eauto with shp.
  assert (S3 : shape (mm (tr B) P) nu nx) by eauto with shp. assert (S4 : shape (mm (mm (tr B) P) A) nu nx) by eauto with shp.
  assert (S5 : shape (mm (mm (tr A) P) B) nx nu) by eauto with shp. assert (S6 : shape (mm (mm (mm (tr A) P) B) (Miof P)) nx nu) by eauto with shp.
  assert (S7 : shape (mm (mm (mm (mm (tr A) P) B) (Miof P)) (mm (mm (tr B) P) A)) nx nx) by eauto with shp.
  unfold Xof. rewrite (mv_msub _ _ nx nx) by auto.
  rewrite !(mv_mm _ A nx nx) by auto. rewrite (mv_mm _ (mm (mm (tr B) P) A) nu nx) by auto. rewrite !(mv_mm _ A nx nx) by auto.
  rewrite !(mv_mm _ P nx nx) by auto. rewrite (mv_mm _ (Miof P) nu nu) by auto. rewrite (mv_mm _ B nx nu) by auto. rewrite (mv_mm _ P nx nx) by auto.
  rewrite dot_vsub_r by len. rewrite !(dot_mv_tr_r A nx nx) by (auto; len). f_equal.
  set (w := mv (Miof P) (mv (tr B) (mv P (mv A y)))). assert (Lw : length w = nu) by (unfold w; len).
  rewrite (sym_dot P nx (mv A x) (mv B w)) by (auto; len). rewrite (dot_comm (mv (tr B) _) w). rewrite (dot_mv_tr_r B nx nu) by (auto; len). reflexivity.
Qed.
Lemma ric_psd P : shape P nx nx -> psd P nx -> psd (ric P) nx.
Proof.
  intros SP PP. destruct (gain_facts P SP PP) as (SK & PM & E1 & E2 & HI). pose proof (Miof_shape P SP) as SMi. pose proof (Mof_shape P SP) as SM.
  assert (LMi : length (rows (Miof P)) = nu) by apply SMi. assert (LA : length (rows A) = nx) by apply HA. assert (LP : length (rows P) = nx) by apply SP.
  assert (LTB : length (rows (tr B)) = nu) by (apply (shape_tr B nx nu HB)). pose proof (Xof_shape P SP) as SX. assert (LX : length (rows (Xof P)) = nx) by apply SX. assert (LQ : length (rows Q) = nx) by apply HQ. split.
  - assert (SMY : forall x y, length x = nu -> length y = nu -> dot x (mv (Miof P) y) = dot y (mv (Miof P) x)).
    { intros x y Lx Ly. assert (EV : forall v, length v = nu -> mv (Mof P) (mv (Miof P) v) = v) by (intros v Lv; rewrite <- (mv_mm (Mof P) (Miof P) nu nu) by auto; rewrite E1; apply mv_eye, Lv).
      rewrite <- (EV x Lx) at 1. rewrite dot_comm. rewrite (sym_dot (Mof P) nu) by (auto; try apply PM; len). rewrite (EV y Ly), dot_comm. reflexivity. }
    unfold ric. apply (sym_intro _ nx); [auto with shp|]. intros x y Lx Ly. rewrite !(mv_madd _ _ nx nx) by auto. rewrite dot_vadd_r, dot_vadd_l by len. f_equal.
    + rewrite (dot_comm (mv (Xof P) x)). rewrite !Xof_form by (auto; apply PP). rewrite (SMY (mv (tr B) (mv P (mv A x)))) by len. rewrite (sym_dot P nx (mv A x) (mv A y)) by (auto; try apply PP; len). reflexivity.
    + rewrite (dot_comm (mv Q x)). apply (sym_dot Q nx); auto. apply PQ.
  - intros x Lx. change (0 <= quadf (ric P) x). assert (LK : length (mv (Kof P) x) = nu) by (rewrite mv_length; apply SK). pose proof (HI x (mv (Kof P) x) Lx LK) as H. rewrite vsub_self in H. unfold quadf at 2 in H. rewrite dot_zeros_l in H.
    assert (LB : length (rows B) = nx) by apply HB. assert (LR : length (rows Rm) = nu) by apply HR.
    unfold one_step in H. pose proof (quadf_nonneg Q nx x PQ Lx). pose proof (quadf_nonneg Rm nu (mv (Kof P) x) (pd_psd _ _ PR) LK). pose proof (quadf_nonneg P nx (vadd (mv A x) (mv B (mv (Kof P) x))) PP ltac:(len)). lra.
Qed.
(** the minimum over u *)
Lemma ric_min P x : shape P nx nx -> psd P nx -> length x = nx -> length (mv (Kof P) x) = nu /\ one_step P x (mv (Kof P) x) = quadf (ric P) x /\ forall u, length u = nu -> quadf (ric P) x <= one_step P x u.
Proof.
  intros SP PP Lx. destruct (gain_facts P SP PP) as (SK & PM & _ & _ & HI). assert (LK : length (mv (Kof P) x) = nu) by (rewrite mv_length; apply SK). split; [exact LK|]. split.
  - rewrite (HI x _ Lx LK), vsub_self. unfold quadf at 2. rewrite dot_zeros_l. ring.
  - intros u Lu. rewrite (HI x u Lx Lu). pose proof (quadf_nonneg (Mof P) nu (vsub u (mv (Kof P) x)) (pd_psd _ _ PM) ltac:(len)). lra.
Qed.

(** value iteration *)
Fixpoint vi (k : nat) : mat := match k with O => zmat nx nx | S k' => ric (vi k') end.
Lemma vi_psd k : shape (vi k) nx nx /\ psd (vi k) nx.
Proof.
  induction k as [|k (I1 & I2)]; [|split; [apply ric_shape, I1|apply ric_psd; assumption]].
  assert (SZ : shape (zmat nx nx) nx nx) by apply shape_zmat. cbn [vi]. split; [exact SZ|]. split.
  - apply (sym_intro _ nx SZ). intros x y Lx Ly. rewrite !mv_zmat. autorewrite with dotx. reflexivity.
  - intros x Lx. rewrite mv_zmat. autorewrite with dotx. lra.
Qed.
Lemma vi_mono k x : length x = nx -> quadf (vi k) x <= quadf (vi (S k)) x.
Proof.
  assert (LB : length (rows B) = nx) by apply HB. assert (LA : length (rows A) = nx) by apply HA.
  revert x. induction k as [|k IH]; intros x Lx.
  - change (quadf (vi 0) x) with (dot x (mv (zmat nx nx) x)). rewrite mv_zmat. autorewrite with dotx. apply (quadf_nonneg _ nx); [apply vi_psd|exact Lx].
  - destruct (vi_psd k) as (S1 & P1). destruct (vi_psd (S k)) as (S2 & P2). change (vi (S (S k))) with (ric (vi (S k))). change (vi (S k)) with (ric (vi k)) at 1.
    destruct (ric_min (vi (S k)) x S2 P2 Lx) as (LK & E & _). rewrite <- E. destruct (ric_min (vi k) x S1 P1 Lx) as (_ & _ & Hm). eapply Rle_trans; [apply (Hm (mv (Kof (vi (S k))) x) LK)|].
    unfold one_step. pose proof (IH (vadd (mv A x) (mv B (mv (Kof (vi (S k))) x))) ltac:(len)). lra.
Qed.
Lemma state_shift x u t : state A B x u (S t) = state A B (vadd (mv A x) (mv B (u 0%nat))) (fun s => u (S s)) t.
Proof. induction t as [|t IH]; [reflexivity|]. cbn [state] in *. rewrite IH. reflexivity. Qed.
Lemma cost_shift x u k : lq_cost A B Q Rm x u (S k) = / 2 * (quadf Q x + quadf Rm (u 0%nat)) + lq_cost A B Q Rm (vadd (mv A x) (mv B (u 0%nat))) (fun s => u (S s)) k.
Proof.
  induction k as [|k IH]; [cbn; unfold quadf; lra|]. change (lq_cost A B Q Rm x u (S (S k))) with (lq_cost A B Q Rm x u (S k) + / 2 * (dot (state A B x u (S k)) (mv Q (state A B x u (S k))) + dot (u (S k)) (mv Rm (u (S k))))). rewrite IH, state_shift. cbn [lq_cost]. lra.
Qed.
Lemma vi_cost k : forall x u, length x = nx -> (forall t, length (u t) = nu) -> / 2 * quadf (vi k) x <= lq_cost A B Q Rm x u k.
Proof.
  assert (LB : length (rows B) = nx) by apply HB. assert (LA : length (rows A) = nx) by apply HA.
  induction k as [|k IH]; intros x u Lx Lu.
  - change (quadf (vi 0) x) with (dot x (mv (zmat nx nx) x)). rewrite mv_zmat. autorewrite with dotx. cbn. lra.
  - destruct (vi_psd k) as (S1 & P1). rewrite cost_shift. pose proof (IH (vadd (mv A x) (mv B (u 0%nat))) (fun s => u (S s)) ltac:(len) (fun t => Lu (S t))).
    destruct (ric_min (vi k) x S1 P1 Lx) as (_ & _ & Hm). specialize (Hm (u 0%nat) (Lu _)). unfold one_step in Hm. cbn [vi]. lra.
Qed.
Lemma ric_fixed P : psd P nx -> (riccati A B Q Rm P nx nu <-> shape P nx nx /\ ric P = P).
Proof.
  intros PP. split.
  - intros (SP & H). split; [exact SP|]. destruct (gain_facts P SP PP) as (_ & _ & _ & E2 & _). apply (H (Miof P) (Miof_shape P SP) E2).
  - intros (SP & E). split; [exact SP|]. intros Mi SMi HMi. destruct (Miof_unique P Mi SP SMi HMi) as (-> & _). exact E.
Qed.
Lemma iter_r (X : Type) (f : X -> X) n x : Nat.iter (S n) f x = Nat.iter n f (f x).
Proof. induction n as [|n IH]; [reflexivity|]. change (Nat.iter (S (S n)) f x) with (f (Nat.iter (S n) f x)). rewrite IH. reflexivity. Qed.
(** any positive semidefinite solution bounds the cost of its own feedback *)
Lemma fixed_feedback P : shape P nx nx -> psd P nx -> ric P = P -> forall x, length x = nx -> exists u, (forall t, length (u t) = nu) /\ forall N, lq_cost A B Q Rm x u N <= / 2 * quadf P x.
Proof.
  assert (LB : length (rows B) = nx) by apply HB. assert (LA : length (rows A) = nx) by apply HA.
  intros SP PP EP x Lx. destruct (gain_facts P SP PP) as (SK & _). assert (LK : length (rows (Kof P)) = nu) by apply SK.
  set (step := fun y => vadd (mv A y) (mv B (mv (Kof P) y))). set (u := fun y t => mv (Kof P) (Nat.iter t step y)).
  exists (u x). split; [intros t; unfold u; len|]. intros N. revert x Lx. induction N as [|N IH]; intros x Lx; [cbn; pose proof (quadf_nonneg P nx x PP Lx); lra|].
  rewrite cost_shift. change (u x 0%nat) with (mv (Kof P) x). fold (step x).
  assert (EU : (fun s => u x (S s)) = u (step x)). { apply functional_extensionality. intros s. unfold u. rewrite iter_r. reflexivity. }
  rewrite EU. specialize (IH (step x) ltac:(unfold step; len)). destruct (ric_min P x SP PP Lx) as (_ & E & _). unfold one_step in E. fold (step x) in E. rewrite EP in E. lra.
Qed.
Hypothesis ST : steerable A B nx nu nx.
Lemma vi_bounded x : length x = nx -> exists M, forall k, quadf (vi k) x <= M.
Proof.
  intros Lx. destruct (ST x (zeros nx) Lx (zeros_length _)) as (u & Lu & Eu). set (v := fun t => if lt_dec t nx then u t else zeros nu).
  assert (Lv : forall t, length (v t) = nu) by (intros t; unfold v; destruct (lt_dec t nx); [apply Lu|apply zeros_length]).
  assert (EQ : forall t, (t <= nx)%nat -> state A B x v t = state A B x u t). { induction t as [|t IH]; intros Ht; [reflexivity|]. cbn [state]. rewrite IH by lia. unfold v. destruct (lt_dec t nx); [reflexivity|lia]. }
  assert (Z : forall d, state A B x v (nx + d) = zeros nx).
  { induction d as [|d IH]; [rewrite Nat.add_0_r, EQ by lia; exact Eu|]. rewrite Nat.add_succ_r. cbn [state]. rewrite IH. unfold v. destruct (lt_dec (nx + d) nx); [lia|]. rewrite !mv_zeros. replace (length (rows A)) with nx by (symmetry; apply HA). replace (length (rows B)) with nx by (symmetry; apply HB). apply vec_ext; [len|]. intros i Hi. rewrite nth_vadd by len. rewrite !nth_zeros. lra. }
  assert (POS : forall k, lq_cost A B Q Rm x v k <= lq_cost A B Q Rm x v (S k)).
  { intros k. cbn [lq_cost]. pose proof (proj2 PQ (state A B x v k) (state_length A B nx nu x v k HA HB Lx)). pose proof (proj2 (pd_psd _ _ PR) (v k) (Lv k)). lra. }
  assert (UP : forall d, lq_cost A B Q Rm x v (nx + d) = lq_cost A B Q Rm x v nx).
  { induction d as [|d IH]; [rewrite Nat.add_0_r; reflexivity|]. rewrite Nat.add_succ_r. cbn [lq_cost]. rewrite IH, Z. unfold v. destruct (lt_dec (nx + d) nx); [lia|]. autorewrite with dotx. lra. }
  assert (MON : forall d k, lq_cost A B Q Rm x v k <= lq_cost A B Q Rm x v (k + d)). { induction d as [|d IH]; intros k; [rewrite Nat.add_0_r; lra|]. rewrite Nat.add_succ_r. eapply Rle_trans; [apply IH|apply POS]. }
  exists (2 * lq_cost A B Q Rm x v nx). intros k. pose proof (vi_cost k x v Lx Lv). pose proof (MON nx k) as G. rewrite Nat.add_comm, UP in G. lra.
Qed.
Definition vi_limit x (Lx : length x = nx) : {l | Un_cv (fun k => quadf (vi k) x) l}.
Proof.
  apply growing_cv.
  - intros k. apply vi_mono, Lx.
  - destruct (vi_bounded x Lx) as (M & HM). exists M. intros y (k & ->). apply HM.
Defined.
Lemma Un_cv_ext' (f g : nat -> R) l : (forall k, f k = g k) -> Un_cv f l -> Un_cv g l.
Proof. intros E H e He. destruct (H e He) as (K & HK). exists K. intros k Hk. rewrite <- E. apply HK, Hk. Qed.
Lemma Un_cv_const c : Un_cv (fun _ => c) c.
Proof. intros e He. exists 0%nat. intros k _. unfold R_dist. replace (c - c) with 0 by ring. rewrite Rabs_R0. exact He. Qed.
Lemma dot_cv n : forall a (f : nat -> vec) l, length a = n -> (forall k, length (f k) = n) -> length l = n -> (forall i, (i < n)%nat -> Un_cv (fun k => nth i (f k) 0) (nth i l 0)) -> Un_cv (fun k => dot a (f k)) (dot a l).
Proof.
  induction n as [|n IH]; intros a f l La Lf Ll H.
  - destruct a; [|discriminate]. cbn. apply Un_cv_const.
  - destruct a as [|x a]; [discriminate|]. destruct l as [|y l]; [discriminate|]. cbn in La, Ll.
    apply (Un_cv_ext' (fun k => x * nth 0 (f k) 0 + dot a (List.tl (f k)))).
    + intros k. specialize (Lf k). destruct (f k); [discriminate|]. reflexivity.
    + cbn [dot map2]. change (dot (x :: a) (y :: l)) with (x * y + dot a l). apply CV_plus.
      * apply (CV_mult (fun _ => x) (fun k => nth 0 (f k) 0)); [apply Un_cv_const|apply (H 0%nat); lia].
      * apply (IH a (fun k => List.tl (f k)) l); [lia| |lia|].
        -- intros k. specialize (Lf k). destruct (f k); [discriminate|]. cbn in *. lia.
        -- intros i Hi. apply (Un_cv_ext' (fun k => nth (S i) (f k) 0)); [|apply (H (S i)); lia]. intros k. destruct (f k); [destruct i; reflexivity|reflexivity].
Qed.
Lemma entry_units M i j : shape M nx nx -> (i < nx)%nat -> (j < nx)%nat -> nth j (row M i) 0 = dot (unit nx i) (mv M (unit nx j)).
Proof. intros SM Hi Hj. assert (L : length (rows M) = nx) by apply SM. rewrite dot_unit by (first [exact Hi|len]). rewrite nth_mv by lia. rewrite dot_unit_r; [reflexivity|exact Hj|apply (shape_row M nx nx i SM Hi)]. Qed.
Definition uij i j : vec := vadd (unit nx i) (unit nx j).
Lemma uij_length i j : length (uij i j) = nx. Proof. unfold uij. len. Qed.
Definition ui_length i : length (unit nx i) = nx := unit_length nx i.
Definition lim_entry i j : R := / 2 * (proj1_sig (vi_limit (uij i j) (uij_length i j)) - proj1_sig (vi_limit (unit nx i) (ui_length i)) - proj1_sig (vi_limit (unit nx j) (ui_length j))).
Definition vlim : mat := Mat nx (map (fun i => map (lim_entry i) (seq 0 nx)) (seq 0 nx)).
Lemma vlim_shape : shape vlim nx nx.
Proof. split; [cbn; rewrite map_length, seq_length; reflexivity|]. split; [reflexivity|]. cbn. apply Forall_forall. intros r Hr. apply in_map_iff in Hr. destruct Hr as (i & <- & _). rewrite map_length, seq_length. reflexivity. Qed.
Lemma vlim_row i : (i < nx)%nat -> row vlim i = map (lim_entry i) (seq 0 nx).
Proof. intros Hi. unfold row, vlim. cbn. rewrite (nth_indep _ _ (map (lim_entry 0) (seq 0 nx))) by (rewrite map_length, seq_length; exact Hi). rewrite (map_nth (fun i => map (lim_entry i) (seq 0 nx))). rewrite seq_nth by exact Hi. reflexivity. Qed.
Lemma vlim_entry i j : (i < nx)%nat -> (j < nx)%nat -> nth j (row vlim i) 0 = lim_entry i j.
Proof. intros Hi Hj. rewrite vlim_row by exact Hi. rewrite (nth_indep _ _ (lim_entry i 0)) by (rewrite map_length, seq_length; exact Hj). rewrite map_nth, seq_nth by exact Hj. reflexivity. Qed.
Lemma entry_cv i j : (i < nx)%nat -> (j < nx)%nat -> Un_cv (fun k => nth j (row (vi k) i) 0) (nth j (row vlim i) 0).
Proof.
  intros Hi Hj. rewrite vlim_entry by auto. unfold lim_entry.
  apply (Un_cv_ext' (fun k => / 2 * (quadf (vi k) (uij i j) - quadf (vi k) (unit nx i) - quadf (vi k) (unit nx j)))).
  - intros k. destruct (vi_psd k) as (SV & PV). rewrite entry_units by auto. rewrite (polar (vi k) nx) by (auto; try apply PV; apply unit_length). reflexivity.
  - apply (CV_mult (fun _ => / 2)); [apply Un_cv_const|]. repeat apply CV_minus; apply (proj2_sig (vi_limit _ _)).
Qed.
Lemma bilinear_cv x y : length x = nx -> length y = nx -> Un_cv (fun k => dot x (mv (vi k) y)) (dot x (mv vlim y)).
Proof.
  intros Lx Ly. assert (LV : forall k, length (rows (vi k)) = nx) by (intros k; apply vi_psd). assert (LL : length (rows vlim) = nx) by apply vlim_shape.
  apply (dot_cv nx); [exact Lx|intros k; rewrite mv_length; apply LV|rewrite mv_length; exact LL|]. intros i Hi.
  apply (Un_cv_ext' (fun k => dot y (row (vi k) i))). { intros k. rewrite nth_mv by (rewrite LV; exact Hi). apply dot_comm. }
  rewrite nth_mv by (rewrite LL; exact Hi). rewrite (dot_comm _ y). apply (dot_cv nx); [exact Ly| | |].
  - intros k. apply (shape_row (vi k) nx nx); [apply vi_psd|exact Hi].
  - apply (shape_row vlim nx nx); [apply vlim_shape|exact Hi].
  - intros j Hj. apply entry_cv; auto.
Qed.
Lemma vi_le_lim k x : length x = nx -> quadf (vi k) x <= quadf vlim x.
Proof. intros Lx. apply (growing_ineq (fun k => quadf (vi k) x)); [intros m; apply vi_mono, Lx|apply bilinear_cv; assumption]. Qed.
Lemma lim_le c x : length x = nx -> (forall k, quadf (vi k) x <= c) -> quadf vlim x <= c.
Proof.
  intros Lx H. pose proof (bilinear_cv x x Lx Lx) as CV. apply Rnot_lt_le. intros G. destruct (CV (quadf vlim x - c) ltac:(lra)) as (K & HK). specialize (HK K (le_n _)). unfold R_dist in HK. specialize (H K). unfold quadf in *. apply Rabs_def2 in HK. lra.
Qed.
Lemma vlim_psd : psd vlim nx.
Proof.
  split.
  - apply (sym_intro _ nx vlim_shape). intros x y Lx Ly. rewrite (dot_comm _ y). apply (UL_sequence (fun k => dot x (mv (vi k) y))); [apply bilinear_cv; assumption|].
    apply (Un_cv_ext' (fun k => dot y (mv (vi k) x))); [|apply bilinear_cv; assumption]. intros k. apply (sym_dot (vi k) nx); auto; apply vi_psd.
  - intros x Lx. pose proof (vi_le_lim 0 x Lx) as H. pose proof (quadf_nonneg (vi 0) nx x (proj2 (vi_psd 0)) Lx). unfold quadf in *. lra.
Qed.
(** the entries get close together *)
Lemma eventually_all (Pk : nat -> nat -> Prop) n : (forall i, (i < n)%nat -> exists K, forall k, (K <= k)%nat -> Pk k i) -> exists K, forall k, (K <= k)%nat -> forall i, (i < n)%nat -> Pk k i.
Proof.
  induction n as [|n IH]; intros H; [exists 0%nat; intros; lia|]. destruct IH as (K1 & H1); [intros i Hi; apply H; lia|]. destruct (H n ltac:(lia)) as (K2 & H2). exists (Nat.max K1 K2). intros k Hk i Hi.
  destruct (Nat.eq_dec i n) as [->|]; [apply H2; lia|apply H1; lia].
Qed.
Lemma gap_small e : 0 < e -> exists k, forall y, length y = nx -> quadf vlim y - quadf (vi k) y <= INR nx * INR nx * e * dot y y.
Proof.
  intros He. destruct (eventually_all (fun k i => forall j, (j < nx)%nat -> Rabs (nth j (row (vi k) i) 0 - nth j (row vlim i) 0) <= e) nx) as (K & HK).
  { intros i Hi. apply (eventually_all (fun k j => Rabs (nth j (row (vi k) i) 0 - nth j (row vlim i) 0) <= e) nx). intros j Hj. destruct (entry_cv i j Hi Hj e He) as (K & HK). exists K. intros k Hk. apply Rlt_le, (HK k Hk). }
  exists K. intros y Ly. specialize (HK K (le_n _)). destruct (vi_psd K) as (SV & _). pose proof vlim_shape as SL. assert (LV : length (rows (vi K)) = nx) by apply SV. assert (LL : length (rows vlim) = nx) by apply SL.
  unfold quadf. rewrite <- dot_vsub_r by len. set (w := vsub (mv vlim y) (mv (vi K) y)). assert (Lw : length w = nx) by (unfold w; len).
  assert (NN : norm w <= INR (length w) * (INR nx * e * norm y)).
  { apply norm_entries; [apply Rmult_le_pos; [apply Rmult_le_pos; [apply pos_INR|lra]|apply norm_nonneg]|]. intros i Hi. rewrite Lw in Hi. unfold w. rewrite nth_vsub by len. rewrite !nth_mv by lia.
    assert (L1 : length (row (vi K) i) = nx) by (apply (shape_row _ nx nx i SV Hi)). assert (L2 : length (row vlim i) = nx) by (apply (shape_row _ nx nx i SL Hi)).
    fold (row vlim i). fold (row (vi K) i). rewrite <- (dot_vsub_l (row vlim i) (row (vi K) i) y) by congruence. set (d := vsub (row vlim i) (row (vi K) i)). assert (Ld : length d = nx) by (unfold d; len).
    assert (Nd : norm d <= INR (length d) * e). { apply norm_entries; [lra|]. intros j Hj. rewrite Ld in Hj. unfold d. rewrite nth_vsub by len. rewrite Rabs_minus_sym. apply HK; auto. }
    rewrite Ld in Nd. assert (AB : Rabs (dot d y) <= norm d * norm y). { apply Rabs_le. pose proof (dot_le_norm d y). pose proof (dot_le_norm (vneg d) y) as D2. rewrite norm_vneg in D2. autorewrite with dotx in D2. lra. }
    eapply Rle_trans; [exact AB|]. apply Rmult_le_compat_r; [apply norm_nonneg|exact Nd]. }
  rewrite Lw in NN. eapply Rle_trans; [apply dot_le_norm|]. rewrite <- (norm_sqr y). eapply Rle_trans; [apply Rmult_le_compat_l; [apply norm_nonneg|exact NN]|]. unfold Rsqr. lra.
Qed.
Lemma ric_vlim : ric vlim = vlim.
Proof.
  pose proof vlim_shape as SL. pose proof vlim_psd as PL. assert (LB : length (rows B) = nx) by apply HB. assert (LA : length (rows A) = nx) by apply HA.
  apply (sym_form_ext _ _ nx); [apply ric_shape, SL|exact SL|apply (ric_psd _ SL PL)|apply PL|]. intros x Lx. destruct (ric_min vlim x SL PL Lx) as (LK & EK & HM). apply Rle_antisym.
  - destruct (form_domination np Hnp (eye nu) Rm nu (shape_eye nu) HR PR) as (c & Hc & Dc). destruct (norm_mv_bound A nx nx HA) as (ca & Hca & Da). destruct (norm_mv_bound B nx nu HB) as (cb & Hcb & Db).
    set (Y := 2 * (ca * dot x x) + 2 * (cb * (c * quadf vlim x))).
    assert (HY : 0 <= Y). { unfold Y. pose proof (dot_self_nonneg x). pose proof (quadf_nonneg vlim nx x PL Lx). assert (0 <= ca * dot x x) by (apply Rmult_le_pos; auto). assert (0 <= cb * (c * quadf vlim x)) by (repeat apply Rmult_le_pos; auto). lra. }
    apply le_epsilon. intros eps Heps. assert (HN : 0 <= INR nx * INR nx * Y) by (repeat apply Rmult_le_pos; auto using pos_INR).
    destruct (gap_small (eps / (INR nx * INR nx * Y + 1)) ltac:(apply Rdiv_lt_0_compat; lra)) as (k & HG). destruct (vi_psd k) as (SV & PV). destruct (ric_min (vi k) x SV PV Lx) as (LKk & EKk & _).
    set (u := mv (Kof (vi k)) x) in *. specialize (HM u LKk). unfold one_step in HM, EKk. set (y := vadd (mv A x) (mv B u)) in *. assert (Ly : length y = nx) by (unfold y; len). specialize (HG y Ly).
    pose proof (vi_le_lim (S k) x Lx) as G1. change (vi (S k)) with (ric (vi k)) in G1.
    assert (BU : dot u u <= c * quadf vlim x). { pose proof (Dc u LKk) as D1. rewrite mv_eye in D1 by exact LKk. eapply Rle_trans; [exact D1|]. apply Rmult_le_compat_l; [exact Hc|]. pose proof (quadf_nonneg Q nx x PQ Lx). pose proof (quadf_nonneg (vi k) nx y PV Ly). unfold quadf at 2 in EKk. unfold quadf in *. lra. }
    assert (BY : dot y y <= Y). { unfold y, Y. set (a := mv A x). set (b := mv B u). assert (LLa : length a = nx) by (unfold a; len). assert (LLb : length b = nx) by (unfold b; len). pose proof (dot_self_nonneg (vsub a b)) as SQ. rewrite dot_vsub_l, !dot_vsub_r in SQ by len. rewrite dot_vadd_l, !dot_vadd_r by len. rewrite (dot_comm b a) in *. pose proof (Da x Lx) as D1. fold a in D1. pose proof (Db u LKk) as D2. fold b in D2. assert (cb * dot u u <= cb * (c * quadf vlim x)) by (apply Rmult_le_compat_l; assumption). lra. }
    assert (E3 : INR nx * INR nx * (eps / (INR nx * INR nx * Y + 1)) * dot y y <= eps).
    { set (W := INR nx * INR nx) in *. assert (HW : 0 <= W) by (unfold W; apply Rmult_le_pos; apply pos_INR). replace (W * (eps / (W * Y + 1)) * dot y y) with (eps * ((W * dot y y) / (W * Y + 1))) by (field; lra).
      rewrite <- (Rmult_1_r eps) at 2. apply Rmult_le_compat_l; [lra|]. apply (Rmult_le_reg_r (W * Y + 1)); [lra|]. unfold Rdiv. rewrite Rmult_assoc, Rinv_l, Rmult_1_l, Rmult_1_r by lra. assert (W * dot y y <= W * Y) by (apply Rmult_le_compat_l; assumption). lra. }
    lra.
  - apply lim_le; [exact Lx|]. intros [|k].
    + eapply Rle_trans; [|apply (quadf_nonneg (ric vlim) nx); [apply ric_psd; assumption|exact Lx]]. change (quadf (vi 0) x) with (dot x (mv (zmat nx nx) x)). rewrite mv_zmat. autorewrite with dotx. lra.
    + destruct (vi_psd k) as (SV & PV). destruct (ric_min (vi k) x SV PV Lx) as (_ & _ & H). cbn [vi]. eapply Rle_trans; [apply (H _ LK)|]. rewrite <- EK. unfold one_step. pose proof (vi_le_lim k (vadd (mv A x) (mv B (mv (Kof vlim) x))) ltac:(len)). lra.
Qed.
Lemma vlim_value x u V : length x = nx -> (forall t, length (u t) = nu) -> (forall N, lq_cost A B Q Rm x u N <= V) -> / 2 * quadf vlim x <= V.
Proof.
  intros Lx Lu H. assert (quadf vlim x <= 2 * V); [|lra]. apply lim_le; [exact Lx|]. intros k. pose proof (vi_cost k x u Lx Lu). specialize (H k). lra.
Qed.
End Riccati.
Lemma riccati_np_feedback A B Q Rm P nx nu : shape A nx nx -> shape B nx nu -> shape Q nx nx -> shape Rm nu nu -> psd Q nx -> Spec.pd Rm nu -> riccati A B Q Rm P nx nu -> psd P nx ->
  forall x, length x = nx -> exists u, (forall t, length (u t) = nu) /\ forall N, lq_cost A B Q Rm x u N <= / 2 * dot x (mv P x).
Proof.
  intros HA HB HQ HR PQ PR RP PP. pose proof (np_dare_const_exact P) as Hnp. destruct (proj1 (ric_fixed _ Hnp A B Q Rm nx nu HA HB HQ HR PR P PP) RP) as (SP & E).
  apply (fixed_feedback _ Hnp A B Q Rm nx nu HA HB HQ HR PR P SP PP E).
Qed.
(*@ Theorem C32_exists : For every controllable system, positive semidefinite Q and positive definite R the Riccati equation has a positive semidefinite solution, so the contract assumed of scipy can be met. The least one gives the optimal value over infinite horizons, even when Q is only semidefinite: some input signal keeps the cost of every prefix at or below 1/2 x0'P x0, and none keeps it below a smaller value. *)
Lemma dare_exists A B Q Rm nx nu : shape A nx nx -> shape B nx nu -> shape Q nx nx -> shape Rm nu nu -> psd Q nx -> Spec.pd Rm nu -> steerable A B nx nu nx ->
  exists P, riccati A B Q Rm P nx nu /\ psd P nx /\
    (forall P', riccati A B Q Rm P' nx nu -> psd P' nx -> forall x, length x = nx -> dot x (mv P x) <= dot x (mv P' x)) /\
    (forall x0, length x0 = nx -> exists u, (forall t, length (u t) = nu) /\ forall N, lq_cost A B Q Rm x0 u N <= / 2 * dot x0 (mv P x0)) /\
    (forall x0 u V, length x0 = nx -> (forall t, length (u t) = nu) -> (forall N, lq_cost A B Q Rm x0 u N <= V) -> / 2 * dot x0 (mv P x0) <= V).
Proof.
  intros HA HB HQ HR PQ PR ST. pose proof (np_dare_const_exact (zmat 0 0)) as Hnp. set (np := np_dare_const (zmat 0 0)) in *.
  pose (P := vlim np Hnp A B Q Rm nx nu HA HB HQ HR PQ PR ST). exists P.
  assert (SP : shape P nx nx) by apply vlim_shape. assert (PP : psd P nx) by apply vlim_psd.
  assert (RP : riccati A B Q Rm P nx nu) by (apply (ric_fixed np Hnp A B Q Rm nx nu HA HB HQ HR PR P PP); split; [exact SP|apply ric_vlim]).
  assert (LO : forall x0 u V, length x0 = nx -> (forall t, length (u t) = nu) -> (forall N, lq_cost A B Q Rm x0 u N <= V) -> / 2 * dot x0 (mv P x0) <= V) by (intros x0 u V; apply vlim_value).
  split; [exact RP|]. split; [exact PP|]. split.
  - intros P' RP' PP' x Lx. destruct (riccati_np_feedback A B Q Rm P' nx nu HA HB HQ HR PQ PR RP' PP' x Lx) as (u & Lu & Hu). pose proof (LO x u _ Lx Lu Hu). lra.
  - split; [|exact LO]. apply (riccati_np_feedback A B Q Rm P nx nu HA HB HQ HR PQ PR RP PP).
Qed.
(*@ Theorem C32_unique : When Q is positive definite too, the positive semidefinite solution is unique: whatever scipy returns under its contract is the same matrix. *)
Lemma dare_unique A B Q Rm nx nu P1 P2 : shape A nx nx -> shape B nx nu -> shape Q nx nx -> shape Rm nu nu -> Spec.pd Q nx -> Spec.pd Rm nu -> steerable A B nx nu nx ->
  riccati A B Q Rm P1 nx nu -> psd P1 nx -> riccati A B Q Rm P2 nx nu -> psd P2 nx -> P1 = P2.
Proof.
  intros HA HB HQ HR PQ PR ST R1 S1 R2 S2. pose proof (pd_psd _ _ PQ) as PQ'.
  assert (LE : forall P P', riccati A B Q Rm P nx nu -> psd P nx -> riccati A B Q Rm P' nx nu -> psd P' nx -> forall x, length x = nx -> dot x (mv P x) <= dot x (mv P' x)).
  { intros P P' RP PP RP' PP' x Lx. destruct (Nat.eq_dec nx 0) as [Z|Z]; [destruct x; [cbn; lra|cbn in Lx; lia]|].
    destruct (riccati_np_feedback A B Q Rm P' nx nu HA HB HQ HR PQ' PR RP' PP' x Lx) as (u & Lu & Hu).
    destruct (solve_dare_ok (np_dare_const P) (LSys A B None) Q Rm nx nu (np_dare_const_exact P) HA HB HQ HR ltac:(lia) eq_refl PR RP PP) as (H1 & _). destruct (H1 ST) as (P0 & K & E).
    destruct (dare_optimal (np_dare_const P) (LSys A B None) Q Rm nx nu P0 K (np_dare_const_exact P) HA HB HQ HR ltac:(lia) eq_refl PR PQ RP PP E) as (_ & LO).
    destruct (dare_returns (np_dare_const P) (np_dare_const_exact P) (LSys A B None) Q Rm nx nu HA HB HR ltac:(lia) eq_refl PR RP PP) as (_ & _ & H4). destruct (H4 P0 K E) as (EP & _). change (P0 = P) in EP. subst P0.
    pose proof (LO x u _ Lx Lu Hu). lra. }
  apply (sym_form_ext _ _ nx); [apply R1|apply R2|apply S1|apply S2|]. intros x Lx. apply Rle_antisym; apply LE; assumption.
Qed.
(*@ Example C32_exists_example : The hypotheses of both hold for x+ = 2x + u with Q = R = 1, an unstable system. *)
Lemma dare_exists_example : shape (Mat 1 [[2]]) 1 1 /\ shape (Mat 1 [[1]]) 1 1 /\ Spec.pd (Mat 1 [[1]]) 1 /\ psd (Mat 1 [[1]]) 1 /\ steerable (Mat 1 [[2]]) (Mat 1 [[1]]) 1 1 1 /\
  riccati (Mat 1 [[2]]) (Mat 1 [[1]]) (Mat 1 [[1]]) (Mat 1 [[1]]) (Mat 1 [[2 + sqrt 5]]) 1 1 /\ psd (Mat 1 [[2 + sqrt 5]]) 1.
Proof.
  assert (Q5 : sqrt 5 * sqrt 5 = 5) by (apply sqrt_sqrt; lra). assert (P5 : 0 <= sqrt 5) by apply sqrt_pos.
  split; [apply scalar_shape|]. split; [apply scalar_shape|]. split; [apply scalar_pd; lra|]. split; [apply scalar_psd; lra|]. split; [apply scalar_steerable; lra|]. split; [apply scalar_riccati; nra|apply scalar_psd; lra].
Qed.
(*@ Example C32_minimal_example : x+ = 2x + u, Q = 0, R = 1 of C32_semidefinite_refuted has the two positive semidefinite solutions 0 and 3: 0 is the optimal value, 3 the one scipy documents (the stabilizing solution). *)
Lemma dare_two_solutions : riccati (Mat 1 [[2]]) (Mat 1 [[1]]) (Mat 1 [[0]]) (Mat 1 [[1]]) (Mat 1 [[0]]) 1 1 /\ riccati (Mat 1 [[2]]) (Mat 1 [[1]]) (Mat 1 [[0]]) (Mat 1 [[1]]) (Mat 1 [[3]]) 1 1 /\
  psd (Mat 1 [[0]]) 1 /\ psd (Mat 1 [[3]]) 1.
Proof. split; [apply scalar_riccati; lra|]. split; [apply scalar_riccati; lra|]. split; apply scalar_psd; lra. Qed.
