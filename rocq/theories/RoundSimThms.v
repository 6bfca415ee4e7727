(** * RoundSimThms: rounding errors of simulations (C94), proofs *)
From Coq Require Import Permutation.
From Verif Require Import Arr ArrFacts Spec SpecDyn SpecEig SpecRound Pnnls PnnlsFacts Polyhedron PolyThms MembThms Dynamics DynThms McaisThms SpectralThms Round RoundThms.

(** ** Largest entry *)
Lemma sup_nonneg v : 0 <= sup v.
Proof. induction v as [|a v IH]; cbn; [lra|]. eapply Rle_trans; [exact IH|apply Rmax_r]. Qed.
Lemma nth_sup v i : Rabs (nth i v 0) <= sup v.
Proof.
  revert i. induction v as [|a v IH]; intros [|i]; cbn; try (rewrite Rabs_R0; lra); [apply Rmax_l|]. eapply Rle_trans; [apply IH|apply Rmax_r].
Qed.
Lemma sup_le v e : 0 <= e -> (forall i, (i < length v)%nat -> Rabs (nth i v 0) <= e) -> sup v <= e.
Proof.
  intros E. induction v as [|a v IH]; intros H; cbn; [exact E|]. apply Rmax_lub; [apply (H 0%nat); cbn; lia|]. apply IH. intros i Hi. apply (H (S i)). cbn. lia.
Qed.
Lemma sup_zeros n : sup (zeros n) = 0.
Proof. apply Rle_antisym; [|apply sup_nonneg]. apply sup_le; [lra|]. intros i _. rewrite nth_zeros, Rabs_R0. lra. Qed.
Lemma sup_vadd x y : length x = length y -> sup (vadd x y) <= sup x + sup y.
Proof.
  intros L. pose proof (sup_nonneg x). pose proof (sup_nonneg y). apply sup_le; [lra|]. intros i _. rewrite nth_vadd by exact L. eapply Rle_trans; [apply Rabs_triang|].
  pose proof (nth_sup x i). pose proof (nth_sup y i). lra.
Qed.
Lemma abs_dot_le a : forall x c, length a = length x -> (forall i, (i < length x)%nat -> Rabs (nth i x 0) <= c) -> abs_dot a x <= abs_dot a (ones (length a)) * c.
Proof.
  unfold abs_dot, ones. induction a as [|b a IH]; intros [|y x] c L H; try discriminate; cbn [length repeat map dot]; [lra|]. injection L as L.
  specialize (IH x c L). pose proof (H 0%nat ltac:(cbn; lia)) as H0. cbn [nth] in H0. pose proof (Rabs_pos b). rewrite (Rabs_pos_eq 1) by lra.
  assert (IHx := IH ltac:(intros i Hi; apply (H (S i)); cbn; lia)). nra.
Qed.
Lemma abs_dot_sup a x : length a = length x -> abs_dot a x <= abs_dot a (ones (length a)) * sup x.
Proof. intros L. apply abs_dot_le; [exact L|]. intros i _. apply nth_sup. Qed.
(** the absolute values of the entries of each row add up to at most al *)
Lemma sup_mv A m n al x : shape A m n -> 0 <= al -> (forall i, (i < m)%nat -> abs_dot (row A i) (ones n) <= al) -> length x = n -> sup (mv A x) <= al * sup x.
Proof.
  intros HA P H L. assert (LA : length (rows A) = m) by apply HA. pose proof (sup_nonneg x). apply sup_le; [nra|]. intros i Hi. lenh Hi. rewrite nth_mv.
  assert (Lr : length (nth i (rows A) []) = n) by (apply (shape_In A m n); [exact HA|apply nth_In; lia]).
  eapply Rle_trans; [apply dot_le_abs|]. eapply Rle_trans; [apply abs_dot_sup; lia|]. rewrite Lr. apply Rmult_le_compat_r; [assumption|]. apply H. lia.
Qed.
Lemma row_sums A m n : shape A m n -> exists al, 0 <= al /\ forall i, (i < m)%nat -> abs_dot (row A i) (ones n) <= al.
Proof.
  intros HA. assert (G : forall k, exists al, 0 <= al /\ forall i, (i < k)%nat -> abs_dot (row A i) (ones n) <= al).
  { induction k as [|k (al & P & H)]; [exists 0; split; [lra|intros; lia]|]. exists (Rmax al (abs_dot (row A k) (ones n))). split; [eapply Rle_trans; [exact P|apply Rmax_l]|].
    intros i Hi. destruct (Nat.eq_dec i k) as [->|]; [apply Rmax_r|]. eapply Rle_trans; [apply H; lia|apply Rmax_l]. }
  apply G.
Qed.
(** ** Geometric sums *)
Lemma geometric_S a k : geometric a (S k) = 1 + a * geometric a k.
Proof.
  unfold geometric. cbn [seq fold_right pow]. f_equal. rewrite <- seq_shift. generalize (seq 0 k). intros l. induction l as [|i l IH]; cbn [map fold_right]; [ring|]. rewrite IH. cbn [pow]. ring.
Qed.
Lemma geometric_nonneg a k : 0 <= a -> 0 <= geometric a k.
Proof. intros H. induction k as [|k IH]; [cbn; lra|]. rewrite geometric_S. nra. Qed.
Lemma geometric_mono a k k' : 0 <= a -> (k <= k')%nat -> geometric a k <= geometric a k'.
Proof.
  intros A H. revert k' H. induction k as [|k IH]; intros k' H; [apply geometric_nonneg; exact A|]. destruct k' as [|k']; [lia|]. rewrite !geometric_S. specialize (IH k' ltac:(lia)). nra.
Qed.

(** ** Perturbed trajectories *)
Section Pert.
Variables (A : mat) (n : nat) (al : R).
Hypothesis HA : shape A n n.
Hypothesis Hal : 0 <= al.
Hypothesis Rows : forall i, (i < n)%nat -> abs_dot (row A i) (ones n) <= al.
Lemma mv_len x : length (mv A x) = n. Proof. len. apply HA. Qed.
Lemma sup_vsub_tri x y z k : length x = k -> length y = k -> length z = k -> sup (vsub x z) <= sup (vsub x y) + sup (vsub y z).
Proof.
  intros L1 L2 L3. pose proof (sup_nonneg (vsub x y)). pose proof (sup_nonneg (vsub y z)). apply sup_le; [lra|]. intros i _. rewrite nth_vsub by lia.
  pose proof (nth_sup (vsub x y) i) as H1. pose proof (nth_sup (vsub y z) i) as H2. rewrite nth_vsub in H1, H2 by lia.
  replace (nth i x 0 - nth i z 0) with ((nth i x 0 - nth i y 0) + (nth i y 0 - nth i z 0)) by ring. eapply Rle_trans; [apply Rabs_triang|]. lra.
Qed.
Lemma pert_bound (x y g : nat -> vec) E N : (forall t, (t <= N)%nat -> length (x t) = n /\ length (y t) = n) -> (forall t, (t < N)%nat -> length (g t) = n) -> 0 <= E ->
  x 0%nat = y 0%nat -> (forall t, (t < N)%nat -> sup (vsub (x (S t)) (vadd (mv A (x t)) (g t))) <= E) -> (forall t, (t < N)%nat -> y (S t) = vadd (mv A (y t)) (g t)) ->
  forall t, (t <= N)%nat -> sup (vsub (x t) (y t)) <= E * geometric al t.
Proof.
  intros L G HE E0 HX HY. induction t as [|t IH]; intros Ht.
  - rewrite E0. destruct (L 0%nat Ht) as (_ & L0). cbn. rewrite Rmult_0_r. apply sup_le; [lra|]. intros i _. rewrite nth_vsub by lia. rewrite Rminus_diag_eq, Rabs_R0 by reflexivity. lra.
  - specialize (IH ltac:(lia)). destruct (L t ltac:(lia)) as (L1 & L2). destruct (L (S t) Ht) as (L3 & L4). pose proof (G t ltac:(lia)) as Lg. rewrite geometric_S.
    assert (LM : forall v, length (vadd (mv A v) (g t)) = n) by (intros v; pose proof (mv_len v); len).
    eapply Rle_trans; [apply (sup_vsub_tri _ (vadd (mv A (x t)) (g t)) _ n); auto|]. specialize (HX t ltac:(lia)).
    assert (Q : sup (vsub (vadd (mv A (x t)) (g t)) (y (S t))) <= al * sup (vsub (x t) (y t))).
    { rewrite HY by lia. replace (vsub (vadd (mv A (x t)) (g t)) (vadd (mv A (y t)) (g t))) with (mv A (vsub (x t) (y t))); [apply (sup_mv A n n); auto; len|].
      pose proof (mv_len (x t)). pose proof (mv_len (y t)). rewrite (mv_vsub A n n) by auto. apply vec_ext; [len|]. intros i Hi. lenh Hi. rewrite !nth_vsub, !nth_vadd by len. ring. }
    nra.
Qed.
End Pert.

(** ** Stable systems forget the errors *)
Lemma attractive_contracts A n : shape A n n -> attractive A n -> exists m, (0 < m)%nat /\ forall x, length x = n -> sup (flow A m x) <= / 2 * sup x.
Proof.
  intros HA AT. assert (PN : 0 < / (2 * INR (S n))). { apply Rinv_0_lt_compat. pose proof (lt_0_INR (S n) ltac:(lia)). lra. }
  assert (G : forall k, (k <= n)%nat -> exists T, forall t j, (T <= t)%nat -> (j < k)%nat -> norm (flow A t (unit n j)) <= / (2 * INR (S n))).
  { induction k as [|k IH]; intros Hk; [exists 0%nat; intros; lia|]. destruct (IH ltac:(lia)) as (T & HT). destruct (AT (unit n k) (unit_length n k) _ PN) as (T' & HT').
    exists (T + T')%nat. intros t j Ht Hj. destruct (Nat.eq_dec j k) as [->|]; [apply HT'; lia|apply HT; lia]. }
  destruct (G n (le_n n)) as (T & HT). exists (S T). split; [lia|]. intros x Lx. rewrite (flow_mpow A n (S T) x HA Lx). assert (HM : shape (mpow A (S T)) n n) by eauto with shp.
  apply (sup_mv _ n n); auto; [lra|]. intros i Hi.
  assert (Lr : length (row (mpow A (S T)) i) = n) by (apply (shape_In (mpow A (S T)) n n); [exact HM|apply nth_In; replace (length (rows (mpow A (S T)))) with n by (symmetry; apply HM); exact Hi]).
  assert (EN : forall j, (j < n)%nat -> Rabs (nth j (row (mpow A (S T)) i) 0) <= / (2 * INR (S n))).
  { intros j Hj. specialize (HT (S T) j ltac:(lia) Hj). rewrite (flow_mpow A n (S T) (unit n j) HA (unit_length n j)) in HT. pose proof (nth_le_norm (mv (mpow A (S T)) (unit n j)) i) as Q.
    rewrite nth_mv in Q. fold (row (mpow A (S T)) i) in Q. rewrite dot_comm, dot_unit in Q by auto. lra. }
  unfold abs_dot. rewrite dot_comm. change (dot (map Rabs (ones n)) (map Rabs (row (mpow A (S T)) i))) with (abs_dot (ones n) (row (mpow A (S T)) i)).
  eapply Rle_trans; [apply (abs_dot_le (ones n) _ (/ (2 * INR (S n))))|].
  - rewrite Lr. unfold ones. apply repeat_length.
  - rewrite Lr. exact EN.
  - assert (EO : abs_dot (ones n) (ones (length (ones n))) = INR n).
    { unfold ones at 3. rewrite repeat_length. clear. unfold abs_dot, ones. induction n as [|n IH]; [reflexivity|]. cbn [repeat map dot]. rewrite IH, S_INR, Rabs_pos_eq by lra. ring. }
    rewrite EO, S_INR. pose proof (pos_INR n). apply (Rmult_le_reg_r (2 * (INR n + 1))); [lra|]. rewrite Rmult_assoc, Rinv_l by lra. lra.
Qed.
Lemma stable_pert A n : shape A n n -> attractive A n -> exists c, 0 <= c /\ forall (x y g : nat -> vec) E N,
  (forall t, (t <= N)%nat -> length (x t) = n /\ length (y t) = n) -> (forall t, (t < N)%nat -> length (g t) = n) -> 0 <= E ->
  x 0%nat = y 0%nat -> (forall t, (t < N)%nat -> sup (vsub (x (S t)) (vadd (mv A (x t)) (g t))) <= E) -> (forall t, (t < N)%nat -> y (S t) = vadd (mv A (y t)) (g t)) ->
  forall t, (t <= N)%nat -> sup (vsub (x t) (y t)) <= c * E.
Proof.
  intros HA AT. destruct (attractive_contracts A n HA AT) as (m & Hm & CON). destruct (row_sums A n n HA) as (al & Pal & Hal).
  set (L := geometric al m). assert (PL : 0 <= L) by (apply geometric_nonneg; exact Pal). exists (2 * L). split; [lra|].
  intros x y g E N LEN G HE E0 HX HY. induction t as [t IH] using lt_wf_ind. intros Ht. destruct (Nat.lt_ge_cases t m) as [S1|S2].
  - eapply Rle_trans; [apply (pert_bound A n al HA Pal Hal x y g E N); auto|]. pose proof (geometric_mono al t m Pal ltac:(lia)). fold L in H. nra.
  - set (s := (t - m)%nat). assert (Es : t = (s + m)%nat) by lia.
    (* restart the exact trajectory at x(s) *)
    set (z := fun k => vadd (y (s + k)%nat) (flow A k (vsub (x s) (y s)))).
    destruct (LEN s ltac:(lia)) as (L1 & L2). assert (Ld : length (vsub (x s) (y s)) = n) by len.
    assert (LF : forall k, length (flow A k (vsub (x s) (y s))) = n) by (intros; apply (flow_length A n); assumption).
    assert (LZ : forall k, (s + k <= N)%nat -> length (z k) = n). { intros k Hk. unfold z. destruct (LEN (s + k)%nat Hk). specialize (LF k). len. }
    assert (Z0 : x (s + 0)%nat = z 0%nat). { unfold z. rewrite Nat.add_0_r. cbn [flow]. apply vec_ext; [len|]. intros i Hi. rewrite nth_vadd, nth_vsub by len. ring. }
    assert (Q1 : sup (vsub (x (s + m)%nat) (z m)) <= E * L).
    { apply (pert_bound A n al HA Pal Hal (fun k => x (s + k)%nat) z (fun k => g (s + k)%nat) E m); auto.
      - intros k Hk. split; [apply LEN; lia|apply LZ; lia].
      - intros k Hk. apply G. lia.
      - intros k Hk. rewrite Nat.add_succ_r. apply HX. lia.
      - intros k Hk. unfold z. rewrite Nat.add_succ_r, HY by lia. cbn [flow]. pose proof (LF k) as LFk. destruct (LEN (s + k)%nat ltac:(lia)) as (_ & Lyk). pose proof (G (s + k)%nat ltac:(lia)) as Lg.
        rewrite (mv_vadd A n n) by auto. pose proof (mv_len A n HA (y (s + k)%nat)). pose proof (mv_len A n HA (flow A k (vsub (x s) (y s)))).
        apply vec_ext; [len|]. intros i Hi. rewrite !nth_vadd by len. ring. }
    assert (Q2 : sup (vsub (z m) (y (s + m)%nat)) <= / 2 * (2 * L * E)).
    { replace (vsub (z m) (y (s + m)%nat)) with (flow A m (vsub (x s) (y s))).
      - eapply Rle_trans; [apply CON; exact Ld|]. specialize (IH s ltac:(lia) ltac:(lia)). lra.
      - unfold z. destruct (LEN (s + m)%nat ltac:(lia)) as (_ & Lyk). pose proof (LF m). apply vec_ext; [len|]. intros i Hi. rewrite nth_vsub, nth_vadd by len. ring. }
    rewrite Es. destruct (LEN (s + m)%nat ltac:(lia)). eapply Rle_trans; [apply (sup_vsub_tri _ (z m) _ n); auto; apply LZ; lia|]. lra.
Qed.

(** ** Runs *)
Lemma fl_run_nth step x us xs : fl_run step x us xs -> length xs = S (length us) /\ nth 0 xs [] = x /\ forall t, (t < length us)%nat -> step (nth t xs []) (nth t us []) (nth (S t) xs []).
Proof.
  induction 1 as [x|x v x' us xs ST RUN (IH1 & IH2 & IH3)]; [split; [reflexivity|]; split; [reflexivity|]; cbn; intros; lia|].
  split; [cbn; lia|]. split; [reflexivity|]. intros [|t] Ht; cbn [nth]; [rewrite IH2; exact ST|]. apply IH3. cbn in Ht. lia.
Qed.
Lemma fl_mv_len rnd A x y m n : shape A m n -> fl_mv rnd A x y -> length y = m.
Proof. intros HA H. apply f2_length in H. rewrite <- H. apply HA. Qed.
Lemma fl_mv_err u eta rnd A x y m n i : rounding u eta rnd -> shape A m n -> length x = n -> fl_mv rnd A x y -> (i < m)%nat ->
  Rabs (nth i y 0 - dot (row A i) x) <= rounding_error u eta n (abs_dot (row A i) x).
Proof.
  intros RN HA Lx H Hi. assert (LA : length (rows A) = m) by apply HA. assert (Lr : length (row A i) = n) by (apply (shape_In A m n); [exact HA|apply nth_In; lia]).
  pose proof (f2_nth _ _ _ [] 0 H i ltac:(lia)) as FD. cbv beta in FD. fold (row A i) in FD. pose proof (row_err u eta rnd RN (row A i) x (nth i y 0) ltac:(lia) FD) as Q. rewrite Lx in Q. exact Q.
Qed.
Lemma nth_fl_vadd rnd x y i : length x = length y -> (i < length x)%nat -> nth i (fl_vadd rnd x y) 0 = rnd (nth i x 0 + nth i y 0).
Proof. intros L H. unfold fl_vadd. apply (nth_map2r (fun a b => rnd (a + b))); assumption. Qed.
Lemma lin_step_err u eta rnd S x v x' nx nu : rounding u eta rnd -> system_shape (lA S) (lB S) nx nu -> length x = nx -> length v = nu -> fl_lin_step rnd S x v x' ->
  length x' = nx /\ forall i, (i < nx)%nat -> Rabs (nth i x' 0 - nth i (linear_step (lA S) (lB S) x v) 0) <= rounding_error u eta (nx + nu + 1) (abs_dot (row (lA S) i) x + abs_dot (row (lB S) i) v).
Proof.
  intros RN (HA & HB) Lx Lv (a & b & Ha & Hb & ->). pose proof (fl_mv_len _ _ _ _ _ _ HA Ha) as La. pose proof (fl_mv_len _ _ _ _ _ _ HB Hb) as Lb.
  assert (LA : length (rows (lA S)) = nx) by apply HA. assert (LB : length (rows (lB S)) = nx) by apply HB.
  split; [unfold fl_vadd; rewrite map2_length; lia|]. intros i Hi. rewrite nth_fl_vadd by lia. unfold linear_step. rewrite nth_vadd by len. rewrite !nth_mv. fold (row (lA S) i) (row (lB S) i).
  apply (sum_err u eta rnd RN); auto using dot_le_abs; eapply fl_mv_err; eauto.
Qed.
Lemma aff_step_err u eta rnd S x v x' nx nu : rounding u eta rnd -> system_shape (aA S) (aB S) nx nu -> length (ac S) = nx -> length x = nx -> length v = nu -> fl_aff_step rnd S x v x' ->
  length x' = nx /\ forall i, (i < nx)%nat -> Rabs (nth i x' 0 - nth i (affine_step (aA S) (aB S) (ac S) x v) 0) <= rounding_error u eta (nx + nu + 2) (abs_dot (row (aA S) i) x + abs_dot (row (aB S) i) v + Rabs (nth i (ac S) 0)).
Proof.
  intros RN (HA & HB) Lc Lx Lv (a & b & Ha & Hb & ->). pose proof (fl_mv_len _ _ _ _ _ _ HA Ha) as La. pose proof (fl_mv_len _ _ _ _ _ _ HB Hb) as Lb.
  assert (LA : length (rows (aA S)) = nx) by apply HA. assert (LB : length (rows (aB S)) = nx) by apply HB.
  assert (LF : length (fl_vadd rnd a b) = nx) by (unfold fl_vadd; rewrite map2_length; lia).
  split; [unfold fl_vadd at 1; rewrite map2_length; lia|]. intros i Hi. rewrite nth_fl_vadd by lia. rewrite nth_fl_vadd by lia. unfold affine_step. rewrite !nth_vadd by len. rewrite !nth_mv. fold (row (aA S) i) (row (aB S) i).
  replace (nx + nu + 2)%nat with ((nx + nu + 1) + 0 + 1)%nat by lia. apply (sum_err u eta rnd RN).
  - eapply Rle_trans; [apply Rabs_triang|]. pose proof (dot_le_abs (row (aA S) i) x). pose proof (dot_le_abs (row (aB S) i) v). lra.
  - lra.
  - apply (sum_err u eta rnd RN); auto using dot_le_abs; eapply fl_mv_err; eauto.
  - rewrite Rminus_diag_eq, Rabs_R0 by reflexivity. apply (rounding_error_nonneg u eta rnd RN), Rabs_pos.
Qed.
Lemma sup_of_entries x y E n : length x = n -> length y = n -> 0 <= E -> (forall i, (i < n)%nat -> Rabs (nth i x 0 - nth i y 0) <= E) -> sup (vsub x y) <= E.
Proof. intros L1 L2 HE H. apply sup_le; [exact HE|]. intros i Hi. lenh Hi. rewrite nth_vsub by lia. apply H. lia. Qed.
Lemma lens_nth {us : list vec} {k} : Forall (fun v => length v = k) us -> forall t, (t < length us)%nat -> length (nth t us []) = k.
Proof. intros F t Ht. rewrite Forall_forall in F. apply F, nth_In, Ht. Qed.
(** what the runs have in common *)
Lemma lin_run_data u eta rnd S nx nu x0 us xs : rounding u eta rnd -> system_shape (lA S) (lB S) nx nu -> length x0 = nx -> Forall (fun v => length v = nu) us -> fl_lin_simulate rnd S x0 us xs ->
  exists ys, lin_simulate S x0 us = Ok ys /\ length xs = length ys /\ (forall t, (t <= length us)%nat -> length (nth t xs []) = nx /\ length (nth t ys []) = nx) /\ nth 0 xs [] = nth 0 ys [] /\
  (forall t, (t < length us)%nat -> nth (Datatypes.S t) ys [] = vadd (mv (lA S) (nth t ys [])) (mv (lB S) (nth t us []))) /\
  forall E, 0 <= E -> (forall t i, (t < length us)%nat -> (i < nx)%nat -> rounding_error u eta (nx + nu + 1) (abs_dot (row (lA S) i) (nth t xs []) + abs_dot (row (lB S) i) (nth t us [])) <= E) ->
    forall t, (t < length us)%nat -> sup (vsub (nth (Datatypes.S t) xs []) (vadd (mv (lA S) (nth t xs [])) (mv (lB S) (nth t us [])))) <= E.
Proof.
  intros RN SH L0 FU RUN. destruct S as [A B k]. cbn [lA lB] in *. destruct (linear_simulation A B k nx nu x0 us SH L0 FU) as (ys & ES & LY & Y0 & YS).
  apply fl_run_nth in RUN. destruct RUN as (LX & X0 & XS). exists ys. split; [exact ES|]. split; [lia|].
  assert (LEN : forall t, (t <= length us)%nat -> length (nth t xs []) = nx /\ length (nth t ys []) = nx).
  { induction t as [|t IH]; intros Ht; [rewrite X0, Y0; auto|]. destruct (IH ltac:(lia)) as (I1 & I2). split.
    - apply (lin_step_err u eta rnd (LSys A B k) (nth t xs []) (nth t us []) _ nx nu RN SH I1 (lens_nth FU t ltac:(lia))). apply XS. lia.
    - rewrite YS by lia. unfold linear_step. destruct SH as (HA & HB). assert (length (rows A) = nx) by apply HA. assert (length (rows B) = nx) by apply HB. len. }
  split; [exact LEN|]. split; [congruence|]. split; [exact YS|]. intros E HE HB t Ht. destruct (LEN t ltac:(lia)) as (I1 & _). destruct (LEN (Datatypes.S t) Ht) as (I2 & _).
  destruct (lin_step_err u eta rnd (LSys A B k) (nth t xs []) (nth t us []) _ nx nu RN SH I1 (lens_nth FU t Ht) (XS t Ht)) as (_ & Q). cbn [lA lB] in Q.
  apply (sup_of_entries _ _ E nx); auto.
  - destruct SH as (HA & HB'). assert (length (rows A) = nx) by apply HA. assert (length (rows B) = nx) by apply HB'. len.
  - intros i Hi. eapply Rle_trans; [apply Q; exact Hi|]. apply HB; assumption.
Qed.
(*@ Theorem C94_linear : every list of states that LinearSystem.simulate can return with rounded operations has as many states as the exact one, and if E bounds the rounding error of each step and al the sums of absolute values of the rows of A, the state at time t differs from the exact one by at most E (1 + al + .. + al^(t-1)) in each entry *)
Lemma lin_rounded u eta rnd S nx nu x0 us xs : rounding u eta rnd -> system_shape (lA S) (lB S) nx nu -> length x0 = nx -> Forall (fun v => length v = nu) us -> fl_lin_simulate rnd S x0 us xs ->
  exists ys, lin_simulate S x0 us = Ok ys /\ length xs = length ys /\ forall al E, 0 <= al -> (forall i, (i < nx)%nat -> abs_dot (row (lA S) i) (ones nx) <= al) -> 0 <= E ->
  (forall t i, (t < length us)%nat -> (i < nx)%nat -> rounding_error u eta (nx + nu + 1) (abs_dot (row (lA S) i) (nth t xs []) + abs_dot (row (lB S) i) (nth t us [])) <= E) ->
  forall t, (t <= length us)%nat -> sup (vsub (nth t xs []) (nth t ys [])) <= E * geometric al t.
Proof.
  intros RN SH L0 FU RUN. destruct (lin_run_data u eta rnd S nx nu x0 us xs RN SH L0 FU RUN) as (ys & ES & LL & LEN & E0 & YS & XS). exists ys. split; [exact ES|]. split; [exact LL|].
  intros al E Pal Hal HE HB. destruct SH as (HA & HBB). assert (LBB : length (rows (lB S)) = nx) by apply HBB.
  apply (pert_bound (lA S) nx al HA Pal Hal (fun t => nth t xs []) (fun t => nth t ys []) (fun t => mv (lB S) (nth t us [])) E (length us)); auto. intros t Ht. len.
Qed.
(*@ Theorem C94_stable : if the spectral radius of A is less than one there is a constant c, depending on A only, such that for all inputs, lengths and ways to round the simulated states never differ from the exact ones by more than c times a bound E on the rounding error of one step *)
Lemma lin_rounded_stable A nx r : shape A nx nx -> spectral_radius A nx r -> r < 1 -> exists c, 0 <= c /\ forall u eta rnd S nu x0 us xs E, lA S = A -> shape (lB S) nx nu ->
  rounding u eta rnd -> length x0 = nx -> Forall (fun v => length v = nu) us -> fl_lin_simulate rnd S x0 us xs -> 0 <= E ->
  (forall t i, (t < length us)%nat -> (i < nx)%nat -> rounding_error u eta (nx + nu + 1) (abs_dot (row A i) (nth t xs []) + abs_dot (row (lB S) i) (nth t us [])) <= E) ->
  exists ys, lin_simulate S x0 us = Ok ys /\ forall t, (t <= length us)%nat -> sup (vsub (nth t xs []) (nth t ys [])) <= c * E.
Proof.
  intros HA HR H1. apply (attractive_iff A nx r HA HR) in H1. destruct (stable_pert A nx HA H1) as (c & Pc & C). exists c. split; [exact Pc|].
  intros u eta rnd S nu x0 us xs E <- HBB RN L0 FU RUN HE HB. destruct (lin_run_data u eta rnd S nx nu x0 us xs RN (conj HA HBB) L0 FU RUN) as (ys & ES & LL & LEN & E0 & YS & XS). exists ys. split; [exact ES|].
  assert (LBB : length (rows (lB S)) = nx) by apply HBB.
  apply (C (fun t => nth t xs []) (fun t => nth t ys []) (fun t => mv (lB S) (nth t us [])) E (length us)); auto. intros t Ht. len.
Qed.
(*@ Theorem C94_affine : the same for AffineSystem.simulate *)
Lemma aff_rounded u eta rnd S nx nu x0 us xs : rounding u eta rnd -> system_shape (aA S) (aB S) nx nu -> length (ac S) = nx -> length x0 = nx -> Forall (fun v => length v = nu) us -> fl_aff_simulate rnd S x0 us xs ->
  exists ys, aff_simulate S x0 us = Ok ys /\ length xs = length ys /\ forall E, 0 <= E ->
  (forall t i, (t < length us)%nat -> (i < nx)%nat -> rounding_error u eta (nx + nu + 2) (abs_dot (row (aA S) i) (nth t xs []) + abs_dot (row (aB S) i) (nth t us []) + Rabs (nth i (ac S) 0)) <= E) ->
  (forall al, 0 <= al -> (forall i, (i < nx)%nat -> abs_dot (row (aA S) i) (ones nx) <= al) -> forall t, (t <= length us)%nat -> sup (vsub (nth t xs []) (nth t ys [])) <= E * geometric al t) /\
  (forall t i, (t < length us)%nat -> (i < nx)%nat -> Rabs (nth i (nth (Datatypes.S t) xs []) 0 - nth i (affine_step (aA S) (aB S) (ac S) (nth t xs []) (nth t us [])) 0) <= E).
Proof.
  intros RN SH Lc L0 FU RUN. destruct S as [A B c]. cbn [aA aB ac] in *. destruct (affine_simulation A B c nx nu x0 us SH Lc L0 FU) as (ys & ES & LY & Y0 & YS).
  apply fl_run_nth in RUN. destruct RUN as (LX & X0 & XS). exists ys. split; [exact ES|]. split; [lia|]. pose proof SH as (HA & HBB). assert (LA : length (rows A) = nx) by apply HA. assert (LB : length (rows B) = nx) by apply HBB.
  assert (LEN : forall t, (t <= length us)%nat -> length (nth t xs []) = nx /\ length (nth t ys []) = nx).
  { induction t as [|t IH]; intros Ht; [rewrite X0, Y0; auto|]. destruct (IH ltac:(lia)) as (I1 & I2). split.
    - apply (aff_step_err u eta rnd (ASys A B c) (nth t xs []) (nth t us []) _ nx nu RN SH Lc I1 (lens_nth FU t ltac:(lia))). apply XS. lia.
    - rewrite YS by lia. unfold affine_step. len. }
  intros E HE HB. assert (ST : forall t i, (t < length us)%nat -> (i < nx)%nat -> Rabs (nth i (nth (Datatypes.S t) xs []) 0 - nth i (affine_step A B c (nth t xs []) (nth t us [])) 0) <= E).
  { intros t i Ht Hi. destruct (LEN t ltac:(lia)) as (I1 & _). destruct (aff_step_err u eta rnd (ASys A B c) (nth t xs []) (nth t us []) _ nx nu RN SH Lc I1 (lens_nth FU t Ht) (XS t Ht)) as (_ & Q).
    eapply Rle_trans; [apply Q; exact Hi|]. apply HB; assumption. }
  split; [|exact ST]. intros al Pal Hal.
  assert (AS : forall x v, length x = nx -> affine_step A B c x v = vadd (mv A x) (vadd (mv B v) c)). { intros x v Lx. unfold affine_step. apply vec_ext; [len|]. intros i Hi. rewrite !nth_vadd by len. ring. }
  apply (pert_bound A nx al HA Pal Hal (fun t => nth t xs []) (fun t => nth t ys []) (fun t => vadd (mv B (nth t us [])) c) E (length us)); auto.
  - intros t Ht. len.
  - congruence.
  - intros t Ht. destruct (LEN t ltac:(lia)) as (I1 & _). destruct (LEN (Datatypes.S t) Ht) as (I2 & _). rewrite <- AS by exact I1. apply (sup_of_entries _ _ E nx); auto. unfold affine_step. len.
  - intros t Ht. destruct (LEN t ltac:(lia)) as (_ & I1). rewrite YS, AS by auto. reflexivity.
Qed.

(** ** Closed loop *)
Lemma relative_pert A n m al : shape A n n -> (0 < m)%nat -> (forall x, length x = n -> sup (flow A m x) <= / 2 * sup x) -> 0 <= al -> (forall i, (i < n)%nat -> abs_dot (row A i) (ones n) <= al) ->
  forall (z : nat -> vec) de h N,
  (forall t, (t <= N)%nat -> length (z t) = n) -> 0 <= de <= 1 -> de * (4 * (geometric al m + 1) * (al + 2) ^ m) <= 1 -> 0 <= h -> (forall t, (t < N)%nat -> sup (vsub (z (S t)) (mv A (z t))) <= de * sup (z t) + h) ->
  let c := (al + 2) ^ m * (4 * geometric al m + 2) in
  forall t, (t <= N)%nat -> sup (z t) <= c * (3 / 4) ^ (t / m) * sup (z 0%nat) + c * h.
Proof.
  intros HA Hm CON Pal Hal.
  set (L := geometric al m). assert (PL : 0 <= L) by (apply geometric_nonneg; exact Pal). set (G := (al + 2) ^ m). assert (PG : 1 <= G) by (apply pow_R1_Rle; lra).
  intros z de h N LEN (D0 & D2) D4 Hh ST. assert (D3 : L * de * G <= / 4) by (assert (0 <= de * G) by nra; nra).
  assert (W1 : forall t, (t < N)%nat -> sup (z (S t)) + h <= (al + 2) * (sup (z t) + h)).
  { intros t Ht. pose proof (LEN t ltac:(lia)) as L1. pose proof (LEN (S t) Ht) as L2. pose proof (mv_len A n HA (z t)) as L3.
    assert (TR : sup (z (S t)) <= sup (vsub (z (S t)) (mv A (z t))) + sup (mv A (z t))).
    { replace (z (S t)) with (vadd (vsub (z (S t)) (mv A (z t))) (mv A (z t))) at 1; [apply sup_vadd; len|]. apply vec_ext; [len|]. intros i Hi. rewrite nth_vadd, nth_vsub by len. ring. }
    pose proof (sup_mv A n n al (z t) HA Pal Hal L1). specialize (ST t Ht). pose proof (sup_nonneg (z t)). nra. }
  assert (W : forall k s, (s + k <= N)%nat -> sup (z (s + k)%nat) + h <= (al + 2) ^ k * (sup (z s) + h)).
  { induction k as [|k IH]; intros s Hs; [rewrite Nat.add_0_r; cbn; lra|]. rewrite Nat.add_succ_r. eapply Rle_trans; [apply W1; lia|]. cbn [pow]. specialize (IH s ltac:(lia)).
    rewrite Rmult_assoc. apply Rmult_le_compat_l; [lra|exact IH]. }
  assert (WG : forall k s, (k <= m)%nat -> (s + k <= N)%nat -> sup (z (s + k)%nat) + h <= G * (sup (z s) + h)).
  { intros k s Hk Hs. eapply Rle_trans; [apply W; exact Hs|]. pose proof (sup_nonneg (z s)). apply Rmult_le_compat_r; [lra|]. apply Rle_pow; [lra|exact Hk]. }
  assert (BLOCK : forall s, (s + m <= N)%nat -> sup (z (s + m)%nat) <= 3 / 4 * sup (z s) + (L + / 4) * h).
  { intros s Hs. pose proof (sup_nonneg (z s)) as Ps. set (E := de * (G * (sup (z s) + h)) + h). assert (PE : 0 <= E) by (unfold E; assert (0 <= G * (sup (z s) + h)) by nra; nra).
    assert (LF : forall k, length (flow A k (z s)) = n) by (intros; apply (flow_length A n); [exact HA|apply LEN; lia]).
    assert (Q : sup (vsub (z (s + m)%nat) (flow A m (z s))) <= E * L).
    { apply (pert_bound A n al HA Pal Hal (fun k => z (s + k)%nat) (fun k => flow A k (z s)) (fun _ => zeros n) E m); auto.
      - intros k Hk. split; [apply LEN; lia|apply LF].
      - intros k Hk. len.
      - cbn. now rewrite Nat.add_0_r.
      - intros k Hk. cbv beta. rewrite (vadd_zeros_r n) by (apply mv_len; exact HA). rewrite Nat.add_succ_r. eapply Rle_trans; [apply ST; lia|]. unfold E.
        pose proof (WG k s ltac:(lia) ltac:(lia)). nra.
      - intros k Hk. cbv beta. rewrite (vadd_zeros_r n) by (apply mv_len; exact HA). reflexivity. }
    assert (TR : sup (z (s + m)%nat) <= sup (vsub (z (s + m)%nat) (flow A m (z s))) + sup (flow A m (z s))).
    { pose proof (LEN (s + m)%nat Hs) as L2. pose proof (LF m) as L3. replace (z (s + m)%nat) with (vadd (vsub (z (s + m)%nat) (flow A m (z s))) (flow A m (z s))) at 1; [apply sup_vadd; len|]. apply vec_ext; [len|]. intros i Hi. rewrite nth_vadd, nth_vsub by len. ring. }
    pose proof (CON (z s) (LEN s ltac:(lia))). assert (E * L <= / 4 * (sup (z s) + h) + L * h). { unfold E. replace ((de * (G * (sup (z s) + h)) + h) * L) with (L * de * G * (sup (z s) + h) + L * h) by ring. apply Rplus_le_compat_r. apply Rmult_le_compat_r; [lra|exact D3]. } lra. }
  assert (BL : forall q, (q * m <= N)%nat -> sup (z (q * m)%nat) <= (3 / 4) ^ q * sup (z 0%nat) + (4 * L + 1) * h).
  { induction q as [|q IH]; intros Hq; [cbn; nra|]. cbn [Nat.mul] in *. rewrite Nat.add_comm in Hq |- *. eapply Rle_trans; [apply BLOCK; exact Hq|]. specialize (IH ltac:(lia)). cbn [pow]. nra. }
  intros c t Ht. unfold c. pose proof (Nat.div_mod t m ltac:(lia)) as DM. pose proof (Nat.mod_upper_bound t m ltac:(lia)) as MB. set (q := (t / m)%nat) in *. set (r := (t mod m)%nat) in *.
  assert (Et : t = (q * m + r)%nat) by lia. pose proof (WG r (q * m)%nat ltac:(lia) ltac:(lia)) as W2. rewrite <- Et in W2. specialize (BL q ltac:(lia)).
  pose proof (sup_nonneg (z 0%nat)) as P0. pose proof (pow_le (3 / 4) q ltac:(lra)) as PQ. assert (0 <= (3 / 4) ^ q * sup (z 0%nat)) by nra.
  assert (G * (sup (z (q * m)%nat) + h) <= G * ((3 / 4) ^ q * sup (z 0%nat) + (4 * L + 2) * h)) by (apply Rmult_le_compat_l; lra).
  assert (G * ((3 / 4) ^ q * sup (z 0%nat)) <= G * (4 * L + 2) * ((3 / 4) ^ q * sup (z 0%nat))) by (apply Rmult_le_compat_r; [assumption|nra]). nra.
Qed.
Lemma closed_step_err u eta rnd S K x x' nx nu be : rounding u eta rnd -> system_shape (lA S) (lB S) nx nu -> shape K nu nx -> length x = nx -> 
  (forall i j, (i < nx)%nat -> (j < nx)%nat -> Rabs (nth j (row (lA S) i) 0) + abs_dot (row (lB S) i) (row (tr K) j) <= be) -> fl_closed_step rnd S K x x' ->
  length x' = nx /\ sup (vsub x' (mv (madd (lA S) (mm (lB S) K)) x)) <= loop_relative u eta nx nu be * sup x + loop_absolute u eta nx.
Proof.
  intros RN (HA & HB) HK Lx HBE (BK & (NK & HF) & HM). assert (LA : length (rows (lA S)) = nx) by apply HA. assert (LB : length (rows (lB S)) = nx) by apply HB.
  pose proof (shape_tr _ _ _ HK) as HT. assert (LT : length (rows (tr K)) = nx) by apply HT.
  assert (LBK : length (rows BK) = nx) by (apply f2_length in HF; lia).
  assert (RowBK : forall i, (i < nx)%nat -> length (row BK i) = nx /\ forall j, (j < nx)%nat -> fl_dot rnd (combine (row (lB S) i) (row (tr K) j)) (nth j (row BK i) 0)).
  { intros i Hi. pose proof (f2_nth _ _ _ [] [] HF i ltac:(lia)) as Q. cbv beta in Q. split; [apply f2_length in Q; unfold row; lia|]. intros j Hj. apply (f2_nth _ _ _ [] 0 Q j). lia. }
  assert (SBK : shape BK nx nx). { split; [exact LBK|]. split; [rewrite NK; apply HK|]. rewrite Forall_forall. intros r Hr. apply (In_nth _ _ []) in Hr. destruct Hr as (i & Hi & <-). apply RowBK. lia. }
  set (Mh := fl_madd rnd (lA S) BK) in *. set (M := madd (lA S) (mm (lB S) K)).
  assert (RowA : forall i, (i < nx)%nat -> length (row (lA S) i) = nx) by (intros i Hi; apply (shape_In (lA S) nx nx); [exact HA|apply nth_In; lia]).
  assert (RowB : forall i, (i < nx)%nat -> length (row (lB S) i) = nu) by (intros i Hi; apply (shape_In (lB S) nx nu); [exact HB|apply nth_In; lia]).
  assert (RowT : forall i, (i < nx)%nat -> length (row (tr K) i) = nu) by (intros i Hi; apply (shape_In (tr K) nx nu); [exact HT|apply nth_In; lia]).
  assert (NMh : forall i, (i < nx)%nat -> row Mh i = fl_vadd rnd (row (lA S) i) (row BK i)).
  { intros i Hi. unfold row, Mh, fl_madd. cbn [rows]. clear - Hi LA LBK. revert i Hi LA LBK. generalize (rows (lA S)) (rows BK) nx. intros l l' n. revert l' n. induction l as [|a l IH]; intros [|b l'] [|n] [|i] Hi L1 L2; cbn in *; try lia; [reflexivity|]. apply (IH l' n); lia. }
  assert (SMh : shape Mh nx nx). { split; [unfold Mh, fl_madd; cbn; rewrite map2_length; lia|]. split; [apply HA|]. rewrite Forall_forall. intros r Hr. apply (In_nth _ _ []) in Hr. destruct Hr as (i & Hi & <-).
    assert (Hi' : (i < nx)%nat) by (unfold Mh, fl_madd in Hi; cbn in Hi; rewrite map2_length in Hi; lia). fold (row Mh i). rewrite NMh by exact Hi'. unfold fl_vadd. rewrite map2_length, (RowA i Hi'), (proj1 (RowBK i Hi')). lia. }
  assert (SM : shape M nx nx) by (unfold M; eauto with shp).
  assert (EM : forall i j, (i < nx)%nat -> (j < nx)%nat -> nth j (row M i) 0 = nth j (row (lA S) i) 0 + dot (row (lB S) i) (row (tr K) j)).
  { intros i j Hi Hj. assert (Lm : length (row M i) = nx) by (apply (shape_In M nx nx); [exact SM|apply nth_In; replace (length (rows M)) with nx by (symmetry; apply SM); exact Hi]).
    rewrite <- (dot_unit nx j (row M i)) by auto. rewrite dot_comm. unfold row at 1. rewrite <- nth_mv. unfold M. rewrite (mv_madd (lA S) (mm (lB S) K) nx nx); [|exact HA|eauto with shp]. rewrite nth_vadd by (rewrite !mv_length; unfold mm; cbn [rows]; rewrite ?map_length; lia).
    rewrite (mv_mm (lB S) K nu nx) by exact HK. rewrite !nth_mv. fold (row (lA S) i) (row (lB S) i). rewrite (dot_comm (row (lA S) i)), dot_unit by auto. f_equal. f_equal.
    apply vec_ext; [len; rewrite RowT by exact Hj; apply HK|]. intros k Hk. lenh Hk. rewrite nth_mv. unfold row, tr. cbn [rows]. rewrite nth_map_seq by (replace (ncols K) with nx by (symmetry; apply HK); exact Hj).
    rewrite (nth_indep _ 0 (nth j (@nil R) 0)) by (rewrite map_length; exact Hk). rewrite (map_nth (fun r => nth j r 0)). rewrite dot_comm. apply dot_unit; [exact Hj|]. apply (shape_In K nu nx); [exact HK|apply nth_In; exact Hk]. }
  set (mu := rounding_error u eta (nu + 1) be).
  assert (EMh : forall i j, (i < nx)%nat -> (j < nx)%nat -> Rabs (nth j (row Mh i) 0 - nth j (row M i) 0) <= mu).
  { intros i j Hi Hj. rewrite NMh, EM by assumption. rewrite nth_fl_vadd by (rewrite (RowA i Hi); [symmetry; apply RowBK; exact Hi|exact Hj] || rewrite ?(RowA i Hi); auto; symmetry; apply RowBK; exact Hi).
    eapply Rle_trans; [|apply (rounding_error_le u eta rnd RN (nu + 1) _ be (HBE i j Hi Hj))]. change (nu + 1)%nat with (0 + nu + 1)%nat.
    apply (sum_err u eta rnd RN); [lra|apply dot_le_abs| |].
    - rewrite Rminus_diag_eq, Rabs_R0 by reflexivity. apply (rounding_error_nonneg u eta rnd RN), Rabs_pos.
    - pose proof (row_err u eta rnd RN _ _ _ (eq_trans (RowB i Hi) (eq_sym (RowT j Hj))) (proj2 (RowBK i Hi) j Hj)) as Q. rewrite (RowT j Hj) in Q. exact Q. }
  assert (Pmu : 0 <= be -> 0 <= mu) by (intros; apply (rounding_error_nonneg u eta rnd RN); assumption).
  split; [apply (fl_mv_len _ _ _ _ _ _ SMh HM)|]. pose proof (sup_nonneg x) as PX. pose proof (pow_ge1 u eta rnd RN nx) as P1. pose proof (pos_INR nx) as PN.
  destruct (Nat.eq_dec nx 0) as [Z|NZ].
  { assert (Ln : length x' = nx) by apply (fl_mv_len _ _ _ _ _ _ SMh HM). replace (vsub x' (mv M x)) with (zeros 0).
    - rewrite sup_zeros. unfold loop_relative, loop_absolute. rewrite Z. cbn [INR]. lra.
    - symmetry. apply length_zero_iff_nil. len. }
  assert (Pbe : 0 <= be). { specialize (HBE 0%nat 0%nat ltac:(lia) ltac:(lia)). pose proof (Rabs_pos (nth 0 (row (lA S) 0) 0)). pose proof (abs_dot_nonneg (row (lB S) 0) (row (tr K) 0)). lra. }
  specialize (Pmu Pbe). assert (Prel : 0 <= loop_relative u eta nx nu be * sup x + loop_absolute u eta nx).
  { unfold loop_relative, loop_absolute. fold mu. destruct RN as (_ & PE & _). assert (0 <= ((1 + u) ^ nx - 1) * (be + mu)) by (apply Rmult_le_pos; lra). assert (0 <= INR nx * (mu + ((1 + u) ^ nx - 1) * (be + mu)) * sup x) by (apply Rmult_le_pos; [apply Rmult_le_pos; lra|exact PX]). assert (0 <= 2 * INR nx * (1 + u) ^ nx * eta) by (apply Rmult_le_pos; [apply Rmult_le_pos; lra|exact PE]). lra. }
  assert (LMx : length (mv M x) = nx) by (len; apply SM). apply (sup_of_entries _ _ _ nx); auto; [apply (fl_mv_len _ _ _ _ _ _ SMh HM)|].
  intros i Hi. rewrite nth_mv. fold (row M i). pose proof (fl_mv_err u eta rnd Mh x x' nx nx i RN SMh Lx HM Hi) as Q1.
  assert (Lmh : length (row Mh i) = nx) by (apply (shape_In Mh nx nx); [exact SMh|apply nth_In; replace (length (rows Mh)) with nx by (symmetry; apply SMh); exact Hi]).
  assert (Lm : length (row M i) = nx) by (apply (shape_In M nx nx); [exact SM|apply nth_In; replace (length (rows M)) with nx by (symmetry; apply SM); exact Hi]).
  assert (ONES : forall a c, length a = nx -> (forall j, (j < nx)%nat -> Rabs (nth j a 0) <= c) -> abs_dot a x <= INR nx * c * sup x).
  { intros a c La Hc. eapply Rle_trans; [apply abs_dot_sup; lia|]. apply Rmult_le_compat_r; [exact PX|]. rewrite La. unfold abs_dot. rewrite dot_comm. change (dot (map Rabs (ones nx)) (map Rabs a)) with (abs_dot (ones nx) a).
    eapply Rle_trans; [apply (abs_dot_le (ones nx) a c)|]; [unfold ones; rewrite repeat_length; lia|rewrite La; exact Hc|].
    assert (EO : abs_dot (ones nx) (ones (length (ones nx))) = INR nx). { unfold ones at 3. rewrite repeat_length. clear. unfold abs_dot, ones. induction nx as [|n IH]; [reflexivity|]. cbn [repeat map dot]. rewrite IH, S_INR, Rabs_pos_eq by lra. ring. }
    rewrite EO. lra. }
  assert (Q2 : Rabs (dot (row Mh i) x - dot (row M i) x) <= INR nx * mu * sup x).
  { rewrite <- dot_vsub_l by lia. eapply Rle_trans; [apply dot_le_abs|]. apply ONES; [len|]. intros j Hj. rewrite nth_vsub by lia. apply EMh; assumption. }
  assert (Q3 : abs_dot (row Mh i) x <= INR nx * (be + mu) * sup x).
  { apply ONES; [exact Lmh|]. intros j Hj. specialize (EMh i j Hi Hj). rewrite EM in EMh by assumption. specialize (HBE i j Hi Hj). pose proof (dot_le_abs (row (lB S) i) (row (tr K) j)).
    replace (nth j (row Mh i) 0) with ((nth j (row Mh i) 0 - (nth j (row (lA S) i) 0 + dot (row (lB S) i) (row (tr K) j))) + nth j (row (lA S) i) 0 + dot (row (lB S) i) (row (tr K) j)) by ring.
    eapply Rle_trans; [apply Rabs_triang|]. eapply Rle_trans; [apply Rplus_le_compat_r; apply Rabs_triang|]. lra. }
  replace (nth i x' 0 - dot (row M i) x) with ((nth i x' 0 - dot (row Mh i) x) + (dot (row Mh i) x - dot (row M i) x)) by ring. eapply Rle_trans; [apply Rabs_triang|].
  unfold rounding_error in Q1. unfold loop_relative, loop_absolute. fold mu.
  assert (((1 + u) ^ nx - 1) * abs_dot (row Mh i) x <= ((1 + u) ^ nx - 1) * (INR nx * (be + mu) * sup x)) by (apply Rmult_le_compat_l; lra). nra.
Qed.
Lemma fl_closed_nth rnd S K x N xs : fl_closed_loop rnd S K x N xs -> length xs = Datatypes.S N /\ nth 0 xs [] = x /\ forall t, (t < N)%nat -> fl_closed_step rnd S K (nth t xs []) (nth (Datatypes.S t) xs []).
Proof.
  induction 1 as [x|x x' N xs ST RUN (IH1 & IH2 & IH3)]; [split; [reflexivity|]; split; [reflexivity|]; intros; lia|].
  split; [cbn; lia|]. split; [reflexivity|]. intros [|t] Ht; cbn [nth]; [rewrite IH2; exact ST|]. apply IH3. lia.
Qed.
Lemma loop_nonneg u eta rnd nx nu be : rounding u eta rnd -> 0 <= be -> 0 <= loop_relative u eta nx nu be /\ 0 <= loop_absolute u eta nx.
Proof.
  intros RN Pbe. pose proof (pow_ge1 u eta rnd RN nx). pose proof (pos_INR nx). split.
  - unfold loop_relative. pose proof (rounding_error_nonneg u eta rnd RN (nu + 1) be Pbe). apply Rmult_le_pos; [assumption|]. nra.
  - unfold loop_absolute. destruct RN as (_ & PE & _). apply Rmult_le_pos; [nra|exact PE].
Qed.
(*@ Theorem C94_contraction : if m steps of the exact closed loop x -> (A + B K) x halve the largest entry and the relative error of one rounded step (loop_relative, about (nu + nx) nx u be) is small compared to explicit constants, all states of simulate_closed_loop satisfy |x(t)| <= c (3/4)^(t / m) |x(0)| + c loop_absolute: the rounded loop converges, except for a ball of the size of the underflow threshold *)
Lemma closed_loop_contraction u eta rnd S K nx nu be m al N x0 xs : rounding u eta rnd -> system_shape (lA S) (lB S) nx nu -> shape K nu nx -> 0 <= be ->
  (forall i j, (i < nx)%nat -> (j < nx)%nat -> Rabs (nth j (row (lA S) i) 0) + abs_dot (row (lB S) i) (row (tr K) j) <= be) ->
  (0 < m)%nat -> (forall x, length x = nx -> sup (flow (madd (lA S) (mm (lB S) K)) m x) <= / 2 * sup x) ->
  0 <= al -> (forall i, (i < nx)%nat -> abs_dot (row (madd (lA S) (mm (lB S) K)) i) (ones nx) <= al) ->
  loop_relative u eta nx nu be <= 1 -> loop_relative u eta nx nu be * (4 * (geometric al m + 1) * (al + 2) ^ m) <= 1 ->
  length x0 = nx -> fl_closed_loop rnd S K x0 N xs -> let c := (al + 2) ^ m * (4 * geometric al m + 2) in
  length xs = Datatypes.S N /\ forall t, (t <= N)%nat -> sup (nth t xs []) <= c * (3 / 4) ^ (t / m) * sup x0 + c * loop_absolute u eta nx.
Proof.
  intros RN SH HK Pbe HBE Hm CON Pal Hal D1 D2 L0 RUN c. pose proof SH as (HA & HB). assert (SM : shape (madd (lA S) (mm (lB S) K)) nx nx) by eauto with shp.
  apply fl_closed_nth in RUN. destruct RUN as (LX & X0 & XS). split; [exact LX|]. destruct (loop_nonneg u eta rnd nx nu be RN Pbe) as (P1 & P2).
  assert (LEN : forall t, (t <= N)%nat -> length (nth t xs []) = nx). { induction t as [|t IH]; intros Ht; [rewrite X0; exact L0|]. apply (closed_step_err u eta rnd S K (nth t xs []) _ nx nu be RN SH HK (IH ltac:(lia)) HBE). apply XS. lia. }
  intros t Ht. replace (sup x0) with (sup (nth 0 xs [])) by now rewrite X0. apply (relative_pert _ nx m al SM Hm CON Pal Hal (fun t => nth t xs []) (loop_relative u eta nx nu be) (loop_absolute u eta nx) N); auto.
  intros k Hk. apply (closed_step_err u eta rnd S K (nth k xs []) _ nx nu be RN SH HK (LEN k ltac:(lia)) HBE). apply XS. exact Hk.
Qed.
(*@ Theorem C94_closed_loop : if the spectral radius of A + B K is less than one there are constants m, c, d, depending on A, B, K only, such that for every way to round whose relative error over one step is at most d, all states of simulate_closed_loop satisfy |x(t)| <= c (3/4)^(t / m) |x(0)| + c loop_absolute *)
Lemma closed_loop_rounded S K nx nu r : system_shape (lA S) (lB S) nx nu -> shape K nu nx -> spectral_radius (madd (lA S) (mm (lB S) K)) nx r -> r < 1 ->
  exists m c d, (0 < m)%nat /\ 0 <= c /\ 0 < d /\ forall u eta rnd be N x0 xs, rounding u eta rnd -> 0 <= be ->
    (forall i j, (i < nx)%nat -> (j < nx)%nat -> Rabs (nth j (row (lA S) i) 0) + abs_dot (row (lB S) i) (row (tr K) j) <= be) ->
    loop_relative u eta nx nu be <= d -> length x0 = nx -> fl_closed_loop rnd S K x0 N xs ->
    length xs = Datatypes.S N /\ forall t, (t <= N)%nat -> sup (nth t xs []) <= c * (3 / 4) ^ (t / m) * sup x0 + c * loop_absolute u eta nx.
Proof.
  intros SH HK HR H1. pose proof SH as (HA & HB). assert (SM : shape (madd (lA S) (mm (lB S) K)) nx nx) by eauto with shp. apply (attractive_iff _ nx r SM HR) in H1.
  destruct (attractive_contracts _ nx SM H1) as (m & Hm & CON). destruct (row_sums _ nx nx SM) as (al & Pal & Hal).
  set (L := geometric al m). assert (PL : 0 <= L) by (apply geometric_nonneg; exact Pal). set (G := (al + 2) ^ m). assert (PG : 1 <= G) by (apply pow_R1_Rle; lra).
  assert (PD : 0 < / (4 * (L + 1) * G)). { apply Rinv_0_lt_compat. nra. }
  exists m, (G * (4 * L + 2)), (Rmin 1 (/ (4 * (L + 1) * G))). split; [exact Hm|]. split; [nra|]. split; [apply Rmin_pos; [lra|exact PD]|].
  intros u eta rnd be N x0 xs RN Pbe HBE HD L0 RUN. destruct (loop_nonneg u eta rnd nx nu be RN Pbe) as (P1 & _).
  apply (closed_loop_contraction u eta rnd S K nx nu be m al N x0 xs); auto; [eapply Rle_trans; [exact HD|apply Rmin_l]|].
  assert (D4 : loop_relative u eta nx nu be <= / (4 * (L + 1) * G)) by (eapply Rle_trans; [exact HD|apply Rmin_r]). apply (Rmult_le_compat_r (4 * (L + 1) * G)) in D4; [|nra]. rewrite Rinv_l in D4 by nra. exact D4.
Qed.
