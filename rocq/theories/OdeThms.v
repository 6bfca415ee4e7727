(** * OdeThms: solutions of dx/dt = A x + B u + c exist; what the discretizations are for them (C34) *)
From Coq Require Import Rseries SeqProp Lra Lia String ZArith.
From Verif Require Import Arr ArrFacts Spec SpecDyn Numpy Pnnls GeomUtils Polyhedron PolyThms Dynamics Oracle PolyMore DynThms ZohThms.
Local Open Scope list_scope.
Open Scope R_scope.

(** ** Derivative of sum_k t^k/k! a_k *)
Lemma pow_lip x y T n : Rabs x <= T -> Rabs y <= T -> Rabs (x ^ S n - y ^ S n) <= INR (S n) * Rabs (x - y) * T ^ n.
Proof.
  intros Hx Hy. induction n as [|n IH]; [cbn; rewrite !Rmult_1_r; lra|].
  replace (x ^ S (S n) - y ^ S (S n)) with (x * (x ^ S n - y ^ S n) + (x - y) * y ^ S n) by (cbn; ring). eapply Rle_trans; [apply Rabs_triang|]. rewrite !Rabs_mult.
  assert (Rabs (y ^ S n) <= T ^ S n) by (rewrite <- RPow_abs; apply pow_incr; split; [apply Rabs_pos|exact Hy]). pose proof (Rabs_pos (x - y)). pose proof (Rabs_pos x).
  assert (Rabs x * Rabs (x ^ S n - y ^ S n) <= T * (INR (S n) * Rabs (x - y) * T ^ n)) by (apply Rmult_le_compat; try assumption; apply Rabs_pos).
  assert (Rabs (x - y) * Rabs (y ^ S n) <= Rabs (x - y) * T ^ S n) by (apply Rmult_le_compat_l; assumption). rewrite (S_INR (S n)). cbn [pow] in *. nra.
Qed.
Lemma pow_taylor y d T n : Rabs (y + d) <= T -> Rabs y <= T ->
  Rabs ((y + d) ^ S (S n) - y ^ S (S n) - INR (S (S n)) * d * y ^ S n) <= INR (S n) * INR (S (S n)) * (d * d) * T ^ n.
Proof.
  intros Hx Hy. assert (HT : 0 <= T) by (eapply Rle_trans; [apply Rabs_pos|exact Hy]). induction n as [|n IH].
  - cbn [pow INR]. replace ((y + d) * ((y + d) * 1) - y * (y * 1) - (1 + 1) * d * (y * 1)) with (d * d) by ring. rewrite Rabs_right by nra. nra.
  - set (k := INR (S (S n))) in *. replace ((y + d) ^ S (S (S n)) - y ^ S (S (S n)) - INR (S (S (S n))) * d * y ^ S (S n)) with ((y + d) * ((y + d) ^ S (S n) - y ^ S (S n) - k * d * y ^ S n) + k * (d * d) * y ^ S n) by (rewrite (S_INR (S (S n))); fold k; cbn [pow]; ring).
    eapply Rle_trans; [apply Rabs_triang|]. rewrite !Rabs_mult. assert (Pk : 0 <= k) by apply pos_INR. rewrite (Rabs_right k) by lra.
    assert (D2 : Rabs d * Rabs d = d * d) by (rewrite <- Rabs_mult; apply Rabs_right; nra). rewrite D2.
    assert (Q : Rabs (y ^ S n) <= T ^ S n) by (rewrite <- RPow_abs; apply pow_incr; split; [apply Rabs_pos|exact Hy]).
    assert (Rabs (y + d) * Rabs ((y + d) ^ S (S n) - y ^ S (S n) - k * d * y ^ S n) <= T * (INR (S n) * k * (d * d) * T ^ n)) by (apply Rmult_le_compat; try assumption; apply Rabs_pos).
    assert (k * (d * d) * Rabs (y ^ S n) <= k * (d * d) * T ^ S n) by (apply Rmult_le_compat_l; [nra|exact Q]).
    rewrite (S_INR (S (S n))). fold k. assert (K1 : k = INR (S n) + 1) by (unfold k; apply S_INR). assert (0 <= k * (d * d) * T ^ S n) by (apply Rmult_le_pos; [nra|apply pow_le; exact HT]). cbn [pow] in *. rewrite K1 in *. nra.
Qed.
Definition et (k : nat) (t : R) : R := t ^ k / INR (fact k).
Lemma et_nonneg k t : 0 <= t -> 0 <= et k t.
Proof. intros H. unfold et. apply Rmult_le_pos; [apply pow_le; exact H|]. left. apply Rinv_0_lt_compat, INR_fact_lt_0. Qed.
Lemma et_taylor y d T k : Rabs (y + d) <= T -> Rabs y <= T -> Rabs (et (S (S k)) (y + d) - et (S (S k)) y - d * et (S k) y) <= d * d * et k T.
Proof.
  intros Hx Hy. pose proof (pow_taylor y d T k Hx Hy) as P. unfold et. pose proof (INR_fact_lt_0 k) as F0. set (F := INR (fact k)) in *.
  assert (F1 : INR (fact (S k)) = INR (S k) * F) by (unfold F; rewrite <- mult_INR; reflexivity). assert (F2 : INR (fact (S (S k))) = INR (S (S k)) * (INR (S k) * F)) by (rewrite <- F1, <- mult_INR; reflexivity).
  rewrite F1, F2. assert (P1 : 0 < INR (S k)) by (apply lt_0_INR; lia). assert (P2 : 0 < INR (S (S k))) by (apply lt_0_INR; lia).
  set (a := INR (S k)) in *. set (b := INR (S (S k))) in *. set (g := b * (a * F)). assert (Pg : 0 < g) by (unfold g; repeat apply Rmult_lt_0_compat; assumption).
  replace ((y + d) ^ S (S k) / g - y ^ S (S k) / g - d * (y ^ S k / (a * F))) with (((y + d) ^ S (S k) - y ^ S (S k) - b * d * y ^ S k) / g) by (unfold g; field; lra).
  unfold Rdiv at 1. rewrite Rabs_mult, (Rabs_right (/ g)) by (left; apply Rinv_0_lt_compat; exact Pg).
  replace (d * d * (T ^ k / F)) with (a * b * (d * d) * T ^ k * / g) by (unfold g; field; lra). apply Rmult_le_compat_r; [left; apply Rinv_0_lt_compat; exact Pg|exact P].
Qed.
Fixpoint ps (a : nat -> R) (N : nat) (t : R) : R := match N with O => 0 | S N' => ps a N' t + et N' t * a N' end.
Lemma ps_taylor a K y d T N : Rabs (y + d) <= T -> Rabs y <= T -> (forall k, Rabs (a k) <= K k) ->
  Rabs (ps a (S (S N)) (y + d) - ps a (S (S N)) y - d * ps (fun k => a (S k)) (S N) y) <= d * d * ps (fun k => K (S (S k))) N T.
Proof.
  intros Hx Hy HK. assert (HT : 0 <= T) by (eapply Rle_trans; [apply Rabs_pos|exact Hy]). induction N as [|N IH].
  - cbn. unfold et. cbn. match goal with |- Rabs ?z <= _ => replace z with 0 by field end. rewrite Rabs_R0. lra.
  - set (k := S (S N)) in *. change (ps a (S k) (y + d)) with (ps a k (y + d) + et k (y + d) * a k). change (ps a (S k) y) with (ps a k y + et k y * a k).
    change (ps (fun k => a (S k)) k y) with (ps (fun k => a (S k)) (S N) y + et (S N) y * a k). change (ps (fun k => K (S (S k))) (S N) T) with (ps (fun k => K (S (S k))) N T + et N T * K k).
    replace (ps a k (y + d) + et k (y + d) * a k - (ps a k y + et k y * a k) - d * (ps (fun k => a (S k)) (S N) y + et (S N) y * a k)) with ((ps a k (y + d) - ps a k y - d * ps (fun k => a (S k)) (S N) y) + (et k (y + d) - et k y - d * et (S N) y) * a k) by ring.
    eapply Rle_trans; [apply Rabs_triang|]. rewrite (Rabs_mult _ (a k)). pose proof (et_taylor y d T N Hx Hy) as P.
    assert (Rabs (et k (y + d) - et k y - d * et (S N) y) * Rabs (a k) <= d * d * et N T * K k) by (apply Rmult_le_compat; try apply Rabs_pos; [exact P|apply HK]). rewrite Rmult_plus_distr_l. lra.
Qed.
Lemma ps_limit a K L t : 0 <= K -> 0 <= L -> (forall k, Rabs (a k) <= K * L ^ k) -> { l | Un_cv (fun N => ps a N t) l }.
Proof.
  intros HK HL Ha. assert (C : { l | Un_cv (fun N => sum_f_R0 (fun k => et k t * a k) N) l }).
  { apply R_complete. apply (cauchy_abs (fun k => et k t * a k)). apply cv_cauchy_1.
    apply (Rseries_CV_comp (fun k => Rabs (et k t * a k)) (fun k => (/ INR (fact k) * (Rabs t * L) ^ k) * K)).
    - intros k. split; [apply Rabs_pos|]. unfold et, Rdiv. rewrite !Rabs_mult. assert (0 < / INR (fact k)) by (apply Rinv_0_lt_compat, INR_fact_lt_0). rewrite (Rabs_right (/ INR (fact k))) by lra. rewrite <- RPow_abs, Rpow_mult_distr.
      replace (/ INR (fact k) * (Rabs t ^ k * L ^ k) * K) with (Rabs t ^ k * / INR (fact k) * (K * L ^ k)) by ring. apply Rmult_le_compat_l; [|apply Ha]. apply Rmult_le_pos; [apply pow_le, Rabs_pos|lra].
    - destruct (exist_exp (Rabs t * L)) as (l & Hl). exists (l * K). apply (Un_cv_ext (fun N => sum_f_R0 (fun k => / INR (fact k) * (Rabs t * L) ^ k) N * K)).
      + intros N. symmetry. rewrite <- scal_sum. apply Rmult_comm.
      + apply CV_mult; [exact Hl|]. intros e He. exists 0%nat. intros. unfold R_dist. rewrite Rminus_diag_eq, Rabs_R0 by reflexivity. exact He. }
  destruct C as (l & Hl). exists l. assert (E : forall N, ps a (S N) t = sum_f_R0 (fun k => et k t * a k) N).
  { induction N as [|N IH]; [cbn; ring|]. cbn [ps sum_f_R0] in *. rewrite IH. reflexivity. }
  intros e He. destruct (Hl e He) as (N0 & HN). exists (S N0). intros N GN. destruct N as [|N]; [lia|]. rewrite E. apply HN. lia.
Qed.
Lemma cv_const c : Un_cv (fun _ => c) c.
Proof. intros e He. exists 0%nat. intros. unfold R_dist. rewrite Rminus_diag_eq, Rabs_R0 by reflexivity. exact He. Qed.
Lemma cv_shift u l : Un_cv u l -> Un_cv (fun N => u (S N)) l.
Proof. intros H e He. destruct (H e He) as (N0 & HN). exists N0. intros N GN. apply HN. lia. Qed.
(** second-order remainder of the limit, uniformly for |y|, |y + d| <= T *)
Lemma limit_taylor a K L (f g : R -> R) T : 0 <= K -> 0 <= L -> 0 <= T -> (forall k, Rabs (a k) <= K * L ^ k) -> (forall t, Un_cv (fun N => ps a N t) (f t)) -> (forall t, Un_cv (fun N => ps (fun k => a (S k)) N t) (g t)) ->
  exists C, 0 <= C /\ forall y d, Rabs y <= T -> Rabs (y + d) <= T -> Rabs (f (y + d) - f y - d * g y) <= C * (d * d).
Proof.
  intros HK HL HT Ha Hf Hg. set (B := fun k => K * L ^ S (S k)). assert (PB : forall k, 0 <= B k) by (intros k; unfold B; apply Rmult_le_pos; [exact HK|apply pow_le; exact HL]).
  destruct (ps_limit B (K * (L * L)) L T) as (C & HC); [apply Rmult_le_pos; [exact HK|nra]|exact HL|intros k; unfold B; cbn [pow]; rewrite Rabs_right; [right; ring|apply Rle_ge; apply (PB k)]|].
  assert (GR : Un_growing (fun N => ps B N T)) by (intros N; cbn; pose proof (et_nonneg N T HT); pose proof (PB N); nra).
  assert (UB : forall N, ps B N T <= C) by (intros N; apply (growing_ineq (fun N => ps B N T) C GR HC)). exists C. split; [exact (UB 0%nat)|].
  intros y d Hy Hd. eapply (Rle_cv_lim (Un := fun N => Rabs (ps a (S (S N)) (y + d) - ps a (S (S N)) y - d * ps (fun k => a (S k)) (S N) y)) (Vn := fun _ => C * (d * d))).
  - intros N. eapply Rle_trans; [apply (ps_taylor a (fun k => K * L ^ k) y d T N Hd Hy Ha)|]. specialize (UB N). unfold B in UB. assert (0 <= d * d) by nra. nra.
  - apply cv_cvabs. apply CV_minus; [apply CV_minus|].
    + apply (cv_shift (fun N => ps a (S N) (y + d))), (cv_shift (fun N => ps a N (y + d))), Hf.
    + apply (cv_shift (fun N => ps a (S N) y)), (cv_shift (fun N => ps a N y)), Hf.
    + apply CV_mult; [apply cv_const|]. apply (cv_shift (fun N => ps (fun k => a (S k)) N y)), Hg.
  - apply cv_const.
Qed.
Lemma limit_deriv a K L (f g : R -> R) t : 0 <= K -> 0 <= L -> (forall k, Rabs (a k) <= K * L ^ k) -> (forall t, Un_cv (fun N => ps a N t) (f t)) -> (forall t, Un_cv (fun N => ps (fun k => a (S k)) N t) (g t)) ->
  derivable_pt_lim f t (g t).
Proof.
  intros HK HL Ha Hf Hg. pose proof (Rabs_pos t) as Pt. destruct (limit_taylor a K L f g (Rabs t + 1) HK HL ltac:(lra) Ha Hf Hg) as (C & HC & H). intros eps He.
  assert (Pd : 0 < Rmin 1 (eps / (C + 1))) by (apply Rmin_pos; [lra|apply Rdiv_lt_0_compat; lra]). exists (mkposreal _ Pd). intros d Nd Hd. cbn in Hd.
  assert (D1' : Rabs d < 1) by (eapply Rlt_le_trans; [exact Hd|apply Rmin_l]). assert (D2' : Rabs d < eps / (C + 1)) by (eapply Rlt_le_trans; [exact Hd|apply Rmin_r]).
  assert (Q : Rabs (f (t + d) - f t - d * g t) <= C * (d * d)) by (apply H; [lra|eapply Rle_trans; [apply Rabs_triang|]; lra]).
  replace ((f (t + d) - f t) / d - g t) with ((f (t + d) - f t - d * g t) * / d) by (field; exact Nd). assert (Pa : 0 < Rabs d) by (apply Rabs_pos_lt; exact Nd). rewrite Rabs_mult, Rabs_inv.
  apply Rle_lt_trans with (C * (d * d) * / Rabs d); [apply Rmult_le_compat_r; [left; apply Rinv_0_lt_compat; exact Pa|exact Q]|].
  replace (d * d) with (Rabs d * Rabs d) by (rewrite <- Rabs_mult; apply Rabs_right; nra). replace (C * (Rabs d * Rabs d) * / Rabs d) with (C * Rabs d) by (field; lra).
  apply Rle_lt_trans with ((C + 1) * Rabs d); [nra|]. apply Rlt_le_trans with ((C + 1) * (eps / (C + 1))); [apply Rmult_lt_compat_l; lra|right; field; lra].
Qed.

(** ** Linear systems dz/dt = M z *)
Section Flow.
Variables (M : mat) (n : nat) (z0 : vec).
Hypothesis HM : shape M n n.
Hypothesis L0 : length z0 = n.
Definition cf (i k : nat) : R := nth i (mv (mpow M k) z0) 0.
Definition K0 : R := vsum (map Rabs z0).
Lemma K0_nonneg : 0 <= K0. Proof. apply rowsum_nonneg. Qed.
Lemma cf_bound i k : Rabs (cf i k) <= K0 * Lm M ^ k.
Proof.
  pose proof (Lm_nonneg M) as LL. pose proof K0_nonneg as KK. unfold cf. revert i. induction k as [|k IH]; intros i.
  - rewrite (mv_mpow_0 M n) by auto. cbn [pow]. rewrite Rmult_1_r. unfold K0. clear. revert i. induction z0 as [|a l IH]; intros i; [destruct i; cbn; rewrite Rabs_R0; lra|].
    cbn [map]. change (vsum (Rabs a :: map Rabs l)) with (Rabs a + vsum (map Rabs l)). pose proof (rowsum_nonneg l). pose proof (Rabs_pos a). destruct i; cbn [nth]; [lra|]. specialize (IH i). lra.
  - destruct (le_lt_dec n i) as [G|G].
    + rewrite nth_overflow by (rewrite mv_length, (proj1 (shape_mpow M n (S k) HM)); exact G). rewrite Rabs_R0. apply Rmult_le_pos; [exact KK|apply pow_le; exact LL].
    + rewrite (mv_mpow_S M n) by exact HM. eapply Rle_trans; [apply (mv_bound M n HM _ (K0 * Lm M ^ k)); [exact G|exact IH]|]. cbn [pow]. right. ring.
Qed.
Definition fl (i : nat) (t : R) : R := proj1_sig (ps_limit (cf i) K0 (Lm M) t K0_nonneg (Lm_nonneg M) (cf_bound i)).
Lemma fl_cv i t : Un_cv (fun N => ps (cf i) N t) (fl i t).
Proof. unfold fl. destruct (ps_limit _ _ _ _ _ _ _). exact u. Qed.
Definition zt (t : R) : vec := map (fun i => fl i t) (seq 0 n).
Lemma zt_length t : length (zt t) = n. Proof. unfold zt. rewrite map_length, seq_length. reflexivity. Qed.
Lemma nth_zt i t : (i < n)%nat -> nth i (zt t) 0 = fl i t.
Proof. intros H. unfold zt. rewrite (nth_indep _ 0 (fl 0 t)) by (rewrite map_length, seq_length; exact H). rewrite (map_nth (fun i => fl i t)), seq_nth by exact H. reflexivity. Qed.
(** the vector of partial sums *)
Definition pv (N : nat) (t : R) : vec := map (fun i => ps (cf i) N t) (seq 0 n).
Lemma nth_pv i N t : (i < n)%nat -> nth i (pv N t) 0 = ps (cf i) N t.
Proof. intros H. unfold pv. rewrite (nth_indep _ 0 (ps (cf 0) N t)) by (rewrite map_length, seq_length; exact H). rewrite (map_nth (fun i => ps (cf i) N t)), seq_nth by exact H. reflexivity. Qed.
Lemma pv_length N t : length (pv N t) = n. Proof. unfold pv. rewrite map_length, seq_length. reflexivity. Qed.
Lemma dot_pv r N t : length r = n -> dot r (pv N t) = ps (fun k => dot r (mv (mpow M k) z0)) N t.
Proof.
  intros Lr. assert (LM : forall k, length (mv (mpow M k) z0) = n) by (intros k; rewrite mv_length; apply (shape_mpow M n k HM)). induction N as [|N IH].
  - cbn. replace (pv 0 t) with (zeros n); [apply dot_zeros_r|]. apply vec_ext; [rewrite zeros_length, pv_length; reflexivity|]. intros i Hi. rewrite zeros_length in Hi. rewrite nth_zeros, nth_pv by exact Hi. reflexivity.
  - cbn [ps]. rewrite <- IH. replace (pv (S N) t) with (vadd (pv N t) (vscale (et N t) (mv (mpow M N) z0))); [rewrite dot_vadd_r, dot_vscale_r by (rewrite ?vscale_length, ?pv_length, ?LM; reflexivity); reflexivity|].
    assert (LV : length (vadd (pv N t) (vscale (et N t) (mv (mpow M N) z0))) = n) by (rewrite vadd_length, pv_length, vscale_length, LM; lia). apply vec_ext; [rewrite LV, pv_length; reflexivity|]. intros i Hi. rewrite LV in Hi. rewrite nth_vadd, nth_vscale by (rewrite vscale_length, pv_length, LM; reflexivity). rewrite !nth_pv by exact Hi. reflexivity.
Qed.
Lemma flow_deriv i t : (i < n)%nat -> derivable_pt_lim (fun s => nth i (zt s) 0) t (nth i (mv M (zt t)) 0).
Proof.
  intros Hi. assert (Lr : length (row M i) = n) by (apply (shape_row M n n); auto).
  assert (G : forall t, Un_cv (fun N => ps (fun k => cf i (S k)) N t) (nth i (mv M (zt t)) 0)).
  { intros s. rewrite nth_mv. fold (row M i). apply (Un_cv_ext (fun N => dot (pv N s) (row M i))).
    - intros N. rewrite dot_comm, dot_pv by exact Lr. induction N as [|N IH]; [reflexivity|]. cbn [ps]. rewrite IH. f_equal. f_equal. unfold cf. rewrite (mv_mpow_S M n), nth_mv by exact HM. reflexivity.
    - rewrite dot_comm. apply (dot_limit (fun N => pv N s) (zt s) (row M i) n); [intros; apply pv_length|apply zt_length|exact Lr|]. intros j Hj. rewrite nth_zt by exact Hj. apply (Un_cv_ext (fun N => ps (cf j) N s)); [intros N; symmetry; apply nth_pv; exact Hj|apply fl_cv]. }
  pose proof (limit_deriv (cf i) K0 (Lm M) (fun s => nth i (zt s) 0) (fun s => nth i (mv M (zt s)) 0) t K0_nonneg (Lm_nonneg M) (cf_bound i)) as D. apply D; [|exact G].
  intros s. rewrite nth_zt by exact Hi. apply fl_cv.
Qed.
(** second-order remainder *)
Lemma flow_taylor T : 0 <= T -> exists C, 0 <= C /\ forall i d, (i < n)%nat -> 0 <= d <= T -> Rabs (nth i (zt d) 0 - nth i (zt 0) 0 - d * nth i (mv M (zt 0)) 0) <= C * (d * d).
Proof.
  intros HT. assert (E : forall i, (i < n)%nat -> exists C, 0 <= C /\ forall d, 0 <= d <= T -> Rabs (nth i (zt d) 0 - nth i (zt 0) 0 - d * nth i (mv M (zt 0)) 0) <= C * (d * d)).
  { intros i Hi. assert (Lr : length (row M i) = n) by (apply (shape_row M n n); auto).
    assert (G : forall t, Un_cv (fun N => ps (fun k => cf i (S k)) N t) (nth i (mv M (zt t)) 0)).
    { intros s. rewrite nth_mv. fold (row M i). apply (Un_cv_ext (fun N => dot (pv N s) (row M i))).
      - intros N. rewrite dot_comm, dot_pv by exact Lr. induction N as [|N IH]; [reflexivity|]. cbn [ps]. rewrite IH. f_equal. f_equal. unfold cf. rewrite (mv_mpow_S M n), nth_mv by exact HM. reflexivity.
      - rewrite dot_comm. apply (dot_limit (fun N => pv N s) (zt s) (row M i) n); [intros; apply pv_length|apply zt_length|exact Lr|]. intros j Hj. rewrite nth_zt by exact Hj. apply (Un_cv_ext (fun N => ps (cf j) N s)); [intros N; symmetry; apply nth_pv; exact Hj|apply fl_cv]. }
    destruct (limit_taylor (cf i) K0 (Lm M) (fun s => nth i (zt s) 0) (fun s => nth i (mv M (zt s)) 0) T K0_nonneg (Lm_nonneg M) HT (cf_bound i)) as (C & HC & H); [intros s; rewrite nth_zt by exact Hi; apply fl_cv|exact G|].
    exists C. split; [exact HC|]. intros d Hd. specialize (H 0 d). rewrite Rplus_0_l in H. apply H; [rewrite Rabs_R0; exact HT|rewrite Rabs_right; lra]. }
  assert (F : forall m, (m <= n)%nat -> exists C, 0 <= C /\ forall i d, (i < m)%nat -> 0 <= d <= T -> Rabs (nth i (zt d) 0 - nth i (zt 0) 0 - d * nth i (mv M (zt 0)) 0) <= C * (d * d)).
  { induction m as [|m IH]; intros Hm; [exists 0; split; [lra|intros; lia]|]. destruct (IH ltac:(lia)) as (C & HC & H). destruct (E m ltac:(lia)) as (C' & HC' & H'). exists (C + C'). split; [lra|].
    intros i d Hi Hd. assert (0 <= d * d) by nra. destruct (Nat.eq_dec i m) as [-> | Ni]; [specialize (H' d Hd)|specialize (H i d ltac:(lia) Hd)]; nra. }
  destruct (F n (le_n n)) as (C & HC & H). exists C. split; assumption.
Qed.
Lemma ps_const a N t : (forall k, a (S k) = 0) -> ps a (S N) t = a 0%nat.
Proof. intros H. induction N as [|N IH]; [cbn; unfold et; cbn; field|]. cbn [ps] in *. rewrite IH, H. ring. Qed.
Lemma ps_at_0 a N : ps a (S N) 0 = a 0%nat.
Proof. induction N as [|N IH]; [cbn; unfold et; cbn; field|]. cbn [ps] in *. rewrite IH. unfold et. cbn [pow]. unfold Rdiv. ring. Qed.
Lemma cv_eventually u l c : (forall N, u (S N) = c) -> Un_cv u l -> l = c.
Proof. intros H Hu. apply (UL_sequence (fun N => u (S N))); [apply cv_shift, Hu|]. apply (Un_cv_ext (fun _ => c)); [intros; symmetry; apply H|apply cv_const]. Qed.
Lemma zt_0 : zt 0 = z0.
Proof.
  apply vec_ext; [rewrite zt_length; symmetry; exact L0|]. intros i Hi. rewrite zt_length in Hi. rewrite nth_zt by exact Hi. rewrite (cv_eventually _ _ (cf i 0) (fun N => ps_at_0 (cf i) N) (fl_cv i 0)). unfold cf. rewrite (mv_mpow_0 M n) by auto. reflexivity.
Qed.
(** coordinates whose row of M vanishes are constant *)
Lemma zt_const i t : (i < n)%nat -> (forall z, nth i (mv M z) 0 = 0) -> nth i (zt t) 0 = nth i z0 0.
Proof.
  intros Hi Hz. rewrite nth_zt by exact Hi. rewrite (cv_eventually _ _ (cf i 0) (fun N => ps_const (cf i) N t (fun k => ltac:(unfold cf; rewrite (mv_mpow_S M n) by exact HM; apply Hz))) (fl_cv i t)). unfold cf. rewrite (mv_mpow_0 M n) by auto. reflexivity.
Qed.
End Flow.

(** ** dx/dt = A x + B u + c *)
Lemma zoh_rows A B c nx nu i z : shape A nx nx -> shape B nx nu -> length c = nx -> (nx <= i)%nat -> nth i (mv (zoh_matrix A B c) z) 0 = 0.
Proof.
  intros HA HB Lc Hi. rewrite nth_mv. unfold zoh_matrix, vstack. cbn [rows]. assert (LT : length (rows (hstack (hstack A B) (Mat 1 (map (fun ci => [ci]) c)))) = nx).
  { pose proof (colmat_shape c) as Sc. rewrite Lc in Sc. apply (shape_hstack _ _ nx (nx + nu) 1); [apply shape_hstack; assumption|exact Sc]. }
  rewrite app_nth2 by (rewrite LT; exact Hi). unfold zmat. cbn [rows]. destruct (le_lt_dec (ncols B + 1) (i - length (rows (hstack (hstack A B) (Mat 1 (map (fun ci => [ci]) c)))))) as [G|G].
  - rewrite nth_overflow by (rewrite repeat_length; exact G). reflexivity.
  - rewrite (nth_indep _ [] (zeros (nrows A + ncols B + 1))) by (rewrite repeat_length; exact G). rewrite nth_repeat. apply dot_zeros_l.
Qed.
Lemma ode_exists A B c u x0 nx nu : system_shape A B nx nu -> length c = nx -> length u = nu -> length x0 = nx ->
  exists x, x 0 = x0 /\ (forall h, ode_solution A B c u nx h x) /\
    forall T, 0 <= T -> exists C, 0 <= C /\ forall i d, (i < nx)%nat -> 0 <= d <= T -> Rabs (nth i (x d) 0 - nth i x0 0 - d * nth i (affine_step A B c x0 u) 0) <= C * (d * d).
Proof.
  intros (HA & HB) Lc Lu Lx. set (M := zoh_matrix A B c). set (n := (nx + nu + 1)%nat). set (z0 := (x0 ++ u) ++ [1]). assert (HM : shape M n n) by (apply zoh_shape; assumption). assert (L0 : length z0 = n) by (unfold z0, n; rewrite !app_length; cbn; lia).
  set (z := zt M n z0 HM L0). set (x := fun t => firstn nx (z t)). assert (Lz : forall t, length (z t) = n) by (intros t; apply zt_length). assert (LX : forall t, length (x t) = nx) by (intros t; unfold x; rewrite firstn_length, Lz; unfold n; lia).
  assert (SP : forall t, z t = (x t ++ u) ++ [1]).
  { intros t. apply vec_ext; [rewrite Lz, !app_length, LX; unfold n; cbn; lia|]. intros i Hi. rewrite Lz in Hi. rewrite <- app_assoc. destruct (le_lt_dec nx i) as [G|G].
    - rewrite (app_nth2 (x t)), LX by (rewrite LX; exact G). unfold z. rewrite (zt_const M n z0 HM L0 i t Hi) by (intros y; apply (zoh_rows A B c nx nu); assumption). unfold z0. rewrite <- app_assoc, app_nth2 by (rewrite Lx; exact G). rewrite Lx. reflexivity.
    - rewrite app_nth1 by (rewrite LX; exact G). unfold x. rewrite nth_firstn' by exact G. reflexivity. }
  assert (NX : forall t i, (i < nx)%nat -> nth i (x t) 0 = nth i (z t) 0) by (intros t i Hi; unfold x; apply nth_firstn'; exact Hi).
  assert (E0 : x 0 = x0) by (unfold x, z; rewrite zt_0; unfold z0; rewrite <- app_assoc, firstn_app, Lx, Nat.sub_diag, firstn_O, app_nil_r, <- Lx, firstn_all; reflexivity).
  assert (DV : forall t i, (i < nx)%nat -> nth i (mv M (z t)) 0 = nth i (vadd (vadd (mv A (x t)) (mv B u)) c) 0).
  { intros t i Hi. rewrite SP. unfold M. rewrite (mv_zoh A B c nx nu) by auto. rewrite app_nth1; [reflexivity|]. rewrite !vadd_length, !mv_length, Lc. destruct HA as (-> & _), HB as (-> & _). lia. }
  exists x. split; [exact E0|]. split.
  - intros h. split; [exact LX|]. intros t Ht i Hi. rewrite <- DV by exact Hi. pose proof (flow_deriv M n z0 HM L0 i t ltac:(unfold n; lia)) as D. fold z in D. intros eps He. destruct (D eps He) as (dl & Hd). exists dl. intros d N1 N2. rewrite !NX by exact Hi. apply Hd; assumption.
  - intros T HT. destruct (flow_taylor M n z0 HM L0 T HT) as (C & HC & H). exists C. split; [exact HC|]. intros i d Hi Hd. specialize (H i d ltac:(unfold n; lia) Hd). fold z in H. rewrite DV in H by exact Hi. rewrite <- !NX, E0 in H by exact Hi. exact H.
Qed.
Lemma ode_shorter A B c u nx h h' x : ode_solution A B c u nx h x -> h' <= h -> ode_solution A B c u nx h' x.
Proof. intros (L & D) H. split; [exact L|]. intros t Ht. apply D. lra. Qed.
Lemma ode_shift A B c u nx h x s : ode_solution A B c u nx (s + h) x -> 0 <= s -> ode_solution A B c u nx h (fun t => x (s + t)).
Proof.
  intros (L & D) Hs. split; [intros; apply L|]. intros t Ht i Hi eps He. destruct (D (s + t) ltac:(lra) i Hi eps He) as (dl & H). exists dl. intros d N1 N2. rewrite <- Rplus_assoc. apply H; assumption.
Qed.
Lemma exp_np M n : shape M n n -> is_expm M (np_expm np_exp M) n.
Proof. apply expm0_ok. Qed.
Lemma ode_unique A B c u nx nu h x y : system_shape A B nx nu -> length c = nx -> length u = nu -> ode_solution A B c u nx h x -> ode_solution A B c u nx h y -> x 0 = y 0 -> forall t, 0 <= t <= h -> x t = y t.
Proof.
  intros HS Lc Lu Hx Hy E t Ht. pose proof HS as (HA & HB). assert (SZ : shape (mscale t (zoh_matrix A B c)) (nx + nu + 1) (nx + nu + 1)) by (apply shape_mscale, zoh_shape; assumption). destruct (zoh_ok np_exp A B c nx nu t HS Lc ltac:(lra) (exp_np _ _ SZ)) as (Ad & Bd & cd & _ & _ & _ & H).
  rewrite (H u x Lu (ode_shorter _ _ _ _ _ h t x Hx ltac:(lra))), (H u y Lu (ode_shorter _ _ _ _ _ h t y Hy ltac:(lra))), E. reflexivity.
Qed.
(*@ Theorem C34_solutions : For every initial state and every constant input dx/dt = A x + B u + c has a solution for all times, and two solutions on [0, h] with the same initial state agree on [0, h] (so that C34_zero_order_hold speaks about exactly one value x(h)). *)
Lemma ode_solutions A B c u x0 nx nu : system_shape A B nx nu -> length c = nx -> length u = nu -> length x0 = nx ->
  (exists x, x 0 = x0 /\ forall h, ode_solution A B c u nx h x) /\
  forall h x y, ode_solution A B c u nx h x -> ode_solution A B c u nx h y -> x 0 = x0 -> y 0 = x0 -> forall t, 0 <= t <= h -> x t = y t.
Proof.
  intros HS Lc Lu Lx. split; [destruct (ode_exists A B c u x0 nx nu HS Lc Lu Lx) as (x & E & H & _); exists x; auto|].
  intros h x y Hx Hy Ex Ey. apply (ode_unique A B c u nx nu h x y); try assumption. congruence.
Qed.
(*@ Theorem C34_zoh_exact : With an exact matrix exponential, the values A_d x0 + B_d u + c_d of zero_order_hold are exactly the values x(h) of the solutions: for all x0, u and y, y = A_d x0 + B_d u + c_d iff some solution on [0, h] leads from x0 to y; A_d, B_d, c_d are the only such matrices. *)
Lemma zoh_exact np A B c nx nu h : system_shape A B nx nu -> length c = nx -> 0 <= h ->
  is_expm (mscale h (zoh_matrix A B c)) (np_expm np (mscale h (zoh_matrix A B c))) (nx + nu + 1) ->
  exists A_d B_d c_d, zero_order_hold np A B (D1 c) h = Ok (A_d, B_d, c_d) /\
    (forall x0 u y, length x0 = nx -> length u = nu -> (affine_step A_d B_d c_d x0 u = y <-> exists x, ode_solution A B c u nx h x /\ x 0 = x0 /\ x h = y)) /\
    forall A' B' c', system_shape A' B' nx nu -> length c' = nx ->
      (forall u x, length u = nu -> ode_solution A B c u nx h x -> x h = affine_step A' B' c' (x 0) u) -> A' = A_d /\ B' = B_d /\ c' = c_d.
Proof.
  intros HS Lc Hh He. destruct (zoh_ok np A B c nx nu h HS Lc Hh He) as (Ad & Bd & cd & E & S1 & S2 & H). exists Ad, Bd, cd. split; [exact E|]. split.
  - intros x0 u y Lx Lu. split.
    + intros <-. destruct (ode_exists A B c u x0 nx nu HS Lc Lu Lx) as (x & Ex & Hx & _). exists x. split; [apply Hx|]. split; [exact Ex|]. rewrite (H u x Lu (Hx h)), Ex. reflexivity.
    + intros (x & Hx & Ex & <-). rewrite (H u x Lu Hx), Ex. reflexivity.
  - intros A' B' c' (SA' & SB') Lc' H'. destruct S1 as (SA & SB).
    assert (G : forall x u, length x = nx -> length u = nu -> affine_step A' B' c' x u = affine_step Ad Bd cd x u).
    { intros x0 u Lx Lu. destruct (ode_exists A B c u x0 nx nu HS Lc Lu Lx) as (x & Ex & Hx & _). rewrite <- Ex, <- (H' u x Lu (Hx h)). apply H; [exact Lu|apply Hx]. }
    assert (LA' : length (rows A') = nx) by apply SA'. assert (LB' : length (rows B') = nx) by apply SB'. assert (LA : length (rows Ad) = nx) by apply SA. assert (LB : length (rows Bd) = nx) by apply SB.
    assert (GI : forall x u i, length x = nx -> length u = nu -> (i < nx)%nat -> nth i (mv A' x) 0 + nth i (mv B' u) 0 + nth i c' 0 = nth i (mv Ad x) 0 + nth i (mv Bd u) 0 + nth i cd 0).
    { intros x u i L1 L2 Hi. specialize (G x u L1 L2). apply (f_equal (fun v => nth i v 0)) in G. unfold affine_step in G. rewrite !nth_vadd in G by len. exact G. }
    assert (Ec : c' = cd).
    { apply vec_ext; [congruence|]. intros i Hi. rewrite Lc' in Hi. specialize (GI (zeros nx) (zeros nu) i (zeros_length nx) (zeros_length nu) Hi). rewrite !mv_zeros, !nth_zeros in GI. lra. }
    assert (EA : forall x, length x = nx -> mv A' x = mv Ad x).
    { intros x L1. apply vec_ext; [len|]. intros i Hi. rewrite mv_length, LA' in Hi. specialize (GI x (zeros nu) i L1 (zeros_length nu) Hi). rewrite !mv_zeros, !nth_zeros, Ec in GI. lra. }
    assert (EB : forall u, length u = nu -> mv B' u = mv Bd u).
    { intros u L1. apply vec_ext; [len|]. intros i Hi. rewrite mv_length, LB' in Hi. specialize (GI (zeros nx) u i (zeros_length nx) L1 Hi). rewrite !mv_zeros, !nth_zeros, Ec in GI. lra. }
    split; [apply (mat_ext A' Ad nx nx); assumption|]. split; [apply (mat_ext B' Bd nx nu); assumption|exact Ec].
Qed.
(*@ Theorem C34_zoh_compose : With an exact matrix exponential, the zero-order hold with step h1 + h2 is the step h1 followed by the step h2, for a constant input; with step 0 it is the identity. *)
Lemma zoh_compose np A B c nx nu h1 h2 : system_shape A B nx nu -> length c = nx -> 0 <= h1 -> 0 <= h2 ->
  (forall h, is_expm (mscale h (zoh_matrix A B c)) (np_expm np (mscale h (zoh_matrix A B c))) (nx + nu + 1)) ->
  exists A1 B1 c1 A2 B2 c2 A3 B3 c3 A0 B0 c0, zero_order_hold np A B (D1 c) h1 = Ok (A1, B1, c1) /\ zero_order_hold np A B (D1 c) h2 = Ok (A2, B2, c2) /\ zero_order_hold np A B (D1 c) (h1 + h2) = Ok (A3, B3, c3) /\ zero_order_hold np A B (D1 c) 0 = Ok (A0, B0, c0) /\
    forall x u, length x = nx -> length u = nu -> affine_step A3 B3 c3 x u = affine_step A2 B2 c2 (affine_step A1 B1 c1 x u) u /\ affine_step A0 B0 c0 x u = x.
Proof.
  intros HS Lc H1 H2 He. destruct (zoh_ok np A B c nx nu h1 HS Lc H1 (He _)) as (A1 & B1 & c1 & E1 & _ & _ & Z1). destruct (zoh_ok np A B c nx nu h2 HS Lc H2 (He _)) as (A2 & B2 & c2 & E2 & _ & _ & Z2).
  destruct (zoh_ok np A B c nx nu (h1 + h2) HS Lc ltac:(lra) (He _)) as (A3 & B3 & c3 & E3 & _ & _ & Z3). destruct (zoh_ok np A B c nx nu 0 HS Lc ltac:(lra) (He _)) as (A0 & B0 & c0 & E0 & _ & _ & Z0).
  exists A1, B1, c1, A2, B2, c2, A3, B3, c3, A0, B0, c0. split; [exact E1|]. split; [exact E2|]. split; [exact E3|]. split; [exact E0|].
  intros x u Lx Lu. destruct (ode_exists A B c u x nx nu HS Lc Lu Lx) as (z & Ez & Hz & _). unfold affine_step. split.
  - rewrite <- Ez, <- (Z3 u z Lu (Hz _)), <- (Z1 u z Lu (Hz _)). pose proof (Z2 u (fun t => z (h1 + t)) Lu (ode_shift A B c u nx h2 z h1 (Hz _) H1)) as Q. cbv beta in Q. rewrite Rplus_0_r in Q. exact Q.
  - rewrite <- Ez at 1. rewrite <- (Z0 u z Lu (Hz _)). exact Ez.
Qed.
(*@ Theorem C34_euler_error : The two methods agree to second order: at every x, u and for steps up to T, A_d x + B_d u + c_d of explicit_euler and of zero_order_hold (exact matrix exponential) differ in each component by at most C h^2. *)
Lemma euler_error np A B c nx nu T x u : system_shape A B nx nu -> length c = nx -> length x = nx -> length u = nu -> 0 <= T ->
  (forall h, is_expm (mscale h (zoh_matrix A B c)) (np_expm np (mscale h (zoh_matrix A B c))) (nx + nu + 1)) ->
  exists C, 0 <= C /\ forall h, 0 <= h <= T -> exists A1 B1 c1 A2 B2 c2, zero_order_hold np A B (D1 c) h = Ok (A1, B1, c1) /\ explicit_euler A B (D1 c) h = Ok (A2, B2, c2) /\
    forall i, (i < nx)%nat -> Rabs (nth i (affine_step A1 B1 c1 x u) 0 - nth i (affine_step A2 B2 c2 x u) 0) <= C * (h * h).
Proof.
  intros HS Lc Lx Lu HT He. destruct (ode_exists A B c u x nx nu HS Lc Lu Lx) as (z & Ez & Hz & Q). destruct (Q T HT) as (C & HC & H). exists C. split; [exact HC|]. intros h Hh.
  destruct (zoh_ok np A B c nx nu h HS Lc ltac:(lra) (He _)) as (A1 & B1 & c1 & E1 & _ & _ & Z1). destruct (explicit_euler_ok A B c nx nu h HS Lc ltac:(lra)) as (A2 & B2 & c2 & E2 & _ & _ & Z2).
  exists A1, B1, c1, A2, B2, c2. split; [exact E1|]. split; [exact E2|]. intros i Hi. specialize (H i h Hi Hh). pose proof HS as (HA & HB). assert (LA : length (rows A) = nx) by apply HA. assert (LB : length (rows B) = nx) by apply HB.
  unfold affine_step at 1. rewrite <- Ez at 1. rewrite <- (Z1 u z Lu (Hz _)). unfold affine_step in *. rewrite Z2 by assumption. rewrite nth_vadd, nth_vscale by len. replace (nth i (z h) 0 - (nth i x 0 + h * nth i (vadd (vadd (mv A x) (mv B u)) c) 0)) with (nth i (z h) 0 - nth i x 0 - h * nth i (vadd (vadd (mv A x) (mv B u)) c) 0) by ring. exact H.
Qed.
(*@ Theorem C34_euler_compose_refuted : explicit_euler does not compose: for dx/dt = x two steps of length 1 lead from 1 to 4, one step of length 2 leads to 3. *)
Lemma euler_compose_refuted : exists A B c A1 B1 c1 A2 B2 c2, system_shape A B 1 1 /\ explicit_euler A B (D1 c) 1 = Ok (A1, B1, c1) /\ explicit_euler A B (D1 c) 2 = Ok (A2, B2, c2) /\
  affine_step A1 B1 c1 (affine_step A1 B1 c1 [1] [0]) [0] = [4] /\ affine_step A2 B2 c2 [1] [0] = [3].
Proof.
  exists (Mat 1 [[1]]), (Mat 1 [[0]]), [0]. assert (HS : system_shape (Mat 1 [[1]]) (Mat 1 [[0]]) 1 1) by (repeat split; repeat constructor).
  destruct (explicit_euler_ok _ _ [0] 1 1 1 HS eq_refl ltac:(lra)) as (A1 & B1 & c1 & E1 & _ & _ & Z1). destruct (explicit_euler_ok _ _ [0] 1 1 2 HS eq_refl ltac:(lra)) as (A2 & B2 & c2 & E2 & _ & _ & Z2).
  exists A1, B1, c1, A2, B2, c2. split; [exact HS|]. split; [exact E1|]. split; [exact E2|]. unfold affine_step in *. rewrite (Z1 [1] [0] eq_refl eq_refl), (Z2 [1] [0] eq_refl eq_refl). split; [rewrite Z1 by reflexivity|]; cbn; f_equal; ring.
Qed.
(*@ Example C34_ode_example : There is a library with an exact matrix exponential for every matrix, so the hypotheses of the theorems can be met; the solution of dx/dt = x from 1 with u = 0 is the exponential function, and zero_order_hold with step h maps 1 to exp h. *)
Lemma ode_example h : 0 <= h -> let A := Mat 1 [[1]] in let B := Mat 1 [[0]] in let c := [0] in
  system_shape A B 1 1 /\ (forall h, is_expm (mscale h (zoh_matrix A B c)) (np_expm np_exp (mscale h (zoh_matrix A B c))) 3) /\
  (forall h, ode_solution A B c [0] 1 h (fun t => [exp t])) /\ exists A_d B_d c_d, zero_order_hold np_exp A B (D1 c) h = Ok (A_d, B_d, c_d) /\ affine_step A_d B_d c_d [1] [0] = [exp h].
Proof.
  intros Hh. cbv zeta. assert (HS : system_shape (Mat 1 [[1]]) (Mat 1 [[0]]) 1 1) by (repeat split; repeat constructor). pose proof HS as (HA & HB).
  assert (HE : forall h, is_expm (mscale h (zoh_matrix (Mat 1 [[1]]) (Mat 1 [[0]]) [0])) (np_expm np_exp (mscale h (zoh_matrix (Mat 1 [[1]]) (Mat 1 [[0]]) [0]))) 3) by (intros k; apply exp_np, shape_mscale, (zoh_shape _ _ _ 1 1); auto).
  assert (HO : forall h, ode_solution (Mat 1 [[1]]) (Mat 1 [[0]]) [0] [0] 1 h (fun t => [exp t])).
  { intros k. split; [reflexivity|]. intros t _ i Hi. destruct i; [|lia]. cbn. replace (1 * exp t + 0 + (0 * 0 + 0) + 0) with (exp t) by ring. apply derivable_pt_lim_exp. }
  split; [exact HS|]. split; [exact HE|]. split; [exact HO|]. destruct (zoh_exact np_exp _ _ [0] 1 1 h HS eq_refl Hh (HE h)) as (Ad & Bd & cd & E & H & _). exists Ad, Bd, cd. split; [exact E|].
  apply (H [1] [0] [exp h] eq_refl eq_refl). exists (fun t => [exp t]). split; [apply HO|]. rewrite exp_0. auto.
Qed.
