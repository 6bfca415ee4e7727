(** * ZohThms: the zero-order hold discretization (C34) *)
From Coq Require Import Rseries SeqProp Lra Lia String.
From Verif Require Import Arr ArrFacts Spec Numpy Pnnls GeomUtils Polyhedron SpecDyn Dynamics Oracle PolyMore DynThms.
Local Open Scope list_scope.

Section Linear.
Variables (M : mat) (n : nat) (z : R -> vec) (h : R).
Hypothesis HM : shape M n n.
Hypothesis Lz : forall t, length (z t) = n.
Hypothesis Dz : forall t, 0 <= t <= h -> forall i, (i < n)%nat -> derivable_pt_lim (fun s => nth i (z s) 0) t (nth i (mv M (z t)) 0).
Hypothesis H0 : 0 <= h.

Definition w k := mv (mpow M k) (z 0).
Lemma w_length k : length (w k) = n.
Proof. unfold w. rewrite mv_length. apply (shape_mpow M n k HM). Qed.
Lemma w_S k : w (S k) = mv M (w k).
Proof. apply (mv_mpow_S M n k _ HM). Qed.
(** Taylor polynomial *)
Fixpoint tay (N : nat) (t : R) : vec :=
  match N with O => zeros n | S N' => vadd (tay N' t) (vscale (t ^ N' / INR (fact N')) (w N')) end.
Lemma tay_length N t : length (tay N t) = n.
Proof. induction N; cbn [tay]; [apply zeros_length|]. pose proof (w_length N). len. Qed.
Lemma nth_tay_S N t i : (i < n)%nat -> nth i (tay (S N) t) 0 = nth i (tay N t) 0 + t ^ N / INR (fact N) * nth i (w N) 0.
Proof. intros Hi. cbn [tay]. rewrite nth_vadd by (rewrite vscale_length, tay_length, w_length; reflexivity). rewrite nth_vscale. reflexivity. Qed.
(** d/dt of t^(k+1)/(k+1)! *)
Lemma monomial_deriv k t : derivable_pt_lim (fun s => s ^ (S k) / INR (fact (S k))) t (t ^ k / INR (fact k)).
Proof.
  assert (F : INR (fact (S k)) <> 0) by apply INR_fact_neq_0. assert (F' : INR (fact k) <> 0) by apply INR_fact_neq_0.
  replace (t ^ k / INR (fact k)) with (/ INR (fact (S k)) * (INR (S k) * t ^ k)).
  - apply (derivable_pt_lim_ext (fun s => / INR (fact (S k)) * s ^ (S k))); [intros; unfold Rdiv; ring|].
    apply (derivable_pt_lim_scal (fun s => s ^ (S k))). apply (derivable_pt_lim_pow t (S k)).
  - change (fact (S k)) with ((S k) * fact k)%nat in *. rewrite mult_INR in *. assert (INR (S k) <> 0) by (apply not_0_INR; lia). field. auto.
Qed.
Lemma tay_deriv N t i : (i < n)%nat -> derivable_pt_lim (fun s => nth i (tay (S N) s) 0) t (nth i (mv M (tay N t)) 0).
Proof.
  intros Hi. induction N as [|N IH].
  - change (mv M (tay 0 t)) with (mv M (zeros n)). rewrite mv_zeros, nth_zeros.
    apply (derivable_pt_lim_ext (fun _ => nth i (w 0) 0)); [|apply derivable_pt_lim_const].
    intros s. rewrite nth_tay_S by exact Hi. cbn [tay]. rewrite nth_zeros. cbn [pow fact INR]. field.
  - apply (derivable_pt_lim_ext (fun s => nth i (tay (S N) s) 0 + s ^ (S N) / INR (fact (S N)) * nth i (w (S N)) 0)).
    { intros s. rewrite <- nth_tay_S by exact Hi. reflexivity. }
    change (tay (S N) t) with (vadd (tay N t) (vscale (t ^ N / INR (fact N)) (w N))).
    rewrite (mv_vadd M n n) by (auto using tay_length; rewrite vscale_length; apply w_length).
    rewrite nth_vadd by (rewrite !mv_length; reflexivity). rewrite mv_vscale, nth_vscale, <- w_S.
    apply (derivable_pt_lim_plus (fun s => nth i (tay (S N) s) 0)); [exact IH|].
    apply (derivable_pt_lim_ext (fun s => nth i (w (S N)) 0 * (s ^ (S N) / INR (fact (S N))))); [intros; ring|].
    rewrite (Rmult_comm _ (nth i (w (S N)) 0)). apply (derivable_pt_lim_scal (fun s => s ^ (S N) / INR (fact (S N)))). apply monomial_deriv.
Qed.
Lemma tay_0 N : tay (S N) 0 = z 0.
Proof.
  induction N as [|N IH].
  - cbn [tay]. unfold w. rewrite (mv_mpow_0 M n) by auto. cbn [pow fact INR]. replace (1 / 1) with 1 by field. rewrite vscale_1.
    apply vadd_zeros_l. apply Lz.
  - change (tay (S (S N)) 0) with (vadd (tay (S N) 0) (vscale (0 ^ (S N) / INR (fact (S N))) (w (S N)))). rewrite IH.
    rewrite pow_i by lia. unfold Rdiv. rewrite Rmult_0_l, vscale_0, w_length, vadd_zeros_r by apply Lz. reflexivity.
Qed.
(** sup-norm bounds *)
Lemma dot_bound r v K : (forall j, Rabs (nth j v 0) <= K) -> Rabs (dot r v) <= vsum (map Rabs r) * K.
Proof.
  intros HK. revert v HK. induction r as [|a r IH]; intros v HK; [cbn; rewrite Rabs_R0; lra|].
  destruct v as [|b v]; [change (dot (a :: r) []) with 0; rewrite Rabs_R0|].
  - pose proof (HK 0%nat) as Q. cbn in Q. rewrite Rabs_R0 in Q. apply Rmult_le_pos; [|exact Q].
    clear. induction (a :: r) as [|x l IH]; cbn; [lra|]. pose proof (Rabs_pos x). unfold vsum in IH. lra.
  - change (dot (a :: r) (b :: v)) with (a * b + dot r v). cbn [map vsum].
    specialize (IH v (fun j => HK (S j))). pose proof (HK 0%nat) as Q. cbn in Q.
    eapply Rle_trans; [apply Rabs_triang|]. rewrite Rabs_mult. pose proof (Rmult_le_compat_l _ _ _ (Rabs_pos a) Q). 
    change (fold_right Rplus 0 (map Rabs r)) with (vsum (map Rabs r)). unfold vsum in *. cbn [fold_right map]. lra.
Qed.

Lemma rowsum_nonneg r : 0 <= vsum (map Rabs r).
Proof. induction r as [|a r IH]; cbn; [lra|]. pose proof (Rabs_pos a). unfold vsum in IH. lra. Qed.
Definition Lm := vsum (map (fun r => vsum (map Rabs r)) (rows M)).
Lemma Lm_nonneg : 0 <= Lm.
Proof. unfold Lm. induction (rows M) as [|r l IH]; cbn; [lra|]. pose proof (rowsum_nonneg r). unfold vsum in *. lra. Qed.
Lemma rowsum_le r : In r (rows M) -> vsum (map Rabs r) <= Lm.
Proof.
  unfold Lm. induction (rows M) as [|q l IH]; intros [].
  - subst. cbn. assert (0 <= vsum (map (fun r => vsum (map Rabs r)) l)). { clear. induction l as [|q l IH]; cbn; [lra|]. pose proof (rowsum_nonneg q). unfold vsum in *. lra. }
    unfold vsum in *. lra.
  - specialize (IH H). pose proof (rowsum_nonneg q). cbn. unfold vsum in *. lra.
Qed.
Lemma mv_bound v K i : (i < n)%nat -> (forall j, Rabs (nth j v 0) <= K) -> Rabs (nth i (mv M v) 0) <= Lm * K.
Proof.
  intros Hi HK. rewrite nth_mv. eapply Rle_trans; [apply dot_bound; exact HK|].
  apply Rmult_le_compat_r; [eapply Rle_trans; [apply Rabs_pos|apply (HK 0%nat)]|].
  apply rowsum_le, nth_In. destruct HM as (-> & _). exact Hi.
Qed.
(** the solution is bounded on [0,h] *)
Lemma z_bounded : exists K, 0 <= K /\ forall t j, 0 <= t <= h -> Rabs (nth j (z t) 0) <= K.
Proof.
  assert (Q : forall m, (m <= n)%nat -> exists K, 0 <= K /\ forall t j, (j < m)%nat -> 0 <= t <= h -> Rabs (nth j (z t) 0) <= K).
  { induction m as [|m IH]; intros Hm; [exists 0; split; [lra|intros; lia]|]. destruct (IH ltac:(lia)) as (K & K0 & HK).
    assert (Cn : forall t, 0 <= t <= h -> continuity_pt (fun s => Rabs (nth m (z s) 0)) t).
    { intros t Ht. apply (continuity_pt_comp (fun s => nth m (z s) 0) Rabs); [|apply Rcontinuity_abs].
      apply derivable_continuous_pt. exists (nth m (mv M (z t)) 0). apply Dz; [exact Ht|lia]. }
    destruct (continuity_ab_maj (fun s => Rabs (nth m (z s) 0)) 0 h H0 Cn) as (Mx & HMx & _).
    exists (Rmax K (Rabs (nth m (z Mx) 0))). split; [eapply Rle_trans; [exact K0|apply Rmax_l]|].
    intros t j Hj Ht. destruct (Nat.eq_dec j m) as [->|N].
    - eapply Rle_trans; [apply (HMx t Ht)|apply Rmax_r].
    - eapply Rle_trans; [apply HK; [lia|exact Ht]|apply Rmax_l]. }
  destruct (Q n (Nat.le_refl n)) as (K & K0 & HK). exists K. split; [exact K0|]. intros t j Ht.
  destruct (le_lt_dec n j) as [G|G]; [|apply HK; auto]. rewrite nth_overflow by (rewrite Lz; exact G). rewrite Rabs_R0. exact K0.
Qed.
(** a function vanishing at 0 whose derivative is dominated by that of g *)
Lemma dominated (f g : R -> R) f' g' t : 0 <= t <= h -> f 0 = 0 -> g 0 = 0 ->
  (forall s, 0 <= s <= h -> derivable_pt_lim f s (f' s)) -> (forall s, 0 <= s <= h -> derivable_pt_lim g s (g' s)) ->
  (forall s, 0 <= s <= h -> Rabs (f' s) <= g' s) -> Rabs (f t) <= g t.
Proof.
  intros Ht F0 G0 Df Dg Hb. destruct (Req_dec t 0) as [->|N]; [rewrite F0, G0, Rabs_R0; lra|].
  assert (P : forall e, (e = 1 \/ e = -1) -> 0 <= g t - e * f t).
  { intros e He. assert (D : forall s, 0 <= s <= t -> derivable_pt_lim (fun s => g s - e * f s) s (g' s - e * f' s)).
    { intros s Hs. apply (derivable_pt_lim_minus g (fun s => e * f s)); [apply Dg; lra|]. apply derivable_pt_lim_scal. apply Df. lra. }
    destruct (MVT_cor2 (fun s => g s - e * f s) (fun s => g' s - e * f' s) 0 t ltac:(lra) D) as (c & E & Hc).
    rewrite F0, G0 in E. assert (0 <= g' c - e * f' c).
    { specialize (Hb c ltac:(lra)). assert (e * f' c <= Rabs (f' c)). { destruct He as [-> | ->]; unfold Rabs; destruct (Rcase_abs (f' c)); lra. } lra. }
    assert (0 <= (g' c - e * f' c) * (t - 0)) by (apply Rmult_le_pos; lra). lra. }
  pose proof (P 1 (or_introl eq_refl)). pose proof (P (-1) (or_intror eq_refl)). unfold Rabs. destruct (Rcase_abs (f t)); lra.
Qed.
Lemma remainder : exists K, 0 <= K /\ forall N t j, 0 <= t <= h -> Rabs (nth j (vsub (z t) (tay N t)) 0) <= K * Lm ^ N * (t ^ N / INR (fact N)).
Proof.
  destruct z_bounded as (K & K0 & HK). exists K. split; [exact K0|]. induction N as [|N IH]; intros t j Ht.
  - cbn [tay]. rewrite vsub_zeros_r by apply Lz. cbn [pow fact INR]. replace (K * 1 * (1 / 1)) with K by field. apply HK. exact Ht.
  - destruct (le_lt_dec n j) as [G|G].
    { rewrite nth_overflow by (rewrite vsub_length, Lz, tay_length; lia). rewrite Rabs_R0.
      assert (0 < INR (fact (S N))) by apply INR_fact_lt_0. pose proof (pow_le Lm (S N) Lm_nonneg). pose proof (pow_le t (S N) (proj1 Ht)).
      apply Rmult_le_pos; [apply Rmult_le_pos; assumption|]. apply Rmult_le_pos; [assumption|]. left. apply Rinv_0_lt_compat. assumption. }
    assert (Nv : forall s, nth j (vsub (z s) (tay (S N) s)) 0 = nth j (z s) 0 - nth j (tay (S N) s) 0).
    { intros s. apply nth_vsub. rewrite Lz, tay_length. reflexivity. }
    rewrite Nv.
    apply (dominated (fun s => nth j (z s) 0 - nth j (tay (S N) s) 0) (fun s => K * Lm ^ (S N) * (s ^ (S N) / INR (fact (S N))))
             (fun s => nth j (mv M (z s)) 0 - nth j (mv M (tay N s)) 0) (fun s => K * Lm ^ (S N) * (s ^ N / INR (fact N)))); auto.
    + rewrite tay_0. ring.
    + rewrite pow_i by lia. unfold Rdiv. ring.
    + intros s Hs. apply derivable_pt_lim_minus; [apply Dz; auto|apply tay_deriv; exact G].
    + intros s Hs. apply derivable_pt_lim_scal. apply monomial_deriv.
    + intros s Hs. replace (nth j (mv M (z s)) 0 - nth j (mv M (tay N s)) 0) with (nth j (mv M (vsub (z s) (tay N s))) 0).
      * eapply Rle_trans; [apply mv_bound; [exact G|]; intros i; apply IH; exact Hs|]. cbn [pow]. lra.
      * rewrite (mv_vsub M n n) by auto using tay_length. apply nth_vsub. rewrite !mv_length. reflexivity.
Qed.
Lemma tay_limit j : Un_cv (fun N => nth j (tay N h) 0) (nth j (z h) 0).
Proof.
  destruct remainder as (K & K0 & HK). intros e He.
  destruct (cv_speed_pow_fact (Lm * h) (e / (K + 1))) as (N0 & HN). { apply Rdiv_lt_0_compat; lra. }
  exists N0. intros N GN. specialize (HN N GN). unfold R_dist in *. rewrite Rminus_0_r in HN.
  specialize (HK N h j ltac:(lra)). rewrite nth_vsub in HK by (rewrite Lz, tay_length; reflexivity).
  rewrite Rabs_minus_sym. eapply Rle_lt_trans; [exact HK|].
  rewrite Rpow_mult_distr in HN.
  replace (K * Lm ^ N * (h ^ N / INR (fact N))) with (K * (Lm ^ N * h ^ N / INR (fact N))) by (unfold Rdiv; ring).
  set (q := Lm ^ N * h ^ N / INR (fact N)) in *. assert (q < e / (K + 1)) by (eapply Rle_lt_trans; [apply Rle_abs|exact HN]).
  assert (E : (K + 1) * (e / (K + 1)) = e) by (field; lra).
  assert (0 < e / (K + 1)) by (apply Rdiv_lt_0_compat; lra).
  apply Rle_lt_trans with (K * (e / (K + 1))); [apply Rmult_le_compat_l; lra|lra].
Qed.
(** the partial sums of the matrix exponential applied to z(0) are the Taylor polynomials *)
Lemma exp_sum_shape X N : shape X n n -> shape (exp_sum X n N) n n.
Proof. intros HX. induction N; cbn [exp_sum]; eauto with shp. Qed.
Lemma mpow_mscale k x : length x = n -> mv (mpow (mscale h M) k) x = vscale (h ^ k) (mv (mpow M k) x).
Proof.
  intros Lx. assert (HS : shape (mscale h M) n n) by (apply shape_mscale; exact HM). induction k as [|k IH].
  - rewrite !(mv_mpow_0 _ n) by auto. cbn [pow]. rewrite vscale_1. reflexivity.
  - rewrite !(mv_mpow_S _ n) by auto. rewrite IH, mv_mscale, mv_vscale, vscale_vscale. reflexivity.
Qed.
Lemma exp_sum_tay N : mv (exp_sum (mscale h M) n N) (z 0) = tay N h.
Proof.
  assert (HS : shape (mscale h M) n n) by (apply shape_mscale; exact HM). induction N as [|N IH]; cbn [exp_sum tay].
  - apply mv_zmat.
  - rewrite (mv_madd _ _ n n) by eauto using exp_sum_shape with shp. rewrite IH, mv_mscale, mpow_mscale by apply Lz.
    rewrite vscale_vscale. unfold w. f_equal. f_equal. unfold Rdiv. ring.
Qed.
Lemma dot_limit (r : nat -> vec) q x m : (forall N, length (r N) = m) -> length q = m -> length x = m ->
  (forall j, (j < m)%nat -> Un_cv (fun N => nth j (r N) 0) (nth j q 0)) -> Un_cv (fun N => dot (r N) x) (dot q x).
Proof.
  revert r q x. induction m as [|m IH]; intros r q x Lr Lq Lx H.
  - intros e He. exists 0%nat. intros N _. specialize (Lr N). destruct (r N); [|discriminate]. destruct q; [|discriminate]. cbn. unfold R_dist. rewrite Rminus_0_r, Rabs_R0. exact He.
  - destruct q as [|q0 q]; [discriminate|]. destruct x as [|x0 x]; [discriminate|]. cbn [dot].
    apply (Un_cv_ext (fun N => nth 0 (r N) 0 * x0 + dot (tl (r N)) x)).
    { intros N. specialize (Lr N). destruct (r N) as [|a l]; [discriminate|]. reflexivity. }
    apply CV_plus.
    + apply CV_mult; [apply (H 0%nat); lia|]. intros e He. exists 0%nat. intros. unfold R_dist. rewrite Rminus_diag_eq, Rabs_R0 by reflexivity. exact He.
    + apply (IH (fun N => tl (r N))); [intros N; specialize (Lr N); destruct (r N); [discriminate|cbn in *; lia]|cbn in *; lia|cbn in *; lia|].
      intros j Hj. apply (Un_cv_ext (fun N => nth (S j) (r N) 0)); [|apply (H (S j)); lia].
      intros N. specialize (Lr N). destruct (r N); [discriminate|reflexivity].
Qed.
Lemma linear_ode E : is_expm (mscale h M) E n -> z h = mv E (z 0).
Proof.
  intros (SE & HE). assert (HS : shape (mscale h M) n n) by (apply shape_mscale; exact HM).
  apply (nth_ext _ _ 0 0); [rewrite mv_length, Lz; symmetry; apply SE|]. intros i Hi. rewrite Lz in Hi.
  rewrite nth_mv. apply (UL_sequence (fun N => nth i (tay N h) 0)); [apply tay_limit|].
  apply (Un_cv_ext (fun N => dot (row (exp_sum (mscale h M) n N) i) (z 0))).
  { intros N. rewrite <- exp_sum_tay, nth_mv. reflexivity. }
  apply (dot_limit (fun N => row (exp_sum (mscale h M) n N) i) _ _ n); [|apply (shape_row E n n); auto|apply Lz|].
  - intros N. apply (shape_row _ n n); auto using exp_sum_shape.
  - intros j Hj. apply HE; auto.
Qed.
End Linear.

(** ** The augmented system of zero_order_hold *)
Definition colmat (c : vec) : mat := Mat 1 (map (fun ci => [ci]) c).
Lemma colmat_shape c : shape (colmat c) (length c) 1.
Proof. repeat split; cbn; [apply map_length|]. apply Forall_map, Forall_forall. reflexivity. Qed.
Lemma mv_colmat c : mv (colmat c) [1] = c.
Proof. unfold mv, colmat. cbn [rows]. rewrite map_map. rewrite <- (map_id c) at 2. apply map_ext. intros a. cbn. ring. Qed.
Lemma zoh_shape A B c nx nu : shape A nx nx -> shape B nx nu -> length c = nx -> shape (zoh_matrix A B c) (nx + nu + 1) (nx + nu + 1).
Proof.
  intros HA HB Lc. unfold zoh_matrix. fold (colmat c). pose proof (colmat_shape c) as HC. rewrite Lc in HC.
  replace (nx + nu + 1)%nat with (nx + (nu + 1))%nat at 1 by lia. unfold nrows. rewrite (proj1 HA). replace (ncols B) with nu by (symmetry; apply HB).
  apply shape_vstack; [|apply shape_zmat]. replace (nx + nu + 1)%nat with ((nx + nu) + 1)%nat by lia. auto with shp.
Qed.
Lemma mv_zoh A B c nx nu x u : shape A nx nx -> shape B nx nu -> length c = nx -> length x = nx -> length u = nu ->
  mv (zoh_matrix A B c) ((x ++ u) ++ [1]) = vadd (vadd (mv A x) (mv B u)) c ++ zeros (nu + 1).
Proof.
  intros HA HB Lc Lx Lu. unfold zoh_matrix. fold (colmat c). pose proof (colmat_shape c) as HC. rewrite Lc in HC.
  rewrite mv_vstack, mv_zmat. replace (ncols B) with nu by (symmetry; apply HB). f_equal.
  rewrite (mv_hstack _ _ nx (nx + nu) 1) by (auto with shp; rewrite app_length; lia).
  rewrite (mv_hstack _ _ nx nx nu) by auto. rewrite mv_colmat. reflexivity.
Qed.
Lemma skipn_skipn {A} a b (l : list A) : skipn a (skipn b l) = skipn (a + b) l.
Proof. revert l. induction b as [|b IH]; intros l; [rewrite Nat.add_0_r; reflexivity|]. destruct l; [rewrite !skipn_nil; reflexivity|].
  rewrite <- plus_n_Sm. cbn [skipn]. apply IH. Qed.
Lemma split_row r x u nx nu : length r = (nx + nu + 1)%nat -> length x = nx -> length u = nu ->
  dot r ((x ++ u) ++ [1]) = dot (firstn nx r) x + dot (firstn nu (skipn nx r)) u + nth (nx + nu) r 0.
Proof.
  intros Lr Lx Lu.
  rewrite <- (firstn_skipn nx r) at 1. rewrite <- (firstn_skipn nu (skipn nx r)) at 1. rewrite skipn_skipn.
  assert (L3 : length (skipn (nu + nx) r) = 1%nat) by (rewrite skipn_length; lia).
  destruct (skipn (nu + nx) r) as [|a [|]] eqn:E; try discriminate L3.
  assert (Ea : nth (nx + nu) r 0 = a).
  { rewrite <- (firstn_skipn (nu + nx) r), app_nth2 by (rewrite firstn_length; lia). rewrite firstn_length, E.
    replace (nx + nu - Nat.min (nu + nx) (length r))%nat with 0%nat by lia. reflexivity. }
  rewrite Ea. rewrite app_assoc, dot_app by (rewrite !app_length, !firstn_length, skipn_length; lia).
  rewrite dot_app by (rewrite firstn_length; lia). cbn [dot]. ring.
Qed.
(*@ Theorem C34_zero_order_hold : If the library computes the matrix exponential exactly, zero_order_hold(A, B, c, h) returns A_d, B_d, c_d such that every solution of dx/dt = A x + B u + c with constant u satisfies x(h) = A_d x(0) + B_d u + c_d. *)
Lemma zoh_ok np A B c nx nu h : system_shape A B nx nu -> length c = nx -> 0 <= h ->
  is_expm (mscale h (zoh_matrix A B c)) (np_expm np (mscale h (zoh_matrix A B c))) (nx + nu + 1) ->
  exists A_d B_d c_d, zero_order_hold np A B (D1 c) h = Ok (A_d, B_d, c_d) /\ system_shape A_d B_d nx nu /\ length c_d = nx /\
    forall u x, length u = nu -> ode_solution A B c u nx h x -> x h = vadd (vadd (mv A_d (x 0)) (mv B_d u)) c_d.
Proof.
  intros (HA & HB) Lc H0 HE. unfold zero_order_hold, check_affine_system.
  assert (LA : length (rows A) = nx) by apply HA. assert (LB : length (rows B) = nx) by apply HB.
  assert (EA : ncols A = nx) by apply HA. assert (EB : ncols B = nu) by apply HB. unfold nrows. rewrite LA, LB, EA, EB.
  cbn [nd_ndim nd_size]. rewrite Lc, !Nat.eqb_refl. cbn [negb bind Nat.ltb Nat.leb].
  rewrite (proj2 (Rltb_false h 0)) by lra. cbn [bind].
  set (E := np_expm np (mscale h (zoh_matrix A B c))) in *. destruct HE as (SE & HE). assert (LE : length (rows E) = (nx + nu + 1)%nat) by apply SE.
  assert (ST : shape (Mat (ncols E) (firstn nx (rows E))) nx (nx + nu + 1)).
  { repeat split; cbn [rows ncols]; [rewrite firstn_length; lia|apply SE|]. apply Forall_forall. intros r Hr. destruct SE as (_ & _ & SE). rewrite Forall_forall in SE. apply SE.
    rewrite <- (firstn_skipn nx (rows E)). apply in_or_app. auto. }
  set (top := Mat (ncols E) (firstn nx (rows E))) in *.
  assert (S1 : shape (cols_to top nx) nx nx) by (apply (shape_cols_to top nx (nx + nu + 1)); [exact ST|lia]).
  assert (S2 : shape (cols_to (cols_from top nx) nu) nx nu).
  { apply (shape_cols_to _ nx (nx + nu + 1 - nx)); [|lia]. apply shape_cols_from. exact ST. }
  eexists _, _, _. split; [reflexivity|]. split; [split; assumption|]. split; [rewrite map_length; apply ST|].
  intros u x Lu (Lx & Dx).
  assert (SZ : shape (zoh_matrix A B c) (nx + nu + 1) (nx + nu + 1)) by (apply zoh_shape; assumption).
  pose proof (linear_ode (zoh_matrix A B c) (nx + nu + 1) (fun t => (x t ++ u) ++ [1]) h SZ) as Q. cbv beta in Q.
  assert (Q' : (x h ++ u) ++ [1] = mv E ((x 0 ++ u) ++ [1])).
  { apply Q; [intros t; rewrite !app_length, Lx, Lu; reflexivity| |exact H0|split; [exact SE|exact HE]].
    intros t Ht i Hi. rewrite (mv_zoh A B c nx nu) by auto.
    assert (LV : length (vadd (vadd (mv A (x t)) (mv B u)) c) = nx) by (len).
    destruct (le_lt_dec nx i) as [G|G].
    - rewrite app_nth2 by lia. rewrite nth_zeros.
      apply (derivable_pt_lim_ext (fun _ => nth (i - nx) (u ++ [1]) 0)); [|apply derivable_pt_lim_const].
      intros s. rewrite <- app_assoc, (app_nth2 (x s)) by (rewrite Lx; lia). rewrite Lx. reflexivity.
    - rewrite app_nth1 by lia. apply (derivable_pt_lim_ext (fun s => nth i (x s) 0)); [|apply Dx; assumption].
      intros s. rewrite <- app_assoc, app_nth1 by (rewrite Lx; lia). reflexivity. }
  clear Q. apply (nth_ext _ _ 0 0).
  { rewrite Lx. rewrite !vadd_length, !mv_length, map_length. rewrite (proj1 S1), (proj1 S2), (proj1 ST). lia. }
  intros i Hi. rewrite Lx in Hi.
  assert (L1 : length (mv (cols_to top nx) (x 0)) = nx) by (rewrite mv_length; apply S1).
  assert (L2 : length (mv (cols_to (cols_from top nx) nu) u) = nx) by (rewrite mv_length; apply S2).
  assert (L3 : length (map (fun r => nth (nx + nu) r 0) (rows top)) = nx) by (rewrite map_length; apply ST).
  rewrite !nth_vadd by len.
  replace (nth i (x h) 0) with (nth i ((x h ++ u) ++ [1]) 0) by (rewrite <- app_assoc, app_nth1 by (rewrite Lx; lia); reflexivity).
  rewrite Q', nth_mv.
  assert (Er : nth i (rows top) [] = nth i (rows E) []).
  { unfold top. cbn [rows]. rewrite <- (firstn_skipn nx (rows E)) at 2. rewrite app_nth1 by (rewrite firstn_length; lia). reflexivity. }
  rewrite (split_row _ _ _ nx nu); [|apply (shape_row E (nx + nu + 1) (nx + nu + 1)); [exact SE|lia]|apply Lx|exact Lu].
  rewrite !nth_mv. unfold cols_to, cols_from. cbn [rows]. rewrite map_map.
  assert (Nm : forall f : vec -> vec, f [] = [] -> nth i (map f (rows top)) [] = f (nth i (rows E) [])).
  { intros f Hf. rewrite <- Hf at 1. rewrite map_nth, Er. reflexivity. }
  assert (Ns : forall f : vec -> R, f [] = 0 -> nth i (map f (rows top)) 0 = f (nth i (rows E) [])).
  { intros f Hf. rewrite <- Hf at 1. rewrite map_nth, Er. reflexivity. }
  rewrite (Nm (firstn nx)) by apply firstn_nil. rewrite (Nm (fun r => firstn nu (skipn nx r))) by (rewrite skipn_nil; apply firstn_nil).
  rewrite (Ns (fun r => nth (nx + nu) r 0)) by (destruct (nx + nu)%nat; reflexivity). reflexivity.
Qed.

(** ** The matrix exponential exists *)
Section Exists.
Variables (M : mat) (n : nat).
Hypothesis HM : shape M n n.
Let entry N i j := nth j (row (exp_sum M n N) i) 0.
Let term k i j := / INR (fact k) * nth j (row (mpow M k) i) 0.
Lemma mpow_entry k i j : Rabs (nth j (row (mpow M k) i) 0) <= (Lm M + 1) ^ k.
Proof.
  pose proof (Lm_nonneg M) as L0. pose proof (shape_mpow M n k HM) as SP.
  destruct (le_lt_dec n i) as [G|G].
  { unfold row. rewrite nth_overflow with (n := i) by (rewrite (proj1 SP); exact G). destruct j; cbn; rewrite Rabs_R0; apply pow_le; lra. }
  destruct (le_lt_dec n j) as [G'|G'].
  { rewrite nth_overflow by (rewrite (shape_row _ n n) by auto; exact G'). rewrite Rabs_R0. apply pow_le. lra. }
  assert (E : nth j (row (mpow M k) i) 0 = nth i (mv (mpow M k) (unit n j)) 0).
  { rewrite nth_mv. fold (row (mpow M k) i). symmetry. apply dot_unit_r; [exact G'|]. apply (shape_row _ n n); auto. }
  rewrite E. clear E. revert i G. induction k as [|k IH]; intros i G.
  - rewrite (mv_mpow_0 M n) by (auto; apply unit_length). rewrite nth_unit by exact G. destruct (Nat.eqb i j); rewrite ?Rabs_R0, ?Rabs_R1; cbn; lra.
  - rewrite (mv_mpow_S M n) by exact HM. specialize (IH (shape_mpow M n k HM)).
    eapply Rle_trans; [apply (mv_bound M n HM _ ((Lm M + 1) ^ k)); [exact G|]|].
    + intros q. destruct (le_lt_dec n q) as [Q|Q]; [|apply IH; exact Q]. rewrite nth_overflow by (rewrite mv_length, (proj1 (shape_mpow M n k HM)); exact Q).
      rewrite Rabs_R0. apply pow_le. lra.
    + cbn [pow]. pose proof (pow_le (Lm M + 1) k ltac:(lra)). nra.
Qed.
Lemma entry_S N i j : (i < n)%nat -> (j < n)%nat -> entry (S N) i j = entry N i j + term N i j.
Proof.
  intros Hi Hj. unfold entry, term. cbn [exp_sum]. pose proof (exp_sum_shape n M N HM) as S1. pose proof (shape_mpow M n N HM) as S2.
  assert (S3 : shape (mscale (/ INR (fact N)) (mpow M N)) n n) by auto with shp.
  unfold madd, row. cbn [rows]. rewrite (nth_map2 _ _ _ _ [] []) by (rewrite ?(proj1 S1), ?(proj1 S3); auto).
  rewrite nth_vadd.
  - f_equal. unfold mscale. cbn [rows]. rewrite (nth_indep _ [] (vscale (/ INR (fact N)) [])) by (rewrite map_length, (proj1 S2); exact Hi).
    rewrite map_nth, nth_vscale. reflexivity.
  - fold (row (exp_sum M n N) i). fold (row (mscale (/ INR (fact N)) (mpow M N)) i). rewrite !(shape_row _ n n) by auto. reflexivity.
Qed.
Lemma entry_0 i j : entry 0 i j = 0.
Proof.
  unfold entry. cbn [exp_sum]. unfold zmat, row. cbn [rows]. destruct (le_lt_dec n i) as [G|G].
  - rewrite nth_overflow with (n := i) by (rewrite repeat_length; exact G). destruct j; reflexivity.
  - rewrite (nth_indep _ [] (zeros n)) by (rewrite repeat_length; exact G). rewrite nth_repeat. apply nth_zeros.
Qed.
Lemma entry_limit i j : { l | (i < n)%nat -> (j < n)%nat -> Un_cv (fun N => entry N i j) l }.
Proof.
  assert (C : { l | Un_cv (fun N => sum_f_R0 (fun k => term k i j) N) l }).
  { apply R_complete. apply (cauchy_abs (fun k => term k i j)). apply cv_cauchy_1.
    apply (Rseries_CV_comp (fun k => Rabs (term k i j)) (fun k => / INR (fact k) * (Lm M + 1) ^ k)).
    - intros k. split; [apply Rabs_pos|]. unfold term. rewrite Rabs_mult.
      assert (0 < / INR (fact k)) by (apply Rinv_0_lt_compat, INR_fact_lt_0).
      rewrite (Rabs_right (/ INR (fact k))) by lra. apply Rmult_le_compat_l; [lra|]. apply mpow_entry.
    - destruct (exist_exp (Lm M + 1)) as (l & Hl). exists l. exact Hl. }
  destruct C as (l & Hl). exists l. intros Hi Hj.
  assert (E : forall N, entry (S N) i j = sum_f_R0 (fun k => term k i j) N).
  { induction N as [|N IH]; rewrite entry_S by assumption; [rewrite entry_0; cbn [sum_f_R0]; ring|]. rewrite IH. reflexivity. }
  intros e He. destruct (Hl e He) as (N0 & HN). exists (S N0). intros N GN. destruct N as [|N]; [lia|]. rewrite E. apply HN. lia.
Qed.
Lemma expm_exists : { E | is_expm M E n }.
Proof.
  exists (Mat n (map (fun i => map (fun j => proj1_sig (entry_limit i j)) (seq 0 n)) (seq 0 n))). split.
  - repeat split; cbn [rows ncols]; [rewrite map_length; apply seq_length|]. apply Forall_map, Forall_forall. intros i _. rewrite map_length. apply seq_length.
  - intros i j Hi Hj. unfold row. cbn [rows]. rewrite (nth_map_seq _ n i []) by exact Hi. rewrite (nth_map_seq _ n j 0) by exact Hj.
    destruct (entry_limit i j) as (l & Hl). cbn [proj1_sig]. apply Hl; assumption.
Qed.
End Exists.
Definition squareb (M : mat) : bool := (Nat.eqb (nrows M) (ncols M) && forallb (fun r => Nat.eqb (length r) (ncols M)) (rows M))%bool.
Lemma squareb_shape M : squareb M = true -> shape M (ncols M) (ncols M).
Proof.
  unfold squareb. intros H. apply andb_prop in H as (H1 & H2). apply Nat.eqb_eq in H1. rewrite forallb_forall in H2. repeat split; [exact H1|].
  apply Forall_forall. intros r Hr. apply Nat.eqb_eq, H2, Hr.
Qed.
Lemma shape_squareb M n : shape M n n -> squareb M = true.
Proof.
  intros (H1 & H2 & H3). unfold squareb, nrows. rewrite H1, H2, Nat.eqb_refl. apply forallb_forall. rewrite Forall_forall in H3. intros r Hr. apply Nat.eqb_eq, H3, Hr.
Qed.
(** an exact library whose expm is exact *)
Definition expm0 (M : mat) : mat :=
  match Bool.bool_dec (squareb M) true with left H => proj1_sig (expm_exists M (ncols M) (squareb_shape M H)) | right _ => M end.
Lemma expm0_ok M n : shape M n n -> is_expm M (expm0 M) n.
Proof.
  intros H. unfold expm0. destruct (Bool.bool_dec (squareb M) true) as [Q|Q]; [|contradict Q; eapply shape_squareb; exact H].
  destruct (expm_exists M (ncols M) (squareb_shape M Q)) as (E & HE). cbn [proj1_sig]. replace n with (ncols M) by apply H. exact HE.
Qed.
Definition np_exp : numpy :=
  exact_numpy (fun A => A) (fun _ => 0) expm0 (fun _ _ Q _ => Q) (fun _ n => zeros n) (fun _ _ _ => Ok []) (fun _ => Err QhullError).
(*@ Example C34_zoh_example : There is a library with an exact matrix exponential; for dx/dt = u + 1 it satisfies the hypothesis of the theorem for every h, and x(t) = x0 + (u + 1) t is a solution, so A_d x0 + B_d u + c_d = x0 + (u + 1) h. *)
Lemma zoh_example h x0 u : 0 <= h ->
  let A := Mat 1 [[0]] in let B := Mat 1 [[1]] in let c := [1] in
  system_shape A B 1 1 /\ is_expm (mscale h (zoh_matrix A B c)) (np_expm np_exp (mscale h (zoh_matrix A B c))) 3 /\
  ode_solution A B c [u] 1 h (fun t => [x0 + (u + 1) * t]) /\
  exists A_d B_d c_d, zero_order_hold np_exp A B (D1 c) h = Ok (A_d, B_d, c_d) /\ vadd (vadd (mv A_d [x0]) (mv B_d [u])) c_d = [x0 + (u + 1) * h].
Proof.
  intros H0 A B c.
  assert (SS : system_shape A B 1 1) by (split; repeat split; repeat constructor).
  assert (HE : is_expm (mscale h (zoh_matrix A B c)) (np_expm np_exp (mscale h (zoh_matrix A B c))) 3).
  { apply expm0_ok. apply shape_mscale. apply (zoh_shape A B c 1 1); [apply SS|apply SS|reflexivity]. }
  assert (HO : ode_solution A B c [u] 1 h (fun t => [x0 + (u + 1) * t])).
  { split; [reflexivity|]. intros t Ht i Hi. assert (i = 0%nat) by lia. subst i. cbn.
    replace (0 * (x0 + (u + 1) * t) + 0 + (1 * u + 0) + 1) with (0 + (u + 1) * 1) by ring.
    apply (derivable_pt_lim_plus (fun _ => x0) (fun s => (u + 1) * s)); [apply derivable_pt_lim_const|].
    apply (derivable_pt_lim_scal (fun s => s)). apply derivable_pt_lim_id. }
  split; [exact SS|]. split; [exact HE|]. split; [exact HO|].
  destruct (zoh_ok np_exp A B c 1 1 h SS eq_refl H0 HE) as (A_d & B_d & c_d & E & _ & _ & Hs).
  exists A_d, B_d, c_d. split; [exact E|]. specialize (Hs [u] _ eq_refl HO). cbv beta in Hs. rewrite Rmult_0_r, Rplus_0_r in Hs. symmetry. exact Hs.
Qed.
