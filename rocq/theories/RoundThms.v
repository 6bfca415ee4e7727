(** * RoundThms: rounding errors of the membership test and of the simulations (C93, C94), proofs *)
From Coq Require Import Permutation.
From Verif Require Import Arr ArrFacts Spec SpecRound Pnnls Polyhedron PolyThms MembThms Dynamics Round.

Lemma rabs_inv x a : Rabs x <= a -> - a <= x <= a.
Proof. unfold Rabs. destruct (Rcase_abs x); lra. Qed.
Lemma f2_length {A B} (P : A -> B -> Prop) l l' : Forall2 P l l' -> length l = length l'.
Proof. induction 1; cbn; congruence. Qed.
Lemma f2_nth {A B} (P : A -> B -> Prop) l l' da db : Forall2 P l l' -> forall i, (i < length l)%nat -> P (nth i l da) (nth i l' db).
Proof. induction 1; intros [|i] Hi; cbn in *; try lia; [assumption|]. apply IHForall2. lia. Qed.
Lemma nth_map2r {A B} (f : A -> B -> R) l l' da db i : length l = length l' -> (i < length l)%nat -> nth i (map2 f l l') 0 = f (nth i l da) (nth i l' db).
Proof. revert l' i. induction l as [|a l IH]; intros [|b l'] [|i] L H; cbn in *; try lia; [reflexivity|]. apply IH; lia. Qed.
(** ** Dot products *)
Definition psum (l : list (R * R)) : R := fold_right (fun t s => fst t * snd t + s) 0 l.
Definition pabs (l : list (R * R)) : R := fold_right (fun t s => Rabs (fst t) * Rabs (snd t) + s) 0 l.
Lemma psum_app l l' : psum (l ++ l') = psum l + psum l'.
Proof. unfold psum. induction l as [|t l IH]; cbn [app fold_right]; [ring|]. rewrite IH. ring. Qed.
Lemma pabs_app l l' : pabs (l ++ l') = pabs l + pabs l'.
Proof. unfold pabs. induction l as [|t l IH]; cbn [app fold_right]; [ring|]. rewrite IH. ring. Qed.
Lemma psum_perm l l' : Permutation l l' -> psum l = psum l'.
Proof. unfold psum. induction 1; cbn in *; lra. Qed.
Lemma pabs_perm l l' : Permutation l l' -> pabs l = pabs l'.
Proof. unfold pabs. induction 1; cbn in *; lra. Qed.
Lemma pabs_nonneg l : 0 <= pabs l.
Proof. induction l as [|[a x] l IH]; cbn; [lra|]. unfold pabs in IH. pose proof (Rabs_pos a). pose proof (Rabs_pos x). nra. Qed.
Lemma psum_abs l : Rabs (psum l) <= pabs l.
Proof.
  induction l as [|[a x] l IH]; cbn; [rewrite Rabs_R0; lra|]. unfold psum, pabs in IH. eapply Rle_trans; [apply Rabs_triang|]. rewrite Rabs_mult. lra.
Qed.
Lemma psum_combine a : forall x, psum (combine a x) = dot a x.
Proof. induction a as [|b a IH]; intros [|y x]; cbn; try reflexivity. unfold psum in IH. rewrite IH. reflexivity. Qed.
Lemma pabs_combine a : forall x, pabs (combine a x) = abs_dot a x.
Proof. unfold abs_dot. induction a as [|b a IH]; intros [|y x]; cbn; try reflexivity. unfold pabs in IH. rewrite IH. reflexivity. Qed.
Lemma abs_dot_nonneg a x : 0 <= abs_dot a x.
Proof. rewrite <- pabs_combine. apply pabs_nonneg. Qed.
Lemma dot_le_abs a x : Rabs (dot a x) <= abs_dot a x.
Proof. rewrite <- psum_combine, <- pabs_combine. apply psum_abs. Qed.

Section Err.
Variables (u eta : R) (rnd : R -> R).
Hypothesis RND : rounding u eta rnd.
Let err (k : nat) (c s : R) : R := ((1 + u) ^ k - 1) * s + c * (1 + u) ^ k * eta.
Lemma pow_ge1 k : 1 <= (1 + u) ^ k.
Proof. destruct RND as (U & _). apply pow_R1_Rle. lra. Qed.
Lemma pow_mono1 k k' : (k <= k')%nat -> (1 + u) ^ k <= (1 + u) ^ k'.
Proof. destruct RND as (U & _). intros H. apply Rle_pow; [lra|exact H]. Qed.
Lemma err_mono k k' c c' s : (k <= k')%nat -> 0 <= c <= c' -> 0 <= s -> err k c s <= err k' c' s.
Proof.
  intros K C S. unfold err. pose proof (pow_mono1 k k' K). pose proof (pow_ge1 k). destruct RND as (_ & E & _).
  assert (c * (1 + u) ^ k <= c' * (1 + u) ^ k') by nra. nra.
Qed.
Lemma round_err z z' e : Rabs (z' - z) <= e -> Rabs (rnd z' - z) <= (1 + u) * e + u * Rabs z + eta.
Proof.
  intros H. destruct RND as (U & E & RN). specialize (RN z'). replace (rnd z' - z) with ((rnd z' - z') + (z' - z)) by ring.
  eapply Rle_trans; [apply Rabs_triang|]. assert (Rabs z' <= Rabs z + e). { replace z' with (z + (z' - z)) by ring. eapply Rle_trans; [apply Rabs_triang|]. lra. }
  nra.
Qed.
(** one rounded addition *)
Lemma err_add k k1 k2 c c1 c2 a a' b b' S T : (k1 < k)%nat -> (k2 < k)%nat -> 0 <= c1 -> 0 <= c2 -> c1 + c2 + 1 <= c ->
  Rabs a <= S -> Rabs b <= T -> Rabs (a' - a) <= err k1 c1 S -> Rabs (b' - b) <= err k2 c2 T ->
  Rabs (rnd (a' + b') - (a + b)) <= err k c (S + T).
Proof.
  intros K1 K2 C1 C2 C HS HT HA HB. pose proof (Rabs_pos a). pose proof (Rabs_pos b).
  assert (H1 : Rabs (a' + b' - (a + b)) <= err k1 c1 S + err k2 c2 T).
  { replace (a' + b' - (a + b)) with ((a' - a) + (b' - b)) by ring. eapply Rle_trans; [apply Rabs_triang|]. lra. }
  apply round_err in H1. eapply Rle_trans; [exact H1|]. clear H1. pose proof (Rabs_triang a b) as HAB. destruct RND as (U & E & _). fold err.
  assert (G : forall j cj s, (j < k)%nat -> 0 <= cj -> 0 <= s -> (1 + u) * err j cj s + u * s <= ((1 + u) ^ k - 1) * s + cj * (1 + u) ^ k * eta).
  { intros j cj s J Cj Hs. unfold err. pose proof (pow_mono1 (Datatypes.S j) k J) as PM. cbn [pow] in PM. pose proof (pow_ge1 j).
    replace ((1 + u) * (((1 + u) ^ j - 1) * s + cj * (1 + u) ^ j * eta) + u * s) with (((1 + u) * (1 + u) ^ j - 1) * s + cj * ((1 + u) * (1 + u) ^ j) * eta) by ring.
    apply Rplus_le_compat; [apply Rmult_le_compat_r; [exact Hs|lra]|]. apply Rmult_le_compat_r; [exact E|]. apply Rmult_le_compat_l; [exact Cj|exact PM]. }
  pose proof (G k1 c1 S K1 C1 ltac:(lra)) as G1. pose proof (G k2 c2 T K2 C2 ltac:(lra)) as G2. pose proof (pow_ge1 k) as P1.
  assert (Q : (c1 + c2 + 1) * (1 + u) ^ k * eta <= c * (1 + u) ^ k * eta). { apply Rmult_le_compat_r; [exact E|]. apply Rmult_le_compat_r; lra. }
  assert (u * Rabs (a + b) <= u * S + u * T) by nra. unfold err at 3. nra.
Qed.
Lemma err_mul a b : Rabs (rnd (a * b) - a * b) <= err 1 1 (Rabs a * Rabs b).
Proof.
  destruct RND as (U & E & RN). specialize (RN (a * b)). rewrite Rabs_mult in RN. unfold err. cbn [pow]. pose proof (Rabs_pos a). pose proof (Rabs_pos b). nra.
Qed.
Lemma dot_err_core l s : fl_dot rnd l s -> (l = [] /\ s = 0) \/ (l <> [] /\ Rabs (s - psum l) <= err (length l) (2 * INR (length l) - 1) (pabs l)).
Proof.
  induction 1 as [|a x|l1 l2 s1 s2 N1 N2 H1 IH1 H2 IH2|l s a x N H IH|l l' s P H IH].
  - left. auto.
  - right. split; [discriminate|]. cbn [psum pabs fold_right fst snd length]. rewrite !Rplus_0_r. replace (2 * INR 1 - 1) with 1 by (cbn; ring). apply err_mul.
  - right. destruct IH1 as [(E & _)|(_ & IH1)]; [contradiction|]. destruct IH2 as [(E & _)|(_ & IH2)]; [contradiction|].
    assert (L1 : (0 < length l1)%nat) by (destruct l1; [contradiction|cbn; lia]). assert (L2 : (0 < length l2)%nat) by (destruct l2; [contradiction|cbn; lia]).
    split; [destruct l1; [contradiction|discriminate]|]. rewrite psum_app, pabs_app, app_length, plus_INR.
    apply lt_0_INR in L1 as I1. apply lt_0_INR in L2 as I2. apply le_INR in L1 as J1. apply le_INR in L2 as J2. cbn [INR] in J1, J2.
    apply (err_add _ (length l1) (length l2) _ (2 * INR (length l1) - 1) (2 * INR (length l2) - 1)); try lia; try lra; auto using psum_abs.
  - right. destruct IH as [(E & _)|(_ & IH)]; [contradiction|]. assert (L1 : (0 < length l)%nat) by (destruct l; [contradiction|cbn; lia]).
    split; [destruct l; [contradiction|discriminate]|]. rewrite psum_app, pabs_app, app_length, plus_INR. cbn [psum pabs fold_right fst snd length INR]. rewrite !Rplus_0_r.
    apply le_INR in L1 as J1. cbn [INR] in J1.
    apply (err_add _ (length l) 0 _ (2 * INR (length l) - 1) 0); try lia; try lra; auto using psum_abs.
    + rewrite Rabs_mult. lra.
    + unfold err. cbn [pow]. rewrite Rminus_diag_eq by reflexivity. rewrite Rabs_R0. lra.
  - destruct IH as [(-> & ->)|(N & IH)].
    + left. split; [apply Permutation_nil; exact P|reflexivity].
    + right. split; [intros ->; apply N; symmetry in P; apply Permutation_nil in P; exact P|]. rewrite <- (psum_perm _ _ P), <- (pabs_perm _ _ P), <- (Permutation_length P). exact IH.
Qed.
Lemma dot_err l s : fl_dot rnd l s -> Rabs (s - psum l) <= rounding_error u eta (length l) (pabs l).
Proof.
  intros H. destruct (dot_err_core l s H) as [(-> & ->)|(N & B)].
  - cbn. rewrite Rminus_0_r, Rabs_R0. unfold rounding_error. cbn. lra.
  - eapply Rle_trans; [exact B|]. unfold rounding_error. apply (err_mono (length l) (length l)); [lia| |apply pabs_nonneg].
    assert (L : (1 <= length l)%nat) by (destruct l; [contradiction|cbn; lia]). apply le_INR in L. cbn [INR] in L. lra.
Qed.
Lemma rounding_error_mono n n' s : (n <= n')%nat -> 0 <= s -> rounding_error u eta n s <= rounding_error u eta n' s.
Proof. intros N S. apply (err_mono n n'); [exact N| |exact S]. apply le_INR in N. pose proof (pos_INR n). lra. Qed.
Lemma rounding_error_le n s s' : s <= s' -> rounding_error u eta n s <= rounding_error u eta n s'.
Proof. intros S. unfold rounding_error. pose proof (pow_ge1 n). nra. Qed.
Lemma rounding_error_nonneg n s : 0 <= s -> 0 <= rounding_error u eta n s.
Proof. intros S. unfold rounding_error. pose proof (pow_ge1 n). pose proof (pos_INR n). destruct RND as (_ & E & _). assert (0 <= 2 * INR n * (1 + u) ^ n * eta) by (apply Rmult_le_pos; [|exact E]; nra). nra. Qed.
Lemma sum_err n1 n2 a a' b b' S T : Rabs a <= S -> Rabs b <= T -> Rabs (a' - a) <= rounding_error u eta n1 S -> Rabs (b' - b) <= rounding_error u eta n2 T ->
  Rabs (rnd (a' + b') - (a + b)) <= rounding_error u eta (n1 + n2 + 1) (S + T).
Proof.
  intros HS HT HA HB. unfold rounding_error. pose proof (pos_INR n1). pose proof (pos_INR n2).
  apply (err_add _ n1 n2 _ (2 * INR n1) (2 * INR n2)); try lia; try lra; auto. rewrite !plus_INR. cbn [INR]. lra.
Qed.
Lemma row_err r x s : length r = length x -> fl_dot rnd (combine r x) s -> Rabs (s - dot r x) <= rounding_error u eta (length x) (abs_dot r x).
Proof. intros L H. apply dot_err in H. rewrite psum_combine, pabs_combine, combine_length, L, Nat.min_id in H. exact H. Qed.
Lemma residual_err r x s b : length r = length x -> fl_dot rnd (combine r x) s ->
  Rabs (rnd (s - b) - (dot r x - b)) <= rounding_error u eta (length x + 1) (abs_dot r x + Rabs b).
Proof.
  intros L H. apply row_err in H; [|exact L]. replace (rnd (s - b)) with (rnd (s + - b)) by (f_equal; ring). replace (dot r x - b) with (dot r x + - b) by ring.
  replace (length x + 1)%nat with (length x + 0 + 1)%nat by lia.
  apply sum_err; [apply dot_le_abs|rewrite Rabs_Ropp; lra|exact H|]. rewrite Rminus_diag_eq by reflexivity. rewrite Rabs_R0. apply rounding_error_nonneg, Rabs_pos.
Qed.
End Err.

(** an evaluation exists *)
Lemma fl_dot_total rnd l : exists s, fl_dot rnd l s.
Proof.
  induction l as [|[a x] l (s & IH)]; [exists 0; constructor|]. destruct l as [|t l]; [eexists; apply fd_one|].
  exists (rnd (rnd (a * x) + s)). apply (fd_add rnd [(a, x)] (t :: l)); try discriminate; [apply fd_one|exact IH].
Qed.
Lemma fl_mv_total rnd A x : exists y, fl_mv rnd A x y.
Proof.
  unfold fl_mv. induction (rows A) as [|r rs (y & IH)]; [exists []; constructor|]. destruct (fl_dot_total rnd (combine r x)) as (s & H). exists (s :: y). constructor; assumption.
Qed.

(** ** contains *)
Lemma vmax_close v w E : length v = length w -> v <> [] -> (forall i, (i < length v)%nat -> Rabs (nth i v 0 - nth i w 0) <= E) ->
  exists a b, vmax v = Ok a /\ vmax w = Ok b /\ Rabs (a - b) <= E.
Proof.
  intros L N H. assert (N' : w <> []) by (destruct w, v; try discriminate; contradiction).
  destruct (vmax_le w 0 N') as (b & Eb & _). destruct (vmax_le v 0 N) as (a & Ea & _). exists a, b. split; [exact Ea|]. split; [exact Eb|].
  assert (A1 : a <= b + E).
  { destruct (vmax_le v (b + E) N) as (a' & Ea' & K). rewrite Ea in Ea'. injection Ea' as <-. apply K. apply Forall_nth. intros i d Hi. rewrite (nth_indep _ d 0) by exact Hi.
    destruct (vmax_le w b N') as (b' & Eb' & K'). rewrite Eb in Eb'. injection Eb' as <-. pose proof (proj1 K' (Rle_refl b)) as F. rewrite Forall_nth in F. specialize (F i 0 ltac:(lia)). specialize (H i Hi). apply rabs_inv in H. lra. }
  assert (A2 : b <= a + E).
  { destruct (vmax_le w (a + E) N') as (b' & Eb' & K). rewrite Eb in Eb'. injection Eb' as <-. apply K. apply Forall_nth. intros i d Hi. rewrite (nth_indep _ d 0) by exact Hi.
    destruct (vmax_le v a N) as (a' & Ea' & K'). rewrite Ea in Ea'. injection Ea' as <-. pose proof (proj1 K' (Rle_refl a)) as F. rewrite Forall_nth in F. specialize (F i 0 ltac:(lia)). specialize (H i ltac:(lia)). apply rabs_inv in H. lra. }
  apply Rabs_le. lra.
Qed.

Lemma fl_residual_ok u eta rnd A x b m n E q : rounding u eta rnd -> shape A m n -> length b = m -> length x = n -> (0 < m)%nat ->
  (forall i, (i < m)%nat -> rounding_error u eta (n + 1) (abs_dot (row A i) x + Rabs (nth i b 0)) <= E) ->
  fl_residual rnd A x b q -> exists mx mx', q = Ok mx' /\ vmax (vsub (mv A x) b) = Ok mx /\ Rabs (mx' - mx) <= E.
Proof.
  intros RN HA Lb Lx Hm HE. assert (NA : ncols A = n) by apply HA. assert (LA : length (rows A) = m) by apply HA. unfold fl_residual. rewrite NA, Lx, Nat.eqb_refl. intros (y & HY & ->).
  assert (Ly : length y = m). { apply f2_length in HY. lia. }
  assert (Lf : length (fl_vsub rnd y b) = m) by (unfold fl_vsub; rewrite map2_length; lia).
  destruct (vmax_close (fl_vsub rnd y b) (vsub (mv A x) b) E) as (a & c & Ea & Ec & B).
  - len.
  - intros Z. rewrite Z in Lf. cbn in Lf. lia.
  - intros i Hi. rewrite Lf in Hi. unfold fl_vsub.
    rewrite (nth_map2r _ _ _ 0 0) by lia. rewrite nth_vsub by (len). rewrite nth_mv. 
    specialize (HE i Hi). unfold row in HE. assert (Lr : length (nth i (rows A) []) = n) by (apply (shape_In A m n); [exact HA|apply nth_In; lia]).
    assert (FD : fl_dot rnd (combine (nth i (rows A) []) x) (nth i y 0)). { apply (f2_nth _ _ _ [] 0 HY i). lia. }
    pose proof (residual_err u eta rnd RN (nth i (rows A) []) x (nth i y 0) (nth i b 0) ltac:(lia) FD) as Q. rewrite Lx in Q. eapply Rle_trans; [exact Q|exact HE].
  - exists c, a. auto.
Qed.

(*@ Theorem C93_membership : contains evaluated with rounded operations, summed in any order, does not raise; if E bounds the rounding errors of the residuals, the result is True whenever exact evaluation with the tolerance tol - E gives True, and if it is True exact evaluation with tol + E gives True *)
Lemma fl_contains_sandwich u eta rnd tol p x E m me n : rounding u eta rnd -> wf p m me n -> (0 < m)%nat -> length x = n ->
  residual_bound u eta E (pA p) (pb p) x -> residual_bound u eta E (pC p) (pd p) x ->
  (exists r, fl_contains rnd tol p x r) /\
  forall r, fl_contains rnd tol p x r -> exists c, r = Ok c /\ (contains (tol - E) p x = Ok true -> c = true) /\ (c = true -> contains (tol + E) p x = Ok true).
Proof.
  intros RN (HA & Lb & HC & Ld) Hm Lx EA EC. assert (NA : ncols (pA p) = n) by apply HA. assert (NC : ncols (pC p) = n) by apply HC.
  assert (LA : nrows (pA p) = m) by apply HA. assert (LC : nrows (pC p) = me) by apply HC. unfold residual_bound in EA, EC. rewrite LA, Lx in EA. rewrite LC, Lx in EC. split.
  - destruct (fl_mv_total rnd (pA p) x) as (y & HY). destruct (fl_mv_total rnd (pC p) x) as (z & HZ).
    assert (Ly : length y = m) by (apply f2_length in HY; unfold nrows in LA; lia). unfold fl_contains, fl_residual. rewrite NA, NC, Lx, Nat.eqb_refl.
    destruct (vmax (fl_vsub rnd y (pb p))) as [mx|e] eqn:EV.
    + destruct (0 <? nrows (pC p))%nat eqn:PC.
      * eexists. exists (Ok mx). split; [exists y; auto|]. exists (vmax (fl_vsub rnd z (pd p))). split; [exists z; auto|reflexivity].
      * eexists. exists (Ok mx). split; [exists y; auto|reflexivity].
    + eexists. exists (Err e). split; [exists y; auto|reflexivity].
  - intros r (q & HQ & HR). destruct (fl_residual_ok u eta rnd (pA p) x (pb p) m n E q) as (mx & mx' & -> & EM & BM); auto.
    apply rabs_inv in BM. unfold contains, np_mv. rewrite NA, NC, Lx, Nat.eqb_refl. cbn [bind]. rewrite EM. cbn [bind]. rewrite LC in *.
    destruct (Nat.ltb_spec 0 me) as [Pme|_].
    + destruct HR as (q' & HQ' & HR). destruct (fl_residual_ok u eta rnd (pC p) x (pd p) me n E q') as (mx1 & mx1' & -> & EM1 & BM1); auto. cbn [bind] in HR.
      rewrite EM1. cbn [bind]. assert (B2 : Rabs mx1' <= Rabs mx1 + E /\ Rabs mx1 <= Rabs mx1' + E) by (apply rabs_inv in BM1; unfold Rabs; repeat destruct Rcase_abs; lra).
      exists (Rleb mx' tol && Rleb (Rabs mx1') tol)%bool. split; [exact HR|]. split.
      * intros H. injection H as H. apply andb_true_iff in H. destruct H as (H1 & H2). apply Rleb_true in H1, H2. apply andb_true_iff. split; apply Rleb_true; lra.
      * intros H. apply andb_true_iff in H. destruct H as (H1 & H2). apply Rleb_true in H1, H2. f_equal. apply andb_true_iff. split; apply Rleb_true; lra.
    + exists (Rleb mx' tol). split; [exact HR|]. cbn [bind]. rewrite !andb_true_r. split.
      * intros H. injection H as H. apply Rleb_true in H. apply Rleb_true. lra.
      * intros H. apply Rleb_true in H. f_equal. apply Rleb_true. lra.
Qed.

(*@ Theorem C93_points : for polyhedra without equalities: a point of the polyhedron is accepted if the rounding errors of its residuals are at most tol, and an accepted point violates each inequality by at most tol plus these errors *)
Lemma fl_contains_points u eta rnd tol p x E m n r : rounding u eta rnd -> wf p m 0 n -> (0 < m)%nat -> length x = n -> residual_bound u eta E (pA p) (pb p) x ->
  fl_contains rnd tol p x r -> exists c, r = Ok c /\ (in_poly p x -> E <= tol -> c = true) /\ (c = true -> forall i, (i < m)%nat -> dot (row (pA p) i) x <= nth i (pb p) 0 + tol + E).
Proof.
  intros RN HW Hm Lx EA HR. assert (EC : residual_bound u eta E (pC p) (pd p) x). { intros i Hi. destruct HW as (_ & _ & HC & _). replace (nrows (pC p)) with 0%nat in Hi by (symmetry; apply HC). lia. }
  destruct (fl_contains_sandwich u eta rnd tol p x E m 0 n RN HW Hm Lx EA EC) as (_ & H). destruct (H r HR) as (c & -> & H1 & H2). exists c. split; [reflexivity|].
  pose proof HW as (HA & Lb & HC & Ld). assert (NA : ncols (pA p) = n) by apply HA. assert (LA : length (rows (pA p)) = m) by apply HA. assert (LC : nrows (pC p) = 0%nat) by apply HC.
  assert (K : forall t, contains t p x = Ok true <-> forall i, (i < m)%nat -> dot (row (pA p) i) x <= nth i (pb p) 0 + t).
  { intros t. unfold contains, np_mv. rewrite NA, Lx, Nat.eqb_refl, LC. cbn [bind Nat.ltb Nat.leb]. 
    assert (NN : vsub (mv (pA p) x) (pb p) <> []). { intros Z. apply (f_equal (@length R)) in Z. lenh Z. cbn in Z. lia. }
    destruct (vmax_le _ t NN) as (mx & -> & KM). cbn [bind]. rewrite andb_true_r. split.
    - intros Q i Hi. injection Q as Q. apply Rleb_true in Q. apply KM in Q. rewrite Forall_nth in Q. specialize (Q i 0 ltac:(len)). rewrite nth_vsub, nth_mv in Q by len. unfold row. lra.
    - intros Q. f_equal. apply Rleb_true, KM. apply Forall_nth. intros i d Hi. rewrite (nth_indep _ d 0) by exact Hi. lenh Hi. rewrite nth_vsub, nth_mv by len. specialize (Q i ltac:(lia)). unfold row in Q. lra. }
  split.
  - intros HI HE. apply H1. apply K. intros i Hi. apply (in_poly_vle p m 0 n x HW) in HI. destruct HI as (_ & HV & _). apply vle_nth in HV. destruct HV as (_ & HV). specialize (HV i ltac:(len)). rewrite nth_mv in HV. unfold row. lra.
  - intros HC1 i Hi. apply H2 in HC1. pose proof (proj1 (K _) HC1 i Hi). lra.
Qed.
