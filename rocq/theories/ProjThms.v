(** * ProjThms: orthogonal projection, feasible sets and convex hulls (C17, C54), proofs *)
From Coq Require Import ZArith Permutation Classical.
From Verif Require Import Arr ArrFacts Spec SpecGeom Numpy Pnnls PnnlsFacts QpFacts GeomUtils Polyhedron PolyThms Oracle SolverThms NullFacts PolySolveThms PolySetThms PolyBoundThms PolyCacheThms Mpqp MpqpThms GeomThms HullOracle Projection.

(** ** Reordering of the coordinates *)
Lemma vsum_perm l l' : Permutation l l' -> vsum l = vsum l'.
Proof. induction 1; cbn [vsum fold_right] in *; try (rewrite !vsum_cons); unfold vsum in *; cbn [fold_right] in *; lra. Qed.
Lemma dot_vtake r x l : dot (vtake r l) (vtake x l) = vsum (map (fun i => nth i r 0 * nth i x 0) l).
Proof. induction l as [|i l IH]; cbn; [reflexivity|]. unfold vtake, vsum in *. cbn. rewrite IH. reflexivity. Qed.
Lemma vtake_seq (x : vec) n : length x = n -> vtake x (seq 0 n) = x.
Proof. intros H. apply vec_ext; [len|]. intros i Hi. lenh Hi. rewrite nth_vtake by (len; lia). f_equal. rewrite seq_nth by lia. lia. Qed.
Lemma dot_vtake_perm (r x : vec) l n : length r = n -> length x = n -> Permutation l (seq 0 n) -> dot (vtake r l) (vtake x l) = dot r x.
Proof.
  intros Hr Hx P. rewrite dot_vtake. rewrite (vsum_perm _ (map (fun i => nth i r 0 * nth i x 0) (seq 0 n))) by (apply Permutation_map; exact P).
  rewrite <- dot_vtake, !vtake_seq by assumption. reflexivity.
Qed.
Lemma vtake_surj l N : NoDup l -> Forall (fun i => (i < N)%nat) l -> forall w : vec, length w = length l -> exists x, length x = N /\ vtake x l = w.
Proof.
  induction l as [|i l IH]; intros ND HF w Hw.
  - exists (zeros N). split; [len|]. destruct w; [reflexivity|discriminate].
  - destruct w as [|a w]; [discriminate|]. inversion ND as [|? ? Hi ND']; subst. pose proof (Forall_inv HF) as Hi1. apply Forall_inv_tail in HF.
    destruct (IH ND' HF w) as (x & Hx & Ex); [cbn in Hw; lia|].
    exists (map (fun j => if Nat.eqb j i then a else nth j x 0) (seq 0 N)). split; [len|].
    unfold vtake in *. cbn [map]. rewrite nth_map_seq by exact Hi1. rewrite Nat.eqb_refl. f_equal. rewrite <- Ex. apply map_ext_in. intros j Hj.
    rewrite nth_map_seq by (rewrite Forall_forall in HF; auto). destruct (Nat.eqb_spec j i) as [->|]; [contradiction|reflexivity].
Qed.
Lemma vtake_app x l1 l2 : vtake x (l1 ++ l2) = vtake x l1 ++ vtake x l2. Proof. unfold vtake. apply map_app. Qed.

Definition dims_ok (N : nat) (dims : list nat) : Prop := NoDup dims /\ Forall (fun i => (i < N)%nat) dims.
Lemma dropped_perm N dims : dims_ok N dims -> Permutation (dims ++ dropped_dimensions N dims) (seq 0 N).
Proof.
  intros (ND & HF). apply NoDup_Permutation.
  - apply NoDup_app_disj; [exact ND|apply NoDup_filter, seq_NoDup|]. intros i Hi Hd. unfold dropped_dimensions in Hd. apply filter_In in Hd. destruct Hd as (_ & Hd).
    rewrite (proj2 (existsb_exists _ _)) in Hd; [discriminate|]. exists i. split; [exact Hi|apply Nat.eqb_refl].
  - apply seq_NoDup.
  - intros i. rewrite in_app_iff, in_seq. unfold dropped_dimensions. rewrite filter_In, in_seq. rewrite Forall_forall in HF. split.
    + intros [H|(H & _)]; [specialize (HF i H)|]; lia.
    + intros H. destruct (existsb (Nat.eqb i) dims) eqn:E; [|right; split; [lia|reflexivity]].
      left. apply existsb_exists in E. destruct E as (j & Hj & E). apply Nat.eqb_eq in E. subst. exact Hj.
Qed.
Lemma dropped_length N dims : dims_ok N dims -> (length dims + length (dropped_dimensions N dims) = N)%nat.
Proof. intros H. apply dropped_perm, Permutation_length in H. lenh H. exact H. Qed.
Lemma shape_reorder A m N dims : shape A m N -> dims_ok N dims -> shape (reorder A dims) m N.
Proof.
  intros HA HD. unfold reorder. rewrite (shape_cols _ _ _ HA). pose proof (dropped_length N dims HD) as L.
  pose proof (shape_hstack _ _ m _ _ (shape_ctake A m N dims HA) (shape_ctake A m N (dropped_dimensions N dims) HA)) as Q. rewrite L in Q. exact Q.
Qed.
Lemma mv_reorder A m N dims x : shape A m N -> dims_ok N dims -> length x = N ->
  mv (reorder A dims) (vtake x (dims ++ dropped_dimensions N dims)) = mv A x.
Proof.
  intros HA HD Hx. assert (LA : length (rows A) = m) by apply HA. unfold reorder. rewrite (shape_cols _ _ _ HA), vtake_app.
  rewrite (mv_hstack _ _ m (length dims) (length (dropped_dimensions N dims))); [|eapply shape_ctake; exact HA|eapply shape_ctake; exact HA|len].
  apply vec_ext; [unfold ctake; len|]. intros i Hi. unfold ctake in Hi. lenh Hi. autorewrite with nthv. rewrite nth_vadd by (unfold ctake; len). rewrite !nth_mv. unfold ctake. cbn [rows].
  assert (Q : forall l, nth i (map (fun r => vtake r l) (rows A)) [] = vtake (nth i (rows A) []) l).
  { intros l. rewrite (nth_indep _ [] (vtake [] l)) by (len; lia). apply (map_nth (fun r => vtake r l)). }
  rewrite !Q.
  rewrite <- dot_app by len. rewrite <- !vtake_app. apply dot_vtake_perm with N; [|exact Hx|apply dropped_perm; exact HD].
  apply (shape_row A m N i HA). lia.
Qed.
Lemma firstn_vtake x l1 l2 : firstn (length l1) (vtake x (l1 ++ l2)) = vtake x l1.
Proof. rewrite vtake_app. apply firstn_app_l. len. Qed.

(** ** The convex hull method, on reordered coordinates *)
Lemma dot_pad (a w : vec) i N : length a = i -> length w = N -> (i <= N)%nat -> dot (a ++ zeros (N - i)) w = dot a (firstn i w).
Proof. intros Ha Hw Hi. rewrite <- (firstn_skipn i w) at 1. rewrite dot_app by len. rewrite dot_zeros_l. ring. Qed.
Lemma argmin_to_some s x n : s_argmin s = Some x -> argmin_to s n = Ok (firstn n x).
Proof. unfold argmin_to. intros ->. reflexivity. Qed.
Lemma firstn_firstn_le {T} i n (l : list T) : (i <= n)%nat -> firstn i (firstn n l) = firstn i l.
Proof. intros H. rewrite firstn_firstn. f_equal. lia. Qed.
Lemma norm1_le d n : length d = n -> PolyBoundThms.norm1 d <= INR n * norm d.
Proof.
  intros H. assert (G : forall e : vec, (forall i, Rabs (nth i e 0) <= norm d) -> PolyBoundThms.norm1 e <= INR (length e) * norm d).
  { induction e as [|x e IH]; intros He; unfold PolyBoundThms.norm1, vsum in *; cbn [map fold_right length]; [cbn; lra|]. rewrite S_INR.
    pose proof (He O) as H0. cbn in H0. specialize (IH (fun i => He (S i))). lra. }
  rewrite <- H. apply G. intros i. apply norm_ge_nth.
Qed.
Lemma dot_abs u z : Rabs (dot u z) <= norm u * norm z.
Proof. apply Rabs_le. split; [|apply dot_le_norm]. pose proof (dot_le_norm (vneg u) z) as H. rewrite dot_vneg_l in H.
  replace (norm (vneg u)) with (norm u) in H; [lra|]. unfold norm. f_equal. autorewrite with dotx. ring. Qed.

(** what allclose says about inner products *)
Lemma close_dot a a2 z n : length a = n -> length z = n -> norm a2 <= 1 -> close a a2 -> dot a z <= dot a2 z + (/ 100000 + INR n * / 100000000) * norm z.
Proof.
  intros Ha Hz H1 Hc. assert (G : dot a z <= dot a2 z + / 100000000 * PolyBoundThms.norm1 z + / 100000 * dot (map Rabs a2) (map Rabs z)).
  { clear H1. subst n. revert z Hz. induction Hc as [|x y a a2 Hxy Hc IH]; intros z Hz; destruct z as [|w z]; try discriminate; unfold PolyBoundThms.norm1, vsum in *; cbn [map fold_right dot length] in *; [lra|].
    assert (Hz' : length z = length a) by lia. specialize (IH z Hz').
    assert (x * w <= y * w + (/ 100000000 + / 100000 * Rabs y) * Rabs w); [|nra].
    apply Rle_trans with (y * w + Rabs (x - y) * Rabs w).
    - rewrite <- Rabs_mult. pose proof (Rle_abs ((x - y) * w)). lra.
    - apply Rplus_le_compat_l, Rmult_le_compat_r; [apply Rabs_pos|exact Hxy]. }
  pose proof (norm1_le z n Hz). pose proof (dot_le_norm (map Rabs a2) (map Rabs z)) as Q.
  assert (NA : forall v, norm (map Rabs v) = norm v).
  { intros v. unfold norm. f_equal. induction v as [|x v IH]; cbn; [reflexivity|]. rewrite IH. rewrite <- Rabs_mult, Rabs_pos_eq by nra. reflexivity. }
  rewrite !NA in Q. pose proof (norm_nonneg z). pose proof (norm_nonneg a2). nra.
Qed.

(** the offset drawn in dimension i puts i points of the set, the first two of them extreme along the first coordinate, on a plane
    through the origin *)
Definition unlucky (np : numpy) (S : vec -> Prop) (n : nat) : Prop := exists i v1 v2 vs z, (2 <= i <= n)%nat /\ length (v1 :: v2 :: vs) = i /\ Forall S (v1 :: v2 :: vs) /\
  (forall y, S y -> nth 0 v1 0 <= nth 0 y 0 <= nth 0 v2 0) /\ length z = i /\ z <> zeros i /\
  Forall (fun v => dot z (vadd (firstn i v) (np_rand np i i)) = 0) (v1 :: v2 :: vs).

Section Hull.
Variable np : numpy.
Hypothesis Hnp : exact_np np.
Hypothesis Hrand : rand_ok np.
Variables (A : mat) (b : vec) (m N n : nat) (w0 : vec) (M : R).
Hypothesis HA : shape A m N.
Hypothesis Hb : length b = m.
Hypothesis HnN : (n <= N)%nat.
Definition feas (w : vec) : Prop := length w = N /\ vle (mv A w) b.
Hypothesis Hw0 : feas w0.
Hypothesis HM : forall w, feas w -> norm w <= M.
(** the projection onto the first n coordinates *)
Definition Pr (y : vec) : Prop := exists w, feas w /\ firstn n w = y.

Lemma Pr_length y : Pr y -> length y = n.
Proof. intros (w & (Hw & _) & <-). len. Qed.

(** every LP over the polytope is solved exactly *)
Lemma lp_feas f : length f = N -> exists s w, lp np f A b None None = Ok s /\ s_min s = Some (dot f w) /\ s_argmin s = Some w /\ feas w /\
  forall z, feas z -> dot f w <= dot f z.
Proof.
  intros Hf. destruct Hw0 as (L0 & F0).
  destruct (lp_solved np f A b m N w0 (- (norm f * M)) Hnp HA Hb Hf L0 F0) as (s & x & l & E1 & E2 & E3 & E4 & E5 & E6 & _).
  - intros x Hx Fx. specialize (HM x (conj Hx Fx)). pose proof (dot_abs f x) as D. pose proof (Rle_abs (- dot f x)) as D'. rewrite Rabs_Ropp in D'. pose proof (norm_nonneg f). nra.
  - exists s, x. split; [exact E1|]. split; [exact E2|]. split; [exact E3|]. split; [split; assumption|]. intros z (Lz & Fz). auto.
Qed.
Lemma lp_dir a i : length a = i -> (i <= n)%nat -> exists s w, lp np (a ++ zeros (N - i)) A b None None = Ok s /\
  s_min s = Some (dot a (firstn i w)) /\ s_argmin s = Some w /\ feas w /\ Pr (firstn n w) /\
  forall y, Pr y -> dot a (firstn i w) <= dot a (firstn i y).
Proof.
  intros Ha Hi. destruct (lp_feas (a ++ zeros (N - i))) as (s & w & E1 & E2 & E3 & E4 & E5); [len|].
  exists s, w. assert (Lw : length w = N) by apply E4. rewrite (dot_pad a w i N) in E2 by (try assumption; lia). repeat (split; [solve [eauto]|]).
  split; [exists w; auto|]. intros y (z & Fz & <-). specialize (E5 z Fz). assert (Lz : length z = N) by apply Fz.
  rewrite !(dot_pad a _ i N) in E5 by (try assumption; lia). rewrite (firstn_firstn_le i n z) by exact Hi. exact E5.
Qed.

(** convexity *)
Lemma comb_feas l : forall pts, Forall Pr pts -> length l = length pts -> nonneg l ->
  exists w, length w = N /\ vle (mv A w) (vscale (vsum l) b) /\ firstn n w = lincomb n l pts.
Proof.
  assert (LA : length (rows A) = m) by apply HA.
  induction l as [|k l IH]; intros pts HP HL HN; destruct pts as [|p pts]; try discriminate.
  - exists (zeros N). split; [len|]. split.
    + rewrite mv_zeros. unfold vsum. cbn [fold_right]. rewrite vscale_0, LA, Hb. apply vle_refl.
    + cbn [lincomb]. apply vec_ext; [len|]. intros i Hi. lenh Hi. rewrite nth_firstn' by lia. autorewrite with nthv. reflexivity.
  - pose proof (Forall_inv HP) as (v & (Lv & Fv) & Ev). destruct (IH pts) as (w & Lw & Fw & Ew); [eapply Forall_inv_tail; eauto|cbn in HL; lia|eapply Forall_inv_tail; eauto|].
    pose proof (Forall_inv HN) as Hk. exists (vadd (vscale k v) w). split; [len|]. split.
    + rewrite (mv_vadd A m N) by (auto; len). rewrite mv_vscale, vsum_cons. apply vle_nth. apply vle_nth in Fv, Fw. destruct Fv as (_ & Fv). destruct Fw as (_ & Fw).
      split; [len|]. intros i Hi. lenh Hi. rewrite nth_vadd by len. rewrite !nth_vscale. specialize (Fv i). specialize (Fw i). autorewrite with len in Fv, Fw. rewrite nth_vscale in Fw.
      assert (Hi' : (i < length (rows A))%nat) by lia. specialize (Fv Hi'). specialize (Fw Hi'). nra.
    + cbn [lincomb]. rewrite <- Ew, <- Ev. unfold vadd, vscale. apply vec_ext; [len|]. intros i Hi. lenh Hi. rewrite nth_firstn' by lia.
      change (nth i (vadd (vscale k v) w) 0 = nth i (vadd (vscale k (firstn n v)) (firstn n w)) 0).
      rewrite !nth_vadd by len. rewrite !nth_vscale, !nth_firstn' by lia. reflexivity.
Qed.
Lemma hull_in_Pr pts y : Forall Pr pts -> in_hull n pts y -> Pr y.
Proof.
  intros HP (l & Hl & Nl & Sl & ->). destruct (comb_feas l pts HP Hl Nl) as (w & Lw & Fw & Ew). exists w. split; [|exact Ew].
  split; [exact Lw|]. rewrite Sl, vscale_1 in Fw. exact Fw.
Qed.

(** two vertices *)
Lemma two_vertices_ok : (1 <= n)%nat -> exists v1 v2, get_two_vertices np A b n = Ok [v1; v2] /\ Pr v1 /\ Pr v2 /\
  forall y, Pr y -> nth 0 v1 0 <= nth 0 y 0 <= nth 0 v2 0.
Proof.
  intros Hn. unfold get_two_vertices. rewrite (shape_cols _ _ _ HA). destruct (Nat.eqb_spec N 0); [lia|].
  destruct (lp_dir [1] 1) as (s1 & w1 & E1 & _ & E2 & F1 & P1 & O1); [reflexivity|lia|].
  destruct (lp_dir [-(1)] 1) as (s2 & w2 & E3 & _ & E4 & F2 & P2 & O2); [reflexivity|lia|].
  cbn [app] in E1, E3. cbn [mapM]. rewrite E1. cbn [bind]. rewrite (argmin_to_some _ _ _ E2). cbn [bind].
  assert (Ev : vneg (1 :: zeros (N - 1)) = - (1) :: zeros (N - 1)) by (unfold vneg; cbn [map]; fold vneg; f_equal; apply vneg_zeros).
  rewrite Ev, E3. cbn [bind]. rewrite (argmin_to_some _ _ _ E4). cbn [bind]. eexists _, _. split; [reflexivity|]. split; [exact P1|]. split; [exact P2|].
  intros y Hy. specialize (O1 y Hy). specialize (O2 y Hy). apply Pr_length in Hy. destruct F1 as (L1 & _). destruct F2 as (L2 & _).
  destruct y as [|y0 y]; [cbn in Hy; lia|]. destruct w1 as [|a1 w1]; [cbn in L1; lia|]. destruct w2 as [|a2 w2]; [cbn in L2; lia|].
  destruct n as [|n']; [lia|]. cbn in *. lra.
Qed.

(** the inner simplex *)
Definition flat (k : nat) (pts : list vec) : Prop := exists a d, length a = k /\ a <> zeros k /\ Forall (fun p => dot a (firstn k p) = d) pts.
Definition wide : Prop := forall a, length a = n -> norm a = 1 -> exists y y', Pr y /\ Pr y' /\ tol7 <= dot a y' - dot a y.

Lemma inner_step i vs : length vs = i -> (2 <= i <= n)%nat -> Forall Pr vs ->
  plane_through_points np (np_rand np i i) (map (firstn i) vs) = Err LinAlgError \/
  exists a d, plane_through_points np (np_rand np i i) (map (firstn i) vs) = Ok (a, d) /\ length a = i /\ norm a = 1 /\
    Forall (fun p => dot a (firstn i p) = d) vs.
Proof.
  intros Hl Hi HP. destruct (plane_through_points_ok np (np_rand np i i) (map (firstn i) vs) i) as [(a & d & E & L & F & U & _)|E]; [apply Hnp|len|lia| |apply Hrand| |left; exact E].
  - apply Forall_map. eapply Forall_impl; [|exact HP]. intros p Hp. apply Pr_length in Hp. len.
  - right. exists a, d. rewrite Forall_map in F. auto.
Qed.
Lemma flat_step i vs a d v : (1 <= i)%nat -> (S i <= n)%nat -> Forall Pr vs -> ~ flat i vs -> length a = S i -> norm a = 1 ->
  Forall (fun p => dot a (firstn (S i) p) = d) vs -> Pr v -> vs <> [] -> dot a (firstn (S i) v) <> d -> ~ flat (S i) (vs ++ [v]).
Proof.
  intros Hi1 HiN HP NF La Ua Fa Pv Hne Hv (a' & d' & La' & Na' & Fa'). apply Forall_app in Fa'. destruct Fa' as (Fa' & Fv). apply Forall_inv in Fv.
  assert (SP : forall (c : vec) p, length c = S i -> Pr p -> dot c (firstn (S i) p) = dot (firstn i c) (firstn i p) + nth i c 0 * nth i p 0).
  { intros c p Lc Hp. apply Pr_length in Hp. rewrite <- (firstn_skipn i c) at 1.
    assert (Ep : firstn (S i) p = firstn i p ++ [nth i p 0]).
    { apply vec_ext; [len|]. intros j Hj. lenh Hj. rewrite nth_firstn' by lia. destruct (Nat.eq_dec j i) as [->|].
      - rewrite app_nth2 by len. replace (i - length (firstn i p))%nat with 0%nat by len. reflexivity.
      - rewrite app_nth1 by len. rewrite nth_firstn' by lia. reflexivity. }
    assert (Ec : skipn i c = [nth i c 0]).
    { apply vec_ext; [len|]. intros j Hj. lenh Hj. rewrite nth_skipn'. replace j with 0%nat by lia. cbn. f_equal. lia. }
    rewrite Ep, Ec, dot_app by len. cbn. ring. }
  assert (Hz : forall c e, length c = S i -> nth i c 0 = 0 -> Forall (fun p => dot c (firstn (S i) p) = e) vs -> c = zeros (S i)).
  { intros c e Lc Zc Fc. destruct (list_eq_dec Req_EM_T (firstn i c) (zeros i)) as [Ez|Nz].
    - apply vec_ext; [len|]. intros j Hj. rewrite nth_zeros. destruct (Nat.eq_dec j i) as [->|]; [exact Zc|].
      rewrite <- (nth_firstn' i c j 0) by lia. rewrite Ez. apply nth_zeros.
    - destruct NF. exists (firstn i c), e. split; [len|]. split; [exact Nz|]. rewrite Forall_forall in *. intros p Hp.
      rewrite <- (Fc p Hp), (SP c p Lc (HP p Hp)), Zc. ring. }
  assert (Ha : nth i a 0 <> 0).
  { intros Za. specialize (Hz a d La Za Fa). rewrite Hz in Ua. unfold norm in Ua. rewrite dot_zeros_l, sqrt_0 in Ua. lra. }
  set (k := nth i a' 0 / nth i a 0).
  assert (Hk : vsub a' (vscale k a) = zeros (S i)).
  { apply (Hz _ (d' - k * d)); [len| |].
    - rewrite nth_vsub by len. rewrite nth_vscale. unfold k. field. exact Ha.
    - rewrite Forall_forall in *. intros p Hp. rewrite dot_vsub_l, dot_vscale_l by len. rewrite (Fa p Hp), (Fa' p Hp). reflexivity. }
  assert (Ek : a' = vscale k a).
  { apply vec_ext; [len|]. intros j _. assert (Q : nth j (vsub a' (vscale k a)) 0 = 0) by (rewrite Hk; apply nth_zeros). rewrite nth_vsub in Q by len. lra. }
  assert (K0 : k <> 0). { intros K. apply Na'. rewrite Ek, K, vscale_0, La. reflexivity. }
  destruct vs as [|p0 vs]; [congruence|]. pose proof (Forall_inv Fa) as F0. pose proof (Forall_inv Fa') as F1. cbn beta in F0, F1.
  rewrite Ek, dot_vscale_l in F1, Fv. rewrite F0 in F1. apply Hv. nra.
Qed.

Lemma inner_loop_ok k : forall i vs, length vs = i -> (2 <= i)%nat -> (i + k = S n)%nat -> Forall Pr vs ->
  (inner_simplex_loop np A b n (seq i k) vs = Err LinAlgError /\ exists i' ws, (i <= i' <= n)%nat /\ length (vs ++ ws) = i' /\ Forall Pr (vs ++ ws) /\
     plane_through_points np (np_rand np i' i') (map (firstn i') (vs ++ ws)) = Err LinAlgError) \/
  exists vs', inner_simplex_loop np A b n (seq i k) vs = Ok vs' /\ Forall Pr vs' /\ length vs' = S n /\
    (wide -> ~ flat (i - 1) vs -> ~ flat n vs').
Proof.
  induction k as [|k IH]; intros i vs Hl Hi Hk HP.
  - right. exists vs. cbn. split; [reflexivity|]. split; [exact HP|]. split; [lia|]. intros _. replace (i - 1)%nat with n by lia. auto.
  - cbn [seq inner_simplex_loop]. destruct (inner_step i vs Hl ltac:(lia) HP) as [E|(a & d & E & La & Ua & Fa)]; rewrite E; cbn [bind]; [left; split; [reflexivity|]; exists i, []; rewrite app_nil_r; repeat split; auto; lia|].
    rewrite (shape_cols _ _ _ HA).
    destruct (lp_dir a i La ltac:(lia)) as (s & w & E1 & _ & E2 & F1 & P1 & O1). rewrite E1. cbn [bind]. rewrite (argmin_to_some _ _ _ E2). cbn [bind].
    assert (Hv : exists v, (bind (if Rltb (Rabs (dot a (firstn i w) - d)) tol7 then lp np (vneg (a ++ zeros (N - i))) A b None None else Ok s)
        (fun s' => bind (argmin_to s' n) (fun v => inner_simplex_loop np A b n (seq (S i) k) (vs ++ [v])))) = inner_simplex_loop np A b n (seq (S i) k) (vs ++ [v]) /\ Pr v /\
        (wide -> dot a (firstn i v) <> d)).
    { destruct (Rltb (Rabs (dot a (firstn i w) - d)) tol7) eqn:Ex.
      - rewrite vneg_app, vneg_zeros. destruct (lp_dir (vneg a) i) as (s' & w' & E1' & _ & E2' & F1' & P1' & O1'); [len|lia|].
        rewrite E1'. cbn [bind]. rewrite (argmin_to_some _ _ _ E2'). cbn [bind]. exists (firstn n w'). split; [reflexivity|]. split; [exact P1'|].
        intros W. apply Rltb_true in Ex. apply Rabs_def2 in Ex. rewrite firstn_firstn_le by lia.
        destruct (W (a ++ zeros (n - i))) as (y & y' & Py & Py' & HW); [len| |].
        { rewrite <- Ua. unfold norm. f_equal. rewrite dot_app by reflexivity. rewrite dot_zeros_l. ring. }
        pose proof (Pr_length _ Py). pose proof (Pr_length _ Py'). rewrite !(dot_pad a _ i n) in HW by (auto; lia).
        specialize (O1 y Py). specialize (O1' y' Py'). rewrite !dot_vneg_l in O1'. pose proof tol7_pos. lra.
      - cbn [bind]. rewrite (argmin_to_some _ _ _ E2). cbn [bind]. exists (firstn n w). split; [reflexivity|]. split; [exact P1|].
        intros _ Q. rewrite firstn_firstn_le in Q by lia. apply Rltb_false in Ex. rewrite Q in Ex. replace (d - d) with 0 in Ex by ring. rewrite Rabs_R0 in Ex. pose proof tol7_pos. lra. }
    destruct Hv as (v & Ev & Pv & Wv). rewrite Ev.
    destruct (IH (S i) (vs ++ [v])) as [(E3 & i' & ws & Hi' & Lw & Pw & Ew)|(vs' & E3 & P3 & L3 & W3)]; [len|lia|lia|apply Forall_app; auto| |].
    { left. split; [exact E3|]. exists i', ([v] ++ ws). rewrite <- !app_assoc in *. repeat split; auto; lia. }
    right. exists vs'. split; [exact E3|]. split; [exact P3|]. split; [exact L3|]. intros W NF. apply W3; [exact W|].
    replace (S i - 1)%nat with i by lia. destruct i as [|i]; [lia|]. replace (S i - 1)%nat with i in NF by lia.
    apply (flat_step i vs a d v); auto; try lia. intros ->. cbn in Hl. lia.
Qed.

(** the expansion *)
(** grid of mesh 10^-8: two vectors in one cell are close *)
Definition cell (v : vec) : list Z := map (fun x => up (x * 100000000)) v.
Lemma cell_close u v : cell u = cell v -> close u v.
Proof.
  revert v. induction u as [|x u IH]; intros v H; destruct v as [|y v]; try discriminate; constructor.
  - cbn in H. injection H as H _. pose proof (archimed (x * 100000000)) as (U1 & U2). pose proof (archimed (y * 100000000)) as (V1 & V2). rewrite H in U1, U2.
    pose proof (Rabs_pos y). apply Rle_trans with (/ 100000000); [|lra]. apply Rabs_le. lra.
  - apply IH. cbn in H. injection H as _ H. exact H.
Qed.
Lemma cells_finite k : exists L, forall v, length v = k -> norm v = 1 -> In (cell v) L.
Proof.
  assert (Z0 : exists rng, forall x, -1 <= x <= 1 -> In (up (x * 100000000)) rng).
  { exists (map (fun i => (Z.of_nat i - 100000000)%Z) (seq 0 (Z.to_nat 200000002))). intros x Hx. pose proof (archimed (x * 100000000)) as (U1 & U2).
    apply in_map_iff. exists (Z.to_nat (up (x * 100000000) + 100000000)).
    assert (B1 : (-100000000 < up (x * 100000000))%Z) by (apply lt_IZR; change (IZR (-100000000)) with (-100000000); lra).
    assert (B2 : (up (x * 100000000) <= 100000001)%Z) by (apply le_IZR; change (IZR 100000001) with (100000001); lra).
    split; [lia|]. apply in_seq. lia. }
  destruct Z0 as (rng & Hr). assert (G : exists L, forall v : vec, length v = k -> (forall i, -1 <= nth i v 0 <= 1) -> In (cell v) L).
  { induction k as [|k (L & HL)].
    - exists [[]]. intros v Hv _. destruct v; [left; reflexivity|discriminate].
    - exists (flat_map (fun z => map (cons z) L) rng). intros v Hv Hbd. destruct v as [|x v]; [discriminate|]. apply in_flat_map.
      exists (up (x * 100000000)). split; [apply Hr, (Hbd O)|]. cbn [cell map]. apply in_map. apply HL; [cbn in Hv; lia|]. intros i. apply (Hbd (S i)). }
  destruct G as (L & HL). exists L. intros v Hv Nv. apply HL; [exact Hv|]. intros i. pose proof (norm_ge_nth v i) as Q. rewrite Nv in Q.
  pose proof (Rle_abs (nth i v 0)). pose proof (Rle_abs (- nth i v 0)) as Q'. rewrite Rabs_Ropp in Q'. lra.
Qed.

Section Expand.
Variable D : R.
Hypothesis HD : forall y y', Pr y -> Pr y' -> norm (vsub y y') <= D.
Definition slack : R := tol7 + (/ 100000 + INR n * / 100000000) * D.
Definition explored_ok (pts ex : list vec) : Prop :=
  Forall (fun a => length a = n /\ norm a = 1 /\ exists p, In p pts /\ forall y, Pr y -> dot a y <= dot a p + tol7) ex.
Definition facet_ok (pts : list vec) (ad : vec * R) : Prop :=
  length (fst ad) = n /\ norm (fst ad) = 1 /\ (exists p, In p pts /\ dot (fst ad) p = snd ad) /\ forall p, In p pts -> dot (fst ad) p <= snd ad.

Lemma scan_ok pts facets : forall ex, Forall Pr pts -> Forall (facet_ok pts) facets -> explored_ok pts ex -> NoDup (map cell ex) ->
  exists ex' v, expand_scan np A n facets b ex = Ok (b, ex', map fst facets, v) /\ NoDup (map cell ex') /\
    match v with
    | None => explored_ok pts ex' /\ incl ex ex' /\ Forall (fun ad => exists a2, In a2 ex' /\ close (fst ad) a2) facets
    | Some v => Pr v /\ explored_ok (pts ++ [v]) ex' /\ (length ex < length ex')%nat
    end.
Proof.
  induction facets as [|(a, d) facets IH]; intros ex HP HF HE ND.
  - exists ex, None. cbn. split; [reflexivity|]. split; [exact ND|]. split; [exact HE|]. split; [apply incl_refl|constructor].
  - pose proof (Forall_inv HF) as (La & Ua & (p & Ip & Dp) & Hp). cbn [fst snd] in *. apply Forall_inv_tail in HF.
    cbn [expand_scan]. rewrite Ua, Rinv_1, !vscale_1. cbn [map fst].
    destruct (existsb (fun a2 => allclose a a2) ex) eqn:Ex.
    + destruct (IH ex HP HF HE ND) as (ex' & v & E & ND' & H). rewrite E. cbn [bind]. exists ex', v. split; [reflexivity|]. split; [exact ND'|].
      destruct v as [v|]; [exact H|]. destruct H as (H1 & H2 & H3). split; [exact H1|]. split; [exact H2|]. constructor; [|exact H3].
      apply existsb_exists in Ex. destruct Ex as (a2 & I2 & C2). exists a2. cbn [fst]. split; [apply H2; exact I2|].
      apply allclose_iff; [|exact C2]. unfold explored_ok in HE. rewrite Forall_forall in HE. destruct (HE a2 I2) as (L2 & _). congruence.
    + rewrite (shape_cols _ _ _ HA). destruct (lp_dir (vneg a) n) as (s & w & E1 & E2 & E3 & Fw & Pw & Ow); [len|lia|]. rewrite E1. cbn [bind]. rewrite E2.
      assert (ND1 : NoDup (map cell (ex ++ [a]))).
      { rewrite map_app. apply NoDup_app_disj; [exact ND|repeat constructor; auto|]. intros c Hc [<-|[]]. apply in_map_iff in Hc. destruct Hc as (a2 & Ec & I2).
        assert (existsb (fun a2 => allclose a a2) ex = true); [|congruence]. apply existsb_exists. exists a2. split; [exact I2|].
        unfold explored_ok in HE. rewrite Forall_forall in HE. destruct (HE a2 I2) as (L2 & _). apply allclose_iff; [congruence|]. apply cell_close. congruence. }
      assert (Om : forall y, Pr y -> dot a y <= dot a (firstn n w)).
      { intros y Py. specialize (Ow y Py). rewrite !dot_vneg_l in Ow. pose proof (Pr_length y Py) as Ly. rewrite (firstn_all2 y) in Ow by lia. lra. }
      rewrite dot_vneg_l. destruct (Rltb tol7 (- - dot a (firstn n w) - d)) eqn:Et.
      * rewrite (argmin_to_some _ _ _ E3). cbn [bind]. exists (ex ++ [a]), (Some (firstn n w)). split; [reflexivity|]. split; [exact ND1|]. split; [exact Pw|].
        split; [|len]. apply Forall_app. split.
        -- eapply Forall_impl; [|exact HE]. intros a2 (L2 & U2 & q & Iq & Hq). split; [exact L2|]. split; [exact U2|]. exists q. split; [apply in_or_app; auto|exact Hq].
        -- constructor; [|constructor]. split; [exact La|]. split; [exact Ua|]. exists (firstn n w). split; [apply in_or_app; right; left; reflexivity|].
           intros y Py. specialize (Om y Py). pose proof tol7_pos. lra.
      * apply Rltb_false in Et. assert (HE1 : explored_ok pts (ex ++ [a])).
        { apply Forall_app. split; [exact HE|]. constructor; [|constructor]. split; [exact La|]. split; [exact Ua|]. exists p. split; [exact Ip|]. intros y Py. specialize (Om y Py). lra. }
        destruct (IH (ex ++ [a]) HP HF HE1 ND1) as (ex' & v & E & ND' & H). rewrite E. cbn [bind]. exists ex', v. split; [reflexivity|]. split; [exact ND'|].
        destruct v as [v|].
        -- destruct H as (H1 & H2 & H3). split; [exact H1|]. split; [exact H2|]. lenh H3. lia.
        -- destruct H as (H1 & H2 & H3). split; [exact H1|]. split; [intros c Hc; apply H2, in_or_app; auto|]. constructor; [|exact H3].
           exists a. cbn [fst]. split; [apply H2, in_or_app; right; left; reflexivity|apply close_refl].
Qed.

(** what is returned *)
Definition described (E : mat) (f : vec) (pts : list vec) : Prop :=
  (exists k, shape E k n /\ length f = k) /\ Forall (fun a => norm a = 1) (rows E) /\ Forall Pr pts /\
  (forall y, length y = n -> ineq_holds E f y <-> in_hull n pts y) /\
  (forall y, Pr y -> Forall2 (fun a d => dot a y <= d + slack) (rows E) f).

Hypothesis Hhull : hull_ok np.
Hypothesis Htot : hull_total np.
Hypothesis Hn2 : (2 <= n)%nat.

Lemma flat_app pts v : flat n (pts ++ [v]) -> flat n pts.
Proof. intros (a & d & H1 & H2 & H3). exists a, d. split; [exact H1|]. split; [exact H2|]. apply Forall_app in H3. apply H3. Qed.
Lemma combine_fst {T U} (l : list T) (k : list U) : length l = length k -> map fst (combine l k) = l.
Proof. revert k. induction l; intros k H; destruct k; try discriminate; cbn; [reflexivity|]. f_equal. apply IHl. cbn in H. lia. Qed.
Lemma combine_snd {T U} (l : list T) (k : list U) : length l = length k -> map snd (combine l k) = k.
Proof. revert k. induction l; intros k H; destruct k; try discriminate; cbn; [reflexivity|]. f_equal. apply IHl. cbn in H. lia. Qed.
Lemma Forall2_combine {T U} (P : T -> U -> Prop) l k : length l = length k -> Forall (fun x => P (fst x) (snd x)) (combine l k) -> Forall2 P l k.
Proof. revert k. induction l; intros k H HF; destruct k; try discriminate; cbn in *; constructor; [exact (Forall_inv HF)|]. apply IHl; [lia|eapply Forall_inv_tail; eauto]. Qed.
Lemma Forall2_combine' {T U} (P : T -> U -> Prop) l k : Forall2 P l k -> Forall (fun x => P (fst x) (snd x)) (combine l k).
Proof. induction 1; cbn; constructor; auto. Qed.
Lemma D_nonneg : 0 <= D.
Proof. assert (P0 : Pr (firstn n w0)) by (exists w0; auto). specialize (HD _ _ P0 P0). pose proof (norm_nonneg (vsub (firstn n w0) (firstn n w0))). lra. Qed.

Lemma expand_ok L : (forall v, length v = n -> norm v = 1 -> In (cell v) L) -> forall fuel ex pts, Forall Pr pts -> explored_ok pts ex -> NoDup (map cell ex) ->
  (exists E f pts', expand_simplex np fuel A n b ex pts = Ok (E, f, pts') /\ described E f pts' /\ (flat n pts' -> flat n pts)) \/
  (expand_simplex np fuel A n b ex pts = Err QhullError /\ flat n pts) \/
  (expand_simplex np fuel A n b ex pts = Err OutOfFuel /\ (fuel + length ex <= length L)%nat).
Proof.
  intros HL. induction fuel as [|fuel IH]; intros ex pts HP HE ND.
  - right. right. split; [reflexivity|]. assert (Q : (length (map cell ex) <= length L)%nat); [|lenh Q; lia].
    apply NoDup_incl_length; [exact ND|]. intros c Hc. apply in_map_iff in Hc. destruct Hc as (a & <- & Ia). unfold explored_ok in HE. rewrite Forall_forall in HE.
    destruct (HE a Ia) as (La & Ua & _). auto.
  - cbn [expand_simplex]. assert (HPl : Forall (fun q => length q = n) pts) by (eapply Forall_impl; [|exact HP]; apply Pr_length).
    destruct (Htot pts n HPl Hn2) as [(E & f & EE)|(EE & a & d & La & Na & Fa)]; rewrite EE; cbn [bind].
    2:{ right. left. split; [reflexivity|]. exists a, d. split; [exact La|]. split; [exact Na|]. rewrite Forall_forall in *. intros p Ip. rewrite firstn_all2; [auto|]. rewrite (HPl p Ip). lia. }
    destruct (Hhull pts n E f HPl EE) as ((k & SE & Lf) & UE & TE & HE'). assert (LE : length (rows E) = k) by apply SE.
    assert (Hfac : Forall (facet_ok pts) (combine (rows E) f)).
    { apply Forall_forall. intros (a, d) Iad. pose proof (in_combine_l _ _ _ _ Iad) as Ia. unfold facet_ok. cbn [fst snd]. split; [apply (shape_In E k n a SE Ia)|].
      rewrite Forall_forall in UE. split; [auto|]. apply Forall2_combine' in TE. rewrite Forall_forall in TE. split; [apply (TE (a, d) Iad)|].
      intros p Ip. assert (Hin : ineq_holds E f p). { apply HE'; [rewrite Forall_forall in HPl; auto|]. apply in_hull_pt; assumption. }
      unfold ineq_holds in Hin. apply Forall2_combine' in Hin. rewrite Forall_forall in Hin. apply (Hin (a, d) Iad). }
    destruct (scan_ok pts (combine (rows E) f) ex HP Hfac HE ND) as (ex' & v & Es & ND' & H). rewrite Es. cbn [bind]. rewrite combine_fst by lia. destruct v as [v|].
    + destruct H as (Pv & Hex & Hlen). destruct (IH ex' (pts ++ [v])) as [H|[(H & Hf)|(H & Hf)]]; [apply Forall_app; auto|exact Hex|exact ND'| | |].
      * left. destruct H as (E1 & f1 & p1 & H1 & H2 & H3). exists E1, f1, p1. split; [exact H1|]. split; [exact H2|]. intros Q. apply flat_app with v. exact (H3 Q).
      * right. left. split; [exact H|]. apply flat_app with v. exact Hf.
      * right. right. split; [exact H|]. lia.
    + destruct H as (Hex & _ & Hcl). left. exists E, f, pts. split; [destruct E; reflexivity|]. split; [|auto]. split; [exists k; auto|]. split; [exact UE|]. split; [exact HP|]. split; [exact HE'|].
      intros y Py. apply Forall2_combine; [lia|]. unfold explored_ok in Hex. rewrite Forall_forall in *. intros (a, d) Iad. cbn [fst snd]. destruct (Hcl (a, d) Iad) as (a2 & I2 & C2). cbn [fst] in C2.
      destruct (Hex a2 I2) as (L2 & U2 & p & Ip & Hp). destruct (Hfac (a, d) Iad) as (La & Ua & _ & Hd). cbn [fst snd] in *.
      specialize (Hp y Py). specialize (Hd p Ip). pose proof (HP p Ip) as Pp. pose proof (Pr_length y Py) as Ly. pose proof (Pr_length p Pp) as Lp.
      pose proof (close_dot a a2 (vsub y p) n La ltac:(len) ltac:(lra) C2) as Q. rewrite !dot_vsub_r in Q by len. pose proof (HD y p Py Pp) as Hdist.
      unfold slack. pose proof (pos_INR n). nra.
Qed.
End Expand.

(** the whole method *)
Lemma interval_hull (v1 v2 y : vec) : length v1 = 1%nat -> length v2 = 1%nat -> length y = 1%nat -> nth 0 v1 0 <= nth 0 v2 0 ->
  (nth 0 v1 0 <= nth 0 y 0 <= nth 0 v2 0 <-> in_hull 1 [v1; v2] y).
Proof.
  intros H1 H2 Hy. destruct v1 as [|a [|]]; try discriminate. destruct v2 as [|c [|]]; try discriminate. destruct y as [|x [|]]; try discriminate. cbn [nth]. intros Hac. split.
  - intros Hx. destruct (Req_dec a c) as [<-|Hne].
    + exists [1; 0]. split; [reflexivity|]. split; [repeat constructor; lra|]. split; [unfold vsum; cbn; ring|]. cbn. f_equal. lra.
    + exists [(c - x) / (c - a); (x - a) / (c - a)]. split; [reflexivity|]. split.
      * constructor; [|constructor; [|constructor]]; apply Rmult_le_pos; try lra; left; apply Rinv_0_lt_compat; lra.
      * split; [unfold vsum; cbn; field; lra|]. cbn. f_equal. field. lra.
  - intros (l & L1 & L2 & L3 & L4). destruct l as [|p [|q [|]]]; try discriminate. unfold nonneg in L2. pose proof (Forall_inv L2). pose proof (Forall_inv (Forall_inv_tail L2)). unfold vsum in L3. cbn in L3, L4. injection L4 as ->. nra.
Qed.
Lemma method_interval dims A0 : length dims = 1%nat -> n = 1%nat -> forallb (fun i => Nat.ltb i (ncols A0)) dims = true -> reorder A0 dims = A -> forall fuel,
  exists E f vs, convex_hull_method np fuel A0 b dims = Ok (E, f, vs) /\ shape E 2 1 /\ length f = 2%nat /\ Forall Pr vs /\
    forall y, length y = 1%nat -> (ineq_holds E f y <-> Pr y) /\ (ineq_holds E f y <-> in_hull 1 vs y).
Proof.
  intros Hd Hn Hf HR fuel. unfold convex_hull_method. rewrite Hf. cbn [negb]. rewrite HR, Hd. rewrite <- Hn. destruct two_vertices_ok as (v1 & v2 & E1 & P1 & P2 & O); [lia|].
  rewrite E1. cbn [bind]. rewrite Hn, Nat.eqb_refl. cbn [map vmax fold_left bind]. eexists _, _, _. split; [reflexivity|].
  split; [unfold shape; cbn; repeat split; repeat constructor|]. split; [reflexivity|]. split; [auto|]. intros y Hy.
  pose proof (Pr_length _ P1) as L1. pose proof (Pr_length _ P2) as L2. rewrite Hn in L1, L2. pose proof (O v1 P1) as O1.
  assert (K : ineq_holds (Mat 1 [[1]; [-1]]) [Rmax (nth 0 v1 0) (nth 0 v2 0); Rmax (- nth 0 v1 0) (- nth 0 v2 0)] y <-> nth 0 v1 0 <= nth 0 y 0 <= nth 0 v2 0).
  { rewrite Rmax_right, Rmax_left by lra. destruct y as [|x [|]]; try discriminate. unfold ineq_holds. cbn [rows nth]. split.
    - intros H. inv2 H. lra.
    - intros H. constructor; [cbn; lra|]. constructor; [cbn; lra|constructor]. }
  rewrite K. split; [|apply interval_hull; auto; lra]. split; [|apply O]. intros H. apply hull_in_Pr with [v1; v2]; [auto|]. rewrite Hn. apply interval_hull; auto. lra.
Qed.

Lemma plane_unlucky i v1 v2 ws : (2 <= i <= n)%nat -> length ([v1; v2] ++ ws) = i -> Forall Pr ([v1; v2] ++ ws) -> (forall y, Pr y -> nth 0 v1 0 <= nth 0 y 0 <= nth 0 v2 0) ->
  plane_through_points np (np_rand np i i) (map (firstn i) ([v1; v2] ++ ws)) = Err LinAlgError -> unlucky np Pr n.
Proof.
  intros Hi Hl HP HO E. cbn [app] in *. set (vs := v1 :: v2 :: ws) in *. assert (FL : Forall (fun p => length p = i) (map (firstn i) vs)).
  { apply Forall_map. eapply Forall_impl; [|exact HP]. intros p Hp. apply Pr_length in Hp. len. }
  destruct (plane_ok np (np_rand np i i) (map (firstn i) vs) i) as [(a & d & E' & _)|((z & Lz & Nz & Mz) & _)]; [apply Hnp|len|lia|exact FL|apply Hrand|congruence|].
  exists i, v1, v2, ws, z. split; [exact Hi|]. split; [exact Hl|]. split; [exact HP|]. split; [exact HO|]. split; [exact Lz|]. split; [exact Nz|].
  fold vs. apply Forall_forall. intros v Hv. destruct (In_nth vs v [] Hv) as (j & Hj & Ej). assert (Q : nth j (mv (Mat i (map (fun p => vadd p (np_rand np i i)) (map (firstn i) vs))) z) 0 = 0) by (rewrite Mz; apply nth_zeros).
  rewrite nth_mv in Q. cbn [rows] in Q. rewrite map_map in Q. rewrite (nth_indep _ [] (vadd (firstn i []) (np_rand np i i))) in Q by (len; lia).
  rewrite (map_nth (fun x => vadd (firstn i x) (np_rand np i i))) in Q. rewrite Ej in Q. rewrite dot_comm. exact Q.
Qed.
Lemma method_ok D dims A0 : (forall y y', Pr y -> Pr y' -> norm (vsub y y') <= D) -> hull_ok np -> hull_total np -> (2 <= n)%nat ->
  length dims = n -> forallb (fun i => Nat.ltb i (ncols A0)) dims = true -> reorder A0 dims = A ->
  exists F, forall fuel,
  (exists E f vs, convex_hull_method np fuel A0 b dims = Ok (E, f, vs) /\ described D E f vs /\ (wide -> ~ flat n vs)) \/
  (convex_hull_method np fuel A0 b dims = Err LinAlgError /\ unlucky np Pr n) \/
  (convex_hull_method np fuel A0 b dims = Err QhullError /\ ~ wide) \/
  (convex_hull_method np fuel A0 b dims = Err OutOfFuel /\ (fuel < F)%nat).
Proof.
  intros HD Hh Ht Hn Hd Hf HR. destruct (cells_finite n) as (L & HL). exists (S (length L)). intros fuel. unfold convex_hull_method. rewrite Hf. cbn [negb]. rewrite HR, Hd.
  destruct two_vertices_ok as (v1 & v2 & E1 & P1 & P2 & O); [lia|]. rewrite E1. cbn [bind]. destruct (Nat.eqb_spec n 1); [lia|].
  unfold get_inner_simplex. destruct (inner_loop_ok (n - 1) 2 [v1; v2]) as [(E & i & ws & Hi & Lw & Pw & Ew)|(vs & E & PV & LV & WV)]; [reflexivity|lia|lia|auto| |]; rewrite E; cbn [bind].
  { right. left. split; [reflexivity|]. apply (plane_unlucky i v1 v2 ws); assumption. }
  assert (NFl : wide -> ~ flat n vs).
  { intros W. apply (WV W). cbn. intros (a & d & La & Na & Fa).
    destruct (W (1 :: zeros (n - 1))) as (y & y' & Py & Py' & HW); [len| |].
    { unfold norm. cbn [dot]. rewrite dot_zeros_l. replace (1 * 1 + 0) with 1 by ring. apply sqrt_1. }
    apply Pr_length in P1, P2. assert (O1 := O y Py). assert (O2 := O y' Py'). assert (T := tol7_pos).
    pose proof (Forall_inv Fa) as F1. pose proof (Forall_inv (Forall_inv_tail Fa)) as F2. cbn beta in F1, F2.
    destruct a as [|a0 [|]]; try discriminate. destruct v1 as [|x1 v1]; [cbn in P1; lia|]. destruct v2 as [|x2 v2]; [cbn in P2; lia|].
    apply Pr_length in Py, Py'. destruct y as [|y0 y]; [cbn in Py; lia|]. destruct y' as [|y1 y']; [cbn in Py'; lia|]. cbn in *. rewrite !dot_zeros_l in HW.
    apply Na. f_equal. assert (x1 < x2) by lra. nra. }
  destruct (expand_ok D HD Hh Ht Hn L HL fuel [] vs PV) as [(E' & f & pts & Ee & De & Fe)|[(Ee & Fl)|(Ee & Hl)]]; [constructor|constructor| | |].
  - left. exists E', f, pts. split; [exact Ee|]. split; [exact De|]. intros W Q. exact (NFl W (Fe Q)).
  - right. right. left. split; [exact Ee|]. intros W. exact (NFl W Fl).
  - right. right. right. split; [exact Ee|]. cbn in Hl. lia.
Qed.
End Hull.

(** ** Polyhedron.project_to *)
(** the points y that are the coordinates [dims] of a point of the set *)
Definition projection (S : vec -> Prop) (dims : list nat) (y : vec) : Prop := exists x, S x /\ map (fun i => nth i x 0) dims = y.

Lemma projection_Pr A b m N dims y : shape A m N -> length b = m -> dims_ok N dims ->
  Pr (reorder A dims) b N (length dims) y <-> projection (fun x => length x = N /\ vle (mv A x) b) dims y.
Proof.
  intros HA Hb HD. pose proof (dropped_perm N dims HD) as P. split.
  - intros (w & (Lw & Fw) & <-). destruct (vtake_surj (dims ++ dropped_dimensions N dims) N) with (w := w) as (x & Lx & Ex).
    + eapply Permutation_NoDup; [apply Permutation_sym; exact P|apply seq_NoDup].
    + apply Forall_forall. intros i Hi. apply (Permutation_in _ P) in Hi. apply in_seq in Hi. lia.
    + pose proof (dropped_length N dims HD). len.
    + exists x. split; [|rewrite <- Ex, firstn_vtake; reflexivity]. split; [exact Lx|]. rewrite <- Ex, (mv_reorder A m N) in Fw by assumption. exact Fw.
  - intros (x & (Lx & Fx) & <-). exists (vtake x (dims ++ dropped_dimensions N dims)). split; [|apply firstn_vtake]. split.
    + pose proof (dropped_length N dims HD). len.
    + rewrite (mv_reorder A m N) by assumption. exact Fx.
Qed.
Lemma bounded_reorder A b m N dims M : shape A m N -> dims_ok N dims -> (forall x, length x = N -> vle (mv A x) b -> norm x <= M) ->
  forall w, feas (reorder A dims) b N w -> norm w <= M.
Proof.
  intros HA HD HM w (Lw & Fw). pose proof (dropped_perm N dims HD) as P. destruct (vtake_surj (dims ++ dropped_dimensions N dims) N) with (w := w) as (x & Lx & Ex).
  + eapply Permutation_NoDup; [apply Permutation_sym; exact P|apply seq_NoDup].
  + apply Forall_forall. intros i Hi. apply (Permutation_in _ P) in Hi. apply in_seq in Hi. lia.
  + pose proof (dropped_length N dims HD). len.
  + rewrite <- Ex, (mv_reorder A m N) in Fw by assumption. specialize (HM x Lx Fw). replace (norm w) with (norm x); [exact HM|].
    unfold norm. f_equal. rewrite <- Ex. symmetry. apply dot_vtake_perm with N; auto.
Qed.
Lemma dims_forallb A m N dims : shape A m N -> dims_ok N dims -> forallb (fun i => Nat.ltb i (ncols A)) dims = true.
Proof. intros HA (_ & HF). apply forallb_forall. intros i Hi. rewrite Forall_forall in HF. apply Nat.ltb_lt. rewrite (shape_cols _ _ _ HA). auto. Qed.
Lemma dims_le N dims : dims_ok N dims -> (length dims <= N)%nat.
Proof. intros H. apply dropped_length in H. lia. Qed.
Lemma in_poly_noeq p m N x : wf p m 0 N -> in_poly p x <-> length x = N /\ vle (mv (pA p) x) (pb p).
Proof.
  intros (HA & Hb & HC & Hd). unfold in_poly, in_set. rewrite (shape_cols _ _ _ HA), ineq_holds_vle.
  destruct (rows (pC p)) eqn:E; [|destruct HC as (Q & _); rewrite E in Q; discriminate]. destruct (pd p) eqn:Ed; [|discriminate].
  unfold eq_holds. rewrite E. split; [tauto|]. intros (H1 & H2). repeat split; auto.
Qed.

(** the steps of project_to before the method *)
Lemma project_to_method np fuel p m N dims : exact_np np -> wf p m 0 N -> cache_ok np p ->
  (exists x, in_poly p x /\ near x) -> bounded_set (in_poly p) ->
  fst (project_to np fuel dims p) = (r <- convex_hull_method np fuel (pA p) (pb p) dims ;;
    let '(E, f, vs) := r in q <- Polyhedron E (D1 f) None None ;; Ok (set_vertices q (Some vs))).
Proof.
  intros Hnp W HC Hx HB. assert (Wf : wf (fresh p) m 0 N) by exact W.
  destruct (get_empty_ok np (fresh p) m 0 N Hnp Wf eq_refl) as (e & Ee & Hiff). destruct e; [exfalso; apply Hiff; [reflexivity|exact Hx]|].
  destruct (polytope_is_bounded np (fresh p) m 0 N Hnp Wf eq_refl eq_refl HB) as (pb' & Eb).
  destruct (empty_coh np p HC) as (C1 & C2 & C3). unfold project_to, pbind at 1. destruct (get_empty np p) as (r1 & p1). cbn [fst snd] in *. rewrite Ee in C1. cbn [fst] in C1. subst r1.
  destruct (bounded_coh np p1 C3) as (D1' & D2' & D3). unfold pbind at 1. destruct (get_bounded np p1) as (r2 & p2). cbn [fst snd] in *. rewrite C2, Eb in D1'. cbn [fst] in D1'. subst r2.
  cbn [negb]. unfold pbind at 1. unfold pget. rewrite C2 in D2'. assert (EA : pA p2 = pA p) by (change (pA (fresh p2) = pA (fresh p)); congruence).
  assert (EB : pb p2 = pb p) by (change (pb (fresh p2) = pb (fresh p)); congruence). assert (EC : pC p2 = pC p) by (change (pC (fresh p2) = pC (fresh p)); congruence).
  rewrite EC. assert (LC : nrows (pC p) = 0%nat) by (destruct W as (_ & _ & Q & _); apply Q). rewrite LC. cbn [Nat.ltb Nat.leb]. rewrite EA, EB. unfold pbind at 1, plift at 1.
  destruct (convex_hull_method np fuel (pA p) (pb p) dims) as [((E & f) & vs)|e]; [|reflexivity]. cbn [bind]. unfold pbind, plift. destruct (Polyhedron E (D1 f) None None); reflexivity.
Qed.
Lemma project_to_raises np fuel p m me N dims : exact_np np -> wf p m me N -> cache_ok np p -> 
  (forall x, in_poly p x -> ~ near x) \/ (fst (get_bounded np (fresh p)) = Ok false) \/ (0 < me)%nat ->
  fst (project_to np fuel dims p) = Err ValueError.
Proof.
  intros Hnp W HC H. assert (Wf : wf (fresh p) m me N) by exact W.
  destruct (get_empty_ok np (fresh p) m me N Hnp Wf eq_refl) as (e & Ee & Hiff).
  destruct (get_bounded_ok np (fresh p) m me N Hnp Wf eq_refl eq_refl) as (bd & pbd & Eb & _).
  destruct (empty_coh np p HC) as (C1 & C2 & C3). unfold project_to, pbind at 1. destruct (get_empty np p) as (r1 & p1). cbn [fst snd] in *. rewrite Ee in C1. cbn [fst] in C1. subst r1.
  destruct e; [reflexivity|]. destruct H as [H|H]. { exfalso. assert (Q : false = true); [|discriminate]. apply Hiff. intros (x & I & Nx). apply (H x I Nx). }
  destruct (bounded_coh np p1 C3) as (D1' & D2' & D3). unfold pbind at 1. destruct (get_bounded np p1) as (r2 & p2). cbn [fst snd] in *. rewrite C2, Eb in D1'. cbn [fst] in D1'. subst r2.
  destruct bd; [|reflexivity]. cbn [negb]. destruct H as [H|H]; [rewrite Eb in H; discriminate|]. unfold pbind at 1. unfold pget.
  rewrite C2 in D2'. assert (EC : pC p2 = pC p) by (change (pC (fresh p2) = pC (fresh p)); congruence).
  rewrite EC. assert (LC : nrows (pC p) = me) by (destruct W as (_ & _ & Q & _); apply Q). rewrite LC. destruct (Nat.ltb_spec 0 me); [reflexivity|lia].
Qed.

(** in some direction of the residual space the projection is thinner than tol *)
Definition thin (S : vec -> Prop) (n : nat) : Prop := exists a, length a = n /\ norm a = 1 /\ forall y y', S y -> S y' -> dot a y' - dot a y < tol7.

(*@ Theorem C17_projection_partial : project_to on a polytope, at least two residual dimensions, any exact LP solver, any convex-hull routine meeting its contract, any random offsets: it terminates, and returns a polyhedron q with a list of vertices such that q is their convex hull, q is contained in the projection, its inequalities have unit normals, every point of the projection satisfies them up to tol plus (1e-5 + n 1e-8) times the diameter of the projection, and the vertices are not on one hyperplane unless the projection is thinner than tol in some direction; or it raises LinAlgError (only if the offset happens to lie on one certain hyperplane), or QhullError if the projection is thinner than tol in some direction.
   Missing: the second term of the error, which comes from skipping directions that are numerically close to explored ones (see C17_skip_refuted). *)
Lemma project_to_ok np p m N dims D : exact_np np -> hull_ok np -> hull_total np -> rand_ok np ->
  wf p m 0 N -> cache_ok np p -> (exists x, in_poly p x /\ near x) -> bounded_set (in_poly p) ->
  NoDup dims -> Forall (fun i => (i < N)%nat) dims -> (2 <= length dims)%nat ->
  let n := length dims in let S := projection (in_poly p) dims in
  (forall y y', S y -> S y' -> norm (vsub y y') <= D) ->
  exists F, forall fuel,
  (exists q vs k, fst (project_to np fuel dims p) = Ok q /\ wf q k 0 n /\ p_vertices q = Some vs /\ Forall S vs /\
     (forall y, in_poly q y <-> length y = n /\ in_hull n vs y) /\ (forall y, in_poly q y -> S y) /\
     (forall y, S y -> forall i, (i < k)%nat -> dot (row (pA q) i) y <= nth i (pb q) 0 + (tol7 + (/ 100000 + INR n * / 100000000) * D)) /\
     Forall (fun a => norm a = 1) (rows (pA q)) /\ (thin S n \/ forall a d, length a = n -> Forall (fun v => dot a v = d) vs -> a = zeros n)) \/
  (fst (project_to np fuel dims p) = Err LinAlgError /\ unlucky np S n) \/
  (fst (project_to np fuel dims p) = Err QhullError /\ thin S n) \/
  (fst (project_to np fuel dims p) = Err OutOfFuel /\ (fuel < F)%nat).
Proof.
  intros Hnp Hh Ht Hr W HC Hx HB ND HF H2 n S HD. assert (Hdim : dims_ok N dims) by (split; assumption).
  pose proof (project_to_method np) as PM. destruct W as (HA & Hb & HC' & Hd'). assert (W : wf p m 0 N) by (unfold wf; auto).
  assert (SP : forall y, Pr (reorder (pA p) dims) (pb p) N n y <-> S y).
  { intros y. unfold n. rewrite (projection_Pr (pA p) (pb p) m N dims y HA Hb Hdim). unfold S, projection. split; intros (x & Ix & Ex); exists x; (split; [|exact Ex]); apply (in_poly_noeq p m N x W); exact Ix. }
  destruct Hx as (x0 & I0 & N0). assert (I0' := proj1 (in_poly_noeq p m N x0 W) I0). destruct I0' as (L0 & F0). destruct HB as (M & HM).
  assert (Fw0 : feas (reorder (pA p) dims) (pb p) N (vtake x0 (dims ++ dropped_dimensions N dims))).
  { split; [pose proof (dropped_length N dims Hdim); len|]. rewrite (mv_reorder (pA p) m N) by assumption. exact F0. }
  assert (HM' : forall w, feas (reorder (pA p) dims) (pb p) N w -> norm w <= M).
  { apply (bounded_reorder (pA p) (pb p) m N dims M HA Hdim). intros x Lx Fx. apply HM. apply (in_poly_noeq p m N x W). auto. }
  destruct (method_ok np Hnp Hr (reorder (pA p) dims) (pb p) m N n _ M (shape_reorder _ _ _ _ HA Hdim) Hb (dims_le N dims Hdim) Fw0 HM' D dims (pA p)) as (F & H); auto.
  { intros y y' Py Py'. apply HD; apply SP; assumption. }
  { apply (dims_forallb _ m N); assumption. }
  exists F. intros fuel. rewrite (PM fuel p m N dims Hnp W HC (ex_intro _ x0 (conj I0 N0)) (ex_intro _ M HM)). destruct (H fuel) as [(E & f & vs & Ee & ((k & SE & Lf) & UE & Pv & Hhu & Hs) & NFl)|[(Ee & Hu)|[(Ee & Hw)|(Ee & Hl)]]]; rewrite Ee; cbn [bind]; auto.
  - left. assert (LE : length (rows E) = k) by apply SE. unfold Polyhedron, same_number_rows, nd_size. cbn [bind]. unfold nrows. rewrite LE, Lf, Nat.eqb_refl. cbn [bind].
    eexists _, vs, k. split; [reflexivity|]. assert (Wq : wf (set_vertices (Poly E f (zmat 0 (ncols E)) (zeros 0) None None None None None) (Some vs)) k 0 n).
    { unfold wf. cbn [pA pb pC pd set_vertices]. rewrite (shape_cols _ _ _ SE). split; [exact SE|]. split; [exact Lf|]. split; [apply shape_zmat|reflexivity]. }
    split; [exact Wq|]. split; [reflexivity|]. assert (Iq : forall y, in_poly (set_vertices (Poly E f (zmat 0 (ncols E)) (zeros 0) None None None None None) (Some vs)) y <-> length y = n /\ in_hull n vs y).
    { intros y. rewrite (in_poly_noeq _ k n y Wq). cbn [pA pb set_vertices]. rewrite <- ineq_holds_vle. split; intros (Ly & Q); (split; [exact Ly|]); apply (Hhu y Ly); exact Q. }
    split; [eapply Forall_impl; [|exact Pv]; intros y; apply SP|]. split; [exact Iq|]. split; [|split; [|split]].
    + intros y Iy. apply Iq in Iy. apply SP. eapply hull_in_Pr; [apply (shape_reorder _ _ _ _ HA Hdim)|exact Hb|apply (dims_le N dims Hdim)|exact Pv|apply Iy].
    + intros y Sy i Hi. cbn [pA pb set_vertices]. apply SP in Sy. specialize (Hs y Sy). unfold slack in Hs. clear - Hs Hi LE. revert i Hi. subst k. unfold row.
      induction Hs as [|a d l l' H _ IH]; intros i Hi; [cbn in Hi; lia|]. destruct i; cbn; [exact H|]. apply IH. cbn in Hi. lia.
    + exact UE.
    + destruct (classic (thin S n)) as [T|NT]; [left; exact T|right]. intros a d La Ha. apply NNPP. intros Na. apply NFl.
      * intros c Lc Uc. apply NNPP. intros NE. apply NT. exists c. split; [exact Lc|]. split; [exact Uc|]. intros y y' Sy Sy'. apply Rnot_le_lt. intros Q. apply NE. exists y, y'. split; [apply SP; exact Sy|]. split; [apply SP; exact Sy'|exact Q].
      * exists a, d. split; [exact La|]. split; [exact Na|]. rewrite Forall_forall in *. intros v Hv. rewrite firstn_all2; [auto|]. pose proof (proj1 (SP v) (Pv v Hv)) as (x & _ & Ex). rewrite <- Ex. len.
  - right. left. split; [reflexivity|]. destruct Hu as (i & v1 & v2 & vs & z & U1 & U2 & U3 & U4 & U5). exists i, v1, v2, vs, z. split; [exact U1|]. split; [exact U2|].
    split; [eapply Forall_impl; [|exact U3]; intros y; apply SP|]. split; [intros y Sy; apply U4, SP, Sy|exact U5].
  - right. right. left. split; [reflexivity|]. apply NNPP. intros NT. apply Hw. intros a La Ua. apply NNPP. intros NE. apply NT. exists a. split; [exact La|]. split; [exact Ua|].
    intros y y' Sy Sy'. apply Rnot_le_lt. intros Q. apply NE. exists y, y'. split; [apply SP; exact Sy|]. split; [apply SP; exact Sy'|exact Q].
Qed.

(*@ Theorem C17_interval : projection of a polytope onto one dimension is exact and never fails *)
Lemma project_to_interval np fuel p m N i : exact_np np -> wf p m 0 N -> cache_ok np p -> (exists x, in_poly p x /\ near x) -> bounded_set (in_poly p) -> (i < N)%nat ->
  let S := projection (in_poly p) [i] in
  exists q vs, fst (project_to np fuel [i] p) = Ok q /\ wf q 2 0 1 /\ p_vertices q = Some vs /\ Forall S vs /\
    forall y, (in_poly q y <-> S y) /\ (in_poly q y <-> length y = 1%nat /\ in_hull 1 vs y).
Proof.
  intros Hnp W HC Hx HB Hi S. assert (Hdim : dims_ok N [i]) by (split; repeat constructor; auto).
  destruct W as (HA & Hb & HC' & Hd'). assert (W : wf p m 0 N) by (unfold wf; auto).
  assert (SP : forall y, Pr (reorder (pA p) [i]) (pb p) N 1 y <-> S y).
  { intros y. rewrite (projection_Pr (pA p) (pb p) m N [i] y HA Hb Hdim). unfold S, projection. split; intros (x & Ix & Ex); exists x; (split; [|exact Ex]); apply (in_poly_noeq p m N x W); exact Ix. }
  destruct Hx as (x0 & I0 & N0). assert (I0' := proj1 (in_poly_noeq p m N x0 W) I0). destruct I0' as (L0 & F0). destruct HB as (M & HM).
  assert (Fw0 : feas (reorder (pA p) [i]) (pb p) N (vtake x0 ([i] ++ dropped_dimensions N [i]))).
  { split; [pose proof (dropped_length N [i] Hdim); len|]. rewrite (mv_reorder (pA p) m N) by assumption. exact F0. }
  assert (HM' : forall w, feas (reorder (pA p) [i]) (pb p) N w -> norm w <= M).
  { apply (bounded_reorder (pA p) (pb p) m N [i] M HA Hdim). intros x Lx Fx. apply HM. apply (in_poly_noeq p m N x W). auto. }
  destruct (method_interval np Hnp (reorder (pA p) [i]) (pb p) m N 1 _ M (shape_reorder _ _ _ _ HA Hdim) Hb (dims_le N [i] Hdim) Fw0 HM' [i] (pA p) eq_refl eq_refl) with (fuel := fuel) as (E & f & vs & Ee & SE & Lf & Pv & Hy); auto.
  { apply (dims_forallb _ m N); assumption. }
  rewrite (project_to_method np fuel p m N [i] Hnp W HC (ex_intro _ x0 (conj I0 N0)) (ex_intro _ M HM)), Ee. cbn [bind].
  assert (LE : length (rows E) = 2%nat) by apply SE. unfold Polyhedron, same_number_rows, nd_size. cbn [bind]. unfold nrows. rewrite LE, Lf, Nat.eqb_refl. cbn [bind].
  eexists _, vs. split; [reflexivity|]. assert (Wq : wf (set_vertices (Poly E f (zmat 0 (ncols E)) (zeros 0) None None None None None) (Some vs)) 2 0 1).
  { unfold wf. cbn [pA pb pC pd set_vertices]. rewrite (shape_cols _ _ _ SE). split; [exact SE|]. split; [exact Lf|]. split; [apply shape_zmat|reflexivity]. }
  split; [exact Wq|]. split; [reflexivity|]. split; [eapply Forall_impl; [|exact Pv]; intros y; apply SP|]. intros y.
  rewrite (in_poly_noeq _ 2 1 y Wq). cbn [pA pb set_vertices]. rewrite <- ineq_holds_vle. split; split.
  - intros (Ly & Q). apply SP. apply (proj1 (Hy y Ly)). exact Q.
  - intros Q. assert (Ly : length y = 1%nat) by (destruct Q as (x & _ & <-); reflexivity). split; [exact Ly|]. apply (proj1 (Hy y Ly)). apply SP. exact Q.
  - intros (Ly & Q). split; [exact Ly|]. apply (proj2 (Hy y Ly)). exact Q.
  - intros (Ly & Q). split; [exact Ly|]. apply (proj2 (Hy y Ly)). exact Q.
Qed.

(*@ Theorem C17_raises : empty polyhedra, polyhedra found unbounded and polyhedra with equalities are rejected with ValueError *)
Lemma project_to_value_error np fuel p m me N dims : exact_np np -> wf p m me N -> cache_ok np p ->
  (forall x, ~ in_poly p x) \/ (fst (get_bounded np (fresh p)) = Ok false) \/ (0 < me)%nat ->
  fst (project_to np fuel dims p) = Err ValueError.
Proof.
  intros Hnp W HC H. eapply project_to_raises; eauto. destruct H as [H|H]; [left|right; exact H]. intros x Ix. destruct (H x Ix).
Qed.

(** ** Polyhedron.from_convex_hull *)
(*@ Theorem C62_from_convex_hull : whatever from_convex_hull returns is exactly the convex hull of the points *)
Lemma from_convex_hull_ok np pts n q : hull_ok np -> Forall (fun p => length p = n) pts -> from_convex_hull np pts = Ok q ->
  exists k, wf q k 0 n /\ forall x, in_poly q x <-> length x = n /\ in_hull n pts x.
Proof.
  intros Hh HL E. unfold from_convex_hull in E. destruct pts as [|p0 pts]; [discriminate|].
  destruct (np_hull np (p0 :: pts)) as [(A & f)|e] eqn:EE; [|discriminate]. cbn [bind fst snd] in E.
  destruct (Hh _ _ _ _ HL EE) as ((k & SE & Lf) & _ & _ & Hy). assert (LE : length (rows A) = k) by apply SE. unfold Polyhedron, same_number_rows, nd_size in E. cbn [bind] in E. unfold nrows in E. rewrite LE, Lf, Nat.eqb_refl in E. cbn [bind] in E.
  injection E as <-. exists k. assert (Wq : wf (Poly A f (zmat 0 (ncols A)) (zeros 0) None None None None None) k 0 n).
  { unfold wf. cbn [pA pb pC pd]. rewrite (shape_cols _ _ _ SE). split; [exact SE|]. split; [exact Lf|]. split; [apply shape_zmat|reflexivity]. }
  split; [exact Wq|]. intros x. rewrite (in_poly_noeq _ k n x Wq). cbn [pA pb]. rewrite <- ineq_holds_vle. split; intros (Lx & Q); (split; [exact Lx|]); apply (Hy x Lx); exact Q.
Qed.
(*@ Theorem C62_from_convex_hull_total : it raises only if the points are on one hyperplane *)
Lemma from_convex_hull_total np pts n : hull_total np -> Forall (fun p => length p = n) pts -> (2 <= n)%nat -> pts <> [] -> hull_ok np ->
  (exists q, from_convex_hull np pts = Ok q) \/
  (from_convex_hull np pts = Err QhullError /\ exists a d, length a = n /\ a <> zeros n /\ Forall (fun p => dot a p = d) pts).
Proof.
  intros Ht HL H2 Hne Hh. unfold from_convex_hull. destruct pts as [|p0 pts]; [congruence|]. destruct (Ht _ _ HL H2) as [(A & f & EE)|(EE & H)]; rewrite EE; cbn [bind fst snd].
  - left. destruct (Hh _ _ _ _ HL EE) as ((k & SE & Lf) & _ & _ & Hy). assert (LE : length (rows A) = k) by apply SE. unfold Polyhedron, same_number_rows, nd_size. cbn [bind]. unfold nrows. rewrite LE, Lf, Nat.eqb_refl. cbn [bind]. eauto.
  - right. auto.
Qed.

(** ** MultiParametricQuadraticProgram.get_feasible_set *)
(** the parameters for which the constraints Au u + Ax x <= b can be satisfied *)
Definition feasible_parameter (Au Ax : mat) (b : vec) (nu nx : nat) (x : vec) : Prop :=
  length x = nx /\ exists u, length u = nu /\ forall i, (i < length b)%nat -> dot (row Au i) u + dot (row Ax i) x <= nth i b 0.
(** the pairs (x, u) *)
Definition feasible_pair (Au Ax : mat) (b : vec) (nu nx : nat) (xu : vec) : Prop :=
  length xu = (nx + nu)%nat /\ forall i, (i < length b)%nat -> dot (row Au i) (skipn nx xu) + dot (row Ax i) (firstn nx xu) <= nth i b 0.
Definition xu_poly (q : mpqp) : poly := Poly (hstack (q_Ax q) (q_Au q)) (q_b q) (zmat 0 (ncols (hstack (q_Ax q) (q_Au q)))) (zeros 0) None None None None None.

Section Feasible.
Variables (q : mpqp) (m nu nx : nat).
Hypothesis HAu : shape (q_Au q) m nu.
Hypothesis HAx : shape (q_Ax q) m nx.
Hypothesis Hb : length (q_b q) = m.
Lemma xu_wf : wf (xu_poly q) m 0 (nx + nu).
Proof.
  unfold wf, xu_poly. cbn [pA pb pC pd]. pose proof (shape_hstack _ _ m nx nu HAx HAu) as S. rewrite (shape_cols _ _ _ S). split; [exact S|]. split; [exact Hb|]. split; [apply shape_zmat|reflexivity].
Qed.
Lemma xu_in xu : in_poly (xu_poly q) xu <-> feasible_pair (q_Au q) (q_Ax q) (q_b q) nu nx xu.
Proof.
  assert (LA : length (rows (q_Ax q)) = m) by apply HAx. assert (LU : length (rows (q_Au q)) = m) by apply HAu.
  rewrite (in_poly_noeq _ m (nx + nu) xu xu_wf). unfold feasible_pair. cbn [xu_poly pA pb]. split; intros (L & H); (split; [exact L|]).
  - rewrite <- (firstn_skipn nx xu) in H. rewrite (mv_hstack _ _ m nx nu) in H by (try assumption; len). apply vle_nth in H. destruct H as (_ & H). intros i Hi. specialize (H i). autorewrite with len in H.
    rewrite nth_vadd in H by len. rewrite !nth_mv in H. unfold row. rewrite Rplus_comm. apply H. lia.
  - rewrite <- (firstn_skipn nx xu). rewrite (mv_hstack _ _ m nx nu) by (try assumption; len). apply vle_nth. split; [len|]. intros i Hi. lenh Hi.
    rewrite nth_vadd by len. rewrite !nth_mv. specialize (H i ltac:(lia)). unfold row in H. lra.
Qed.
Lemma xu_projection x : projection (in_poly (xu_poly q)) (seq 0 nx) x <-> feasible_parameter (q_Au q) (q_Ax q) (q_b q) nu nx x.
Proof.
  assert (SQ : forall w : vec, length w = (nx + nu)%nat -> map (fun i => nth i w 0) (seq 0 nx) = firstn nx w).
  { intros w Lw. apply vec_ext; [len|]. intros i Hi. lenh Hi. rewrite nth_map_seq by lia. rewrite nth_firstn' by lia. reflexivity. }
  unfold projection, feasible_parameter. split.
  - intros (w & Iw & <-). apply xu_in in Iw. destruct Iw as (Lw & Hw). rewrite (SQ w Lw). split; [len|]. exists (skipn nx w). split; [len|exact Hw].
  - intros (Lx & u & Lu & Hu). exists (x ++ u). split.
    + apply xu_in. split; [len|]. rewrite firstn_app_l, skipn_app_l by exact Lx. exact Hu.
    + rewrite SQ by len. apply firstn_app_l. exact Lx.
Qed.
Lemma feasible_set_project np fuel : get_feasible_set np fuel q = fst (project_to np fuel (seq 0 nx) (xu_poly q)).
Proof.
  unfold get_feasible_set, Polyhedron, same_number_rows, nd_size. cbn [bind]. pose proof (shape_hstack _ _ m nx nu HAx HAu) as S. rewrite (nrows_shape _ _ _ S), Hb, Nat.eqb_refl. cbn [bind].
  rewrite (shape_cols _ _ _ HAx). reflexivity.
Qed.
End Feasible.

(*@ Theorem C54_feasible_set_partial : get_feasible_set of an mpQP whose feasible pairs (x, u) form a polytope, at least two parameters: contained in the set of feasible parameters, the inequalities have unit normals, every feasible parameter satisfies them up to the error of project_to, and the vertices are not on one hyperplane unless the feasible parameters are thin; the other outcomes are those of project_to.
   Missing: unbounded feasible pairs (see C54_unbounded_refuted), the error, and the exceptions. *)
Lemma feasible_set_ok np q m nu nx D : exact_np np -> hull_ok np -> hull_total np -> rand_ok np ->
  shape (q_Au q) m nu -> shape (q_Ax q) m nx -> length (q_b q) = m -> (2 <= nx)%nat ->
  let pair := feasible_pair (q_Au q) (q_Ax q) (q_b q) nu nx in let S := feasible_parameter (q_Au q) (q_Ax q) (q_b q) nu nx in
  (exists xu, pair xu /\ near xu) -> bounded_set pair -> (forall y y', S y -> S y' -> norm (vsub y y') <= D) ->
  exists F, forall fuel,
  (exists p vs k, get_feasible_set np fuel q = Ok p /\ wf p k 0 nx /\ p_vertices p = Some vs /\ Forall S vs /\
     (forall x, in_poly p x <-> length x = nx /\ in_hull nx vs x) /\ (forall x, in_poly p x -> S x) /\
     (forall x, S x -> forall i, (i < k)%nat -> dot (row (pA p) i) x <= nth i (pb p) 0 + (tol7 + (/ 100000 + INR nx * / 100000000) * D)) /\
     Forall (fun a => norm a = 1) (rows (pA p)) /\ (thin S nx \/ forall a d, length a = nx -> Forall (fun v => dot a v = d) vs -> a = zeros nx)) \/
  (get_feasible_set np fuel q = Err LinAlgError /\ unlucky np S nx) \/
  (get_feasible_set np fuel q = Err QhullError /\ thin S nx) \/
  (get_feasible_set np fuel q = Err OutOfFuel /\ (fuel < F)%nat).
Proof.
  intros Hnp Hh Ht Hr HAu HAx Hb H2 pair S Hx HB HD.
  assert (SP : forall x, projection (in_poly (xu_poly q)) (seq 0 nx) x <-> S x) by (intros x; apply (xu_projection q m nu nx HAu HAx Hb)).
  destruct (project_to_ok np (xu_poly q) m (nx + nu) (seq 0 nx) D) as (F & H); auto.
  - apply xu_wf; assumption.
  - apply (cache_fresh np (xu_poly q)).
  - destruct Hx as (x & Ix & Nx). exists x. split; [apply (xu_in q m nu nx HAu HAx Hb); exact Ix|exact Nx].
  - destruct HB as (M & HM). exists M. intros x Ix. apply HM. apply (xu_in q m nu nx HAu HAx Hb). exact Ix.
  - apply seq_NoDup.
  - apply Forall_forall. intros i Hi. apply in_seq in Hi. lia.
  - len.
  - intros y y' Hy Hy'. apply HD; apply SP; assumption.
  - exists F. intros fuel. rewrite (feasible_set_project q m nu nx HAu HAx Hb). specialize (H fuel). rewrite seq_length in H.
    destruct H as [(p & vs & k & H1 & H2' & H3 & H4 & H5 & H6 & H7 & H8 & H9)|[(H & Hu)|[(H & T)|H]]]; auto.
    + left. exists p, vs, k. split; [exact H1|]. split; [exact H2'|]. split; [exact H3|]. split; [eapply Forall_impl; [|exact H4]; intros y; apply SP|].
      split; [exact H5|]. split; [intros x Ix; apply SP, H6, Ix|]. split; [intros x Sx; apply H7, SP, Sx|]. split; [exact H8|]. destruct H9 as [(a & La & Ua & Ha)|H9]; [left|right; exact H9].
      exists a. split; [exact La|]. split; [exact Ua|]. intros y y' Sy Sy'. apply Ha; apply SP; assumption.
    + right. left. split; [exact H|]. destruct Hu as (i & v1 & v2 & vs & z & U1 & U2 & U3 & U4 & U5). exists i, v1, v2, vs, z. split; [exact U1|]. split; [exact U2|].
      split; [eapply Forall_impl; [|exact U3]; intros y; apply SP|]. split; [intros y Sy; apply U4, SP, Sy|exact U5].
    + right. right. left. split; [exact H|]. destruct T as (a & La & Ua & Ha). exists a. split; [exact La|]. split; [exact Ua|]. intros y y' Sy Sy'. apply Ha; apply SP; assumption.
Qed.

(*@ Theorem C54_one_parameter : with one parameter (and a polytope of feasible pairs) the feasible set is exact and the computation never fails *)
Lemma feasible_set_interval np fuel q m nu : exact_np np -> shape (q_Au q) m nu -> shape (q_Ax q) m 1 -> length (q_b q) = m ->
  let pair := feasible_pair (q_Au q) (q_Ax q) (q_b q) nu 1 in
  (exists xu, pair xu /\ near xu) -> bounded_set pair ->
  exists p, get_feasible_set np fuel q = Ok p /\ forall x, in_poly p x <-> feasible_parameter (q_Au q) (q_Ax q) (q_b q) nu 1 x.
Proof.
  intros Hnp HAu HAx Hb pair Hx HB. destruct (project_to_interval np fuel (xu_poly q) m (1 + nu) 0) as (p & vs & E & _ & _ & _ & H); auto.
  - apply xu_wf; assumption.
  - apply (cache_fresh np (xu_poly q)).
  - destruct Hx as (x & Ix & Nx). exists x. split; [apply (xu_in q m nu 1 HAu HAx Hb); exact Ix|exact Nx].
  - destruct HB as (M & HM). exists M. intros x Ix. apply HM. apply (xu_in q m nu 1 HAu HAx Hb). exact Ix.
  - lia.
  - exists p. rewrite (feasible_set_project q m nu 1 HAu HAx Hb). split; [exact E|]. intros x. rewrite (proj1 (H x)). apply (xu_projection q m nu 1 HAu HAx Hb).
Qed.

(** x in [0, 1], u free: the feasible parameters are [0, 1] *)
Definition q_free : mpqp := MPQP (eye 1) (zmat 1 1) (eye 1) [0] [0] 0 (Mat 1 [[0]; [0]]) (Mat 1 [[1]; [-1]]) [1; 0] (eye 1).
(*@ Theorem C54_unbounded_refuted : if the set of feasible pairs is unbounded, ValueError is raised although the feasible parameters are an interval *)
Lemma feasible_set_unbounded : exists q, shape (q_Au q) 2 1 /\ shape (q_Ax q) 2 1 /\ length (q_b q) = 2%nat /\
  (forall x, feasible_parameter (q_Au q) (q_Ax q) (q_b q) 1 1 [x] <-> 0 <= x <= 1) /\
  forall np fuel, exact_np np -> get_feasible_set np fuel q = Err ValueError.
Proof.
  exists q_free. assert (S1 : shape (q_Au q_free) 2 1) by (unfold shape; cbn; repeat split; repeat constructor).
  assert (S2 : shape (q_Ax q_free) 2 1) by (unfold shape; cbn; repeat split; repeat constructor).
  split; [exact S1|]. split; [exact S2|]. split; [reflexivity|]. split.
  - intros x. unfold feasible_parameter. cbn [q_free q_Au q_Ax q_b length]. split.
    + intros (_ & u & Lu & H). destruct u as [|u [|]]; try discriminate. pose proof (H 0%nat ltac:(lia)) as H0. pose proof (H 1%nat ltac:(lia)) as H1. cbn in H0, H1. lra.
    + intros Hx. split; [reflexivity|]. exists [0]. split; [reflexivity|]. intros i Hi. destruct i as [|[|]]; [| |lia]; cbn; lra.
  - intros np fuel Hnp. rewrite (feasible_set_project q_free 2 1 1 S1 S2 eq_refl). eapply project_to_raises; [exact Hnp|apply (xu_wf q_free 2 1 1 S1 S2 eq_refl)|apply (cache_fresh np (xu_poly q_free))|].
    right. left. change (fresh (xu_poly q_free)) with (xu_poly q_free). pose proof (xu_wf q_free 2 1 1 S1 S2 eq_refl) as W.
    destruct (get_empty_ok np (xu_poly q_free) 2 0 2 Hnp W eq_refl) as (e & Ee & Hiff). destruct e.
    { exfalso. apply Hiff; [reflexivity|]. exists [0; 0]. split; [|unfold near; cbn; pose proof tol7_pos; unfold tol7; lra]. apply (xu_in q_free 2 1 1 S1 S2 eq_refl).
      split; [reflexivity|]. intros i Hi. cbn in Hi. destruct i as [|[|]]; [| |lia]; cbn; lra. }
    rewrite (get_bounded_kernel np (xu_poly q_free) eq_refl Ee); [reflexivity|]. apply Nat.ltb_lt.
    destruct (kernel_basis np (allA (xu_poly q_free)) 2 2) as (_ & K); [apply Hnp|unfold shape; cbn; repeat split; repeat constructor|].
    apply K. exists [0; 1]. split; [reflexivity|]. split; [intros Q; injection Q; lra|]. cbn. repeat f_equal; ring.
Qed.

(** ** A concrete case: the box [-1, 1] x [3, 5] x [0, 1], with the offset (1/2, 1/2) *)
Definition box3 : poly := Poly (Mat 3 [[1; 0; 0]; [-1; 0; 0]; [0; 1; 0]; [0; -1; 0]; [0; 0; 1]; [0; 0; -1]]) [1; 1; 5; -3; 1; 0] (Mat 3 []) [] None None None None None.
Definition np_half : numpy := np_fm (fun _ n => repeat (/ 2) n).
Lemma np_half_rand : rand_ok np_half. Proof. intros k n. cbn. apply repeat_length. Qed.
Lemma box3_wf : wf box3 6 0 3. Proof. unfold wf, shape; cbn; repeat split; repeat constructor. Qed.
Lemma box3_in x y z : in_poly box3 [x; y; z] <-> -1 <= x <= 1 /\ 3 <= y <= 5 /\ 0 <= z <= 1.
Proof.
  rewrite (in_poly_noeq box3 6 3 _ box3_wf). cbn [box3 pA pb]. rewrite <- ineq_holds_vle. unfold ineq_holds. cbn [rows]. split.
  - intros (_ & H). inv2 H. lra.
  - intros H. split; [reflexivity|]. repeat (constructor; [cbn; lra|]). constructor.
Qed.
Lemma box3_proj v : projection (in_poly box3) [0%nat; 1%nat] v <-> exists x y, v = [x; y] /\ -1 <= x <= 1 /\ 3 <= y <= 5.
Proof.
  split.
  - intros (w & Iw & <-). assert (Lw : length w = 3%nat) by apply Iw. destruct w as [|x [|y [|z [|]]]]; try discriminate. apply box3_in in Iw. exists x, y. cbn. tauto.
  - intros (x & y & -> & H). exists [x; y; 0]. split; [apply box3_in; lra|reflexivity].
Qed.
(*@ Example C17_example : the hypotheses of C17_projection_partial hold for the box [-1,1] x [3,5] x [0,1], residual dimensions 0 and 1 and an exact library; the polyhedron is returned *)
Lemma project_example : (exact_np np_half /\ hull_ok np_half /\ hull_total np_half /\ rand_ok np_half) /\ wf box3 6 0 3 /\ cache_ok np_half box3 /\
  (exists x, in_poly box3 x /\ near x) /\ bounded_set (in_poly box3) /\
  (forall y y', projection (in_poly box3) [0%nat; 1%nat] y -> projection (in_poly box3) [0%nat; 1%nat] y' -> norm (vsub y y') <= 3) /\
  exists F, forall fuel, (F <= fuel)%nat -> exists q, fst (project_to np_half fuel [0%nat; 1%nat] box3) = Ok q.
Proof.
  destruct (np_fm_ok (fun _ n => repeat (/ 2) n)) as (H1 & H2 & H3). fold np_half in H1, H2, H3.
  assert (HN : exists x, in_poly box3 x /\ near x). { exists [0; 3; 0]. split; [apply box3_in; lra|]. unfold near, tol7. cbn. lra. }
  assert (HB : bounded_set (in_poly box3)).
  { exists 6. intros w Iw. assert (Lw : length w = 3%nat) by apply Iw. destruct w as [|x [|y [|z [|]]]]; try discriminate. apply box3_in in Iw. unfold norm. rewrite <- (sqrt_square 6) by lra. apply sqrt_le_1_alt. cbn. nra. }
  assert (HD : forall y y', projection (in_poly box3) [0%nat; 1%nat] y -> projection (in_poly box3) [0%nat; 1%nat] y' -> norm (vsub y y') <= 3).
  { intros v v' Hv Hv'. apply box3_proj in Hv, Hv'. destruct Hv as (x & y & -> & ?). destruct Hv' as (x' & y' & -> & ?). unfold norm. rewrite <- (sqrt_square 3) by lra. apply sqrt_le_1_alt. cbn. nra. }
  assert (HC : cache_ok np_half box3) by apply (cache_fresh np_half box3).
  split; [exact (conj H1 (conj H2 (conj H3 np_half_rand)))|]. split; [exact box3_wf|]. split; [exact HC|]. split; [exact HN|]. split; [exact HB|]. split; [exact HD|].
  destruct (project_to_ok np_half box3 6 3 [0%nat; 1%nat] 3 H1 H2 H3 np_half_rand box3_wf HC HN HB) as (F & H); [repeat constructor; cbn; lia|repeat constructor|cbn; lia|exact HD|].
  exists F. intros fuel Hf. destruct (H fuel) as [(q & _ & _ & E & _)|[(_ & U)|[(_ & T)|(_ & L)]]]; [eauto| | |lia].
  - exfalso. destruct U as (i & v1 & v2 & vs & z & Hi & Hl & HS & HO & Lz & Nz & Hz). cbn [length] in *. destruct vs; [|cbn in Hl; lia]. cbn in Hl. subst i.
    pose proof (Forall_inv HS) as S1. pose proof (Forall_inv (Forall_inv_tail HS)) as S2. apply box3_proj in S1, S2. destruct S1 as (x1 & y1 & -> & B1). destruct S2 as (x2 & y2 & -> & B2).
    assert (O1 := HO [-1; 4]). assert (O2 := HO [1; 4]). rewrite !box3_proj in O1, O2. cbn [nth] in O1, O2.
    assert (x1 <= -1) by (apply O1; exists (-1), 4; split; [reflexivity|lra]). assert (1 <= x2) by (apply O2; exists 1, 4; split; [reflexivity|lra]).
    assert (x1 = -1) by lra. assert (x2 = 1) by lra. subst x1 x2. destruct z as [|z0 [|z1 [|]]]; try discriminate. pose proof (Forall_inv Hz) as Q1. pose proof (Forall_inv (Forall_inv_tail Hz)) as Q2. cbn in Q1, Q2.
    assert (z1 = 0) by nra. subst z1. assert (z0 = 0) by lra. subst z0. apply Nz. reflexivity.
  - exfalso. destruct T as (a & La & Ua & Ha). destruct a as [|a0 [|a1 [|]]]; try discriminate. clear - Ua Ha.
    assert (P : forall x y, -1 <= x <= 1 -> 3 <= y <= 5 -> projection (in_poly box3) [0%nat; 1%nat] [x; y]) by (intros x y Hx Hy; apply box3_proj; exists x, y; auto).
    pose proof (Ha _ _ (P (-1) 3 ltac:(lra) ltac:(lra)) (P 1 5 ltac:(lra) ltac:(lra))) as A1. pose proof (Ha _ _ (P 1 5 ltac:(lra) ltac:(lra)) (P (-1) 3 ltac:(lra) ltac:(lra))) as A2.
    pose proof (Ha _ _ (P (-1) 5 ltac:(lra) ltac:(lra)) (P 1 3 ltac:(lra) ltac:(lra))) as A3. pose proof (Ha _ _ (P 1 3 ltac:(lra) ltac:(lra)) (P (-1) 5 ltac:(lra) ltac:(lra))) as A4. cbn in A1, A2, A3, A4. unfold tol7 in *.
    assert (Q : a0 * a0 + a1 * a1 = 1). { pose proof (norm_sqr [a0; a1]) as Q. rewrite Ua in Q. cbn in Q. lra. } nra.
Qed.

(** x and u in [0, 1], x + u >= 1/2 *)
Definition q_box : mpqp := MPQP (eye 1) (zmat 1 1) (eye 1) [0] [0] 0 (Mat 1 [[0]; [0]; [1]; [-1]; [-1]]) (Mat 1 [[1]; [-1]; [0]; [0]; [-1]]) [1; 1; 1; 0; - / 2] (eye 1).
(*@ Example C54_example : |x| <= 1, 0 <= u <= 1, x + u >= 1/2: the feasible parameters are [-1/2, 1], and get_feasible_set returns them *)
Lemma feasible_example np fuel : exact_np np -> exists p, get_feasible_set np fuel q_box = Ok p /\ forall x, in_poly p [x] <-> - / 2 <= x <= 1.
Proof.
  intros Hnp. assert (S1 : shape (q_Au q_box) 5 1) by (unfold shape; cbn; repeat split; repeat constructor).
  assert (S2 : shape (q_Ax q_box) 5 1) by (unfold shape; cbn; repeat split; repeat constructor).
  assert (B : forall x u, feasible_pair (q_Au q_box) (q_Ax q_box) (q_b q_box) 1 1 [x; u] <-> -1 <= x <= 1 /\ 0 <= u <= 1 /\ / 2 <= x + u).
  { intros x u. unfold feasible_pair. cbn [q_box q_Au q_Ax q_b length firstn skipn]. split.
    - intros (_ & H). pose proof (H 0%nat ltac:(lia)) as I0. pose proof (H 1%nat ltac:(lia)) as I1. pose proof (H 2%nat ltac:(lia)) as I2. pose proof (H 3%nat ltac:(lia)) as I3. pose proof (H 4%nat ltac:(lia)) as I4. cbn in I0, I1, I2, I3, I4. lra.
    - intros H. split; [reflexivity|]. intros i Hi. do 5 (destruct i as [|i]; [cbn; lra|]). lia. }
  destruct (feasible_set_interval np fuel q_box 5 1 Hnp S1 S2 eq_refl) as (p & E & H).
  - exists [0; / 2]. split; [apply B; lra|]. unfold near, tol7. cbn. lra.
  - exists 2. intros w Hw. assert (Lw : length w = 2%nat) by apply Hw. destruct w as [|x [|u [|]]]; try discriminate. apply B in Hw. unfold norm. rewrite <- (sqrt_square 2) by lra. apply sqrt_le_1_alt. cbn. nra.
  - exists p. split; [exact E|]. intros x. rewrite H. unfold feasible_parameter. split.
    + intros (_ & u & Lu & Hu). destruct u as [|u [|]]; try discriminate. assert (Q : feasible_pair (q_Au q_box) (q_Ax q_box) (q_b q_box) 1 1 [x; u]) by (split; [reflexivity|exact Hu]). apply B in Q. lra.
    + intros Hx. split; [reflexivity|]. exists [1]. split; [reflexivity|]. assert (Q : feasible_pair (q_Au q_box) (q_Ax q_box) (q_b q_box) 1 1 [x; 1]) by (apply B; lra). apply Q.
Qed.
(*@ Example C62_example : the triangle (0,0), (1,0), (0,1) *)
Lemma from_hull_example rnd : exists q, from_convex_hull (np_fm rnd) [[0; 0]; [1; 0]; [0; 1]] = Ok q /\ in_poly q [/ 2; / 2] /\ ~ in_poly q [1; 1].
Proof.
  destruct (np_fm_ok rnd) as (_ & H2 & H3). assert (L : Forall (fun p => length p = 2%nat) [[0; 0]; [1; 0]; [0; 1]]) by (repeat constructor).
  destruct (from_convex_hull_total (np_fm rnd) _ 2 H3 L) as [(q & E)|(_ & a & d & La & Na & Fa)]; [lia|discriminate|exact H2| |].
  2:{ exfalso. destruct a as [|a0 [|a1 [|]]]; try discriminate. inversion Fa as [|? ? F0 Fa1]; subst. inversion Fa1 as [|? ? F1 Fa2]; subst. inversion Fa2 as [|? ? F2 _]; subst.
      cbn in *. apply Na. f_equal; [lra|]. f_equal. lra. }
  exists q. split; [exact E|]. destruct (from_convex_hull_ok _ _ 2 q H2 L E) as (k & _ & Hq). split.
  - apply Hq. split; [reflexivity|]. exists [0; / 2; / 2]. split; [reflexivity|]. split; [repeat constructor; lra|]. split; [unfold vsum; cbn; lra|]. cbn. repeat f_equal; lra.
  - intros Q. apply Hq in Q. destruct Q as (_ & l & Ll & Nl & Sl & El). destruct l as [|a [|b [|c [|]]]]; try discriminate. unfold vsum in Sl. cbn in Sl, El. injection El as E1 E2.
    unfold nonneg in Nl. pose proof (Forall_inv Nl). cbn beta in *. lra.
Qed.
