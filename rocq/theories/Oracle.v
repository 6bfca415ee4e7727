(** * Oracle: functions meeting the assumptions on numpy/scipy exist

    Exact counterparts of nnls, pinv, cholesky, inv, solve, matrix_rank and svd are constructed, so that
    the hypotheses [nnls_ok], [pinv_ok], ... used by the theorems can be met together. *)
From Verif Require Import Arr ArrFacts Spec Numpy PnnlsFacts QpFacts.

(** ** Linear combinations *)
Notation vecs m := (Forall (fun v : vec => length v = m)).

Lemma lincomb_nil_l n rs : lincomb n [] rs = zeros n.
Proof. destruct rs; reflexivity. Qed.
Lemma lincomb_nil_r n y : lincomb n y [] = zeros n.
Proof. destruct y; reflexivity. Qed.

Lemma dot_lincomb_zero m y vs r : vecs m vs -> (forall v, In v vs -> dot v r = 0) -> dot (lincomb m y vs) r = 0.
Proof.
  intros Hv H. rewrite dot_lincomb by exact Hv.
  replace (map (fun r0 => dot r0 r) vs) with (zeros (length vs)).
  - apply dot_zeros_r.
  - clear Hv. induction vs as [|v vs IH]; [reflexivity|]. simpl. unfold zeros in *. simpl. f_equal.
    + symmetry. apply H; now left.
    + apply IH. intros; apply H; now right.
Qed.

Lemma lincomb_vadd m y z vs : vecs m vs -> length y = length z ->
  lincomb m (vadd y z) vs = vadd (lincomb m y vs) (lincomb m z vs).
Proof.
  intros Hv L. apply dot_eq_ext.
  - len. rewrite !lincomb_length by exact Hv. lia.
  - intros w _. rewrite dot_vadd_l by (rewrite !lincomb_length by exact Hv; reflexivity).
    rewrite !dot_lincomb by exact Hv. apply dot_vadd_l; exact L.
Qed.
Lemma lincomb_vscale m k y vs : vecs m vs -> lincomb m (vscale k y) vs = vscale k (lincomb m y vs).
Proof.
  intros Hv. apply dot_eq_ext.
  - len. rewrite !lincomb_length by exact Hv. lia.
  - intros w _. rewrite dot_vscale_l, !dot_lincomb by exact Hv. apply dot_vscale_l.
Qed.
Lemma lincomb_vsub m y z vs : vecs m vs -> length y = length z ->
  lincomb m (vsub y z) vs = vsub (lincomb m y vs) (lincomb m z vs).
Proof.
  intros Hv L. rewrite !vsub_vneg, !vneg_vscale, lincomb_vadd, lincomb_vscale; auto. len.
Qed.
Lemma lincomb_app m y1 y2 l1 l2 : vecs m l1 -> vecs m l2 -> length y1 = length l1 ->
  lincomb m (y1 ++ y2) (l1 ++ l2) = vadd (lincomb m y1 l1) (lincomb m y2 l2).
Proof.
  intros H1 H2 L. revert y1 L. induction l1 as [|v l1 IH]; intros [|a y1] L; try discriminate L.
  - simpl. rewrite vadd_zeros_l; [reflexivity|]. now rewrite lincomb_length.
  - simpl. inversion H1; subst. rewrite IH; auto. rewrite vadd_assoc. reflexivity.
Qed.
Lemma lincomb_zeros m k vs : vecs m vs -> lincomb m (zeros k) vs = zeros m.
Proof.
  intros Hv. apply dot_eq_ext.
  - rewrite lincomb_length by exact Hv. len.
  - intros w _. rewrite dot_lincomb by exact Hv. now rewrite !dot_zeros_l.
Qed.

(** ** Least squares *)
Lemma lsq m vs : forall b, vecs m vs -> length b = m ->
  {y : vec | length y = length vs /\ forall v, In v vs -> dot v (vsub b (lincomb m y vs)) = 0}.
Proof.
  induction vs as [|v vs IH]; intros b Hv Hb.
  - exists []. split; [reflexivity|]. intros v [].
  - assert (Hv0 : length v = m) by now inversion Hv.
    assert (Hvs : vecs m vs) by now inversion Hv.
    assert (LL : forall y, length (lincomb m y vs) = m) by (intros; now apply lincomb_length).
    destruct (IH v Hvs Hv0) as (c & Lc & Oc).
    destruct (IH b Hvs Hb) as (y0 & Ly & Oy).
    set (w := vsub v (lincomb m c vs)) in *.
    set (r0 := vsub b (lincomb m y0 vs)) in *.
    assert (Lw : length w = m) by (unfold w; len; rewrite LL; lia).
    assert (Lr : length r0 = m) by (unfold r0; len; rewrite LL; lia).
    assert (Ew : forall x, length x = m -> dot v x = dot w x + dot (lincomb m c vs) x).
    { intros x Lx. unfold w. rewrite dot_vsub_l by (rewrite LL; lia). ring. }
    destruct (Req_EM_T (dot w w) 0) as [Z|NZ].
    + exists (0 :: y0). split; [len|]. intros u Hu. simpl lincomb.
      rewrite vscale_0, Hv0, vadd_zeros_l by apply LL. fold r0.
      destruct Hu as [<-|Hu]; [|now apply Oy].
      rewrite Ew by exact Lr. apply dot_self_zero in Z. rewrite Z, dot_zeros_l.
      rewrite dot_lincomb_zero; auto. ring.
    + set (t := dot w b / dot w w).
      exists (t :: vsub y0 (vscale t c)). split; [len|]. intros u Hu. simpl lincomb.
      rewrite lincomb_vsub, lincomb_vscale by (auto; len).
      replace (vsub b (vadd (vscale t v) (vsub (lincomb m y0 vs) (vscale t (lincomb m c vs)))))
        with (vsub r0 (vscale t w)).
      2:{ unfold r0, w. pose proof (LL y0). pose proof (LL c). vring. }
      assert (Ou : forall u, In u vs -> dot u (vsub r0 (vscale t w)) = 0).
      { intros u' H'. rewrite dot_vsub_r, dot_vscale_r by len. rewrite Oy, Oc by exact H'. ring. }
      destruct Hu as [<-|Hu]; [|now apply Ou].
      rewrite Ew by len. rewrite (dot_lincomb_zero m c vs) by auto.
      rewrite dot_vsub_r, dot_vscale_r by len.
      unfold r0 at 1. rewrite dot_vsub_r by (rewrite LL; lia).
      rewrite (dot_comm w (lincomb m y0 vs)), (dot_lincomb_zero m y0 vs w); auto.
      unfold t. field. exact NZ.
Qed.

(** Pythagoras for a least squares solution *)
Lemma lsq_pyth m vs b y z : vecs m vs -> length b = m -> length y = length vs -> length z = length vs ->
  (forall v, In v vs -> dot v (vsub b (lincomb m y vs)) = 0) ->
  let d := lincomb m (vsub z y) vs in
  dot (vsub b (lincomb m z vs)) (vsub b (lincomb m z vs)) =
  dot (vsub b (lincomb m y vs)) (vsub b (lincomb m y vs)) + dot d d.
Proof.
  intros Hv Hb Ly Lz O d.
  assert (LL : forall y, length (lincomb m y vs) = m) by (intros; now apply lincomb_length).
  set (r := vsub b (lincomb m y vs)) in *.
  assert (Lr : length r = m) by (unfold r; len; rewrite LL; lia).
  assert (Ld : length d = m) by apply LL.
  replace (vsub b (lincomb m z vs)) with (vsub r d).
  2:{ unfold r, d. rewrite lincomb_vsub by (auto; lia). pose proof (LL y). pose proof (LL z). vring. }
  assert (E : dot d r = 0) by (apply dot_lincomb_zero; auto).
  rewrite !dot_vsub_l, !dot_vsub_r by lia. rewrite (dot_comm r d), E. ring.
Qed.

(** ** Nonnegative least squares *)
Definition seg (z y : vec) (t : R) : vec := vadd (vscale (1 - t) z) (vscale t y).

Lemma Rle_mul_0 a b : 0 <= a -> 0 <= b -> 0 <= a * b.
Proof. intros; nra. Qed.

Lemma boundary_point z : forall y, length z = length y -> nonneg z ->
  nonneg y \/ exists t i, 0 <= t <= 1 /\ (i < length z)%nat /\ nonneg (seg z y t) /\ nth i (seg z y t) 0 = 0.
Proof.
  induction z as [|z0 z IH]; intros [|y0 y] L Nz; try discriminate L.
  - left. constructor.
  - inversion Nz as [|? ? Hz0 Nz']; subst.
    assert (Lz : length z = length y) by (simpl in L; lia).
    assert (Below : forall t t', 0 <= t <= t' -> t' <= 1 -> nonneg (seg z y t') -> nonneg (seg z y t)).
    { intros t t' H1 H2 Ns. apply nonneg_of_nth. unfold seg in *. intros i Hi.
      assert (G : 0 <= nth i (vadd (vscale (1 - t') z) (vscale t' y)) 0) by now apply nonneg_nth.
      assert (Gz : 0 <= nth i z 0) by now apply nonneg_nth.
      rewrite nth_vadd, !nth_vscale in * by len.
      destruct (Req_dec t' 0) as [->|Ht'].
      - assert (t = 0) by lra. subst. lra.
      - apply Rmult_le_reg_l with t'; [lra|]. rewrite Rmult_0_r.
        replace (t' * ((1 - t) * nth i z 0 + t * nth i y 0)) with
          ((t' - t) * nth i z 0 + t * ((1 - t') * nth i z 0 + t' * nth i y 0)) by ring.
        apply Rplus_le_le_0_compat; apply Rle_mul_0; lra. }
    destruct (Rle_dec 0 y0) as [Hy0|Hy0].
    + destruct (IH y Lz Nz') as [Ny|(t & i & Ht & Hi & Ns & Z)].
      * left. constructor; assumption.
      * right. exists t, (S i). split; [exact Ht|]. split; [simpl; lia|]. split; [|exact Z].
        unfold seg. simpl. constructor; [|exact Ns].
        apply Rplus_le_le_0_compat; apply Rle_mul_0; lra.
    + assert (D : 0 < z0 - y0) by lra.
      set (t0 := z0 / (z0 - y0)).
      assert (T0 : 0 <= t0 <= 1).
      { unfold t0. split.
        - apply Rmult_le_pos; [lra|]. left. now apply Rinv_0_lt_compat.
        - apply Rmult_le_reg_r with (z0 - y0); [lra|]. unfold Rdiv. rewrite Rmult_assoc, Rinv_l by lra. lra. }
      assert (E0 : (1 - t0) * z0 + t0 * y0 = 0) by (unfold t0; field; lra).
      assert (Hd : forall t, 0 <= t <= t0 -> 0 <= (1 - t) * z0 + t * y0).
      { intros t Ht. replace ((1 - t) * z0 + t * y0) with (((1 - t0) * z0 + t0 * y0) + (t0 - t) * (z0 - y0)) by ring.
        rewrite E0. rewrite Rplus_0_l. apply Rle_mul_0; lra. }
      right. destruct (IH y Lz Nz') as [Ny|(t & i & Ht & Hi & Ns & Z)].
      * exists t0, O. split; [exact T0|]. split; [simpl; lia|]. unfold seg. simpl. split; [|exact E0].
        constructor; [rewrite E0; lra|].
        apply nonneg_vadd; apply nonneg_vscale; auto; lra.
      * destruct (Rle_dec t t0) as [C|C].
        -- exists t, (S i). split; [exact Ht|]. split; [simpl; lia|]. split; [|exact Z].
           unfold seg. simpl. constructor; [|exact Ns]. apply Hd. lra.
        -- exists t0, O. split; [exact T0|]. split; [simpl; lia|]. unfold seg. simpl. split; [|exact E0].
           constructor; [rewrite E0; lra|]. apply (Below t0 t); auto; lra.
Qed.

Lemma argmin (f : nat -> R) k : {i | (i <= k)%nat /\ forall j, (j <= k)%nat -> f i <= f j}.
Proof.
  induction k as [|k (i & Hi & M)].
  - exists O. split; [lia|]. intros j Hj. replace j with O by lia. lra.
  - destruct (Rle_dec (f i) (f (S k))) as [C|C].
    + exists i. split; [lia|]. intros j Hj. destruct (Nat.eq_dec j (S k)) as [->|]; [exact C|]. apply M; lia.
    + exists (S k). split; [lia|]. intros j Hj. destruct (Nat.eq_dec j (S k)) as [->|]; [lra|].
      apply Rle_trans with (f i); [lra|]. apply M; lia.
Qed.

Definition del {A} (i : nat) (l : list A) : list A := firstn i l ++ skipn (S i) l.
Definition ins (i : nat) (y : vec) : vec := firstn i y ++ 0 :: skipn i y.

Lemma split_nth {A} (l : list A) i d : (i < length l)%nat -> l = firstn i l ++ nth i l d :: skipn (S i) l.
Proof.
  revert i; induction l as [|a l IH]; intros [|i] H; simpl in *; try lia; [reflexivity|].
  f_equal. apply IH. lia.
Qed.
Lemma vecs_firstn m k (vs : list vec) : vecs m vs -> vecs m (firstn k vs).
Proof.
  intros H. rewrite Forall_forall in *. intros v Hv. apply H.
  rewrite <- (firstn_skipn k vs). apply in_or_app; now left.
Qed.
Lemma vecs_skipn m k (vs : list vec) : vecs m vs -> vecs m (skipn k vs).
Proof.
  intros H. rewrite Forall_forall in *. intros v Hv. apply H.
  rewrite <- (firstn_skipn k vs). apply in_or_app; now right.
Qed.
Lemma vecs_del m i (vs : list vec) : vecs m vs -> vecs m (del i vs).
Proof. intros H. apply Forall_app; split; [now apply vecs_firstn|now apply vecs_skipn]. Qed.

Lemma lincomb_ins m i y vs : vecs m vs -> (i < length vs)%nat -> S (length y) = length vs ->
  lincomb m (ins i y) vs = lincomb m y (del i vs).
Proof.
  intros Hv Hi Ly. unfold ins, del.
  rewrite (split_nth vs i [] Hi) at 1.
  assert (Hn : length (nth i vs []) = m) by (rewrite Forall_forall in Hv; apply Hv, nth_In; lia).
  rewrite lincomb_app; [| now apply vecs_firstn | constructor; [exact Hn | now apply vecs_skipn] | len].
  cbn [lincomb]. rewrite vscale_0, Hn, vadd_zeros_l by (apply lincomb_length; now apply vecs_skipn).
  rewrite <- (firstn_skipn i y) at 3.
  rewrite lincomb_app; [reflexivity | now apply vecs_firstn | now apply vecs_skipn | len].
Qed.
Lemma lincomb_del m i z vs : vecs m vs -> (i < length vs)%nat -> length z = length vs -> nth i z 0 = 0 ->
  lincomb m z vs = lincomb m (del i z) (del i vs).
Proof.
  intros Hv Hi Lz Z. rewrite <- lincomb_ins; [|auto|auto|unfold del; len].
  f_equal. unfold ins, del. rewrite (split_nth z i 0) at 1 by lia. rewrite Z.
  assert (L1 : length (firstn i z) = i) by len.
  rewrite firstn_app, skipn_app, L1, Nat.sub_diag. simpl skipn. rewrite firstn_O, app_nil_r.
  rewrite firstn_firstn, Nat.min_id.
  rewrite skipn_all2 by lia. reflexivity.
Qed.
Lemma nonneg_del i z : nonneg z -> nonneg (del i z).
Proof. intros H. apply nonneg_app. split; [now apply nonneg_firstn|now apply nonneg_skipn]. Qed.
Lemma nonneg_ins i z : nonneg z -> nonneg (ins i z).
Proof.
  intros H. apply nonneg_app. split; [now apply nonneg_firstn|]. constructor; [lra|]. now apply nonneg_skipn.
Qed.

Definition nonneg_dec (y : vec) : {nonneg y} + {~ nonneg y}.
Proof. apply Forall_dec. intros a. apply Rle_dec. Defined.

Lemma nnls_ex m k : forall vs b, length vs = k -> vecs m vs -> length b = m ->
  {y : vec | length y = length vs /\ nonneg y /\ forall z, length z = length vs -> nonneg z ->
     dot (vsub b (lincomb m y vs)) (vsub b (lincomb m y vs)) <= dot (vsub b (lincomb m z vs)) (vsub b (lincomb m z vs))}.
Proof.
  induction k as [|k IH]; intros vs b Lk Hv Hb.
  - exists []. destruct vs; [|discriminate]. split; [reflexivity|]. split; [constructor|].
    intros [|] L _; [lra|discriminate L].
  - destruct (lsq m vs b Hv Hb) as (y & Ly & O).
    pose proof (fun z Lz => lsq_pyth m vs b y z Hv Hb Ly Lz O) as P. cbv zeta in P.
    destruct (nonneg_dec y) as [Ny|NNy].
    + exists y. split; [exact Ly|]. split; [exact Ny|]. intros z Lz _. rewrite (P z) by exact Lz.
      pose proof (dot_self_nonneg (lincomb m (vsub z y) vs)). lra.
    + assert (Sub : forall i, {w : vec | (i <= k)%nat -> length w = k /\ nonneg w /\ forall z, length z = k -> nonneg z ->
         dot (vsub b (lincomb m w (del i vs))) (vsub b (lincomb m w (del i vs)))
         <= dot (vsub b (lincomb m z (del i vs))) (vsub b (lincomb m z (del i vs)))}).
      { intros i. destruct (le_dec i k) as [Hi|Hi]; [|exists []; intros; lia].
        assert (Ld : length (del i vs) = k) by (unfold del; len).
        destruct (IH (del i vs) b Ld (vecs_del m i vs Hv) Hb) as (w & W1 & W2 & W3).
        exists w. intros _. rewrite Ld in *. auto. }
      set (cand i := ins i (proj1_sig (Sub i))).
      set (cost i := dot (vsub b (lincomb m (cand i) vs)) (vsub b (lincomb m (cand i) vs))).
      destruct (argmin cost k) as (i & Hi & M).
      exists (cand i). unfold cand at 1 2. 
      split. { destruct (Sub i) as (w & W); simpl. destruct (W Hi) as (W1 & _). unfold ins; len. }
      split. { destruct (Sub i) as (w & W); simpl. destruct (W Hi) as (_ & W2 & _). now apply nonneg_ins. }
      intros z Lz Nz.
      destruct (boundary_point z y) as [C|(t & j & Ht & Hj & Ns & Z)]; [lia|exact Nz|now elim NNy|].
      assert (Hj' : (j <= k)%nat) by lia.
      apply Rle_trans with (cost j); [apply M; exact Hj'|].
      assert (Ls : length (seg z y t) = length vs) by (unfold seg; len).
      apply Rle_trans with (dot (vsub b (lincomb m (seg z y t) vs)) (vsub b (lincomb m (seg z y t) vs))).
      * unfold cost, cand. destruct (Sub j) as (w & W); simpl. destruct (W Hj') as (W1 & W2 & W3).
        rewrite lincomb_ins by (auto; lia).
        rewrite (lincomb_del m j (seg z y t) vs) by (auto; lia).
        apply W3; [unfold del; len|now apply nonneg_del].
      * rewrite P by exact Ls. rewrite (P z) by exact Lz.
        replace (vsub (seg z y t) y) with (vscale (1 - t) (vsub z y)) by (unfold seg; vring).
        rewrite lincomb_vscale, dot_vscale_l, dot_vscale_r by exact Hv.
        set (q := dot (lincomb m (vsub z y) vs) (lincomb m (vsub z y) vs)).
        assert (0 <= q) by apply dot_self_nonneg.
        assert (T1 : (1 - t) * (1 - t) <= 1) by nra.
        assert ((1 - t) * ((1 - t) * q) <= q); [|lra].
        rewrite <- Rmult_assoc. rewrite <- (Rmult_1_l q) at 2. now apply Rmult_le_compat_r.
Qed.

(** ** Shapes and equality of arrays are decidable *)
Definition mat_eq_dec (A B : mat) : {A = B} + {A <> B}.
Proof.
  destruct A as [c1 r1], B as [c2 r2].
  destruct (Nat.eq_dec c1 c2) as [->|N]; [|right; congruence].
  destruct (list_eq_dec (list_eq_dec Req_EM_T) r1 r2) as [->|N]; [now left|right; congruence].
Defined.
Definition shape_dec (A : mat) : {shape A (nrows A) (ncols A)} + {~ shape A (nrows A) (ncols A)}.
Proof.
  destruct (Forall_dec (fun r : vec => length r = ncols A) (fun r => Nat.eq_dec (length r) (ncols A)) (rows A)) as [H|H].
  - left. repeat split; auto.
  - right. intros (_ & _ & F). auto.
Defined.
Lemma shape_self A m n : shape A m n -> shape A (nrows A) (ncols A) /\ nrows A = m /\ ncols A = n.
Proof. intros (H1 & H2 & H3). unfold nrows. subst. repeat split; auto. Qed.

Lemma vecs_cols A m n : shape A m n -> vecs m (rows (tr A)).
Proof. intros H. apply (shape_tr _ _ _ H). Qed.
Lemma length_cols A m n : shape A m n -> length (rows (tr A)) = n.
Proof. intros H. apply (shape_tr _ _ _ H). Qed.
Lemma mv_lincomb A m n y : shape A m n -> length y = n -> mv A y = lincomb m y (rows (tr A)).
Proof.
  intros H L. rewrite <- (tr_tr A m n H) at 1. rewrite (mv_tr (tr A) n m) by (auto with shp).
  unfold vm. f_equal. apply (shape_tr _ _ _ H).
Qed.

Definition nnls0 (A : mat) (b : vec) : vec * R :=
  match shape_dec A with
  | left HA =>
      match Nat.eq_dec (length b) (nrows A) with
      | left Hb => let y := proj1_sig (nnls_ex (nrows A) _ (rows (tr A)) b eq_refl (vecs_cols _ _ _ HA) Hb) in
                   (y, norm (vsub (mv A y) b))
      | right _ => ([], 0)
      end
  | right _ => ([], 0)
  end.

Lemma norm_le_of_dot u v : dot u u <= dot v v -> norm u <= norm v.
Proof. intros H. apply sqrt_le_1; auto using dot_self_nonneg. Qed.
Lemma vsub_swap_sq u v : length u = length v -> dot (vsub u v) (vsub u v) = dot (vsub v u) (vsub v u).
Proof. intros L. rewrite !dot_vsub_l, !dot_vsub_r by len. rewrite (dot_comm u v). ring. Qed.

Lemma nnls0_ok A b m n : shape A m n -> length b = m ->
  let (y, r) := nnls0 A b in
  length y = n /\ nonneg y /\ r = norm (vsub (mv A y) b) /\
  forall z, length z = n -> nonneg z -> norm (vsub (mv A y) b) <= norm (vsub (mv A z) b).
Proof.
  intros HA Hb. unfold nnls0. destruct (shape_self A m n HA) as (HA' & Em & En).
  destruct (shape_dec A) as [S|S]; [|now elim S].
  destruct (Nat.eq_dec (length b) (nrows A)) as [L|L]; [|lia].
  destruct (nnls_ex _ _ _ _ _ _ _) as (y & Y1 & Y2 & Y3). simpl.
  rewrite (length_cols A m n HA) in *. rewrite Em in *.
  split; [exact Y1|]. split; [exact Y2|]. split; [reflexivity|].
  intros z Lz Nz. apply norm_le_of_dot.
  assert (LA : length (rows A) = m) by apply HA.
  rewrite (vsub_swap_sq (mv A y)), (vsub_swap_sq (mv A z)) by len.
  rewrite !(mv_lincomb A m n) by auto. apply Y3; auto.
Qed.

(** ** Pseudo-inverse *)
Definition pinv_cols (A : mat) (H : shape A (nrows A) (ncols A)) : list vec :=
  map (fun i => proj1_sig (lsq (nrows A) (rows (tr A)) (unit (nrows A) i) (vecs_cols _ _ _ H) (unit_length _ _)))
      (seq 0 (nrows A)).
Definition pinv0 (A : mat) : mat :=
  match shape_dec A with
  | left H => tr (Mat (ncols A) (pinv_cols A H))
  | right _ => A
  end.

Lemma dot_unit_r n i v : (i < n)%nat -> length v = n -> dot v (unit n i) = nth i v 0.
Proof. intros. rewrite dot_comm. now apply dot_unit. Qed.

Lemma dot_map_seq n (f : nat -> R) z g : length z = n -> (forall i, (i < n)%nat -> f i = g i) ->
  dot z (map f (seq 0 n)) = dot z (map g (seq 0 n)).
Proof.
  intros L H. f_equal. apply map_ext_in. intros i Hi. apply in_seq in Hi. apply H. lia.
Qed.
Lemma map_nth_seq (v : vec) n : length v = n -> map (fun i => nth i v 0) (seq 0 n) = v.
Proof.
  intros L. apply vec_ext; [len|]. lenh L. intros i Hi. rewrite nth_map_seq by (lenh Hi; lia). reflexivity.
Qed.

(** facts of a list [ys] of least-squares solutions for the unit vectors *)
Lemma pinv0_proj A m n : shape A m n ->
  shape (pinv0 A) n m /\
  forall w z, length w = n -> length z = m -> dot (mv A w) z = dot (mv A w) (mv A (mv (pinv0 A) z)).
Proof.
  intros HA. unfold pinv0. destruct (shape_self A m n HA) as (HA' & Em & En).
  destruct (shape_dec A) as [S|S]; [|now elim S].
  assert (LA : length (rows A) = m) by apply HA.
  assert (SY : shape (Mat (ncols A) (pinv_cols A S)) m n).
  { rewrite En. repeat split; [unfold pinv_cols; simpl; len|]. simpl. apply Forall_forall. intros y Hy.
    unfold pinv_cols in Hy. apply in_map_iff in Hy. destruct Hy as (i & <- & _).
    destruct (lsq _ _ _ _ _) as (y1 & Y1 & Y2). simpl. rewrite Y1. apply (length_cols A m n HA). }
  split; [auto with shp|]. intros w z Lw Lz.
  rewrite (mv_tr _ m n) by auto.
  (* dot of any column *)
  assert (C : forall c, In c (rows (tr A)) -> dot c z = dot c (mv A (vm z (Mat (ncols A) (pinv_cols A S))))).
  { intros c Hc. pose proof (vecs_cols A m n HA) as VC. rewrite Forall_forall in VC.
    assert (Lc : length c = m) by auto.
    assert (LM : length (vm z (Mat (ncols A) (pinv_cols A S))) = n) by (eapply vm_length; eauto).
    rewrite <- (dot_mv_tr A m n) by auto.
    rewrite (dot_comm (mv (tr A) c)), (dot_vm z _ m n _ SY). 
    rewrite (dot_comm c). f_equal.
    apply vec_ext.
    - unfold pinv_cols. len.
    - intros i Hi. rewrite nth_mv. rewrite dot_comm, (dot_mv_tr A m n) by auto.
      simpl rows. unfold pinv_cols. 
      rewrite nth_map_seq by lia.
      destruct (lsq _ _ _ _ _) as (y & Y1 & Y2). simpl. rewrite Em in *.
      specialize (Y2 c Hc). rewrite <- (mv_lincomb A m n) in Y2 by (auto; rewrite Y1; apply (length_cols A m n HA)).
      rewrite dot_vsub_r in Y2 by len.
      rewrite dot_unit_r in Y2 by (auto; lia). lra. }
  set (p := mv A (vm z (Mat (ncols A) (pinv_cols A S)))) in *.
  assert (Lp : length p = m) by (unfold p; len).
  rewrite (mv_lincomb A m n w) by auto.
  assert (E : dot (lincomb m w (rows (tr A))) (vsub z p) = 0).
  { apply dot_lincomb_zero; [eapply vecs_cols; eauto|]. intros c Hc. 
    rewrite dot_vsub_r by lia. rewrite (C c Hc). ring. }
  rewrite dot_vsub_r in E by lia. lra.
Qed.

Lemma pinv0_ok B m n : shape B m n ->
  shape (pinv0 B) n m /\
  mm (mm B (pinv0 B)) B = B /\
  tr (mm B (pinv0 B)) = mm B (pinv0 B).
Proof.
  intros HB. destruct (pinv0_proj B m n HB) as (HX & P). set (X := pinv0 B) in *.
  assert (LB : length (rows B) = m) by apply HB.
  assert (LX : length (rows X) = n) by apply HX.
  split; [exact HX|]. split.
  - apply (mat_ext _ _ m n); [eauto with shp|auto|]. intros x Lx.
    rewrite (mv_mm (mm B X) B m n) by auto. rewrite (mv_mm B X n m) by auto.
    set (q := vsub (mv B x) (mv B (mv X (mv B x)))).
    assert (Q : dot q q = 0).
    { assert (Eq : q = mv B (vsub x (mv X (mv B x)))).
      { unfold q. rewrite (mv_vsub B m n) by (auto; len). reflexivity. }
      rewrite Eq at 1. unfold q. rewrite dot_vsub_r by len. rewrite <- P by len. ring. }
    apply dot_self_zero in Q. symmetry. apply (vsub_zero_eq _ _ m); [len|len|].
    change (q = zeros m). rewrite Q. f_equal. unfold q. len.
  - assert (HP : shape (mm B X) m m) by eauto with shp.
    apply (mat_ext _ _ m m); auto with shp. intros z Lz.
    assert (LP : length (rows (mm B X)) = m) by apply HP.
    assert (LP' : length (rows (tr (mm B X))) = m) by (apply shape_tr in HP; apply HP).
    apply dot_eq_ext; [len|]. intros u Lu. lenh Lu. 
    rewrite (dot_mv_tr (mm B X) m m) by auto.
    rewrite !(mv_mm B X n m) by auto.
    rewrite (dot_comm z).
    rewrite P by len. rewrite (dot_comm (mv B (mv X u))). rewrite <- P by len. reflexivity.
Qed.

(** ** Linear dependence *)
Lemma indep_dec m vs : vecs m vs ->
  {c : vec | length c = length vs /\ c <> zeros (length vs) /\ lincomb m c vs = zeros m} +
  {forall c, length c = length vs -> lincomb m c vs = zeros m -> c = zeros (length vs)}.
Proof.
  induction vs as [|v vs IH]; intros Hv.
  - right. intros [|] L _; [reflexivity|discriminate].
  - assert (Hv0 : length v = m) by now inversion Hv.
    assert (Hvs : vecs m vs) by now inversion Hv.
    assert (LL : forall y, length (lincomb m y vs) = m) by (intros; now apply lincomb_length).
    destruct (IH Hvs) as [(c & Lc & Nc & Zc)|I].
    + left. exists (0 :: c). split; [len|]. split.
      * intros E. apply Nc. unfold zeros in *. simpl in E. injection E. auto.
      * simpl. rewrite vscale_0, Hv0, Zc. apply vadd_zeros_l. len.
    + destruct (lsq m vs v Hvs Hv0) as (y & Ly & O).
      set (w := vsub v (lincomb m y vs)) in *.
      destruct (Req_EM_T (dot w w) 0) as [Z|NZ].
      * left. exists (1 :: vneg y). split; [len|]. split.
        -- intros E. unfold zeros in E. simpl in E. injection E. intros; lra.
        -- simpl. rewrite vscale_1, vneg_vscale, lincomb_vscale by auto.
           apply dot_self_zero in Z.
           transitivity w.
           ++ unfold w. rewrite vsub_vneg, (vneg_vscale (lincomb m y vs)). reflexivity.
           ++ rewrite Z. f_equal. unfold w; len. rewrite LL; lia.
      * right. intros [|c0 c] Lc Zc; [discriminate|]. simpl in Lc, Zc.
        assert (D : c0 * dot w w = 0).
        { assert (E0 : dot w (vadd (vscale c0 v) (lincomb m c vs)) = 0) by (rewrite Zc; apply dot_zeros_r).
          rewrite dot_vadd_r, dot_vscale_r in E0 by (len; rewrite LL; lia).
          rewrite (dot_comm w (lincomb m c vs)), (dot_lincomb_zero m c vs w) in E0 by auto.
          assert (Ev : dot w v = dot w w).
          { unfold w at 3. rewrite dot_vsub_r by (rewrite LL; lia).
            rewrite (dot_comm w (lincomb m y vs)), (dot_lincomb_zero m y vs w) by auto. ring. }
          rewrite Ev in E0. lra. }
        assert (c0 = 0) by (apply Rmult_integral in D; tauto). subst c0.
        rewrite vscale_0, Hv0, vadd_zeros_l in Zc by apply LL.
        rewrite (I c) by (auto; lia). reflexivity.
Qed.

(** more than n vectors of R^n are dependent *)
Lemma not_all_dec {A} (P : A -> Prop) (dec : forall a, {P a} + {~ P a}) (l : list A) :
  {l1 & {a & {l2 | l = l1 ++ a :: l2 /\ ~ P a}}} + {Forall P l}.
Proof.
  induction l as [|a l IH].
  - right. constructor.
  - destruct (dec a) as [H|H].
    + destruct IH as [(l1 & x & l2 & E & N)|F].
      * left. exists (a :: l1), x, l2. subst. auto.
      * right. now constructor.
    + left. exists [], a, l. auto.
Qed.

Lemma lincomb_hd_tl n c vs : vecs (S n) vs -> length c = length vs ->
  lincomb (S n) c vs = dot c (map (hd 0) vs) :: lincomb n c (map (@tl R) vs).
Proof.
  revert c. induction vs as [|v vs IH]; intros [|a c] Hv L; try discriminate L.
  - reflexivity.
  - inversion Hv; subst. destruct v as [|v0 v]; [discriminate|]. simpl. rewrite IH by auto. reflexivity.
Qed.

Lemma dep n : forall vs, vecs n vs -> (n < length vs)%nat ->
  {c : vec | length c = length vs /\ c <> zeros (length vs) /\ lincomb n c vs = zeros n}.
Proof.
  induction n as [|n IH]; intros vs Hv Ln.
  - exists (ones (length vs)). split; [len|]. split.
    + destruct vs; [simpl in Ln; lia|]. intros E. unfold ones, zeros in E. simpl in E. injection E. intros; lra.
    + pose proof (lincomb_length 0 (ones (length vs)) vs Hv) as L0. destruct (lincomb 0 _ vs); [reflexivity|discriminate].
  - destruct (not_all_dec (fun v : vec => hd 0 v = 0) (fun v => Req_EM_T (hd 0 v) 0) vs) as [(l1 & v & l2 & E & N)|F].
    + set (ws := l1 ++ l2).
      assert (Hw : vecs (S n) ws /\ length v = S n).
      { subst vs. apply Forall_app in Hv. destruct Hv as (V1 & V2). inversion V2; subst.
        split; [apply Forall_app; auto|auto]. }
      destruct Hw as (Hw & Lv).
      set (us := map (fun w => tl (vsub w (vscale (hd 0 w / hd 0 v) v))) ws).
      assert (Hu : vecs n us).
      { apply Forall_forall. intros u Hu. apply in_map_iff in Hu. destruct Hu as (w & <- & Hw').
        rewrite Forall_forall in Hw. specialize (Hw w Hw').
        assert (L : length (vsub w (vscale (hd 0 w / hd 0 v) v)) = S n) by len.
        destruct (vsub w _); [discriminate|simpl in *; lia]. }
      destruct (IH us Hu) as (c & Lc & Nc & Zc).
      { unfold us, ws. len. subst vs. lenh Ln. lia. }
      unfold us in Lc at 1. rewrite map_length in Lc.
      set (c0 := - dot c (map (fun w => hd 0 w / hd 0 v) ws)).
      exists (firstn (length l1) c ++ c0 :: skipn (length l1) c).
      assert (Lc1 : length (firstn (length l1) c) = length l1) by (unfold ws in Lc; len).
      assert (V12 : vecs (S n) l1 /\ vecs (S n) l2) by (unfold ws in Hw; now apply Forall_app in Hw).
      split; [subst vs; unfold ws in Lc; len|]. split.
      * intros Z. apply Nc. unfold us. rewrite map_length.
        apply vec_ext; [len|]. intros i Hi. rewrite nth_zeros.
        assert (G : forall j, nth j (firstn (length l1) c ++ c0 :: skipn (length l1) c) 0 = 0)
          by (intros j; rewrite Z; apply nth_zeros).
        destruct (lt_dec i (length l1)) as [Ci|Ci].
        -- specialize (G i). rewrite app_nth1 in G by lia.
           rewrite <- (firstn_skipn (length l1) c). rewrite app_nth1 by lia. exact G.
        -- specialize (G (S i)). rewrite app_nth2 in G by lia. rewrite Lc1 in G.
           replace (S i - length l1)%nat with (S (i - length l1)) in G by lia. simpl in G.
           rewrite <- (firstn_skipn (length l1) c). rewrite app_nth2 by lia. rewrite Lc1. exact G.
      * rewrite E. rewrite lincomb_app; [|tauto|constructor; tauto|exact Lc1]. cbn [lincomb].
        set (L1 := lincomb (S n) (firstn (length l1) c) l1). set (L2 := lincomb (S n) (skipn (length l1) c) l2).
        assert (LL : vadd L1 L2 = lincomb (S n) c ws).
        { unfold L1, L2, ws. rewrite <- lincomb_app; [|tauto|tauto|exact Lc1]. now rewrite firstn_skipn. }
        assert (L1L : length L1 = S n) by (apply lincomb_length; tauto).
        assert (L2L : length L2 = S n) by (apply lincomb_length; tauto).
        transitivity (vadd (lincomb (S n) c ws) (vscale c0 v)); [rewrite <- LL; vring|].
        (* the eliminated combination *)
        assert (G : vadd (lincomb (S n) c ws) (vscale c0 v)
                    = lincomb (S n) c (map (fun w => vsub w (vscale (hd 0 w / hd 0 v) v)) ws)).
        { unfold c0. clear - Hw Lv Lc. revert c Lc. induction ws as [|w ws IHw]; intros [|a c] Lc; try discriminate.
          - simpl. rewrite Ropp_0, vscale_0, Lv. apply vadd_zeros_l. len.
          - inversion Hw; subst. simpl. rewrite <- IHw by auto.
            pose proof (lincomb_length (S n) c ws H2). vring. }
        rewrite G. rewrite lincomb_hd_tl.
        -- rewrite !map_map. fold us. change (zeros (S n)) with (0 :: zeros n). rewrite <- Zc. f_equal.
           replace (map _ ws) with (zeros (length ws)); [apply dot_zeros_r|].
           clear - N Hw Lv. induction ws as [|w ws IHw]; [reflexivity|]. inversion Hw; subst.
           unfold zeros in *. simpl. f_equal; [|now apply IHw].
           destruct w as [|w0 w]; [discriminate|]. destruct v as [|v0 v]; [discriminate|]. simpl in *. field. exact N.
        -- apply Forall_forall. intros u Hu'. apply in_map_iff in Hu'. destruct Hu' as (w & <- & Hw').
           rewrite Forall_forall in Hw. specialize (Hw w Hw'). len.
        -- len.
    + destruct (IH (map (@tl R) vs)) as (c & Lc & Nc & Zc).
      * apply Forall_forall. intros u Hu. apply in_map_iff in Hu. destruct Hu as (w & <- & Hw).
        rewrite Forall_forall in Hv. specialize (Hv w Hw). destruct w; simpl in *; lia.
      * len.
      * rewrite map_length in *. exists c. split; [exact Lc|]. split; [exact Nc|].
        rewrite lincomb_hd_tl by auto. rewrite Zc. unfold zeros at 2. simpl. unfold zeros. f_equal.
        replace (map (hd 0) vs) with (zeros (length vs)); [apply dot_zeros_r|].
        clear - F. induction F as [|v vs E F IHF]; [reflexivity|]. unfold zeros in *. simpl. now rewrite E, IHF.
Qed.

(** ** Square matrices: injective implies surjective *)
Lemma inj_surj M n b : shape M n n -> length b = n ->
  (forall x, length x = n -> mv M x = zeros n -> x = zeros n) -> {x | length x = n /\ mv M x = b}.
Proof.
  intros HM Hb I.
  destruct (dep n (b :: rows (tr M))) as (c & Lc & Nc & Zc).
  - constructor; [exact Hb|]. eapply vecs_cols; eauto.
  - cbn [length]. rewrite (length_cols M n n HM). lia.
  - destruct c as [|c0 c]; [discriminate|]. cbn [length] in *. rewrite (length_cols M n n HM) in *.
    assert (Lc' : length c = n) by lia. cbn [lincomb] in Zc.
    rewrite <- (mv_lincomb M n n) in Zc by auto.
    assert (LM : length (rows M) = n) by apply HM.
    destruct (Req_EM_T c0 0) as [Z|NZ].
    + exfalso. subst c0. rewrite vscale_0, Hb, vadd_zeros_l in Zc by len.
      apply Nc. rewrite (I c Lc' Zc). reflexivity.
    + exists (vscale (- / c0) c). split; [len|]. rewrite mv_vscale.
      assert (E : mv M c = vscale (- c0) b).
      { apply vec_ext; [len|]. intros i Hi. lenh Hi.
        assert (G : nth i (vadd (vscale c0 b) (mv M c)) 0 = 0) by (rewrite Zc; apply nth_zeros).
        rewrite nth_vadd, nth_vscale in G by len. rewrite nth_vscale. lra. }
      rewrite E, vscale_vscale. replace (- / c0 * - c0) with 1 by (field; exact NZ). apply vscale_1.
Qed.

(** kernel trivial or not *)
Lemma kernel_dec M m n : shape M m n ->
  {x : vec | length x = n /\ x <> zeros n /\ mv M x = zeros m} +
  {forall x, length x = n -> mv M x = zeros m -> x = zeros n}.
Proof.
  intros HM. destruct (indep_dec m (rows (tr M)) (vecs_cols M m n HM)) as [(c & L & N & Z)|I];
    rewrite (length_cols M m n HM) in *.
  - left. exists c. rewrite (mv_lincomb M m n) by auto. auto.
  - right. intros x Lx Zx. rewrite (mv_lincomb M m n) in Zx by auto. auto.
Qed.

Lemma cols_inverse M n (f : nat -> vec) : shape M n n -> (forall i, (i < n)%nat -> length (f i) = n /\ mv M (f i) = unit n i) ->
  let X := tr (Mat n (map f (seq 0 n))) in shape X n n /\ mm M X = eye n.
Proof.
  intros HM Hf X.
  assert (SY : shape (Mat n (map f (seq 0 n))) n n).
  { repeat split; [simpl; len|]. simpl. apply Forall_forall. intros y Hy. apply in_map_iff in Hy.
    destruct Hy as (i & <- & Hi). apply in_seq in Hi. apply Hf. lia. }
  assert (HX : shape X n n) by (apply shape_tr; exact SY).
  assert (LM : length (rows M) = n) by apply HM.
  split; [exact HX|]. apply (mat_ext _ _ n n); eauto with shp. intros x Lx.
  rewrite (mv_mm M X n n), mv_eye by auto. unfold X. rewrite (mv_tr _ n n) by auto.
  assert (LV : length (vm x (Mat n (map f (seq 0 n)))) = n) by (eapply vm_length; eauto).
  apply dot_eq_ext; [len|]. intros u Lu. lenh Lu. rewrite LM in Lu.
  rewrite dot_comm. rewrite <- (dot_mv_tr M n n) by auto.
  rewrite dot_comm, (dot_vm x _ n n _ SY). f_equal.
  apply vec_ext; [len|]. intros i Hi. lenh Hi. rewrite nth_mv. simpl rows. rewrite nth_map_seq by lia.
  destruct (Hf i) as (L1 & E1); [lia|].
  rewrite dot_comm, (dot_mv_tr M n n), E1 by auto. rewrite dot_unit_r by lia. reflexivity.
Qed.

Definition inv0 (M : mat) : res mat :=
  match shape_dec M with
  | left H =>
      match Nat.eq_dec (nrows M) (ncols M) with
      | left E =>
          match kernel_dec M (ncols M) (ncols M) (eq_rect _ (fun k => shape M k (ncols M)) H _ E) with
          | inleft _ => Err LinAlgError
          | inright IK => Ok (tr (Mat (ncols M) (map (fun i =>
               proj1_sig (inj_surj M (ncols M) (unit (ncols M) i) (eq_rect _ (fun k => shape M k (ncols M)) H _ E) (unit_length _ _) IK))
               (seq 0 (ncols M)))))
          end
      | right _ => Err LinAlgError
      end
  | right _ => Err LinAlgError
  end.

Lemma inv0_ok M n : shape M n n ->
  ((forall x, length x = n -> mv M x = zeros n -> x = zeros n) /\
   exists X, inv0 M = Ok X /\ shape X n n /\ mm M X = eye n /\ mm X M = eye n) \/
  ((exists x, length x = n /\ x <> zeros n /\ mv M x = zeros n) /\ inv0 M = Err LinAlgError).
Proof.
  intros HM. unfold inv0. destruct (shape_self M n n HM) as (HM' & Em & En).
  destruct (shape_dec M) as [S|S]; [|now elim S].
  destruct (Nat.eq_dec (nrows M) (ncols M)) as [E|E]; [|lia].
  destruct (kernel_dec _ _ _ _) as [(x & Lx & Nx & Zx)|I].
  - right. rewrite En in *. split; [|reflexivity]. exists x. auto.
  - left. split; [rewrite <- En; exact I|].
    match goal with |- context [Ok (tr (Mat _ (map ?g _)))] => set (f := g) end.
    assert (Hf : forall i, (i < n)%nat -> length (f i) = n /\ mv M (f i) = unit n i).
    { intros i Hi. unfold f. destruct (inj_surj _ _ _ _ _ _) as (x & Lx & Ex). simpl. now rewrite En in *. }
    destruct (cols_inverse M n f HM Hf) as (HX & MX). rewrite En in *.
    exists (tr (Mat n (map f (seq 0 n)))). set (X := tr (Mat n (map f (seq 0 n)))) in *.
    split; [reflexivity|]. split; [exact HX|]. split; [exact MX|].
    apply (mat_ext _ _ n n); eauto with shp. intros x Lx. rewrite mv_eye by auto.
    assert (LM : length (rows M) = n) by apply HM. assert (LX : length (rows X) = n) by apply HX.
    rewrite (mv_mm X M n n) by auto. apply (vsub_zero_eq _ _ n); [len|len|].
    assert (I' := I). rewrite En in I'. apply I'; [len|]. rewrite (mv_vsub M n n) by (auto; len).
    rewrite <- (mv_mm M X n n) by auto. rewrite MX, mv_eye by len. rewrite vsub_self. f_equal. len.
Qed.

Definition solve0 (M : mat) (b : vec) : res vec := X <- inv0 M ;; Ok (mv X b).
Lemma solve0_ok M b n : shape M n n -> length b = n ->
  (exists x, solve0 M b = Ok x /\ length x = n /\ mv M x = b /\
     forall z, length z = n -> mv M z = zeros n -> z = zeros n) \/
  ((exists x, length x = n /\ x <> zeros n /\ mv M x = zeros n) /\ solve0 M b = Err LinAlgError).
Proof.
  intros HM Hb. unfold solve0. destruct (inv0_ok M n HM) as [(I & X & E & HX & MX & XM)|(K & E)]; rewrite E; cbn [bind].
  - left. exists (mv X b). assert (LX : length (rows X) = n) by apply HX. split; [reflexivity|]. split; [len|].
    split; [|exact I]. rewrite <- (mv_mm M X n n) by auto. rewrite MX. now apply mv_eye.
  - right. auto.
Qed.

(** ** Cholesky *)
Definition blk (s : R) (z k : vec) (M : mat) : mat := Mat (S (ncols M)) ((s :: z) :: map2 cons k (rows M)).

Lemma shape_blk s z k M n : length z = n -> length k = n -> shape M n n -> shape (blk s z k M) (S n) (S n).
Proof.
  intros Lz Lk (H1 & H2 & H3). unfold blk. split; [simpl; len|]. split; [simpl; lia|]. simpl.
  constructor; [simpl; lia|]. apply Forall_map2. intros a b _ Hb. simpl. f_equal.
  rewrite Forall_forall in H3. auto.
Qed.
Lemma mv_blk s z k M n x0 x : length k = n -> shape M n n -> length x = n ->
  mv (blk s z k M) (x0 :: x) = (s * x0 + dot z x) :: vadd (vscale x0 k) (mv M x).
Proof.
  intros Lk (H1 & H2 & H3) Lx. unfold blk, mv. simpl. f_equal.
  clear -H1 Lk. revert k Lk. revert n H1. induction (rows M) as [|r rs IH]; intros n H1 [|k0 k] Lk; simpl in *; try lia; auto.
  unfold vadd in *. simpl. f_equal; [ring|]. apply (IH (length rs)); lia.
Qed.
Lemma mv_tr_blk s z k M n x0 x : length z = n -> length k = n -> shape M n n -> length x = n ->
  mv (tr (blk s z k M)) (x0 :: x) = (s * x0 + dot k x) :: vadd (vscale x0 z) (mv (tr M) x).
Proof.
  intros Lz Lk HM Lx. pose proof (shape_blk s z k M n Lz Lk HM) as HB.
  assert (LM : length (rows M) = n) by apply HM.
  assert (LT : length (rows (tr M)) = n) by (apply shape_tr in HM; apply HM).
  assert (LTB : length (rows (tr (blk s z k M))) = S n) by (apply shape_tr in HB; apply HB).
  apply dot_eq_ext; [len|]. intros [|u0 u] Lu; lenh Lu; [lia|].
  rewrite (dot_mv_tr (blk s z k M) (S n) (S n)) by (auto; len).
  rewrite (mv_blk s z k M n) by (auto; lia). simpl.
  rewrite dot_vadd_r, dot_vadd_l, dot_vscale_r, dot_vscale_l by len.
  rewrite (dot_mv_tr M n n) by auto. rewrite (dot_comm x k). ring.
Qed.

Lemma blk_split H n : shape H (S n) (S n) -> tr H = H ->
  {a : R & {h : vec & {M | H = blk a h h M /\ length h = n /\ shape M n n /\ tr M = M}}}.
Proof.
  intros HS T. exists (hd 0 (hd [] (rows H))), (tl (hd [] (rows H))), (Mat n (map (@tl R) (tl (rows H)))).
  pose proof HS as (H1 & H2 & H3). destruct H as [c rs]. simpl in *. subst c.
  destruct rs as [|r rs]; [discriminate|].
  inversion H3 as [|? ? Lr H4]; subst. destruct r as [|a h]; [discriminate|]. simpl hd. simpl tl.
  set (M := Mat n (map (@tl R) rs)).
  assert (Lrs : length rs = n) by (simpl in H1; lia).
  assert (HM : shape M n n).
  { repeat split; [simpl; len|]. simpl. apply Forall_forall. intros u Hu. apply in_map_iff in Hu.
    destruct Hu as (w & <- & Hw). rewrite Forall_forall in H4. specialize (H4 w Hw). destruct w; simpl in *; lia. }
  assert (Eh : map (hd 0) rs = h).
  { assert (T1 : row (tr {| ncols := S n; rows := (a :: h) :: rs |}) 0 = a :: h) by (rewrite T; reflexivity).
    unfold row, tr in T1. simpl in T1. injection T1. intros E. rewrite <- E. apply map_ext. now intros [|]. }
  assert (Ers : rs = map2 cons h (rows M)).
  { rewrite <- Eh. unfold M. simpl. rewrite map2_map_l, map2_map_r, map2_same.
    rewrite <- (map_id rs) at 1. apply map_ext_in. intros w Hw. rewrite Forall_forall in H4. specialize (H4 w Hw).
    destruct w; [discriminate|reflexivity]. }
  assert (Lh : length h = n) by (simpl in Lr; lia).
  assert (EB : {| ncols := S n; rows := (a :: h) :: rs |} = blk a h h M) by (unfold blk; simpl; now rewrite Ers at 1).
  split; [exact EB|]. split; [exact Lh|]. split; [exact HM|].
  apply (mat_ext _ _ n n); auto with shp. intros x Lx.
  assert (E : mv (tr (blk a h h M)) (0 :: x) = mv (blk a h h M) (0 :: x)) by (rewrite <- EB, T; reflexivity).
  rewrite (mv_tr_blk a h h M n), (mv_blk a h h M n) in E by auto.
  injection E. intros E'.
  rewrite !vscale_0 in E'.
  assert (LM : length (rows M) = n) by apply HM. assert (LT : length (rows (tr M)) = n) by (apply shape_tr in HM; apply HM).
  rewrite Lh in E'. rewrite !(vadd_zeros_l n) in E' by len. exact E'.
Qed.

(** outer product *)
Definition outer (h k : vec) : mat := Mat (length k) (map (fun a => vscale a k) h).
Lemma shape_outer h k : shape (outer h k) (length h) (length k).
Proof.
  repeat split; simpl; [len|]. apply Forall_forall. intros r Hr. apply in_map_iff in Hr. destruct Hr as (a & <- & _). len.
Qed.
Lemma mv_outer h k x : mv (outer h k) x = vscale (dot k x) h.
Proof.
  unfold outer, mv, vscale. simpl. rewrite map_map. apply map_ext. intros a.
  change (dot (vscale a k) x = dot k x * a). rewrite dot_vscale_l. ring.
Qed.

Definition chol_spec (H L : mat) (n : nat) : Prop :=
  shape L n n /\ mm L (tr L) = H /\
  (forall i j, (i < j < n)%nat -> nth j (row L i) 0 = 0) /\
  (forall i, (i < n)%nat -> 0 < nth i (row L i) 0).

Lemma quad_blk a h M n x0 x : length h = n -> shape M n n -> length x = n ->
  dot (x0 :: x) (mv (blk a h h M) (x0 :: x)) = a * x0 * x0 + 2 * x0 * dot h x + dot x (mv M x).
Proof.
  intros Lh HM Lx. assert (LM : length (rows M) = n) by apply HM.
  rewrite (mv_blk a h h M n) by auto. simpl. rewrite dot_vadd_r, dot_vscale_r by len. rewrite (dot_comm x h). ring.
Qed.

Lemma chol_ex n : forall H, shape H n n -> tr H = H -> {L | chol_spec H L n} + {~ pd H n}.
Proof.
  induction n as [|n IH]; intros H HS T.
  - left. exists (Mat 0 []). split; [repeat split; constructor|]. split; [|split; intros; lia].
    apply (mat_ext _ _ 0 0); auto.
    + repeat split; constructor.
    + intros x Lx. destruct HS as (H1 & _). destruct H as [c [|]]; [reflexivity|discriminate].
  - destruct (blk_split H n HS T) as (a & h & M & E & Lh & HM & TM).
    destruct (Rlt_dec 0 a) as [Ha|Ha].
    + assert (LM : length (rows M) = n) by apply HM.
      set (S1 := msub M (mscale (/ a) (outer h h))).
      assert (HO : shape (outer h h) n n) by (rewrite <- Lh; apply shape_outer).
      assert (HS1 : shape S1 n n) by (unfold S1; auto with shp).
      assert (MS : forall x, mv S1 x = vsub (mv M x) (vscale (/ a * dot h x) h)).
      { intros x. unfold S1. rewrite (mv_msub _ _ n n) by auto with shp. rewrite mv_mscale, mv_outer, vscale_vscale. reflexivity. }
      assert (LS1 : length (rows S1) = n) by apply HS1.
      assert (LST : length (rows (tr S1)) = n) by (apply shape_tr in HS1; apply HS1).
      assert (TS : tr S1 = S1).
      { apply (mat_ext _ _ n n); auto with shp. intros x Lx. apply dot_eq_ext; [len|]. intros u Lu. lenh Lu.
        rewrite (dot_mv_tr S1 n n) by auto. rewrite !MS.
        rewrite dot_vsub_r, dot_vsub_l, dot_vscale_r, dot_vscale_l by len.
        rewrite (dot_comm (mv M x)). rewrite (sym_dot M n x u) by (auto; lia). rewrite (dot_comm x h). ring. }
      destruct (IH S1 HS1 TS) as [(L1 & HL1 & E1 & Lo1 & Po1)|NP].
      * left. set (s := sqrt a).
        assert (Hs : 0 < s) by now apply sqrt_lt_R0.
        assert (Hss : s * s = a) by (apply sqrt_sqrt; lra).
        set (k := vscale (/ s) h). assert (Lk : length k = n) by (unfold k; len).
        assert (LL1 : length (rows L1) = n) by apply HL1.
        assert (LTL1 : length (rows (tr L1)) = n) by (apply shape_tr in HL1; apply HL1).
        assert (HB : shape (blk s (zeros n) k L1) (S n) (S n)) by (apply shape_blk; auto; len).
        exists (blk s (zeros n) k L1). split; [exact HB|]. split; [|split].
        -- apply (mat_ext _ _ (S n) (S n)); [eauto with shp|exact HS|]. intros [|x0 x] Lx; [discriminate|].
           assert (Lx' : length x = n) by (simpl in Lx; lia).
           rewrite (mv_mm _ _ (S n) (S n)) by auto with shp.
           rewrite (mv_tr_blk _ _ _ _ n) by (auto; len).
           rewrite vscale_zeros. rewrite (vadd_zeros_l n) by len.
           rewrite (mv_blk _ _ _ _ n) by (auto; len). rewrite dot_zeros_l.
           rewrite <- (mv_mm L1 (tr L1) n n) by auto with shp. rewrite E1, MS.
           rewrite E, (mv_blk a h h M n) by auto. f_equal.
           ++ unfold k. rewrite dot_vscale_l. rewrite <- Hss. field. lra.
           ++ unfold k. rewrite dot_vscale_l, vscale_vscale.
              replace ((s * x0 + / s * dot h x) * / s) with (x0 + / a * dot h x) by (rewrite <- Hss; field; lra).
              vring.
        -- intros i j Hij. unfold row, blk. simpl. destruct i as [|i].
           ++ destruct j as [|j]; [lia|]. simpl. apply nth_zeros.
           ++ destruct j as [|j]; [lia|]. rewrite (nth_map2 cons k (rows L1) i 0 [] []) by lia. simpl.
              apply Lo1. lia.
        -- intros i Hi. unfold row, blk. simpl. destruct i as [|i]; [exact Hs|].
           rewrite (nth_map2 cons k (rows L1) i 0 [] []) by lia. simpl. apply Po1. lia.
      * right. intros (_ & P). apply NP. split; [exact TS|]. intros x Lx Nx.
        rewrite MS. rewrite dot_vsub_r, dot_vscale_r by len. rewrite (dot_comm x h).
        specialize (P ((- / a * dot h x) :: x)). rewrite E in P. rewrite (quad_blk a h M n) in P by auto.
        assert (P' := P ltac:(len)). clear P.
        assert (G : 0 < a * (- / a * dot h x) * (- / a * dot h x) + 2 * (- / a * dot h x) * dot h x + dot x (mv M x)).
        { apply P'. intros Z. apply Nx. unfold zeros in Z. simpl in Z. now injection Z. }
        replace (a * (- / a * dot h x) * (- / a * dot h x) + 2 * (- / a * dot h x) * dot h x + dot x (mv M x))
          with (dot x (mv M x) - / a * dot h x * dot h x) in G by (field; lra). exact G.
    + right. intros (_ & P). specialize (P (1 :: zeros n)). rewrite E, (quad_blk a h M n) in P by (auto; len).
      rewrite dot_zeros_r, dot_zeros_l in P.
      assert (0 < a * 1 * 1 + 2 * 1 * 0 + 0); [|lra]. apply P; [len|]. unfold zeros. simpl. intros Z. injection Z. lra.
Qed.

Lemma chol_pd H L n : shape H n n -> tr H = H -> chol_spec H L n -> pd H n.
Proof.
  intros HS T (HL & E & Lo & Po). split; [exact T|]. intros x Lx Nx.
  assert (LL : length (rows L) = n) by apply HL.
  assert (LT : length (rows (tr L)) = n) by (apply shape_tr in HL; apply HL).
  rewrite <- E, (mv_mm L (tr L) n n) by auto with shp.
  rewrite dot_comm, <- (tr_tr L n n HL) at 1. 
  rewrite (dot_mv_tr (tr L) n n) by (auto with shp; len).
  destruct (Rle_lt_or_eq_dec 0 _ (dot_self_nonneg (mv (tr L) x))) as [G|G]; [exact G|].
  exfalso. symmetry in G. apply dot_self_zero in G. lenh G. rewrite LT in G.
  assert (I : forall b, length b = n -> {y | length y = n /\ mv L y = b}).
  { intros b Lb. apply inj_surj; auto. apply (lower_tri_inj L n); auto. }
  destruct (I x Lx) as (y & Ly & Ey).
  apply Nx. assert (Z : dot x x = 0).
  { rewrite <- Ey at 1. rewrite dot_comm, <- (dot_mv_tr L n n) by auto. rewrite G. apply dot_zeros_l. }
  apply dot_self_zero in Z. now rewrite Lx in Z.
Qed.

(** ** Orthonormal families *)
Definition orth (Q : list vec) : Prop := forall i j, (i < length Q)%nat -> (j < length Q)%nat ->
  dot (nth i Q []) (nth j Q []) = if Nat.eqb i j then 1 else 0.

Lemma orth_comb n Q c i : vecs n Q -> orth Q -> length c = length Q -> (i < length Q)%nat ->
  dot (lincomb n c Q) (nth i Q []) = nth i c 0.
Proof.
  intros HQ O Lc Hi. rewrite dot_lincomb by exact HQ.
  assert (E : map (fun r => dot r (nth i Q [])) Q = unit (length Q) i).
  { apply vec_ext; [len|]. intros j Hj. lenh Hj. rewrite nth_unit by lia.
    rewrite (nth_indep _ 0 (dot [] (nth i Q []))) by len.
    rewrite (map_nth (fun r => dot r (nth i Q [])) Q []). now apply O. }
  rewrite E. apply dot_unit_r; auto.
Qed.

Lemma orth_indep n Q c : vecs n Q -> orth Q -> length c = length Q -> lincomb n c Q = zeros n -> c = zeros (length Q).
Proof.
  intros HQ O Lc Z. apply vec_ext; [len|]. intros i Hi. rewrite nth_zeros.
  rewrite <- (orth_comb n Q c i) by (auto; lia). rewrite Z. apply dot_zeros_l.
Qed.

Lemma orth_le n Q : vecs n Q -> orth Q -> (length Q <= n)%nat.
Proof.
  intros HQ O. destruct (le_lt_dec (length Q) n) as [|C]; [assumption|].
  destruct (dep n Q HQ C) as (c & Lc & Nc & Zc). elim Nc. eapply orth_indep; eauto.
Qed.

Lemma orth_snoc n Q w : vecs n Q -> orth Q -> length w = n -> dot w w = 1 -> (forall q, In q Q -> dot q w = 0) ->
  orth (Q ++ [w]).
Proof.
  intros HQ O Lw W1 W0 i j Hi Hj. lenh Hi. lenh Hj.
  assert (EN : nth (length Q) (Q ++ [w]) [] = w) by (rewrite app_nth2, Nat.sub_diag by lia; reflexivity).
  destruct (Nat.eq_dec i (length Q)) as [->|Ni]; destruct (Nat.eq_dec j (length Q)) as [->|Nj].
  - rewrite Nat.eqb_refl, EN. exact W1.
  - rewrite EN, app_nth1 by lia.
    destruct (Nat.eqb_spec (length Q) j); [lia|]. rewrite dot_comm. apply W0, nth_In. lia.
  - rewrite EN, app_nth1 by lia.
    destruct (Nat.eqb_spec i (length Q)); [lia|]. apply W0, nth_In. lia.
  - rewrite !app_nth1 by lia. apply O; lia.
Qed.

(** Gram-Schmidt *)
Lemma gs n vs : forall Q, vecs n Q -> orth Q -> vecs n vs ->
  {Q' | vecs n (Q ++ Q') /\ orth (Q ++ Q') /\ (length Q' <= length vs)%nat /\
     (forall v x, In v vs -> length x = n -> (forall q, In q (Q ++ Q') -> dot q x = 0) -> dot v x = 0) /\
     (forall q x, In q Q' -> length x = n -> (forall v, In v (Q ++ vs) -> dot v x = 0) -> dot q x = 0)}.
Proof.
  induction vs as [|v vs IH]; intros Q HQ O Hv.
  - exists []. rewrite app_nil_r. repeat match goal with |- _ /\ _ => split end; auto; intros ? ? [].
  - assert (Hv0 : length v = n) by now inversion Hv. assert (Hvs : vecs n vs) by now inversion Hv.
    set (w := vsub v (lincomb n (map (fun q => dot q v) Q) Q)).
    assert (LL : forall y, length (lincomb n y Q) = n) by (intros; now apply lincomb_length).
    assert (Lw : length w = n) by (unfold w; len; rewrite LL; lia).
    assert (Ow : forall q, In q Q -> dot q w = 0).
    { intros q Hq. apply (In_nth Q q []) in Hq. destruct Hq as (i & Hi & <-).
      unfold w. rewrite dot_vsub_r by (rewrite LL; lia).
      rewrite (dot_comm (nth i Q []) (lincomb _ _ _)). rewrite orth_comb by (auto; len).
      rewrite (nth_indep _ 0 (dot [] v)) by len. rewrite (map_nth (fun q => dot q v) Q []). ring. }
    assert (Dv : forall x, dot v x = dot w x + dot (lincomb n (map (fun q => dot q v) Q) Q) x).
    { intros x. unfold w. rewrite dot_vsub_l by (rewrite LL; lia). ring. }
    destruct (Req_EM_T (dot w w) 0) as [Z|NZ].
    + destruct (IH Q HQ O Hvs) as (Q' & A1 & A2 & A3 & A4 & A5). exists Q'.
      split; [exact A1|]. split; [exact A2|]. split; [simpl; lia|]. split.
      * intros u x [<-|Hu] Lx Hx; [|now apply A4]. rewrite Dv. apply dot_self_zero in Z. rewrite Z, dot_zeros_l.
        rewrite dot_lincomb_zero; [ring|exact HQ|]. intros q Hq. apply Hx, in_or_app. now left.
      * intros q x Hq Lx Hx. apply (A5 q x Hq Lx). intros u Hu. apply Hx. apply in_app_or in Hu. apply in_or_app.
        destruct Hu; [now left|right; now right].
    + set (k := / norm w).
      assert (Pw : 0 < dot w w) by (pose proof (dot_self_nonneg w); lra).
      assert (Nw : 0 < norm w) by (now apply sqrt_lt_R0).
      set (u := vscale k w).
      assert (Lu : length u = n) by (unfold u; len).
      assert (Uu : dot u u = 1).
      { unfold u. rewrite dot_vscale_l, dot_vscale_r. unfold k. rewrite <- norm_sqr. field. lra. }
      assert (Ou : forall q, In q Q -> dot q u = 0) by (intros q Hq; unfold u; rewrite dot_vscale_r, Ow by auto; ring).
      destruct (IH (Q ++ [u])) as (Q' & A1 & A2 & A3 & A4 & A5); auto.
      { apply Forall_app; split; auto. }
      { apply (orth_snoc n); auto. }
      exists (u :: Q'). replace (Q ++ u :: Q') with ((Q ++ [u]) ++ Q') by (rewrite <- app_assoc; reflexivity).
      assert (Dw : forall x, dot w x = norm w * dot u x).
      { intros x. unfold u. rewrite dot_vscale_l. unfold k. field. lra. }
      split; [exact A1|]. split; [exact A2|]. split; [simpl; lia|]. split.
      * intros z x [<-|Hz] Lx Hx; [|now apply A4]. rewrite Dv, Dw.
        rewrite (Hx u) by (apply in_or_app; left; apply in_or_app; right; now left).
        rewrite dot_lincomb_zero; [ring|exact HQ|]. intros q Hq. apply Hx. apply in_or_app; left. apply in_or_app; now left.
      * assert (Cu : forall x, length x = n -> (forall z, In z (Q ++ v :: vs) -> dot z x = 0) -> dot u x = 0).
        { intros x Lx Hx. unfold u. rewrite dot_vscale_l. unfold w. rewrite dot_vsub_l by (rewrite LL; lia).
          rewrite (Hx v) by (apply in_or_app; right; now left).
          rewrite dot_lincomb_zero; [ring|exact HQ|]. intros q Hq. apply Hx, in_or_app. now left. }
        intros q x [<-|Hq] Lx Hx; [now apply Cu|]. apply (A5 q x Hq Lx). intros z Hz.
        apply in_app_or in Hz. destruct Hz as [Hz|Hz].
        -- apply in_app_or in Hz. destruct Hz as [Hz|[<-|[]]]; [apply Hx, in_or_app; now left|now apply Cu].
        -- apply Hx, in_or_app. right; now right.
Qed.

Lemma orth_full n Q : vecs n Q -> orth Q ->
  (forall x, length x = n -> (forall q, In q Q -> dot q x = 0) -> x = zeros n) -> length Q = n.
Proof.
  intros HQ O F. pose proof (orth_le n Q HQ O) as L.
  destruct (Nat.eq_dec (length Q) n) as [|C]; [assumption|]. exfalso.
  assert (SM : shape (Mat n Q) (length Q) n) by (repeat split; auto).
  destruct (dep (length Q) (rows (tr (Mat n Q)))) as (c & Lc & Nc & Zc).
  - eapply vecs_cols; eauto.
  - rewrite (length_cols _ _ _ SM). lia.
  - rewrite (length_cols _ _ _ SM) in *. rewrite <- (mv_lincomb _ _ _ _ SM) in Zc by auto.
    apply Nc. apply F; [exact Lc|]. intros q Hq. apply (In_nth Q q []) in Hq. destruct Hq as (i & Hi & <-).
    change Q with (rows (Mat n Q)) at 1. rewrite <- nth_mv. rewrite Zc. apply nth_zeros.
Qed.

Lemma orth_mm n Q : vecs n Q -> orth Q -> length Q = n ->
  shape (Mat n Q) n n /\ mm (Mat n Q) (tr (Mat n Q)) = eye n /\ mm (tr (Mat n Q)) (Mat n Q) = eye n.
Proof.
  intros HQ O L. set (V := Mat n Q).
  assert (HV : shape V n n) by (repeat split; auto).
  assert (LV : length (rows V) = n) by apply HV.
  assert (LVT : length (rows (tr V)) = n) by (apply shape_tr in HV; apply HV).
  assert (VT : forall z, length z = n -> mv V (mv (tr V) z) = z).
  { intros z Lz. rewrite (mv_tr V n n) by auto. apply vec_ext; [len|]. intros i Hi. lenh Hi.
    rewrite nth_mv. unfold vm. simpl. rewrite dot_comm. apply orth_comb; auto; lia. }
  split; [exact HV|]. split.
  - apply (mat_ext _ _ n n); eauto with shp. intros x Lx. rewrite (mv_mm V (tr V) n n), mv_eye by auto with shp. auto.
  - apply (mat_ext _ _ n n); eauto with shp. intros x Lx. rewrite (mv_mm (tr V) V n n), mv_eye by auto with shp.
    (* x is in the range of V' *)
    destruct (inj_surj (tr V) n x) as (z & Lz & Ez); [auto with shp|exact Lx| |].
    { intros y Ly Zy. rewrite <- (VT y Ly), Zy. rewrite mv_zeros. f_equal. exact LV. }
    rewrite <- Ez. rewrite VT; auto.
Qed.

(** ** The singular value decomposition (as far as used): rank and V' *)
Lemma svd_ex A m n : shape A m n ->
  {QQ : list vec * list vec | let (Q1, Q2) := QQ in
     vecs n (Q1 ++ Q2) /\ orth (Q1 ++ Q2) /\ length (Q1 ++ Q2) = n /\ (length Q1 <= m)%nat /\
     (forall v x, In v (rows A) -> length x = n -> (forall q, In q Q1 -> dot q x = 0) -> dot v x = 0) /\
     (forall q x, In q Q1 -> length x = n -> (forall v, In v (rows A) -> dot v x = 0) -> dot q x = 0)}.
Proof.
  intros HA. destruct (gs n (rows A) []) as (Q1 & A1 & A2 & A3 & A4 & A5).
  - constructor.
  - intros i j Hi. simpl in Hi. lia.
  - apply HA.
  - simpl in *. destruct (gs n (rows (eye n)) Q1) as (Q2 & B1 & B2 & B3 & B4 & B5); auto.
    { apply (shape_eye n). }
    exists (Q1, Q2). split; [exact B1|]. split; [exact B2|]. split.
    + apply orth_full; auto. intros x Lx Hx. apply vec_ext; [len|]. intros i Hi. rewrite nth_zeros.
      rewrite <- (dot_unit n i x) by lia. apply (B4 (unit n i) x); auto.
      simpl. apply in_map. apply in_seq. lia.
    + split; [destruct HA; lia|]. split; auto.
Qed.

Definition svd0 (A : mat) : list vec * list vec :=
  match shape_dec A with
  | left H => proj1_sig (svd_ex A _ _ H)
  | right _ => ([], [])
  end.
Definition rank0 (A : mat) : nat := length (fst (svd0 A)).
Definition svd_vt0 (A : mat) : mat := Mat (ncols A) (fst (svd0 A) ++ snd (svd0 A)).

Lemma svd0_ok A m n : shape A m n ->
  shape (svd_vt0 A) n n /\
  mm (svd_vt0 A) (tr (svd_vt0 A)) = eye n /\
  mm (tr (svd_vt0 A)) (svd_vt0 A) = eye n /\
  (rank0 A <= n)%nat /\ (rank0 A <= m)%nat /\
  (forall k, (rank0 A <= k < n)%nat -> mv A (row (svd_vt0 A) k) = zeros m) /\
  (forall x, length x = n -> mv A x = zeros m ->
     forall k, (k < rank0 A)%nat -> dot (row (svd_vt0 A) k) x = 0).
Proof.
  intros HA. unfold svd_vt0, rank0, svd0. destruct (shape_self A m n HA) as (HA' & Em & En).
  destruct (shape_dec A) as [S|S]; [|now elim S].
  destruct (svd_ex _ _ _ _) as ((Q1 & Q2) & P1 & P2 & P3 & P4 & P5 & P6). simpl. rewrite En, Em in *.
  destruct (orth_mm n (Q1 ++ Q2) P1 P2 P3) as (M1 & M2 & M3).
  assert (LA : length (rows A) = m) by apply HA.
  split; [exact M1|]. split; [exact M2|]. split; [exact M3|]. lenh P3. split; [lia|]. split; [exact P4|]. split.
  - intros k Hk. unfold row. simpl. apply vec_ext; [len|]. intros i Hi. lenh Hi. rewrite nth_mv, nth_zeros.
    apply P5.
    + apply nth_In. lia.
    + rewrite Forall_forall in P1. apply P1, nth_In. len.
    + intros q Hq. apply (In_nth Q1 q []) in Hq. destruct Hq as (j & Hj & <-).
      specialize (P2 j k). rewrite app_length, (app_nth1 Q1 Q2 [] Hj) in P2. rewrite P2 by lia.
      destruct (Nat.eqb_spec j k); [lia|reflexivity].
  - intros x Lx Zx k Hk. unfold row. simpl. rewrite app_nth1 by lia.
    apply P6; [now apply nth_In|exact Lx|]. intros v Hv. apply (In_nth _ v []) in Hv. destruct Hv as (j & Hj & <-).
    rewrite <- nth_mv, Zx. apply nth_zeros.
Qed.

Definition chol0 (H : mat) : res mat :=
  match shape_dec H with
  | left HS =>
      match Nat.eq_dec (nrows H) (ncols H) with
      | left E =>
          match mat_eq_dec (tr H) H with
          | left T => match chol_ex (ncols H) H (eq_rect _ (fun k => shape H k (ncols H)) HS _ E) T with
                      | inleft L => Ok (proj1_sig L)
                      | inright _ => Err LinAlgError
                      end
          | right _ => Err LinAlgError
          end
      | right _ => Err LinAlgError
      end
  | right _ => Err LinAlgError
  end.

Lemma chol0_ok H n : shape H n n -> tr H = H ->
  (pd H n /\ exists L, chol0 H = Ok L /\ shape L n n /\ mm L (tr L) = H /\
     (forall i j, (i < j < n)%nat -> nth j (row L i) 0 = 0) /\
     (forall i, (i < n)%nat -> 0 < nth i (row L i) 0)) \/
  (~ pd H n /\ chol0 H = Err LinAlgError).
Proof.
  intros HS T. unfold chol0. destruct (shape_self H n n HS) as (HS' & Em & En).
  destruct (shape_dec H) as [S|S]; [|now elim S].
  destruct (Nat.eq_dec (nrows H) (ncols H)) as [E|E]; [|lia].
  destruct (mat_eq_dec (tr H) H) as [T'|T']; [|now elim T'].
  destruct (chol_ex _ _ _ _) as [(L & C)|N].
  - left. assert (C' := C). rewrite En in C'. split; [eapply chol_pd; eauto|]. exists L. split; [reflexivity|]. exact C'.
  - right. rewrite En in N. auto.
Qed.

(** ** A numpy record with exact kernels; the remaining fields are arbitrary *)
Section Exact.
Variables (qr : mat -> mat) (eig : mat -> R) (ex : mat -> mat) (dare : mat -> mat -> mat -> mat -> mat)
  (rnd : nat -> nat -> vec) (hs : mat -> vec -> vec -> res (list vec)) (hull : list vec -> res (mat * vec)).
Definition exact_numpy : numpy :=
  Numpy nnls0 pinv0 chol0 inv0 solve0 rank0 svd_vt0 qr eig ex dare rnd hs hull.
Lemma exact_nnls_ok : nnls_ok exact_numpy. Proof. exact nnls0_ok. Qed.
Lemma exact_pinv_ok : pinv_ok exact_numpy. Proof. exact pinv0_ok. Qed.
Lemma exact_chol_ok : chol_ok exact_numpy. Proof. exact chol0_ok. Qed.
Lemma exact_inv_ok : inv_ok exact_numpy. Proof. exact inv0_ok. Qed.
Lemma exact_solve_ok : solve_ok exact_numpy. Proof. exact solve0_ok. Qed.
Lemma exact_svd_ok : svd_ok exact_numpy. Proof. exact svd0_ok. Qed.
End Exact.
