(** * NullFacts: null space bases and the elimination of equalities *)
From Coq Require Import ZArith.
From Verif Require Import Arr ArrFacts Spec Numpy PnnlsFacts QpFacts GeomUtils Polyhedron Oracle.

Lemma dot_entries_zero u w : length u = length w -> (forall k, (k < length u)%nat -> nth k u 0 * nth k w 0 = 0) -> dot u w = 0.
Proof.
  revert w; induction u as [|a u IH]; intros [|b w] L H; simpl in *; try lia; try reflexivity.
  rewrite IH; [|lia|intros k Hk; apply (H (S k)); lia]. specialize (H O ltac:(lia)). simpl in H. lra.
Qed.

(** a wide matrix has a kernel *)
Lemma wide_kernel M m n : shape M m n -> (m < n)%nat -> exists x, length x = n /\ x <> zeros n /\ mv M x = zeros m.
Proof.
  intros HM L. destruct (dep m (rows (tr M)) (vecs_cols _ _ _ HM)) as (c & L1 & L2 & L3).
  - now rewrite (length_cols _ _ _ HM).
  - rewrite (length_cols _ _ _ HM) in *. exists c. rewrite (mv_lincomb M m n c HM L1). auto.
Qed.
Lemma inj_le M m n : shape M m n -> (forall x, length x = n -> mv M x = zeros m -> x = zeros n) -> (n <= m)%nat.
Proof.
  intros HM Hi. destruct (le_lt_dec n m) as [|G]; [assumption|]. exfalso.
  destruct (wide_kernel M m n HM G) as (x & L & N & E). apply N. now apply Hi.
Qed.

Lemma nullspace_ok np A m n : svd_ok np -> shape A m n ->
  let N := nullspace_basis np A in let k := (n - np_rank np A)%nat in
  shape N n k /\ (np_rank np A <= n)%nat /\ (np_rank np A <= m)%nat /\
  (forall z, length z = k -> mv A (mv N z) = zeros m) /\
  (forall z z', length z = k -> length z' = k -> dot (mv N z) (mv N z') = dot z z') /\
  (forall x, length x = n -> mv A x = zeros m -> exists z, length z = k /\ x = mv N z).
Proof.
  intros Hsvd HA N k. destruct (Hsvd A m n HA) as (HV & V1 & V2 & R1 & R2 & K1 & K2).
  set (V := np_svd_vt np A) in *. set (rk := np_rank np A) in *.
  assert (HVt : shape (tr V) n n) by auto with shp.
  assert (HN : shape N n k) by (unfold N, nullspace_basis; fold V rk; apply shape_cols_from; exact HVt).
  assert (NV : forall z, length z = k -> mv N z = mv (tr V) (zeros rk ++ z)).
  { intros z Lz. rewrite (mv_cols_split (tr V) n n rk) by (auto; len). rewrite mv_zeros.
    unfold N, nullspace_basis. fold V rk. rewrite vadd_zeros_l; [reflexivity|].
    rewrite mv_length. rewrite (shape_rows _ _ _ (shape_cols_from _ _ _ rk HVt)).
    rewrite (shape_rows _ _ _ (shape_cols_to _ _ _ rk HVt R1)). reflexivity. }
  assert (LV : length (rows V) = n) by apply HV. assert (LVt : length (rows (tr V)) = n) by apply HVt.
  assert (LA : length (rows A) = m) by apply HA. assert (LN : length (rows N) = n) by apply HN.
  split; [exact HN|]. split; [exact R1|]. split; [exact R2|]. split; [|split].
  - intros z Lz. rewrite NV by exact Lz. apply vec_ext; [len|]. intros i Hi. lenh Hi. rewrite nth_mv, nth_zeros.
    assert (Lr : length (row A i) = n) by (apply (shape_row _ _ _ _ HA); lia).
    fold (row A i). rewrite (dot_mv_tr_r V n n) by (auto; len).
    apply dot_entries_zero; [unfold k in Lz; len|]. intros j Hj. lenh Hj.
    destruct (le_lt_dec rk j) as [Hjr|Hjr].
    + rewrite nth_mv. fold (row V j). specialize (K1 j ltac:(lia)). apply (f_equal (fun v => nth i v 0)) in K1.
      rewrite nth_mv, nth_zeros in K1. fold (row A i) in K1. rewrite dot_comm, K1. ring.
    + rewrite app_nth1 by len. rewrite nth_zeros. ring.
  - intros z z' Lz Lz'. rewrite !NV by assumption. rewrite (dot_mv_tr V n n) by (auto; unfold k in *; len).
    rewrite <- (mv_mm V _ n n) by exact HVt. rewrite V1, mv_eye by (unfold k in *; len).
    rewrite dot_app by len. rewrite dot_zeros_l. ring.
  - intros x Lx Ax. exists (skipn rk (mv V x)). split; [unfold k; len|].
    rewrite NV by (unfold k; len).
    assert (Ez : zeros rk ++ skipn rk (mv V x) = mv V x).
    { rewrite <- (firstn_skipn rk (mv V x)) at 2. f_equal. apply vec_ext; [len|]. intros i Hi. lenh Hi.
      rewrite nth_zeros. rewrite nth_firstn'. 
      - rewrite nth_mv. symmetry. apply (K2 x Lx Ax). lia.
      - lia. }
    rewrite Ez. rewrite <- (mv_mm (tr V) V n n) by exact HV. rewrite V2, mv_eye by exact Lx. reflexivity.
Qed.

Lemma isometry_inj N n k : shape N n k -> (forall z z', length z = k -> length z' = k -> dot (mv N z) (mv N z') = dot z z') ->
  forall z, length z = k -> mv N z = zeros n -> z = zeros k.
Proof.
  intros HN HI z Lz E. rewrite <- Lz. apply dot_self_zero. rewrite <- HI by assumption. rewrite E. apply dot_zeros_l.
Qed.

(** independent rows *)
Definition indep_rows (C : mat) (me : nat) : Prop := forall y, length y = me -> mv (tr C) y = zeros (ncols C) -> y = zeros me.

Lemma rank_indep np C me n : svd_ok np -> shape C me n -> indep_rows C me -> np_rank np C = me.
Proof.
  intros Hsvd HC HI. destruct (Hsvd C me n HC) as (HV & V1 & V2 & R1 & R2 & K1 & K2).
  set (V := np_svd_vt np C) in *. set (rk := np_rank np C) in *.
  destruct (Nat.eq_dec rk me) as [|NE]; [assumption|]. exfalso. assert (G : (rk < me)%nat) by lia.
  assert (HV1 : shape (mtake V (seq 0 rk)) rk n).
  { pose proof (shape_mtake V n n (seq 0 rk) HV) as H. rewrite seq_length in H. apply H. intros i Hi. apply in_seq in Hi. lia. }
  assert (HCt : shape (tr C) n me) by auto with shp.
  destruct (wide_kernel (mm (mtake V (seq 0 rk)) (tr C)) rk me) as (y & Ly & Ny & Ey); [eauto with shp|exact G|].
  apply Ny, HI; [exact Ly|]. rewrite (shape_cols _ _ _ HC). rewrite (mv_mm _ _ n me) in Ey by exact HCt.
  set (x := mv (tr C) y) in *. assert (LCt : length (rows (tr C)) = n) by apply HCt.
  assert (Lx : length x = n) by (unfold x; len).
  assert (Vx : mv V x = zeros n).
  { assert (LV : length (rows V) = n) by apply HV. apply vec_ext; [len|]. intros i Hi. lenh Hi. rewrite nth_mv, nth_zeros. fold (row V i).
    destruct (le_lt_dec rk i) as [Hr|Hr].
    - unfold x. rewrite (dot_mv_tr_r C me n) by auto. rewrite K1 by lia. apply dot_zeros_l.
    - apply (f_equal (fun v => nth i v 0)) in Ey. rewrite mv_mtake, nth_zeros in Ey.
      rewrite (nth_indep _ _ (dot (row V 0) x)) in Ey by len. rewrite (map_nth (fun i => dot (row V i) x)) in Ey.
      rewrite seq_nth in Ey by lia. exact Ey. }
  rewrite <- (mv_eye n x Lx), <- V2, (mv_mm _ _ n n) by exact HV. rewrite Vx, mv_zeros.
  f_equal. now rewrite (shape_rows _ _ _ (shape_tr _ _ _ HV)).
Qed.

(** x = N z + R r *)
Definition lift (N R : mat) (r z : vec) : vec := vadd (mv N z) (mv R r).

Lemma remove_equalities_ok np A b C d m me n :
  svd_ok np -> inv_ok np -> shape A m n -> length b = m -> shape C me n -> length d = me ->
  ((me < n)%nat /\ indep_rows C me /\
   exists E f N R X, remove_equalities np A b C d = Ok (E, f, N, R) /\ np_inv np (mm C R) = Ok X /\
     let k := (n - me)%nat in let r := mv X d in
     shape E m k /\ length f = m /\ shape N n k /\ shape R n me /\ shape X me me /\ length r = me /\
     E = mm A N /\ f = vsub b (mv A (mv R r)) /\
     (forall z z', length z = k -> length z' = k -> dot (mv N z) (mv N z') = dot z z') /\
     (forall z, length z = k -> mv C (lift N R r z) = d) /\
     (forall z, length z = k -> vle (mv E z) f <-> vle (mv A (lift N R r z)) b) /\
     (forall x, length x = n -> mv C x = d -> exists z, length z = k /\ x = lift N R r z) /\
     (forall z w, length z = k -> length w = me -> dot (mv N z) (mv R w) = 0)) \/
  (~ ((me < n)%nat /\ indep_rows C me) /\ remove_equalities np A b C d = Err ValueError).
Proof.
  intros Hsvd Hinv HA Lb HC Ld.
  destruct (nullspace_ok np C me n Hsvd HC) as (HN & R1 & R2 & KN & IN & SN).
  unfold remove_equalities. set (N := nullspace_basis np C) in *. set (rk := np_rank np C) in *.
  rewrite (shape_cols _ _ _ HN), (shape_cols _ _ _ HC), (nrows_shape C me n HC).
  destruct (Nat.eqb_spec (n - rk) 0) as [E0|N0].
  { right. split; [|reflexivity]. intros (L & HI). pose proof (rank_indep np C me n Hsvd HC HI). lia. }
  destruct (Z.eqb_spec (Z.of_nat (n - rk)) (Z.of_nat n - Z.of_nat me)) as [Ek|Nk]; cbn [negb].
  2:{ right. split; [|reflexivity]. intros (L & HI). pose proof (rank_indep np C me n Hsvd HC HI). lia. }
  assert (Erk : rk = me) by lia. rewrite Erk in *. clear Ek. left.
  set (k := (n - me)%nat) in *. 
  assert (LC : length (rows C) = me) by apply HC. assert (LA : length (rows A) = m) by apply HA.
  assert (LN : length (rows N) = n) by apply HN.
  assert (HNt : shape (tr N) k n) by auto with shp.
  assert (LNt : length (rows (tr N)) = k) by apply HNt.
  destruct (nullspace_ok np (tr N) k n Hsvd HNt) as (HR & R3 & R4 & KR & IR & SR).
  set (R := nullspace_basis np (tr N)) in *. set (kR := (n - np_rank np (tr N))%nat) in *.
  assert (LR : length (rows R) = n) by apply HR.
  assert (OR : forall z w, length z = k -> length w = kR -> dot (mv N z) (mv R w) = 0).
  { intros z w Lz Lw. rewrite dot_comm. rewrite <- (dot_mv_tr N n k) by (auto; len). rewrite KR by exact Lw. apply dot_zeros_l. }
  assert (DR : kR = me).
  { assert (HT : shape (hstack N R) n (k + kR)) by auto with shp.
    assert (T1 : (k + kR <= n)%nat).
    { apply (inj_le _ _ _ HT). intros x Lx E. rewrite <- (firstn_skipn k x) in E |- *.
      rewrite (mv_hstack N R n k kR) in E by (auto; len).
      set (z := firstn k x) in *. set (w := skipn k x) in *. assert (Lz : length z = k) by (unfold z; len). assert (Lw : length w = kR) by (unfold w; len).
      assert (Q : dot (vadd (mv N z) (mv R w)) (vadd (mv N z) (mv R w)) = 0) by (rewrite E; apply dot_zeros_l).
      autorewrite with dotx in Q. rewrite IN, IR, (dot_comm (mv R w)), OR in Q by assumption.
      pose proof (dot_self_nonneg z). pose proof (dot_self_nonneg w).
      rewrite (dot_self_zero z) by lra. rewrite (dot_self_zero w) by lra. rewrite Lz, Lw. symmetry. apply zeros_app. }
    assert (T2 : (n <= k + kR)%nat).
    { apply (inj_le (vstack (tr N) (tr R)) (k + kR) n); [auto with shp|]. intros x Lx E.
      rewrite mv_vstack in E. rewrite zeros_app in E.
      assert (LRt : length (rows (tr R)) = kR) by apply (shape_tr _ _ _ HR).
      assert (E1 : mv (tr N) x = zeros k) by (apply (f_equal (firstn k)) in E; rewrite !firstn_app_l in E by len; exact E).
      assert (E2 : mv (tr R) x = zeros kR) by (apply (f_equal (skipn k)) in E; rewrite !skipn_app_l in E by len; exact E).
      destruct (SR x Lx E1) as (w & Lw & Ew). rewrite Ew.
      assert (w = zeros kR); [|subst w; now rewrite mv_zeros, LR].
      rewrite <- Lw. apply dot_self_zero. rewrite <- IR by assumption. rewrite <- Ew at 1. rewrite dot_comm.
      rewrite <- (dot_mv_tr_r R n kR) by auto. rewrite E2. apply dot_zeros_r. }
    lia. }
  rewrite DR in *. clearbody kR. subst kR.
  assert (HCR : shape (mm C R) me me) by eauto with shp.
  assert (ICR : forall w, length w = me -> mv (mm C R) w = zeros me -> w = zeros me).
  { intros w Lw E. rewrite (mv_mm C R n me) in E by exact HR. destruct (SN (mv R w) ltac:(len) E) as (z & Lz & Ez).
    rewrite <- Lw. apply dot_self_zero. rewrite <- IR by assumption. rewrite Ez at 1. now apply OR. }
  destruct (Hinv (mm C R) me HCR) as [(_ & X & EX & HX & X1 & X2)|((w & Lw & Nw & Ew) & _)]; [|elim Nw; now apply ICR].
  assert (LX : length (rows X) = me) by apply HX.
  set (r := mv X d). assert (Lr : length r = me) by (unfold r; len).
  assert (Cr : mv C (mv R r) = d).
  { rewrite <- (mv_mm C R n me) by exact HR. unfold r. rewrite <- (mv_mm _ X me me) by exact HX. rewrite X1. now apply mv_eye. }
  split; [lia|]. split.
  { intros y Ly E. rewrite (shape_cols _ _ _ HC) in E.
    apply (isometry_inj R n me HR IR y) ; [exact Ly|]. 
    (* y with C'y = 0: for all w, (CR w).y = 0 *)
    assert (Q : forall w, length w = me -> dot y w = 0).
    { intros w Lw. replace w with (mv (mm C R) (mv X w)).
      - rewrite (mv_mm C R n me) by exact HR. rewrite dot_comm, <- (dot_mv_tr_r C me n) by auto. rewrite E. apply dot_zeros_r.
      - rewrite <- (mv_mm _ X me me) by exact HX. rewrite X1. now apply mv_eye. }
    assert (y = zeros me). { rewrite <- Ly. apply dot_all_zero. intros w Lw. apply Q. lia. }
    subst y. now rewrite mv_zeros, LR. }
  exists (mm A N), (vsub b (mv A (mv R r))), N, R, X. rewrite EX. cbn [bind]. fold r.
  split; [reflexivity|]. split; [reflexivity|]. cbv zeta. fold k.
  assert (HAN : shape (mm A N) m k) by eauto with shp. assert (LAN : length (rows (mm A N)) = m) by apply HAN.
  repeat match goal with |- _ /\ _ => split end; auto; try (len; fail).
  - intros z Lz. unfold lift. rewrite (mv_vadd C me n) by (auto; len). rewrite KN, Cr by exact Lz. apply vadd_zeros_l; len.
  - intros z Lz. unfold lift. rewrite (mv_mm A N n k) by exact HN. rewrite (mv_vadd A m n) by (auto; len).
    rewrite !vle_nth. split; intros (L1 & H1); split; try (len; fail); intros i Hi; specialize (H1 i ltac:(len));
      rewrite ?nth_vadd, ?nth_vsub in * by len; lra.
  - intros x Lx Cx. destruct (SN (vsub x (mv R r))) as (z & Lz & Ez); [len| |].
    + rewrite (mv_vsub C me n) by (auto; len). rewrite Cx, Cr, vsub_self. now rewrite Ld.
    + exists z. split; [exact Lz|]. unfold lift. rewrite <- Ez. vring.
Qed.
