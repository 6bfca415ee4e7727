(** * VertOracle: the contract assumed of scipy.spatial.HalfspaceIntersection, and a routine that meets it (by enumeration of
    the sets of active rows).  It shows that the contract can be met; nothing else depends on it. *)
From Coq Require Import Classical.
From Verif Require Import Arr ArrFacts Spec SpecVert Numpy PnnlsFacts QpFacts Oracle NullFacts GeomThms HullOracle.

(** HalfspaceIntersection([A, -b], c).intersections in two or more dimensions: if c is strictly inside and the set is bounded, the extreme
    points of the set (in any order, possibly repeated); QhullError if c is not strictly inside.  Nothing is assumed for
    unbounded sets. *)
Definition halfspaces_ok (np : numpy) : Prop := forall A b c m n, shape A m n -> length b = m -> (2 <= n)%nat -> length c = n ->
  (strictly_inside A b c -> bounded_set (ineq_set A b) -> exists V, np_halfspaces np A b c = Ok V /\ forall v, In v V <-> extreme (ineq_set A b) v) /\
  (~ strictly_inside A b c -> np_halfspaces np A b c = Err QhullError).

Lemma ineq_set_nth A b m n x : shape A m n -> length b = m -> (ineq_set A b x <-> length x = n /\ forall i, (i < m)%nat -> dot (row A i) x <= nth i b 0).
Proof.
  intros HA Hb. unfold ineq_set. rewrite ineq_holds_vle, vle_nth, mv_length, (proj1 HA), Hb, (proj1 (proj2 HA)). split.
  - intros (L & _ & H). split; [exact L|]. intros i Hi. specialize (H i Hi). rewrite nth_mv in H. exact H.
  - intros (L & H). split; [exact L|]. split; [reflexivity|]. intros i Hi. rewrite nth_mv. apply H, Hi.
Qed.
(** extreme points are those at which the tight rows leave no direction *)
Lemma extreme_kernel A b m n x : shape A m n -> length b = m -> ineq_set A b x ->
  (extreme (ineq_set A b) x <-> forall d, length d = n -> (forall i, (i < m)%nat -> dot (row A i) x = nth i b 0 -> dot (row A i) d = 0) -> d = zeros n).
Proof.
  intros HA Hb Hx. pose proof (proj1 (ineq_set_nth A b m n x HA Hb) Hx) as (Lx & Ix). split.
  - intros (_ & Ex) d Ld Hd.
    assert (Eps : forall k, (k <= m)%nat -> exists e, 0 < e /\ forall i, (i < k)%nat -> dot (row A i) x <> nth i b 0 -> e * Rabs (dot (row A i) d) <= nth i b 0 - dot (row A i) x).
    { induction k as [|k IH]; intros Hk; [exists 1; split; [lra|intros; lia]|]. destruct (IH ltac:(lia)) as (e & He & H). destruct (Req_dec (dot (row A k) x) (nth k b 0)) as [Q|Q].
      - exists e. split; [exact He|]. intros i Hi Ni. destruct (Nat.eq_dec i k) as [ -> |]; [contradiction|apply H; [lia|exact Ni]].
      - specialize (Ix k ltac:(lia)). assert (S : 0 < nth k b 0 - dot (row A k) x) by lra. pose proof (Rabs_pos (dot (row A k) d)) as P.
        exists (Rmin e ((nth k b 0 - dot (row A k) x) / (1 + Rabs (dot (row A k) d)))). assert (F : 0 < (nth k b 0 - dot (row A k) x) / (1 + Rabs (dot (row A k) d))) by (apply Rmult_lt_0_compat; [exact S|apply Rinv_0_lt_compat; lra]).
        split; [apply Rmin_glb_lt; assumption|]. intros i Hi Ni. destruct (Nat.eq_dec i k) as [ -> |].
        + apply Rle_trans with ((nth k b 0 - dot (row A k) x) / (1 + Rabs (dot (row A k) d)) * Rabs (dot (row A k) d)); [apply Rmult_le_compat_r; [exact P|apply Rmin_r]|].
          apply Rmult_le_reg_r with (1 + Rabs (dot (row A k) d)); [lra|]. replace ((nth k b 0 - dot (row A k) x) / (1 + Rabs (dot (row A k) d)) * Rabs (dot (row A k) d) * (1 + Rabs (dot (row A k) d))) with ((nth k b 0 - dot (row A k) x) * Rabs (dot (row A k) d)) by (field; lra). nra.
        + eapply Rle_trans; [|apply H; [lia|exact Ni]]. apply Rmult_le_compat_r; [apply Rabs_pos|apply Rmin_l]. }
    destruct (Eps m (Nat.le_refl _)) as (e & He & H).
    assert (In : forall s, Rabs s = e -> ineq_set A b (vadd x (vscale s d))).
    { intros s Hs. apply (ineq_set_nth A b m n); auto. split; [len|]. intros i Hi. rewrite dot_vadd_r by len. rewrite dot_vscale_r. destruct (Req_dec (dot (row A i) x) (nth i b 0)) as [Q|Q].
      - rewrite (Hd i Hi Q). lra.
      - specialize (H i Hi Q). pose proof (Rle_abs (s * dot (row A i) d)) as K. rewrite Rabs_mult, Hs in K. lra. }
    specialize (Ex (vadd x (vscale e d)) (vadd x (vscale (- e) d)) (In e ltac:(apply Rabs_right; lra)) (In (- e) ltac:(rewrite Rabs_Ropp; apply Rabs_right; lra))).
    assert (Q : vscale 2 x = vadd (vadd x (vscale e d)) (vadd x (vscale (- e) d))). { apply vec_ext; [len|]. intros i Hi. rewrite nth_vscale, !nth_vadd by len. rewrite !nth_vscale. ring. }
    specialize (Ex Q). apply vec_ext; [len|]. intros i Hi. apply (f_equal (fun v => nth i v 0)) in Ex. rewrite !nth_vadd in Ex by len. rewrite !nth_vscale in Ex. rewrite nth_zeros. nra.
  - intros K. split; [exact Hx|]. intros y z Hy Hz E. apply (ineq_set_nth A b m n) in Hy; auto. apply (ineq_set_nth A b m n) in Hz; auto. destruct Hy as (Ly & Iy). destruct Hz as (Lz & Iz).
    assert (Nx : forall i, (i < n)%nat -> 2 * nth i x 0 = nth i y 0 + nth i z 0) by (intros i Hi; apply (f_equal (fun v => nth i v 0)) in E; rewrite nth_vscale, nth_vadd in E by len; exact E).
    assert (Z : vsub y x = zeros n).
    { apply K; [len|]. intros i Hi Q. specialize (Iy i Hi). specialize (Iz i Hi). assert (S : 2 * dot (row A i) x = dot (row A i) y + dot (row A i) z) by (rewrite <- dot_vscale_r, E, dot_vadd_r by len; reflexivity). rewrite dot_vsub_r by len. lra. }
    apply vec_ext; [len|]. intros i Hi. rewrite Ly in Hi. specialize (Nx i Hi). apply (f_equal (fun v => nth i v 0)) in Z. rewrite nth_vsub, nth_zeros in Z by len. lra.
Qed.

Fixpoint powerset (l : list nat) : list (list nat) :=
  match l with [] => [[]] | a :: l' => map (cons a) (powerset l') ++ powerset l' end.
Lemma powerset_filter f l : In (filter f l) (powerset l).
Proof. induction l as [|a l IH]; [left; reflexivity|]. cbn. apply in_or_app. destruct (f a); [left; apply in_map; exact IH|right; exact IH]. Qed.
Lemma powerset_incl l act : In act (powerset l) -> incl act l.
Proof.
  revert act. induction l as [|a l IH]; cbn; intros act H; [destruct H as [<-|[]]; intros j []|]. apply in_app_or in H. destruct H as [H|H].
  - apply in_map_iff in H. destruct H as (a' & <- & H). intros j [<-|Hj]; [left; reflexivity|right; apply (IH _ H), Hj].
  - intros j Hj. right. apply (IH _ H), Hj.
Qed.
Definition tight (A : mat) (b x : vec) : list nat := filter (fun i => Reqb (dot (row A i) x) (nth i b 0)) (seq 0 (length b)).
Definition vert_of (A : mat) (b : vec) (act : list nat) : list vec :=
  match inv0 (mm (tr (mtake A act)) (mtake A act)) with
  | Ok X =>
      let x := mv X (mv (tr (mtake A act)) (vtake b act)) in
      if (forallb (fun i => Rleb (dot (row A i) x) (nth i b 0)) (seq 0 (length b))) then (if list_eq_dec Nat.eq_dec (tight A b x) act then [x] else []) else []
  | Err _ => []
  end.
Definition hs0 (A : mat) (b c : vec) : res (list vec) :=
  if forallb (fun i => Rltb (dot (row A i) c) (nth i b 0)) (seq 0 (length b)) then Ok (flat_map (vert_of A b) (powerset (seq 0 (length b)))) else Err QhullError.
Lemma Reqb_true a b : Reqb a b = true <-> a = b.
Proof. unfold Reqb. destruct (Req_EM_T a b); split; auto; discriminate. Qed.
Lemma gram_kernel B k n d : shape B k n -> length d = n -> mv (mm (tr B) B) d = zeros n -> mv B d = zeros k.
Proof.
  intros SB Ld E. pose proof (shape_tr _ _ _ SB) as ST. rewrite (mv_mm _ _ k n) in E by exact SB. assert (LB : length (mv B d) = k) by (rewrite mv_length; apply SB).
  assert (Z : dot (mv B d) (mv B d) = 0) by (rewrite <- (dot_mv_tr B k n) by auto; rewrite E; apply dot_zeros_l). apply dot_self_zero in Z. rewrite LB in Z. exact Z.
Qed.
Lemma vert_list_ok A b m n v : shape A m n -> length b = m -> (In v (flat_map (vert_of A b) (powerset (seq 0 (length b)))) <-> extreme (ineq_set A b) v).
Proof.
  intros HA Hb. rewrite Hb, in_flat_map.
  assert (FA : forall x, forallb (fun i => Rleb (dot (row A i) x) (nth i b 0)) (seq 0 (length b)) = true <-> forall i, (i < m)%nat -> dot (row A i) x <= nth i b 0).
  { intros x. rewrite forallb_forall, Hb. split; intros H i Hi; [apply Rleb_true, H, in_seq; lia|apply in_seq in Hi; apply Rleb_true, H; lia]. }
  assert (TG : forall x i, In i (tight A b x) <-> (i < m)%nat /\ dot (row A i) x = nth i b 0) by (intros x i; unfold tight; rewrite filter_In, in_seq, Reqb_true, Hb; split; intros (Q1 & Q2); split; auto; lia).
  split.
  - intros (act & Hact & Hv). apply powerset_incl in Hact. assert (Bd : forall i, In i act -> (i < m)%nat) by (intros i Hi; apply Hact, in_seq in Hi; lia).
    pose proof (shape_mtake A m n act HA Bd) as SB. pose proof (shape_tr _ _ _ SB) as ST. unfold vert_of in Hv. destruct (inv0_ok (mm (tr (mtake A act)) (mtake A act)) n) as [(K & X & EX & SX & _ & I2)|(_ & EX)]; [eauto with shp| |]; rewrite EX in Hv; [|destruct Hv].
    cbv zeta in Hv. set (x := mv X (mv (tr (mtake A act)) (vtake b act))) in *. destruct (forallb _ _) eqn:F; [|destruct Hv]. destruct (list_eq_dec Nat.eq_dec (tight A b x) act) as [T|]; [|destruct Hv]. destruct Hv as [<-|[]].
    assert (Lx : length x = n) by (unfold x; rewrite mv_length; apply SX). assert (Px : ineq_set A b x) by (apply (ineq_set_nth A b m n); auto; split; [exact Lx|apply FA, F]).
    apply (extreme_kernel A b m n); auto. intros d Ld Hd. apply K; [exact Ld|]. rewrite (mv_mm _ _ (length act) n) by exact SB.
    replace (mv (mtake A act) d) with (zeros (length act)); [rewrite mv_zeros; f_equal; apply ST|]. rewrite mv_mtake. apply vec_ext; [len|]. intros i Hi. rewrite zeros_length in Hi. rewrite nth_zeros. rewrite (nth_indep _ 0 (dot (row A 0) d)) by (rewrite map_length; exact Hi). rewrite (map_nth (fun i => dot (row A i) d)). symmetry.
    assert (I : In (nth i act 0%nat) (tight A b x)) by (rewrite T; apply nth_In, Hi). apply TG in I. apply Hd; apply I.
  - intros Ex. pose proof (proj1 Ex) as Px. pose proof (proj1 (ineq_set_nth A b m n v HA Hb) Px) as (Lv & Iv). exists (tight A b v). rewrite <- Hb at 1. split; [apply powerset_filter|].
    set (act := tight A b v). assert (Bd : forall i, In i act -> (i < m)%nat) by (intros i Hi; apply TG in Hi; apply Hi).
    pose proof (shape_mtake A m n act HA Bd) as SB. pose proof (shape_tr _ _ _ SB) as ST.
    pose proof (proj1 (extreme_kernel A b m n v HA Hb Px) Ex) as K.
    unfold vert_of. destruct (inv0_ok (mm (tr (mtake A act)) (mtake A act)) n) as [(_ & X & EX & SX & _ & I2)|((d & Ld & Nd & Ed) & EX)]; [eauto with shp| |].
    + rewrite EX. cbv zeta. set (x := mv X (mv (tr (mtake A act)) (vtake b act))).
      assert (Exv : x = v).
      { unfold x. replace (vtake b act) with (mv (mtake A act) v).
        - rewrite <- (mv_mm (tr (mtake A act)) (mtake A act) (length act) n) by exact SB. rewrite <- (mv_mm X _ n n) by eauto with shp. rewrite I2. apply mv_eye, Lv.
        - rewrite mv_mtake. unfold vtake. apply map_ext_in. intros i Hi. apply TG in Hi. apply Hi. }
      rewrite Exv. rewrite (proj2 (FA v) Iv). fold act. destruct (list_eq_dec Nat.eq_dec act act) as [_|N]; [left; reflexivity|contradiction].
    + exfalso. apply Nd. apply K; [exact Ld|]. intros i Hi Q. pose proof (gram_kernel _ (length act) n d SB Ld Ed) as Z. rewrite mv_mtake in Z.
      assert (I : In i act) by (apply TG; auto). destruct (In_nth _ _ 0%nat I) as (k & Hk & <-). apply (f_equal (fun w => nth k w 0)) in Z. rewrite (nth_indep _ 0 (dot (row A 0) d)) in Z by (rewrite map_length; exact Hk). rewrite (map_nth (fun i => dot (row A i) d)), nth_zeros in Z. exact Z.
Qed.
Definition np_vert (rnd : nat -> nat -> vec) : numpy :=
  exact_numpy (fun A => A) (fun _ => 0) (fun A => A) (fun _ _ Q _ => Q) rnd hs0 fm_hull.
Lemma strictly_nth A b m n c : shape A m n -> length b = m -> (strictly_inside A b c <-> length c = n /\ forall i, (i < m)%nat -> dot (row A i) c < nth i b 0).
Proof.
  intros HA Hb. unfold strictly_inside. rewrite (proj1 (proj2 HA)). apply and_iff_compat_l. assert (L : length (rows A) = length b) by (rewrite Hb; apply HA). rewrite <- Hb. unfold row. clear HA Hb. revert L. generalize (rows A). clear. intros l. revert b.
  induction l as [|a l IH]; intros [|e b] L; try discriminate L; [split; [intros _ i Hi; cbn in Hi; lia|constructor]|]. split.
  - intros F. inversion F as [|? ? ? ? F1 F2]; subst. intros [|i] Hi; [exact F1|]. cbn [nth]. apply (proj1 (IH b ltac:(cbn in L; lia)) F2). cbn in Hi. lia.
  - intros H. constructor; [apply (H 0%nat); cbn; lia|]. apply IH; [cbn in L; lia|]. intros i Hi. apply (H (S i)). cbn. lia.
Qed.
Lemma np_vert_ok rnd : exact_np (np_vert rnd) /\ hull_ok (np_vert rnd) /\ hull_total (np_vert rnd) /\ halfspaces_ok (np_vert rnd).
Proof.
  split; [unfold exact_np, np_vert; repeat apply conj; auto using exact_nnls_ok, exact_pinv_ok, exact_chol_ok, exact_inv_ok, exact_solve_ok, exact_svd_ok|].
  split; [exact fm_hull_ok|]. split; [exact fm_hull_total|].
  intros A b c m n HA Hb _ Lc. cbn [np_halfspaces np_vert exact_numpy]. unfold hs0.
  assert (F : forallb (fun i => Rltb (dot (row A i) c) (nth i b 0)) (seq 0 (length b)) = true <-> strictly_inside A b c).
  { rewrite (strictly_nth A b m n) by auto. rewrite forallb_forall, Hb. split; [intros H; split; [exact Lc|]|intros (_ & H)]; intros i Hi; [apply Rltb_true, H, in_seq; lia|apply in_seq in Hi; apply Rltb_true, H; lia]. }
  split; intros H.
  - intros _. rewrite (proj2 F H). eexists. split; [reflexivity|]. intros v. apply (vert_list_ok A b m n); auto.
  - destruct (forallb _ _); [|reflexivity]. elim H. apply F. reflexivity.
Qed.
