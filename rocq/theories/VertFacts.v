(** * VertFacts: a polytope is the convex hull of any list containing its extreme points *)
From Coq Require Import ZArith Classical.
From Verif Require Import Arr ArrFacts Spec SpecVert Numpy Pnnls PnnlsFacts QpFacts GeomUtils Polyhedron PolyThms Oracle SolverThms NullFacts PolySolveThms PolyMore PolySetThms PolyBoundThms PolyChebThms PolyCacheThms PolyVertThms GeomThms HullOracle.

(** ** A polytope is the convex hull of its extreme points *)
Lemma in_hull_convex n V x y t : Forall (fun v => length v = n) V -> 0 <= t <= 1 -> in_hull n V x -> in_hull n V y -> in_hull n V (vadd (vscale t x) (vscale (1 - t) y)).
Proof.
  intros HV Ht (l & Ll & Nl & Sl & ->) (k & Lk & Nk & Sk & ->). exists (vadd (vscale t l) (vscale (1 - t) k)). split; [len|]. split; [|split].
  - apply Forall_forall. intros a Ha. destruct (In_nth _ _ 0 Ha) as (i & Hi & <-). autorewrite with len in Hi. rewrite nth_vadd by len. rewrite !nth_vscale.
    unfold nonneg in *. rewrite Forall_forall in Nl, Nk. assert (0 <= nth i l 0) by (apply Nl, nth_In; lia). assert (0 <= nth i k 0) by (apply Nk, nth_In; lia). nra.
  - assert (G : forall a b, length a = length b -> vsum (vadd (vscale t a) (vscale (1 - t) b)) = t * vsum a + (1 - t) * vsum b).
    { clear. induction a as [|u a IH]; intros [|v b] L; try discriminate L; [unfold vsum; cbn; ring|]. change (t * u + (1 - t) * v + vsum (vadd (vscale t a) (vscale (1 - t) b)) = t * (u + vsum a) + (1 - t) * (v + vsum b)). rewrite IH by (cbn in L; lia). ring. }
    rewrite G by lia. rewrite Sl, Sk. ring.
  - rewrite lincomb_vadd by (auto; len). rewrite !lincomb_vscale by auto. reflexivity.
Qed.

(** a point of the polyhedron and a direction that meets a row *)
Lemma ray_exit (A : mat) (b x d : vec) m n : shape A m n -> length b = m -> length x = n -> length d = n -> vle (mv A x) b ->
  (exists i, (i < m)%nat /\ 0 < dot (row A i) d) -> exists t i, 0 <= t /\ (i < m)%nat /\ 0 < dot (row A i) d /\ vle (mv A (vadd x (vscale t d))) b /\ dot (row A i) (vadd x (vscale t d)) = nth i b 0.
Proof.
  intros HA Hb Lx Ld Hx (i0 & Hi0 & P0). assert (LA : length (rows A) = m) by apply HA.
  assert (HX : forall i, (i < m)%nat -> dot (row A i) x <= nth i b 0). { apply vle_nth in Hx. destruct Hx as (_ & Hx). intros i Hi. specialize (Hx i). rewrite mv_length, nth_mv in Hx. fold (row A i) in Hx. apply Hx. lia. }
  set (f := fun i => if Rltb 0 (dot (row A i) d) then (nth i b 0 - dot (row A i) x) / dot (row A i) d else (nth i0 b 0 - dot (row A i0) x) / dot (row A i0) d).
  destruct (argmin f (m - 1)) as (j & Hj & Min).
  assert (K : exists i, (i < m)%nat /\ 0 < dot (row A i) d /\ f j = (nth i b 0 - dot (row A i) x) / dot (row A i) d).
  { destruct (Rltb 0 (dot (row A j) d)) eqn:Q; [exists j|exists i0]; (split; [lia|]).
    - split; [apply Rltb_true in Q; exact Q|]. unfold f. rewrite Q. reflexivity.
    - split; [exact P0|]. unfold f. rewrite Q. reflexivity. }
  destruct K as (i & Hi & Pi & Ef). exists (f j), i. assert (Ht : 0 <= f j). { rewrite Ef. specialize (HX i Hi). apply Rmult_le_pos; [lra|]. left. apply Rinv_0_lt_compat, Pi. }
  assert (D : forall k, (k < m)%nat -> dot (row A k) (vadd x (vscale (f j) d)) = dot (row A k) x + f j * dot (row A k) d) by (intros k Hk; rewrite dot_vadd_r by len; rewrite dot_vscale_r; reflexivity).
  split; [exact Ht|]. split; [exact Hi|]. split; [exact Pi|]. split.
  - apply vle_nth. split; [rewrite mv_length; lia|]. intros k Hk. rewrite mv_length, LA in Hk. rewrite nth_mv. fold (row A k). rewrite D by exact Hk. specialize (HX k Hk).
    destruct (Rltb 0 (dot (row A k) d)) eqn:Q.
    + apply Rltb_true in Q. specialize (Min k ltac:(lia)). unfold f at 2 in Min. rewrite (proj2 (Rltb_true _ _) Q) in Min.
      apply (Rmult_le_compat_r (dot (row A k) d)) in Min; [|lra]. replace ((nth k b 0 - dot (row A k) x) / dot (row A k) d * dot (row A k) d) with (nth k b 0 - dot (row A k) x) in Min by (field; lra). lra.
    + apply Rltb_false in Q. nra.
  - rewrite D by exact Hi. rewrite Ef. field. lra.
Qed.

Definition slack_rows (A : mat) (b : vec) (m : nat) (x : vec) : list nat := filter (fun i => Rltb (dot (row A i) x) (nth i b 0)) (seq 0 m).
Lemma filter_strict {T} (f g : T -> bool) l a : (forall x, In x l -> g x = true -> f x = true) -> In a l -> f a = true -> g a = false -> (length (filter g l) < length (filter f l))%nat.
Proof.
  intros Hfg Ha Fa Ga. assert (LE : forall l, (forall x, In x l -> g x = true -> f x = true) -> (length (filter g l) <= length (filter f l))%nat).
  { clear. induction l as [|x l IH]; intros H; [reflexivity|]. cbn [filter]. specialize (IH ltac:(intros; apply H; [right|]; assumption)). pose proof (H x (or_introl eq_refl)) as Hx. destruct (g x), (f x); cbn [length]; try lia; specialize (Hx eq_refl); discriminate Hx. }
  induction l as [|x l IH]; [destruct Ha|]. cbn [filter]. destruct Ha as [ -> |Ha].
  - rewrite Fa, Ga. cbn [length]. specialize (LE l ltac:(intros; apply Hfg; [right|]; assumption)). lia.
  - specialize (IH ltac:(intros; apply Hfg; [right|]; assumption) Ha). pose proof (Hfg x (or_introl eq_refl)) as Hx. destruct (g x), (f x); cbn [length]; try lia; specialize (Hx eq_refl); discriminate Hx.
Qed.

Lemma bounded_dir p m me n x d : wf p m me n -> bounded_set (in_poly p) -> in_poly p x -> length d = n -> d <> zeros n -> mv (pC p) d = zeros me -> exists i, (i < m)%nat /\ 0 < dot (row (pA p) i) d.
Proof.
  intros W (M & HM) Hx Ld Nd Cd. apply NNPP. intros No. assert (NP : forall i, (i < m)%nat -> dot (row (pA p) i) d <= 0) by (intros i Hi; apply Rnot_lt_le; intros Q; apply No; eauto). clear No.
  pose proof W as (HA & Hb & HC & Hd). apply (in_poly_vle _ _ _ _ _ W) in Hx. destruct Hx as (Lx & Vx & Cx). apply vle_nth in Vx. destruct Vx as (Lv & Vx).
  assert (In : forall t, 0 <= t -> in_poly p (vadd x (vscale t d))).
  { intros t Ht. apply (in_poly_vle _ _ _ _ _ W). split; [len|]. split.
    - apply vle_nth. split; [rewrite mv_length in *; lia|]. intros i Hi. rewrite mv_length in Hi. rewrite nth_mv. specialize (Vx i ltac:(rewrite mv_length; exact Hi)). rewrite nth_mv in Vx. fold (row (pA p) i) in *.
      rewrite dot_vadd_r by len. rewrite dot_vscale_r. specialize (NP i ltac:(rewrite <- (proj1 HA); exact Hi)). nra.
    - rewrite (mv_vadd _ me n) by (auto; len). rewrite mv_vscale, Cd, Cx. apply vec_ext; [len|]. intros i Hi. autorewrite with len in Hi. rewrite nth_vadd by len. rewrite nth_vscale, nth_zeros. ring. }
  assert (Pd : 0 < norm d). { destruct (Req_dec (norm d) 0) as [Z|Z]; [|pose proof (norm_nonneg d); lra]. exfalso. apply Nd. rewrite <- Ld. apply norm_zero_iff, Z. }
  set (t := (Rmax M 0 + norm x + 1) / norm d). assert (Hn := norm_nonneg x). pose proof (Rmax_r M 0). pose proof (Rmax_l M 0). assert (Ht : 0 <= t) by (unfold t; apply Rmult_le_pos; [lra|left; apply Rinv_0_lt_compat; exact Pd]).
  pose proof (HM _ (In t Ht)) as B1.
  assert (Tri : dot d (vadd x (vscale t d)) <= norm d * M). { eapply Rle_trans; [apply dot_le_norm|]. apply Rmult_le_compat_l; [lra|exact B1]. }
  rewrite dot_vadd_r in Tri by len. rewrite dot_vscale_r, <- norm_sqr in Tri. pose proof (dot_le_norm (vneg d) x) as Q. rewrite dot_vneg_l, norm_vneg in Q.
  replace (t * (norm d * norm d)) with ((Rmax M 0 + norm x + 1) * norm d) in Tri by (unfold t; field; lra). nra.
Qed.

Lemma polytope_hull p m me n V : wf p m me n -> bounded_set (in_poly p) -> Forall (fun v => length v = n) V -> (forall v, extreme (in_poly p) v -> In v V) -> forall x, in_poly p x -> in_hull n V x.
Proof.
  intros W B LV HV. pose proof W as (HA & Hb & HC & Hd). assert (LA : length (rows (pA p)) = m) by apply HA.
  assert (G : forall k x, (length (slack_rows (pA p) (pb p) m x) <= k)%nat -> in_poly p x -> in_hull n V x).
  { induction k as [|k IH]; intros x Hk Hx; (destruct (classic (extreme (in_poly p) x)) as [Ex|Ex]; [apply in_hull_pt; auto|]).
    all: assert (Q : exists y z, in_poly p y /\ in_poly p z /\ vscale 2 x = vadd y z /\ y <> z) by (apply NNPP; intros No; apply Ex; split; [exact Hx|]; intros y z Hy Hz E; apply NNPP; intros Ne; apply No; exists y, z; auto).
    all: destruct Q as (y & z & Hy & Hz & E & Ne).
    all: pose proof (proj1 (in_poly_vle _ _ _ _ _ W) Hx) as (Lx & Vx & Cx); pose proof (proj1 (in_poly_vle _ _ _ _ _ W) Hy) as (Ly & Vy & Cy); pose proof (proj1 (in_poly_vle _ _ _ _ _ W) Hz) as (Lz & Vz & Cz).
    all: set (d := vsub y x); assert (Ld : length d = n) by (unfold d; len).
    all: assert (Nx : forall i, (i < n)%nat -> 2 * nth i x 0 = nth i y 0 + nth i z 0) by (intros i Hi; apply (f_equal (fun v => nth i v 0)) in E; rewrite nth_vscale, nth_vadd in E by len; exact E).
    all: assert (Nd : d <> zeros n) by (intros Q; apply Ne; assert (Dx : forall i, (i < n)%nat -> nth i y 0 - nth i x 0 = 0) by (intros i Hi; apply (f_equal (fun v => nth i v 0)) in Q; unfold d in Q; rewrite nth_vsub, nth_zeros in Q by len; exact Q); apply vec_ext; [len|]; intros i Hi; rewrite Ly in Hi; specialize (Dx i Hi); specialize (Nx i Hi); lra).
    all: assert (Cd : mv (pC p) d = zeros me) by (unfold d; rewrite (mv_vsub _ me n) by auto; rewrite Cy, Cx; rewrite vsub_self, Hd; reflexivity).
    all: assert (Nd' : vneg d <> zeros n) by (intros Q; apply Nd; rewrite <- (vneg_vneg d), Q; apply vec_ext; [len|]; intros i Hi; rewrite nth_vneg, !nth_zeros; ring).
    all: assert (Cd' : mv (pC p) (vneg d) = zeros me) by (rewrite mv_vneg, Cd; apply vec_ext; [len|]; intros i Hi; rewrite nth_vneg, !nth_zeros; ring).
    all: assert (Act : forall i, (i < m)%nat -> dot (row (pA p) i) x = nth i (pb p) 0 -> dot (row (pA p) i) d = 0).
    1,3: (intros i Hi Ei; apply vle_nth in Vy; apply vle_nth in Vz; destruct Vy as (_ & Vy); destruct Vz as (_ & Vz); specialize (Vy i ltac:(rewrite mv_length; lia)); specialize (Vz i ltac:(rewrite mv_length; lia)); rewrite nth_mv in Vy, Vz; fold (row (pA p) i) in Vy, Vz;
      assert (S : 2 * dot (row (pA p) i) x = dot (row (pA p) i) y + dot (row (pA p) i) z) by (rewrite <- dot_vscale_r, E, dot_vadd_r by len; reflexivity); unfold d; rewrite dot_vsub_r by len; lra).
    all: destruct (bounded_dir p m me n x d W B Hx Ld Nd Cd) as (i1 & Hi1 & Pi1); destruct (bounded_dir p m me n x (vneg d) W B Hx ltac:(len) Nd' Cd') as (i2 & Hi2 & Pi2).
    all: destruct (ray_exit (pA p) (pb p) x d m n HA Hb Lx Ld Vx ltac:(eauto)) as (t1 & j1 & T1 & J1 & P1 & V1 & E1); destruct (ray_exit (pA p) (pb p) x (vneg d) m n HA Hb Lx ltac:(len) Vx ltac:(eauto)) as (t2 & j2 & T2 & J2 & P2 & V2 & E2).
    all: assert (S1 : dot (row (pA p) j1) x < nth j1 (pb p) 0) by (apply vle_nth in Vx; destruct Vx as (_ & Vx); specialize (Vx j1 ltac:(rewrite mv_length; lia)); rewrite nth_mv in Vx; fold (row (pA p) j1) in Vx; destruct Vx as [Q|Q]; [exact Q|]; exfalso; apply (Act j1 J1) in Q; lra).
    all: assert (S2 : dot (row (pA p) j2) x < nth j2 (pb p) 0) by (apply vle_nth in Vx; destruct Vx as (_ & Vx); specialize (Vx j2 ltac:(rewrite mv_length; lia)); rewrite nth_mv in Vx; fold (row (pA p) j2) in Vx; destruct Vx as [Q|Q]; [exact Q|]; exfalso; apply (Act j2 J2) in Q; rewrite dot_vneg_r in P2; lra).
    - exfalso. assert (I : In j1 (slack_rows (pA p) (pb p) m x)) by (apply filter_In; split; [apply in_seq; lia|apply Rltb_true, S1]). destruct (slack_rows (pA p) (pb p) m x); [destruct I|cbn in Hk; lia].
    - set (x1 := vadd x (vscale t1 d)) in *. set (x2 := vadd x (vscale t2 (vneg d))) in *.
      assert (C0 : forall t, mv (pC p) (vadd x (vscale t d)) = pd p). { intros t. rewrite (mv_vadd _ me n) by (auto; len). rewrite mv_vscale, Cd, Cx. apply vec_ext; [len|]. intros i Hi. autorewrite with len in Hi. rewrite nth_vadd by len. rewrite nth_vscale, nth_zeros. ring. }
      assert (Ex2 : x2 = vadd x (vscale (- t2) d)). { unfold x2. f_equal. apply vec_ext; [len|]. intros i Hi. rewrite !nth_vscale, nth_vneg. ring. }
      assert (L1 : length x1 = n) by (unfold x1; len). assert (L2 : length x2 = n) by (unfold x2; len).
      assert (H1 : in_poly p x1) by (apply (in_poly_vle _ _ _ _ _ W); split; [exact L1|]; split; [exact V1|apply C0]).
      assert (H2 : in_poly p x2) by (apply (in_poly_vle _ _ _ _ _ W); split; [exact L2|]; split; [exact V2|rewrite Ex2; apply C0]).
      assert (D1 : forall i, dot (row (pA p) i) x1 = dot (row (pA p) i) x + t1 * dot (row (pA p) i) d) by (intros i; unfold x1; rewrite dot_vadd_r by len; rewrite dot_vscale_r; reflexivity).
      assert (D2 : forall i, dot (row (pA p) i) x2 = dot (row (pA p) i) x - t2 * dot (row (pA p) i) d) by (intros i; rewrite Ex2; rewrite dot_vadd_r by len; rewrite dot_vscale_r; ring).
      assert (Less : forall w j, (j < m)%nat -> (forall i, dot (row (pA p) i) d = 0 -> dot (row (pA p) i) w = dot (row (pA p) i) x) -> dot (row (pA p) j) w = nth j (pb p) 0 -> dot (row (pA p) j) x < nth j (pb p) 0 -> (length (slack_rows (pA p) (pb p) m w) <= k)%nat).
      { intros w j Hj Dw Ew Sx. apply Nat.lt_succ_r. eapply Nat.lt_le_trans; [|exact Hk]. unfold slack_rows. apply (filter_strict _ _ _ j).
        - intros i Hi Q. apply in_seq in Hi. apply Rltb_true in Q. apply Rltb_true. apply vle_nth in Vx. destruct Vx as (_ & Vx'). specialize (Vx' i ltac:(rewrite mv_length; lia)). rewrite nth_mv in Vx'. fold (row (pA p) i) in Vx'. destruct Vx' as [Q'|Q']; [exact Q'|]. rewrite (Dw i (Act i ltac:(lia) Q')) in Q. lra.
        - apply in_seq. lia.
        - apply Rltb_true, Sx.
        - apply Rltb_false. lra. }
      assert (I1 : in_hull n V x1). { apply IH; [|exact H1]. apply (Less x1 j1 J1); auto. intros i Q. rewrite D1, Q. ring. }
      assert (I2 : in_hull n V x2). { apply IH; [|exact H2]. apply (Less x2 j2 J2); auto. intros i Q. rewrite D2, Q. ring. }
      assert (T1' : 0 < t1). { destruct T1 as [Q|Q]; [exact Q|]. exfalso. rewrite D1, <- Q in E1. lra. }
      assert (T2' : 0 < t2). { destruct T2 as [Q|Q]; [exact Q|]. exfalso. rewrite D2, <- Q in E2. lra. }
      assert (S12 : 0 < t1 + t2) by lra. assert (TT : 0 <= t2 / (t1 + t2) <= 1). { split; [apply Rmult_le_pos; [lra|left; apply Rinv_0_lt_compat; lra]|]. apply Rmult_le_reg_r with (t1 + t2); [lra|]. unfold Rdiv. rewrite Rmult_assoc, Rinv_l by lra. lra. }
      replace x with (vadd (vscale (t2 / (t1 + t2)) x1) (vscale (1 - t2 / (t1 + t2)) x2)); [apply in_hull_convex; auto|].
      apply vec_ext; [len|]. intros i Hi. rewrite nth_vadd by len. rewrite !nth_vscale. rewrite Ex2. unfold x1. rewrite !nth_vadd by len. rewrite !nth_vscale. field. lra. }
  intros x Hx. apply (G _ x (Nat.le_refl _) Hx).
Qed.
Lemma hull_inside p m me n V x : wf p m me n -> Forall (in_poly p) V -> in_hull n V x -> in_poly p x.
Proof.
  intros W HV Hx. pose proof W as (HA & Hb & HC & Hd). assert (LV : Forall (fun v => length v = n) V) by (eapply Forall_impl; [|exact HV]; intros v Hv; apply (in_poly_vle _ _ _ _ _ W) in Hv; apply Hv).
  rewrite Forall_forall in HV. apply (in_poly_vle _ _ _ _ _ W). split; [destruct Hx as (l & _ & _ & _ & ->); apply lincomb_length; exact LV|]. split.
  - apply vle_nth. split; [rewrite mv_length, Hb; apply HA|]. intros i Hi. rewrite mv_length in Hi. rewrite nth_mv. apply (in_hull_max n V); auto. intros v Hv. apply HV in Hv. apply (in_poly_vle _ _ _ _ _ W) in Hv. destruct Hv as (_ & Hv & _). apply vle_nth in Hv. destruct Hv as (_ & Hv). specialize (Hv i ltac:(rewrite mv_length; exact Hi)). rewrite nth_mv in Hv. exact Hv.
  - apply vec_ext; [rewrite mv_length, Hd; apply HC|]. intros i Hi. rewrite mv_length in Hi. rewrite nth_mv. set (c := nth i (rows (pC p)) []).
    assert (EQ : forall v, In v V -> dot c v = nth i (pd p) 0). { intros v Hv. apply HV in Hv. apply (in_poly_vle _ _ _ _ _ W) in Hv. destruct Hv as (_ & _ & Hv). unfold c. rewrite <- nth_mv, Hv. reflexivity. }
    apply Rle_antisym; [apply (in_hull_max n V); auto; intros v Hv; rewrite (EQ v Hv); lra|].
    assert (Q : dot (vneg c) x <= - nth i (pd p) 0) by (apply (in_hull_max n V); auto; intros v Hv; rewrite dot_vneg_l, (EQ v Hv); lra). rewrite dot_vneg_l in Q. lra.
Qed.
