(** * PolyChebThms: Chebyshev ball (C13), proofs *)
From Coq Require Import ZArith.
From Verif Require Import Arr ArrFacts Spec Numpy Pnnls PnnlsFacts QpFacts GeomUtils Polyhedron PolyThms Oracle SolverThms NullFacts PolySolveThms PolySetThms PolyBoundThms.

(** every point within distance r of c satisfies the inequalities *)
Definition inball (A : mat) (b : vec) (n : nat) (c : vec) (r : R) : Prop :=
  forall y, length y = n -> dist2 y c <= r * r -> vle (mv A y) b.

Lemma norm_le_sqr v r : 0 <= r -> dot v v <= r * r -> norm v <= r.
Proof. intros Hr H. unfold norm. rewrite <- (sqrt_square r) by auto. now apply sqrt_le_1_alt. Qed.

Lemma ball_iff A b m n c r : shape A m n -> length b = m -> length c = n -> 0 <= r ->
  inball A b n c r <-> forall i, (i < m)%nat -> dot (row A i) c + norm (row A i) * r <= nth i b 0.
Proof.
  intros HA Hb Lc Hr. assert (LA : length (rows A) = m) by apply HA. split.
  - intros H i Hi. assert (La : length (row A i) = n) by (eapply shape_row; eauto). set (a := row A i) in *.
    destruct (Rle_lt_or_eq_dec _ _ (norm_nonneg a)) as [Na|Na].
    + assert (L : length (vadd c (vscale (r / norm a) a)) = n) by len.
      pose proof (norm_sqr a) as Q.
      assert (D : dist2 (vadd c (vscale (r / norm a) a)) c <= r * r).
      { unfold dist2. replace (vsub (vadd c (vscale (r / norm a) a)) c) with (vscale (r / norm a) a) by vring.
        rewrite dot_vscale_l, dot_vscale_r, <- Q. right. field. lra. }
      specialize (H _ L D). apply vle_nth in H. destruct H as (_ & H). specialize (H i ltac:(len)). rewrite nth_mv in H. fold (row A i) in H. fold a in H.
      rewrite dot_vadd_r in H by len. rewrite dot_vscale_r, <- Q in H.
      replace (r / norm a * (norm a * norm a)) with (norm a * r) in H by (field; lra). lra.
    + rewrite <- Na. assert (D : dist2 c c <= r * r). { unfold dist2. rewrite vsub_self, dot_zeros_l. nra. }
      specialize (H _ Lc D). apply vle_nth in H. destruct H as (_ & H). specialize (H i ltac:(len)). rewrite nth_mv in H. fold (row A i) in H. fold a in H. lra.
  - intros H y Ly D. apply vle_nth. split; [len|]. intros i Hi. lenh Hi. rewrite nth_mv. fold (row A i). specialize (H i ltac:(lia)).
    assert (La : length (row A i) = n) by (eapply shape_row; eauto; lia).
    pose proof (dot_le_norm (row A i) (vsub y c)) as Q. rewrite dot_vsub_r in Q by len.
    assert (norm (vsub y c) <= r) by (apply norm_le_sqr; auto).
    pose proof (norm_nonneg (row A i)). assert (norm (row A i) * norm (vsub y c) <= norm (row A i) * r) by (apply Rmult_le_compat_l; auto). lra.
Qed.

(** the matrix of the Chebyshev LP *)
Definition cheb_A (A : mat) : mat := hstack A (Mat 1 (map (fun r => [- norm r]) (rows A))).
Lemma shape_cheb A m n : shape A m n -> shape (cheb_A A) m (n + 1).
Proof.
  intros HA. apply shape_hstack; auto. destruct HA as (L & _ & _). split; [cbn; len|]. split; [reflexivity|].
  apply Forall_forall. intros r Hr. apply in_map_iff in Hr. destruct Hr as (a & <- & _). reflexivity.
Qed.
Lemma mv_cheb A m n c s : shape A m n -> length c = n ->
  mv (cheb_A A) (c ++ [s]) = map (fun a => dot a c - norm a * s) (rows A).
Proof.
  intros HA Lc. unfold cheb_A. rewrite (mv_hstack A _ m n 1); auto.
  - unfold mv, vadd. cbn [rows]. rewrite map2_map_l, map_map, map2_map_r, map2_same. apply map_ext. intros a. cbn. ring.
  - destruct HA as (L & _ & _). split; [cbn; len|]. split; [reflexivity|].
    apply Forall_forall. intros r Hr. apply in_map_iff in Hr. destruct Hr as (a & <- & _). reflexivity.
Qed.
Lemma vle_cheb A b m n c s : shape A m n -> length b = m -> length c = n ->
  vle (mv (cheb_A A) (c ++ [s])) b <-> forall i, (i < m)%nat -> dot (row A i) c + norm (row A i) * (- s) <= nth i b 0.
Proof.
  intros HA Hb Lc. assert (LA : length (rows A) = m) by apply HA. rewrite (mv_cheb A m n) by auto. rewrite vle_nth.
  assert (E : forall i, (i < m)%nat -> nth i (map (fun a => dot a c - norm a * s) (rows A)) 0 = dot (row A i) c - norm (row A i) * s).
  { intros i Hi. rewrite nth_indep with (d' := dot [] c - norm [] * s) by len.
    exact (map_nth (fun a => dot a c - norm a * s) (rows A) [] i). }
  split.
  - intros (_ & H) i Hi. specialize (H i ltac:(len)). rewrite E in H by auto. lra.
  - intros H. split; [len|]. intros i Hi. lenh Hi. rewrite E by lia. specialize (H i ltac:(lia)). lra.
Qed.
Lemma split_last (x : vec) n : length x = (n + 1)%nat -> exists c s, x = c ++ [s] /\ length c = n.
Proof.
  intros H. exists (removelast x), (last x 0). split.
  - apply app_removelast_last. intros ->. cbn in H. lia.
  - destruct x as [|a l] using rev_ind; [cbn in H; lia|]. rewrite removelast_last. lenh H. lia.
Qed.
Lemma dot_cheb_f n c s : length c = n -> dot (zeros n ++ ones 1) (c ++ [s]) = s.
Proof. intros Lc. rewrite dot_app by len. rewrite dot_zeros_l. cbn. ring. Qed.

Section Cheb.
Variable np : numpy.
Hypothesis Hnp : exact_np np.
Variables (A : mat) (b : vec) (m n : nat).
Hypothesis HA : shape A m n.
Hypothesis Hb : length b = m.

Lemma cheb_lp_solved s0 z0 lo : length z0 = n -> vle (mv (cheb_A A) (z0 ++ [s0])) b ->
  (forall c s, length c = n -> vle (mv (cheb_A A) (c ++ [s])) b -> lo <= s) ->
  exists s c t, lp np (zeros n ++ ones 1) (cheb_A A) b None None = Ok s /\ s_min s = Some t /\ s_argmin s = Some (c ++ [t]) /\
    length c = n /\ vle (mv (cheb_A A) (c ++ [t])) b /\
    (forall c' s', length c' = n -> vle (mv (cheb_A A) (c' ++ [s'])) b -> t <= s').
Proof.
  intros L0 V0 Hlo.
  destruct (lp_solved np (zeros n ++ ones 1) (cheb_A A) b m (n + 1) (z0 ++ [s0]) lo Hnp (shape_cheb A m n HA) Hb ltac:(len) ltac:(len) V0)
    as (s & x & l & E & Em & Ea & Lx & Vx & Opt & _).
  { intros x Lx Vx. destruct (split_last x n Lx) as (c & t & -> & Lc). rewrite dot_cheb_f by auto. eapply Hlo; eauto. }
  destruct (split_last x n Lx) as (c & t & -> & Lc). rewrite dot_cheb_f in * by auto.
  exists s, c, t. repeat match goal with |- _ /\ _ => split end; auto.
  intros c' s' Lc' Vc'. specialize (Opt (c' ++ [s']) ltac:(len) Vc'). now rewrite dot_cheb_f in Opt by auto.
Qed.

Lemma cheb_nonempty z0 M : length z0 = n -> vle (mv A z0) b ->
  (forall c r, length c = n -> 0 <= r -> inball A b n c r -> r <= M) ->
  exists s c r, lp np (zeros n ++ ones 1) (cheb_A A) b None None = Ok s /\ s_min s = Some (- r) /\ s_argmin s = Some (c ++ [- r]) /\
    length c = n /\ 0 <= r /\ inball A b n c r /\
    (forall c' r', length c' = n -> 0 <= r' -> inball A b n c' r' -> r' <= r).
Proof.
  intros L0 V0 HM. assert (LA : length (rows A) = m) by apply HA.
  assert (F0 : vle (mv (cheb_A A) (z0 ++ [0])) b).
  { apply (vle_cheb A b m n); auto. intros i Hi. apply vle_nth in V0. destruct V0 as (_ & V0). specialize (V0 i ltac:(len)). rewrite nth_mv in V0. unfold row. lra. }
  destruct (cheb_lp_solved 0 z0 (Rmin 0 (- M)) L0 F0) as (s & c & t & E & Em & Ea & Lc & Vc & Opt).
  { intros c s Lc Vc. destruct (Rle_dec 0 s) as [H|H]; [pose proof (Rmin_l 0 (- M)); lra|].
    assert (- s <= M). { apply (HM c); auto; [lra|]. apply (ball_iff A b m n); auto; [lra|]. now apply (vle_cheb A b m n). }
    pose proof (Rmin_r 0 (- M)). lra. }
  assert (Ht : t <= 0) by (apply (Opt z0); auto).
  exists s, c, (- t). rewrite Ropp_involutive. repeat match goal with |- _ /\ _ => split end; auto; [lra| |].
  - apply (ball_iff A b m n); auto; [lra|]. now apply (vle_cheb A b m n).
  - intros c' r' Lc' Hr' B'. rewrite (ball_iff A b m n) in B' by auto.
    specialize (Opt c' (- r') Lc'). enough (t <= - r') by lra. apply Opt. apply (vle_cheb A b m n); auto. rewrite Ropp_involutive. exact B'.
Qed.

Lemma cheb_some_feasible : (forall i, (i < m)%nat -> row A i <> zeros n) ->
  exists s, 0 <= s /\ forall i, (i < m)%nat -> dot (row A i) (zeros n) + norm (row A i) * (- (s)) <= nth i b 0.
Proof.
  intros Hrow. assert (LA : length (rows A) = m) by apply HA.
  assert (G : forall k, (k <= m)%nat -> exists s, 0 <= s /\ forall i, (i < k)%nat -> - nth i b 0 <= norm (row A i) * s).
  { induction k as [|k IH]; intros Hk.
    - exists 0. split; [lra|]. intros; lia.
    - destruct IH as (s & Hs & IH); [lia|].
      assert (Np : 0 < norm (row A k)).
      { destruct (Rle_lt_or_eq_dec _ _ (norm_nonneg (row A k))) as [|E]; auto. exfalso. apply (Hrow k ltac:(lia)).
        symmetry in E. apply norm_zero in E. rewrite E. f_equal. eapply shape_row; eauto; lia. }
      exists (Rmax s (- nth k b 0 / norm (row A k))). split; [pose proof (Rmax_l s (- nth k b 0 / norm (row A k))); lra|].
      intros i Hi. destruct (Nat.eq_dec i k) as [->|].
      + pose proof (Rmax_r s (- nth k b 0 / norm (row A k))) as Q. apply Rmult_le_compat_l with (r := norm (row A k)) in Q; [|lra].
        replace (norm (row A k) * (- nth k b 0 / norm (row A k))) with (- nth k b 0) in Q by (field; lra). lra.
      + pose proof (Rmax_l s (- nth k b 0 / norm (row A k))) as Q. apply Rmult_le_compat_l with (r := norm (row A i)) in Q; [|apply norm_nonneg].
        specialize (IH i ltac:(lia)). lra. }
  destruct (G m (le_n m)) as (s & Hs & H). exists s. split; auto. intros i Hi. specialize (H i Hi). rewrite dot_zeros_r. lra.
Qed.

Lemma cheb_empty : (forall z, length z = n -> ~ vle (mv A z) b) -> (forall i, (i < m)%nat -> row A i <> zeros n) ->
  exists s c r, lp np (zeros n ++ ones 1) (cheb_A A) b None None = Ok s /\ s_min s = Some (- r) /\ s_argmin s = Some (c ++ [- r]) /\
    length c = n /\ r < 0.
Proof.
  intros He Hrow. assert (LA : length (rows A) = m) by apply HA.
  destruct (cheb_some_feasible Hrow) as (s0 & Hs0 & F0).
  assert (P : forall c s, length c = n -> vle (mv (cheb_A A) (c ++ [s])) b -> 0 < s).
  { intros c s Lc Vc. apply Rnot_le_lt. intros Hs. apply (He c Lc). rewrite (vle_cheb A b m n) in Vc by auto.
    apply vle_nth. split; [len|]. intros i Hi. lenh Hi. rewrite nth_mv. specialize (Vc i ltac:(lia)). pose proof (norm_nonneg (row A i)). unfold row in *. nra. }
  destruct (cheb_lp_solved s0 (zeros n) 0) as (s & c & t & E & Em & Ea & Lc & Vc & Opt); [len| | |].
  - apply (vle_cheb A b m n); auto. len.
  - intros c s Lc Vc. left. eapply P; eauto.
  - exists s, c, (- t). rewrite Ropp_involutive. repeat match goal with |- _ /\ _ => split end; auto. specialize (P c t Lc Vc). lra.
Qed.
End Cheb.

(** ** Balls in a polyhedron *)
(** c satisfies the equalities, and every point of the equalities within distance r of c is in the polyhedron *)
Definition ball_in (p : poly) (c : vec) (r : R) : Prop :=
  length c = ncols (pA p) /\ eq_holds (pC p) (pd p) c /\
  forall y, length y = ncols (pA p) -> eq_holds (pC p) (pd p) y -> dist2 y c <= r * r -> in_poly p y.
(** the largest ball *)
Definition largest_ball (p : poly) (c : vec) (r : R) : Prop :=
  0 <= r /\ ball_in p c r /\ forall c' r', 0 <= r' -> ball_in p c' r' -> r' <= r.
Definition radii_bounded (p : poly) : Prop := exists M, forall c r, 0 <= r -> ball_in p c r -> r <= M.

(** equalities that can be eliminated *)
Definition good_eqs (p : poly) (me n : nat) : Prop := me = 0%nat \/ ((me < n)%nat /\ indep_rows (pC p) me).

Lemma vsub_lift N R n k me r z z' : shape N n k -> shape R n me -> length r = me -> length z = k -> length z' = k ->
  dist2 (lift N R r z) (lift N R r z') = dot (mv N (vsub z z')) (mv N (vsub z z')).
Proof.
  intros HN HR Lr Lz Lz'. assert (LN : length (rows N) = n) by apply HN. assert (LR : length (rows R) = n) by apply HR.
  unfold dist2, lift. rewrite (mv_vsub N n k) by auto. f_equal; vring.
Qed.

(** what _chebyshev does, in terms of the reduced problem; [phi] is the change of variables *)
Lemma chebyshev_reduce np p m me n : exact_np np -> wf p m me n -> good_eqs p me n ->
  exists E f k phi, shape E m k /\ length f = m /\
    (forall z, length z = k -> length (phi z) = n /\ eq_holds (pC p) (pd p) (phi z)) /\
    (forall x, length x = n -> eq_holds (pC p) (pd p) x -> exists z, length z = k /\ x = phi z) /\
    (forall z, length z = k -> vle (mv E z) f <-> in_poly p (phi z)) /\
    (forall z z', length z = k -> length z' = k -> dist2 (phi z) (phi z') = dist2 z z') /\
    (forall z z' i, length z = k -> length z' = k -> (i < m)%nat -> dot (row E i) z - dot (row E i) z' = dot (row (pA p) i) (phi z) - dot (row (pA p) i) (phi z')) /\
    (forall s c t, lp np (zeros k ++ ones 1) (cheb_A E) f None None = Ok s -> s_min s = Some t -> s_argmin s = Some (c ++ [t]) -> length c = k ->
       chebyshev np (pA p) (pb p) (pC p) (pd p) = Ok (Some (- t), Some (phi c))).
Proof.
  intros Hnp W G. pose proof W as (HA & Hb & HC & Hd).
  assert (LA : length (rows (pA p)) = m) by apply HA. assert (LC : length (rows (pC p)) = me) by apply HC.
  assert (G' : me = 0%nat \/ ((0 < me)%nat /\ (me < n)%nat /\ indep_rows (pC p) me)) by (destruct G as [|(? & ?)]; [|destruct me; [|right; split; [lia|]]]; auto).
  destruct G' as [->|(Hpos & Hlt & Hind)].
  - exists (pA p), (pb p), n, (fun z => z).
    assert (Heq : forall z, eq_holds (pC p) (pd p) z). { intros z. unfold eq_holds. destruct (rows (pC p)); [|discriminate LC]. destruct (pd p); [|discriminate Hd]. constructor. }
    split; [auto|]. split; [auto|]. split; [intros z Lz; split; auto|]. split; [intros x Lx _; exists x; auto|]. split.
    { intros z Lz. rewrite (in_poly_vle _ _ _ _ _ W). specialize (Heq z). apply eq_holds_mv in Heq. tauto. }
    split; [auto|]. split; [auto|]. intros s c t E Em Ea Lc. unfold chebyshev.
    replace (nrows (pC p)) with 0%nat by (symmetry; exact LC). cbn [Nat.ltb Nat.leb bind]. fold (cheb_A (pA p)).
    replace (ncols (pA p)) with n by (symmetry; apply HA). rewrite E. cbn [bind]. rewrite Em, Ea, removelast_last. reflexivity.
  - pose proof (proj2 (proj2 (proj2 (proj2 (proj2 Hnp))))) as Hs. pose proof (proj1 (proj2 (proj2 (proj2 Hnp)))) as Hi.
    destruct (remove_equalities_ok np (pA p) (pb p) (pC p) (pd p) m me n Hs Hi HA Hb HC Hd)
      as [(_ & _ & E & f & N & R & X & ER & EX & SE & Lf & SN & SR & SX & Lr & -> & -> & Iso & HCl & HVl & Sur & _)|(Hno & _)];
      [|exfalso; apply Hno; auto].
    set (k := (n - me)%nat) in *. set (r := mv X (pd p)) in *.
    exists (mm (pA p) N), (vsub (pb p) (mv (pA p) (mv R r))), k, (lift N R r).
    assert (LN : length (rows N) = n) by apply SN. assert (LR : length (rows R) = n) by apply SR.
    assert (Ll : forall z, length z = k -> length (lift N R r z) = n) by (intros z Lz; unfold lift; len).
    split; [auto|]. split; [auto|]. split; [intros z Lz; split; [auto|apply eq_holds_mv; auto]|].
    split; [intros x Lx Hx; apply Sur; auto; now apply eq_holds_mv|]. split.
    { intros z Lz. rewrite HVl by auto. rewrite (in_poly_vle _ _ _ _ _ W). specialize (HCl z Lz). specialize (Ll z Lz). tauto. }
    split. { intros z z' Lz Lz'. rewrite (vsub_lift N R n k me) by auto. rewrite Iso by len. reflexivity. }
    split.
    { intros z z' i Lz Lz' Hi'. unfold row. rewrite <- !nth_mv. rewrite !(mv_mm (pA p) N n k) by auto. unfold lift.
      rewrite !(mv_vadd (pA p) m n) by (auto; len). rewrite !nth_vadd by len. ring. }
    intros s c t EL Em Ea Lc. unfold chebyshev. replace (nrows (pC p)) with me by (symmetry; exact LC).
    destruct me as [|me']; [exfalso; lia|]. cbn [Nat.ltb Nat.leb]. rewrite ER. cbn [bind].
    change (hstack (mm (pA p) N) (Mat 1 (map (fun r0 => [- norm r0]) (rows (mm (pA p) N))))) with (cheb_A (mm (pA p) N)).
    replace (ncols (mm (pA p) N)) with k by (symmetry; apply SE). rewrite EL. cbn [bind]. rewrite Em, Ea, removelast_last, EX. cbn [bind].
    fold r. rewrite (mv_hstack N R n k (S me')) by auto. reflexivity.
Qed.

Lemma eq_holds_len p m me n (c : vec) : wf p m me n -> length c = ncols (pA p) -> length c = n.
Proof. intros W ->. apply W. Qed.

Lemma chebyshev_ball np p m me n : exact_np np -> wf p m me n -> good_eqs p me n -> (exists x, in_poly p x) -> radii_bounded p ->
  exists r c, chebyshev np (pA p) (pb p) (pC p) (pd p) = Ok (Some r, Some c) /\ largest_ball p c r.
Proof.
  intros Hnp W G (x0 & Hx0) (M & HM).
  assert (NA : ncols (pA p) = n) by apply W.
  destruct (chebyshev_reduce np p m me n Hnp W G) as (E & f & k & phi & SE & Lf & Hphi & Sur & Hin & Iso & _ & Hch).
  assert (Ball : forall z r, length z = k -> inball E f k z r <-> ball_in p (phi z) r).
  { intros z r Lz. split.
    - intros B. destruct (Hphi z Lz) as (L1 & H1). split; [congruence|]. split; [auto|]. intros y Ly Hy Dy.
      destruct (Sur y ltac:(congruence) Hy) as (w & Lw & ->). rewrite Iso in Dy by auto. apply Hin; auto.
    - intros (_ & _ & B) w Lw Dw. apply Hin; auto. destruct (Hphi w Lw) as (L1 & H1). apply B; auto; [congruence|]. rewrite Iso; auto. }
  destruct (Sur x0) as (z0 & L0 & ->). { destruct Hx0 as (Lx & _). congruence. } { apply Hx0. }
  destruct (cheb_nonempty np Hnp E f m k SE Lf z0 M L0 (proj2 (Hin z0 L0) Hx0)) as (s & c & r & EL & Em & Ea & Lc & Hr & Bc & Opt).
  { intros c r Lc Hr Bc. apply (HM (phi c)); auto. now apply Ball. }
  exists r, (phi c). split.
  - rewrite (Hch s c (- r) EL Em Ea Lc), Ropp_involutive. reflexivity.
  - split; [auto|]. split; [now apply Ball|]. intros c' r' Hr' B'. pose proof B' as (L' & H' & _).
    destruct (Sur c' ltac:(congruence) H') as (w & Lw & ->). apply (Opt w); auto. now apply Ball.
Qed.

(*@ Theorem C13_chebyshev : For a non-empty polyhedron (no or independent equalities) in which balls of arbitrary radius do not fit, radius and center are those of a largest ball of the polyhedron (in the affine hull of the equalities). *)
Lemma chebyshev_ok np p m me n : exact_np np -> wf p m me n -> good_eqs p me n -> p_radius p = None -> p_center p = None ->
  (exists x, in_poly p x) -> radii_bounded p ->
  exists r c p', get_radius np p = (Ok (Some r), p') /\ get_center np p = (Ok (Some c), p') /\
    get_radius np p' = (Ok (Some r), p') /\ get_center np p' = (Ok (Some c), p') /\ largest_ball p c r.
Proof.
  intros Hnp W G Er Ec HX HM. destruct (chebyshev_ball np p m me n Hnp W G HX HM) as (r & c & E & B).
  exists r, c, (set_chebyshev p (Some r) (Some c)). unfold get_radius, get_center, pbind, pget, plift, pput, pret. rewrite Er, Ec, E. cbn. auto.
Qed.

(*@ Theorem C13_polytope : In particular for every non-empty polytope, when the equalities leave at least one degree of freedom. *)
Lemma chebyshev_polytope np p m me n : exact_np np -> wf p m me n -> good_eqs p me n -> (me < n)%nat -> p_radius p = None ->
  (exists x, in_poly p x) -> bounded_set (in_poly p) ->
  exists r c p', get_radius np p = (Ok (Some r), p') /\ p_center p' = Some c /\ largest_ball p c r.
Proof.
  intros Hnp W G Hlt Er HX (M & HM). assert (NA : ncols (pA p) = n) by apply W.
  assert (RB : radii_bounded p).
  { exists (2 * M). intros c r Hr (Lc & Hc & B). assert (LC : length (rows (pC p)) = me) by apply W.
    destruct (wide_kernel (pC p) me n) as (v & Lv & Nv & Kv); [apply W|auto|].
    assert (Dv : 0 < dot v v).
    { destruct (Rle_lt_or_eq_dec _ _ (dot_self_nonneg v)) as [|E]; auto. exfalso. apply Nv. symmetry in E. apply dot_self_zero in E. congruence. }
    pose proof (norm_sqr v) as Q. pose proof (norm_nonneg v) as Q0. assert (Np : 0 < norm v) by nra.
    set (y := vadd c (vscale (r / norm v) v)).
    assert (Ly : length y = n) by (unfold y; len).
    assert (Hy : in_poly p y).
    { apply B; [congruence| |].
      - apply eq_holds_mv. unfold y. rewrite (mv_vadd (pC p) me n) by (try apply W; len). rewrite mv_vscale, Kv, vscale_zeros.
        apply eq_holds_mv in Hc. rewrite Hc. apply vadd_zeros_r. apply W.
      - unfold dist2, y. replace (vsub (vadd c (vscale (r / norm v) v)) c) with (vscale (r / norm v) v) by vring.
        rewrite dot_vscale_l, dot_vscale_r, <- Q. right. field. lra. }
    assert (Hc' : in_poly p c). { apply B; auto. unfold dist2. rewrite vsub_self, dot_zeros_l. nra. }
    apply HM in Hy. apply HM in Hc'.
    pose proof (dot_le_norm v y) as Q1. pose proof (dot_le_norm (vneg v) c) as Q2. rewrite dot_vneg_l in Q2.
    assert (NV : norm (vneg v) = norm v) by (unfold norm; rewrite dot_vneg_l, dot_vneg_r, Ropp_involutive; reflexivity).
    rewrite NV in Q2. unfold y at 1 in Q1. rewrite dot_vadd_r in Q1 by len. rewrite dot_vscale_r, <- Q in Q1.
    replace (r / norm v * (norm v * norm v)) with (norm v * r) in Q1 by (field; lra).
    assert (norm v * norm y <= norm v * M) by (apply Rmult_le_compat_l; lra).
    assert (norm v * norm c <= norm v * M) by (apply Rmult_le_compat_l; lra).
    apply Rmult_le_reg_l with (norm v); [auto|]. lra. }
  destruct (chebyshev_ball np p m me n Hnp W G HX RB) as (r & c & E & B).
  exists r, c, (set_chebyshev p (Some r) (Some c)). unfold get_radius, pbind, pget, plift, pput, pret. rewrite Er, E. cbn. auto.
Qed.

(*@ Theorem C13_empty_negative : For an empty polyhedron none of whose inequalities is constant on the solutions of its equalities the radius is negative. *)
Lemma chebyshev_empty np p m me n : exact_np np -> wf p m me n -> good_eqs p me n -> p_radius p = None ->
  (forall x, ~ in_poly p x) ->
  (forall i, (i < m)%nat -> exists x y, length x = n /\ length y = n /\ eq_holds (pC p) (pd p) x /\ eq_holds (pC p) (pd p) y /\
     dot (row (pA p) i) x <> dot (row (pA p) i) y) ->
  exists r p', get_radius np p = (Ok (Some r), p') /\ r < 0.
Proof.
  intros Hnp W G Er He Hrow.
  destruct (chebyshev_reduce np p m me n Hnp W G) as (E & f & k & phi & SE & Lf & Hphi & Sur & Hin & Iso & Hdot & Hch).
  destruct (cheb_empty np Hnp E f m k SE Lf) as (s & c & r & EL & Em & Ea & Lc & Hr).
  { intros z Lz Vz. apply (He (phi z)). now apply Hin. }
  { intros i Hi E0. destruct (Hrow i Hi) as (x & y & Lx & Ly & Hx & Hy & Hxy). apply Hxy.
    destruct (Sur x Lx Hx) as (z & Lz & ->). destruct (Sur y Ly Hy) as (w & Lw & ->).
    specialize (Hdot z w i Lz Lw Hi). rewrite E0, !dot_zeros_l in Hdot. lra. }
  exists r, (set_chebyshev p (Some r) (Some (phi c))). split; [|auto].
  unfold get_radius, pbind, pget, plift, pput, pret. rewrite Er, (Hch s c (- r) EL Em Ea Lc), Ropp_involutive. reflexivity.
Qed.

(*@ Theorem C13_zero_row_refuted : The radius of the empty polyhedron {0 x <= -1} is None, not negative. *)
Lemma zero_row_refuted : exists p, wf p 1 0 1 /\ (forall x, ~ in_poly p x) /\
  forall np, exact_np np -> exists p', get_radius np p = (Ok None, p').
Proof.
  exists (Poly (Mat 1 [[0]]) [-1] (Mat 1 []) [] None None None None None).
  split; [unfold wf; simpl; repeat split; repeat constructor|]. split.
  - intros x (Lx & H & _). destruct x as [|a [|]]; try discriminate Lx. unfold ineq_holds in H. simpl in H. inv2 H. lra.
  - intros np Hnp. unfold get_radius, pbind, pget, plift. cbn [p_radius pA pb pC pd]. unfold chebyshev.
    change (0 <? nrows (Mat 1 []))%nat with false. cbn [bind]. fold (cheb_A (Mat 1 [[0]])).
    destruct (lp_any np (zeros (ncols (Mat 1 [[0]])) ++ ones 1) (cheb_A (Mat 1 [[0]])) [-1] 1 2 Hnp (shape_cheb (Mat 1 [[0]]) 1 1 ltac:(repeat split; repeat constructor)) eq_refl eq_refl)
      as (s & -> & [(-> & _)|(x & l & _ & _ & Lx & Hx & _)]).
    + eexists. reflexivity.
    + exfalso. specialize (Hx 0%nat ltac:(lia)). destruct x as [|a [|c [|]]]; try discriminate Lx. cbn in Hx.
      replace (norm [0]) with 0 in Hx by (symmetry; apply (norm_zeros 1)). unfold tol7 in Hx. lra.
Qed.

(** an LP whose only constraint and objective cannot be balanced returns None *)
Lemma cheb_halfline np e : exact_np np -> e * e = 1 -> lp np (zeros 1 ++ ones 1) (cheb_A (Mat 1 [[e]])) [0] None None = Ok sol_none.
Proof.
  intros Hnp He.
  destruct (lp_any np (zeros 1 ++ ones 1) (cheb_A (Mat 1 [[e]])) [0] 1 2 Hnp (shape_cheb (Mat 1 [[e]]) 1 1 ltac:(repeat split; repeat constructor)) eq_refl eq_refl)
      as (s & -> & [(-> & _)|(x & l & _ & _ & Lx & Hx & Ll & Nl & _ & Hz)]); [reflexivity|exfalso].
  destruct l as [|a [|]]; try discriminate Ll. assert (Ha := nonneg_nth _ 0 Nl). cbn in Ha.
  assert (Hn : norm [e] = 1). { unfold norm. cbn. rewrite Rplus_0_r, He. apply sqrt_1. }
  assert (N1 : norm [1; 0] = 1). { unfold norm. cbn. transitivity (sqrt 1); [f_equal; ring|apply sqrt_1]. }
  assert (N2 : norm [0; 1] = 1). { unfold norm. cbn. transitivity (sqrt 1); [f_equal; ring|apply sqrt_1]. }
  pose proof (Hz [1; 0] eq_refl) as H1. pose proof (Hz [0; 1] eq_refl) as H2. cbn in H1, H2. rewrite N1 in H1. rewrite N2, Hn in H2.
  replace (0 * 1 + (1 * 0 + 0) + (a * (e * 1 + (- norm [e] * 0 + 0)) + 0)) with (a * e) in H1 by ring.
  replace (0 * 0 + (1 * 1 + 0) + (a * (e * 0 + (- (1) * 1 + 0)) + 0)) with (1 - a) in H2 by ring.
  assert (Rabs (a * e) = a). { rewrite Rabs_mult. rewrite (Rabs_right a) by lra. assert (Rabs e = 1); [|nra].
    pose proof (Rabs_pos e). assert (Rabs e * Rabs e = 1) by (rewrite <- Rabs_mult, He; apply Rabs_R1). nra. }
  pose proof (Rle_abs (1 - a)). unfold tol7 in *. lra.
Qed.

(*@ Theorem C13_unbounded_none : The half line {x >= 0} has radius and center None. *)
Lemma unbounded_none np : exact_np np ->
  let p := Poly (Mat 1 [[-1]]) [0] (Mat 1 []) [] None None None None None in
  get_radius np p = (Ok None, p) /\ get_center np p = (Ok None, p).
Proof.
  intros Hnp p. unfold p, get_radius, get_center, pbind, pget, plift. cbn [p_radius p_center pA pb pC pd]. unfold chebyshev.
  change (0 <? nrows (Mat 1 []))%nat with false. cbn [bind]. fold (cheb_A (Mat 1 [[-1]])).
  change (ncols (Mat 1 [[-1]])) with 1%nat. rewrite (cheb_halfline np (-1) Hnp) by lra. cbn. auto.
Qed.

(*@ Theorem C13_unbounded_equalities_refuted : With an equality the same half line, {x0 = 0, x1 >= 0}, makes radius raise ValueError (np.concatenate of None). *)
Lemma unbounded_equalities_refuted np : exact_np np ->
  exists p, wf p 1 1 2 /\ good_eqs p 1 2 /\ (exists x, in_poly p x) /\ fst (get_radius np p) = Err ValueError.
Proof.
  intros Hnp. set (p := Poly (Mat 2 [[0; -1]]) [0] (Mat 2 [[1; 0]]) [0] None None None None None).
  assert (W : wf p 1 1 2) by (unfold wf; simpl; repeat split; repeat constructor).
  assert (G : good_eqs p 1 2).
  { right. split; [lia|]. intros y Ly H. destruct y as [|a [|]]; try discriminate Ly. cbn in H. injection H as H1 H2. cbn. f_equal. lra. }
  exists p. split; [exact W|]. split; [exact G|]. split.
  { exists [0; 0]. split; [reflexivity|]. split; [apply Forall2_cons; [cbn; lra|constructor]|apply Forall2_cons; [cbn; lra|constructor]]. }
  destruct (chebyshev_reduce np p 1 1 2 Hnp W G) as (E & f & k & phi & SE & Lf & Hphi & Sur & Hin & Iso & Hdot & _).
  pose proof (proj2 (proj2 (proj2 (proj2 (proj2 Hnp))))) as Hs. pose proof (proj1 (proj2 (proj2 (proj2 Hnp)))) as Hi.
  clear E f k phi SE Lf Hphi Sur Hin Iso Hdot.
  destruct G as [|(Hlt & Hind)]; [discriminate|]. pose proof W as (HA & Hb & HC & Hd).
  destruct (remove_equalities_ok np (pA p) (pb p) (pC p) (pd p) 1 1 2 Hs Hi HA Hb HC Hd)
      as [(_ & _ & E & f & N & R & X & ER & EX & SE & Lf & SN & SR & SX & Lr & -> & Ef & Iso & HCl & HVl & Sur & _)|(Hno & _)];
      [|exfalso; apply Hno; auto].
  change (2 - 1)%nat with 1%nat in *.
  assert (LN : length (rows N) = 2%nat) by apply SN.
  (* N = [[0];[e]] with e^2 = 1 *)
  assert (EN : exists e, N = Mat 1 [[0]; [e]] /\ e * e = 1).
  { destruct N as (nc & [|ra [|rb [|]]]); try discriminate LN. destruct SN as (_ & Hn & HF). cbn in Hn, HF. rewrite Hn in *.
    inversion HF as [|? ? H1 HF2]. inversion HF2 as [|? ? H2 _].
    destruct ra as [|a [|]]; try discriminate H1. destruct rb as [|e [|]]; try discriminate H2.
    pose proof (HCl [1] eq_refl) as C1. pose proof (HCl [0] eq_refl) as C0. unfold lift in C1, C0.
    destruct (mv R (mv X (pd p))) as [|r0 [|r1 [|]]] eqn:ERr;
      try (apply (f_equal (@length _)) in ERr; rewrite mv_length in ERr; destruct SR as (SR & _); rewrite SR in ERr; discriminate ERr).
    cbn in C1, C0. injection C1 as C1. injection C0 as C0. pose proof (Iso [1] [1] eq_refl eq_refl) as I1. cbn in I1.
    assert (a = 0) by lra. subst a. exists e. split; [reflexivity|]. lra. }
  destruct EN as (e & -> & He).
  assert (EE : mm (pA p) (Mat 1 [[0]; [e]]) = Mat 1 [[- e]]). { cbn. unfold mm. cbn. do 2 f_equal. unfold vm, lincomb, zeros, vadd, vscale. cbn. f_equal. f_equal. ring. }
  assert (Ef' : f = [0]).
  { rewrite Ef. destruct (mv X (pd p)) as [|x0 [|]] eqn:EXd; try discriminate Lr.
    assert (x0 = 0). { destruct X as (xc & [|xr [|]]); destruct SX as (LX & SX & FX); try discriminate LX. cbn in EXd. injection EXd as EXd.
      inversion FX as [|? ? H1 _]. destruct xr as [|a [|]]; try discriminate H1. cbn in EXd. lra. }
    subst x0. assert (Z : mv R [0] = zeros 2). { change [0] with (zeros 1). rewrite mv_zeros. f_equal. apply SR. }
    rewrite Z. cbn. f_equal. ring. }
  unfold get_radius, pbind, pget, plift. cbn [p_radius p]. unfold chebyshev.
  change (0 <? nrows (pC p))%nat with true. cbn [bind]. fold p. rewrite ER. cbn [bind]. rewrite EE, Ef'. fold (cheb_A (Mat 1 [[- e]])).
  change (ncols (Mat 1 [[- e]])) with 1%nat. rewrite (cheb_halfline np (- e) Hnp) by lra. cbn [bind]. rewrite EX. reflexivity.
Qed.

(*@ Example C13_example : The segment {x <= 3, -x <= 1} has radius 2 and center 1. *)
Lemma chebyshev_example :
  let p := Poly (Mat 1 [[1]; [-1]]) [3; 1] (Mat 1 []) [] None None None None None in
  exists p', get_radius np0 p = (Ok (Some 2), p') /\ p_center p' = Some [1].
Proof.
  intros p.
  assert (W : wf p 2 0 1) by (unfold wf; simpl; repeat split; repeat constructor).
  destruct (chebyshev_polytope np0 p 2 0 1 np0_exact W (or_introl eq_refl) ltac:(lia) eq_refl) as (r & c & p' & E & Ec & (Hr & B & Opt)).
  - exists [0]. split; [reflexivity|]. split; [repeat (apply Forall2_cons; [cbn; lra|]); constructor|constructor].
  - exists 3. intros x (Lx & H & _). destruct x as [|a [|]]; try discriminate Lx. unfold ineq_holds in H. simpl in H. inv2 H.
    apply norm_le_sqr; [lra|]. cbn. nra.
  - assert (B2 : ball_in p [1] 2).
    { split; [reflexivity|]. split; [constructor|]. intros y Ly _ D. destruct y as [|a [|]]; try discriminate Ly. unfold dist2 in D. cbn in D.
      split; [reflexivity|]. split; [repeat (apply Forall2_cons; [cbn; nra|]); constructor|constructor]. }
    specialize (Opt _ 2 ltac:(lra) B2). destruct B as (Lc & _ & B). destruct c as [|c0 [|]]; try discriminate Lc.
    assert (Bp : in_poly p [c0 + r]) by (apply B; [reflexivity|constructor|unfold dist2; cbn; nra]).
    assert (Bm : in_poly p [c0 - r]) by (apply B; [reflexivity|constructor|unfold dist2; cbn; nra]).
    destruct Bp as (_ & Bp & _). destruct Bm as (_ & Bm & _). unfold ineq_holds in Bp, Bm. simpl in Bp, Bm. inv2 Bp. inv2 Bm.
    assert (r = 2) by lra. assert (c0 = 1) by lra. subst r c0. exists p'. auto.
Qed.
