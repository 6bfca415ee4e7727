(** * VertThms: vertices of polytopes in two or more dimensions (C68), proofs *)
From Coq Require Import ZArith Classical.
From Verif Require Import Arr ArrFacts Spec SpecVert Numpy Pnnls PnnlsFacts QpFacts GeomUtils Polyhedron PolyThms Oracle SolverThms NullFacts PolySolveThms PolyMore PolySetThms PolyBoundThms PolyChebThms PolyCacheThms PolyVertThms GeomThms HullOracle VertOracle VertFacts.

(** the vertices, once the center c is known *)
Definition vertices_from (np : numpy) (p : poly) (c : vec) : res (list vec) :=
  if (0 <? nrows (pC p))%nat then
    q <- remove_equalities np (pA p) (pb p) (pC p) (pd p) ;;
    let '(A, b, N, R) := q in
    let T := hstack N R in
    T1 <- np_inv np T ;;
    vs <- (if Nat.eqb (ncols A) 1 then vertices_1d np A b else np_halfspaces np A b (firstn (ncols N) (mv T1 c))) ;;
    CR1 <- np_inv np (mm (pC p) R) ;;
    Ok (map (fun v => mv T (v ++ mv CR1 (pd p))) vs)
  else if Nat.eqb (ncols (pA p)) 1 then vertices_1d np (pA p) (pb p) else np_halfspaces np (pA p) (pb p) c.
Lemma vertices_run np p m me n : exact_np np -> wf p m me n -> good_eqs p me n -> (me < n)%nat -> fresh p = p ->
  (exists x, in_poly p x) -> bounded_set (in_poly p) ->
  exists r c, largest_ball p c r /\ fst (get_vertices np p) = if Rltb r tol7 then Ok None else bind (vertices_from np p c) (fun v => Ok (Some v)).
Proof.
  intros Hnp W G Lt Fr HX B.
  destruct (chebyshev_polytope np p m me n Hnp W G Lt ltac:(rewrite <- Fr; reflexivity) HX B) as (r & c & pr & Er & Ec & LB). exists r, c. split; [exact LB|].
  assert (EB : fst (get_bounded np p) = Ok true) by (destruct (polytope_is_bounded np p m me n Hnp W) as (p' & ->); try (rewrite <- Fr; reflexivity); auto).
  assert (ER : fst (get_radius np p) = Ok (Some r)) by (now rewrite Er).
  assert (EC : fst (get_center np p) = Ok (Some c)).
  { unfold get_radius, get_center, pbind, pget, plift, pput, pret in *. rewrite <- Fr in Er |- *. cbn [fresh p_radius p_center] in Er |- *.
    destruct (chebyshev np _ _ _ _) as [[r' c']|]; [|discriminate Er]. injection Er as _ <-. cbn in Ec |- *. rewrite Ec. reflexivity. }
  assert (CO : cache_ok np p) by (rewrite <- Fr; apply cache_fresh).
  destruct (bounded_coh np p CO) as (_ & F1 & H1). destruct (get_bounded np p) as [rb p1] eqn:Gb. cbn [fst snd] in *. subst rb.
  destruct (radius_coh np p1 H1) as (E2 & F2 & H2). rewrite F1, Fr in E2, F2. rewrite ER in E2. destruct (get_radius np p1) as [rr p2] eqn:Gr. cbn [fst snd] in *. subst rr.
  destruct (center_coh np p2 H2) as (E3 & F3 & H3). rewrite F2, EC in E3. destruct (get_center np p2) as [rc p3] eqn:Gc. cbn [fst snd] in *. subst rc.
  assert (EA : pA p2 = pA p /\ pb p2 = pb p /\ pC p2 = pC p /\ pd p2 = pd p). { rewrite <- F2. auto. } destruct EA as (EA1 & EA2 & EA3 & EA4).
  rewrite vertices_eq. unfold pbind at 1, pget at 1. replace (p_vertices p) with (@None (list vec)) by (rewrite <- Fr; reflexivity).
  unfold pbind at 1. rewrite Gb. cbn [negb]. unfold pbind at 1. rewrite Gr. destruct (Rltb r tol7); [reflexivity|].
  unfold vertices_body, vertices_from, pbind, pget, plift. rewrite EA1, EA2, EA3, EA4. destruct (0 <? nrows (pC p))%nat.
  - destruct (remove_equalities np (pA p) (pb p) (pC p) (pd p)) as [[[[A b] N] R]|e]; [|reflexivity]. cbn [bind]. destruct (np_inv np (hstack N R)) as [T1|e]; [|reflexivity]. rewrite Gc. cbn [bind].
    destruct (if Nat.eqb (ncols A) 1 then vertices_1d np A b else np_halfspaces np A b (firstn (ncols N) (mv T1 c))); [|reflexivity]. cbn [bind]. destruct (np_inv np (mm (pC p) R)); reflexivity.
  - rewrite Gc. destruct (if Nat.eqb (ncols (pA p)) 1 then vertices_1d np (pA p) (pb p) else np_halfspaces np (pA p) (pb p) c); reflexivity.
Qed.

(** the center of a ball of positive radius satisfies strictly the inequalities that some point satisfies strictly *)
Lemma center_strict p m me n c r : wf p m me n -> 0 < r -> ball_in p c r ->
  forall i x, (i < m)%nat -> in_poly p x -> dot (row (pA p) i) x < nth i (pb p) 0 -> dot (row (pA p) i) c < nth i (pb p) 0.
Proof.
  intros W Hr (Lc & Hc & Bc) i x Hi Hx Sx. pose proof W as (HA & Hb & HC & Hd). rewrite (proj1 (proj2 HA)) in *.
  assert (LA : length (rows (pA p)) = m) by apply HA.
  assert (Row : forall y, in_poly p y -> dot (row (pA p) i) y <= nth i (pb p) 0). { intros y Hy. apply (in_poly_vle _ _ _ _ _ W) in Hy. destruct Hy as (_ & Hy & _). apply vle_nth in Hy. destruct Hy as (_ & Hy). specialize (Hy i ltac:(rewrite mv_length; lia)). rewrite nth_mv in Hy. exact Hy. }
  assert (Pc : in_poly p c). { apply Bc; auto. unfold dist2. rewrite vsub_self, dot_zeros_l. nra. }
  destruct (Row c Pc) as [|E]; [assumption|]. exfalso.
  pose proof Hx as Hx'. apply (in_poly_vle _ _ _ _ _ W) in Hx'. destruct Hx' as (Lx & _ & Cx).
  set (u := vsub c x). assert (Lu : length u = n) by (unfold u; len).
  set (e := r / (1 + norm u)). pose proof (norm_nonneg u) as Nu. assert (He : 0 < e) by (unfold e; apply Rmult_lt_0_compat; [exact Hr|apply Rinv_0_lt_compat; lra]).
  assert (Py : in_poly p (vadd c (vscale e u))).
  { apply Bc; [len| |].
    - apply eq_holds_mv. rewrite (mv_vadd _ me n) by (auto; len). rewrite mv_vscale. unfold u. rewrite (mv_vsub _ me n) by auto. apply eq_holds_mv in Hc. rewrite Hc, Cx. apply vec_ext; [len|]. intros j Hj. autorewrite with len in Hj. rewrite nth_vadd by len. rewrite nth_vscale, nth_vsub by len. ring.
    - unfold dist2. replace (vsub (vadd c (vscale e u)) c) with (vscale e u) by (apply vec_ext; [len|]; intros j Hj; rewrite nth_vsub, nth_vadd by len; ring). rewrite dot_vscale_l, dot_vscale_r. rewrite <- norm_sqr.
      assert (Q : e * norm u <= r). { unfold e. apply Rmult_le_reg_r with (1 + norm u); [lra|]. replace (r / (1 + norm u) * norm u * (1 + norm u)) with (r * norm u) by (field; lra). nra. }
      assert (0 <= e * norm u) by (apply Rmult_le_pos; lra). nra. }
  apply Row in Py. rewrite dot_vadd_r in Py by len. rewrite dot_vscale_r in Py. unfold u in Py. rewrite dot_vsub_r in Py by len. rewrite E in Py. nra.
Qed.

Lemma extreme_ext S S' v : (forall x, S x <-> S' x) -> (extreme S v <-> extreme S' v).
Proof. intros H. unfold extreme. rewrite (H v). apply and_iff_compat_l. split; intros K y z Hy Hz; apply K; apply H; assumption. Qed.
(** extreme points and changes of variables *)
Lemma extreme_transport (S S' : vec -> Prop) (phi : vec -> vec) : (forall z, S z -> S' (phi z)) -> (forall x, S' x -> exists z, S z /\ x = phi z) ->
  (forall z y y', S z -> S y -> S y' -> (vscale 2 (phi z) = vadd (phi y) (phi y') <-> vscale 2 z = vadd y y')) -> (forall y y', S y -> S y' -> phi y = phi y' -> y = y') ->
  forall x, extreme S' x <-> exists z, extreme S z /\ x = phi z.
Proof.
  intros H1 H2 H3 H4 x. split.
  - intros (Hx & E). destruct (H2 x Hx) as (z & Hz & ->). exists z. split; [|reflexivity]. split; [exact Hz|]. intros y y' Hy Hy' Q. apply H4; auto. apply E; auto. apply H3; auto.
  - intros (z & (Hz & E) & ->). split; [auto|]. intros y y' Hy Hy' Q. destruct (H2 y Hy) as (w & Hw & ->). destruct (H2 y' Hy') as (w' & Hw' & ->). f_equal. apply E; auto. apply H3; auto.
Qed.

(** what the elimination of the equalities does to a point and to the inequalities *)
Lemma eliminated np p m me n : exact_np np -> wf p m me n -> (me < n)%nat -> indep_rows (pC p) me ->
  exists E f N R T1 X, remove_equalities np (pA p) (pb p) (pC p) (pd p) = Ok (E, f, N, R) /\ np_inv np (hstack N R) = Ok T1 /\ np_inv np (mm (pC p) R) = Ok X /\
    shape E m (n - me) /\ length f = m /\ shape N n (n - me) /\
    let phi := lift N R (mv X (pd p)) in
    (forall z, length z = (n - me)%nat -> mv (hstack N R) (z ++ mv X (pd p)) = phi z /\ firstn (n - me) (mv T1 (phi z)) = z /\ length (phi z) = n) /\
    (forall z, length z = (n - me)%nat -> in_poly p (phi z) <-> ineq_set E f z) /\
    (forall x, in_poly p x -> exists z, length z = (n - me)%nat /\ x = phi z) /\
    (forall z y y', length z = (n - me)%nat -> length y = (n - me)%nat -> length y' = (n - me)%nat -> (vscale 2 (phi z) = vadd (phi y) (phi y') <-> vscale 2 z = vadd y y')) /\
    (forall z i, length z = (n - me)%nat -> (i < m)%nat -> nth i f 0 - dot (row E i) z = nth i (pb p) 0 - dot (row (pA p) i) (phi z)) /\
    (forall z, length z = (n - me)%nat -> norm z <= norm (phi z)) /\
    (forall x, length x = n -> mv (pC p) x = pd p -> exists z, length z = (n - me)%nat /\ x = phi z) /\
    (forall z z', length z = (n - me)%nat -> length z' = (n - me)%nat -> dist2 (phi z) (phi z') = dist2 z z') /\
    (forall z z' t, length z = (n - me)%nat -> length z' = (n - me)%nat -> phi (vadd z (vscale t (vsub z' z))) = vadd (phi z) (vscale t (vsub (phi z') (phi z)))) /\
    (forall z, length z = (n - me)%nat -> mv (pC p) (phi z) = pd p).
Proof.
  intros Hnp W Lt I. pose proof Hnp as (_ & _ & _ & Hinv & _ & Hsvd). pose proof W as (HA & Hb & HC & Hd).
  destruct (remove_equalities_ok np (pA p) (pb p) (pC p) (pd p) m me n Hsvd Hinv HA Hb HC Hd) as [(_ & _ & E & f & N & R & X & ER & EX & H)|(N & _)]; [|elim N; auto].
  cbv zeta in H. set (k := (n - me)%nat) in *. set (r := mv X (pd p)) in *. destruct H as (SE & Lf & SN & SR & SX & Lr & EE & Ef & Iso & HCl & HIn & Sur & Ort).
  assert (LN : length (rows N) = n) by apply SN. assert (LR : length (rows R) = n) by apply SR. assert (LA : length (rows (pA p)) = m) by apply HA.
  assert (Kn : (k + me = n)%nat) by (unfold k; lia).
  assert (ST : shape (hstack N R) n n) by (rewrite <- Kn at 2; auto with shp).
  assert (Tl : forall z w, length z = k -> length w = me -> mv (hstack N R) (z ++ w) = vadd (mv N z) (mv R w)) by (intros z w Lz Lw; apply (mv_hstack N R n k me); auto).
  assert (RI : forall w, length w = me -> mv R w = zeros n -> w = zeros me).
  { intros w Lw Z. destruct (Hinv (mm (pC p) R) me ltac:(eauto with shp)) as [(K & _)|(_ & Q)]; [|rewrite Q in EX; discriminate EX]. apply K; [exact Lw|]. rewrite (mv_mm _ R n me) by exact SR. rewrite Z, mv_zeros. f_equal. apply HC. }
  destruct (Hinv (hstack N R) n ST) as [(_ & T1 & ET & ST1 & _ & I2)|((v & Lv & Nv & Ev) & _)].
  2:{ exfalso. apply Nv. rewrite <- (firstn_skipn k v) in Ev |- *. set (z := firstn k v) in *. set (w := skipn k v) in *. assert (Lz : length z = k) by (unfold z; len). assert (Lw : length w = me) by (unfold w; len).
      rewrite Tl in Ev by auto. assert (Q : dot (mv N z) (vadd (mv N z) (mv R w)) = 0) by (rewrite Ev; apply dot_zeros_r). rewrite dot_vadd_r in Q by len. rewrite Ort, Iso, Rplus_0_r in Q by auto. apply dot_self_zero in Q. rewrite Lz in Q.
      rewrite Q, mv_zeros, LN in Ev. rewrite Q. rewrite (RI w Lw); [rewrite <- Kn; symmetry; apply zeros_app|]. rewrite <- Ev. apply vec_ext; [len|]. intros i Hi. autorewrite with len in Hi. rewrite nth_vadd by len. rewrite nth_zeros. ring. }
  exists E, f, N, R, T1, X. split; [exact ER|]. split; [exact ET|]. split; [exact EX|]. split; [exact SE|]. split; [exact Lf|]. split; [exact SN|]. cbv zeta. fold r.
  assert (Lphi : forall z, length (lift N R r z) = n) by (intros z; unfold lift; len).
  assert (Dphi : forall z z', length z = k -> length z' = k -> vsub (lift N R r z) (lift N R r z') = mv N (vsub z z')).
  { intros z z' Lz Lz'. rewrite (mv_vsub N n k) by auto. unfold lift. apply vec_ext; [len|]. intros i Hi. rewrite !nth_vsub, !nth_vadd by len. ring. }
  assert (NI : forall z, length z = k -> mv N z = zeros n -> z = zeros k) by (intros z Lz Z; rewrite <- Lz; apply dot_self_zero; rewrite <- Iso by auto; rewrite Z; apply dot_zeros_l).
  split; [|split; [|split; [|split; [|split; [|split; [|split; [|split; [|split]]]]]]]].
  - intros z Lz. split; [apply Tl; auto|]. split; [|apply Lphi]. unfold lift. rewrite <- Tl by auto. rewrite <- (mv_mm T1 _ n n) by exact ST. rewrite I2, mv_eye by len. apply firstn_app_l, Lz.
  - intros z Lz. unfold ineq_set. rewrite ineq_holds_vle, (HIn z Lz), (in_poly_vle _ _ _ _ _ W), (HCl z Lz), (proj1 (proj2 SE)). split; [intros (_ & Q & _); auto|intros (_ & Q); auto].
  - intros x Hx. apply (in_poly_vle _ _ _ _ _ W) in Hx. apply Sur; apply Hx.
  - intros z y y' Lz Ly Ly'.
    assert (Q : vsub (vscale 2 (lift N R r z)) (vadd (lift N R r y) (lift N R r y')) = mv N (vsub (vscale 2 z) (vadd y y'))).
    { rewrite (mv_vsub N n k) by (first [exact SN|len]). rewrite mv_vscale, (mv_vadd N n k) by auto. unfold lift. apply vec_ext; [len|]. intros i Hi. rewrite !nth_vsub, !nth_vscale, !nth_vadd by len. ring. }
    split; intros H.
    + assert (Z : vsub (vscale 2 z) (vadd y y') = zeros k) by (apply NI; [len|]; rewrite <- Q, H, vsub_self; f_equal; rewrite vadd_length, !Lphi; apply Nat.min_id). apply (vsub_zero_eq _ _ k); auto; len.
    + rewrite H, vsub_self in Q. replace (length (vadd y y')) with k in Q by len. rewrite mv_zeros, LN in Q. apply (vsub_zero_eq _ _ n); auto; try rewrite vscale_length; try rewrite vadd_length; rewrite ?Lphi; auto using Nat.min_id.
  - intros z i Lz Hi. rewrite EE, Ef. rewrite nth_vsub by len. rewrite nth_mv. fold (row (pA p) i). unfold row at 2. rewrite <- nth_mv. rewrite (mv_mm _ N n k) by exact SN. rewrite nth_mv. fold (row (pA p) i). unfold lift. rewrite dot_vadd_r by len. ring.
  - intros z Lz. apply sqrt_le_1_alt. unfold lift. assert (Q : dot (vadd (mv N z) (mv R r)) (vadd (mv N z) (mv R r)) = dot z z + dot (mv R r) (mv R r)). { rewrite dot_vadd_l, !dot_vadd_r by len. rewrite Iso, (dot_comm (mv R r)), Ort by auto. ring. }
    rewrite Q. pose proof (dot_self_nonneg (mv R r)). lra.
  - exact Sur.
  - intros z z' Lz Lz'. unfold dist2. rewrite Dphi by auto. apply Iso; len.
  - intros z z' t Lz Lz'. rewrite Dphi by auto. unfold lift. rewrite (mv_vadd N n k) by (first [exact SN|len]). rewrite mv_vscale. apply vec_ext; [len|]. intros i Hi. rewrite !nth_vadd by len. ring.
  - exact HCl.
Qed.

Section Polytope.
Variable np : numpy.
Hypothesis Hnp : exact_np np.
Hypothesis Hhs : halfspaces_ok np.
Variables (p : poly) (m me n : nat).
Hypothesis W : wf p m me n.
Hypothesis G : good_eqs p me n.
Hypothesis Bd : bounded_set (in_poly p).

Lemma ball_point c r : 0 <= r -> ball_in p c r -> in_poly p c.
Proof. intros Hr (Lc & Hc & Bc). apply Bc; auto. unfold dist2. rewrite vsub_self, dot_zeros_l. nra. Qed.
Lemma no_eq_set : me = 0%nat -> forall x, ineq_set (pA p) (pb p) x <-> in_poly p x.
Proof.
  intros E x. pose proof W as (HA & Hb & HC & Hd). unfold ineq_set, in_poly, in_set. rewrite E in HC, Hd. assert (Q : eq_holds (pC p) (pd p) x) by (unfold eq_holds; destruct (rows (pC p)) eqn:K; [|destruct HC as (HC & _); rewrite K in HC; discriminate HC]; destruct (pd p); [constructor|discriminate Hd]).
  split; [intros (H1 & H2)|intros (H1 & H2 & _)]; auto.
Qed.

(** the outcome of the enumeration depends on whether the center is strictly inside *)
Lemma vertices_from_ok c : (me + 2 <= n)%nat -> in_poly p c ->
  ((forall i, (i < m)%nat -> dot (row (pA p) i) c < nth i (pb p) 0) -> exists V, vertices_from np p c = Ok V /\ forall v, In v V <-> extreme (in_poly p) v) /\
  (~ (forall i, (i < m)%nat -> dot (row (pA p) i) c < nth i (pb p) 0) -> vertices_from np p c = Err QhullError).
Proof.
  intros Lt Hc. pose proof W as (HA & Hb & HC & Hd). assert (LC : length (rows (pC p)) = me) by apply HC. assert (NA : ncols (pA p) = n) by apply HA. unfold vertices_from, nrows. rewrite LC, NA.
  assert (Lc : length c = n) by (rewrite <- NA; apply Hc).
  destruct (Nat.ltb_spec 0 me) as [Pm|Zm].
  - destruct G as [G0|(_ & I)]; [lia|]. destruct (eliminated np p m me n Hnp W ltac:(lia) I) as (E & f & N & R & T1 & X & ER & ET & EX & SE & Lf & SN & H). cbv zeta in H. set (phi := lift N R (mv X (pd p))) in *. destruct H as (H1 & H2 & H3 & H4 & H5 & H6 & _).
    rewrite ER. cbn [bind]. rewrite ET. cbn [bind]. rewrite (proj1 (proj2 SE)), (proj1 (proj2 SN)). replace (Nat.eqb (n - me) 1) with false by (symmetry; apply Nat.eqb_neq; lia).
    destruct (H3 c Hc) as (z & Lz & Ez). rewrite Ez. rewrite (proj1 (proj2 (H1 z Lz))).
    assert (SI : strictly_inside E f z <-> forall i, (i < m)%nat -> dot (row (pA p) i) (phi z) < nth i (pb p) 0).
    { rewrite (strictly_nth E f m (n - me)) by auto. split; [intros (_ & Q)|intros Q; split; [exact Lz|]]; intros i Hi; specialize (Q i Hi); pose proof (H5 z i Lz Hi); lra. }
    destruct (Hhs E f z m (n - me)%nat SE Lf ltac:(lia) Lz) as (K1 & K2). split; intros Hs.
    + destruct (K1 (proj2 SI Hs)) as (V & EV & HV).
      { destruct Bd as (M & HM). exists M. intros y Hy. assert (Ly : length y = (n - me)%nat) by (rewrite <- (proj1 (proj2 SE)); apply Hy). eapply Rle_trans; [apply H6, Ly|]. apply HM, H2; auto. }
      rewrite EV. cbn [bind]. rewrite EX. cbn [bind]. eexists. split; [reflexivity|]. intros v.
      assert (Len : forall y, ineq_set E f y -> length y = (n - me)%nat) by (intros y Hy; rewrite <- (proj1 (proj2 SE)); apply Hy).
      rewrite in_map_iff. rewrite (extreme_transport (ineq_set E f) (in_poly p) phi).
      * split; intros (y & Q1 & Q2); exists y.
        -- apply HV in Q2. split; [exact Q2|]. rewrite <- Q1. apply H1. apply Len, Q2.
        -- split; [rewrite Q2; apply H1; apply Len, Q1|apply HV, Q1].
      * intros y Hy. apply H2; auto.
      * intros x Hx. destruct (H3 x Hx) as (y & Ly & ->). exists y. split; [apply H2; auto|reflexivity].
      * intros y y' y'' Q1 Q2 Q3. apply H4; auto.
      * intros y y' Q1 Q2 Q. assert (S : vscale 2 (phi y) = vadd (phi y') (phi y')) by (rewrite Q; apply vec_ext; [len|]; intros i Hi; rewrite nth_vscale, nth_vadd by len; ring).
        apply (proj1 (H4 y y' y' (Len _ Q1) (Len _ Q2) (Len _ Q2))) in S. apply vec_ext; [rewrite (Len _ Q1), (Len _ Q2); reflexivity|]. intros i Hi. apply (f_equal (fun v => nth i v 0)) in S. rewrite nth_vscale, nth_vadd in S by reflexivity. lra.
    + rewrite K2; [reflexivity|]. intros Q. apply Hs, SI, Q.
  - assert (Z : me = 0%nat) by lia. replace (Nat.eqb n 1) with false by (symmetry; apply Nat.eqb_neq; lia).
    destruct (Hhs (pA p) (pb p) c m n HA Hb ltac:(lia) Lc) as (K1 & K2). pose proof (strictly_nth (pA p) (pb p) m n c HA Hb) as SI. split; intros Hs.
    + destruct K1 as (V & EV & HV); [apply SI; auto|destruct Bd as (M & HM); exists M; intros y Hy; apply HM, no_eq_set; auto|]. exists V. split; [exact EV|]. intros v. rewrite HV. apply extreme_ext, no_eq_set, Z.
    + apply K2. intros Q. apply Hs, SI, Q.
Qed.
End Polytope.

(*@ Theorem C68_vertices : For a polytope with independent equalities (or none) leaving two or more degrees of freedom, with a ball of radius tol and every inequality strict at some point, vertices are exactly the extreme points, and the polytope is their convex hull. *)
Lemma polytope_vertices np p m me n : exact_np np -> halfspaces_ok np -> wf p m me n -> good_eqs p me n -> (me + 2 <= n)%nat -> fresh p = p ->
  bounded_set (in_poly p) -> (exists c, ball_in p c tol7) -> (forall i, (i < m)%nat -> exists x, in_poly p x /\ dot (row (pA p) i) x < nth i (pb p) 0) ->
  exists V p', get_vertices np p = (Ok (Some V), p') /\ (forall v, In v V <-> extreme (in_poly p) v) /\ (forall x, in_poly p x <-> in_hull n V x).
Proof.
  intros Hnp Hhs W G Lt Fr B (c0 & B0) St. pose proof tol7_pos as Tp.
  destruct (vertices_run np p m me n Hnp W G ltac:(lia) Fr ltac:(exists c0; apply (ball_point p c0 tol7); [lra|exact B0]) B) as (r & c & (Hr & Br & Mx) & Ev).
  assert (Rt : tol7 <= r) by (apply (Mx c0); [lra|exact B0]). replace (Rltb r tol7) with false in Ev by (symmetry; apply Rltb_false; exact Rt).
  destruct (vertices_from_ok np Hnp Hhs p m me n W G B c Lt (ball_point p c r ltac:(lra) Br)) as (K & _). destruct K as (V & EV & HV).
  { intros i Hi. destruct (St i Hi) as (x & Hx & Sx). apply (center_strict p m me n c r W ltac:(lra) Br i x); auto. }
  rewrite EV in Ev. cbn [bind] in Ev. exists V, (snd (get_vertices np p)). split; [rewrite <- Ev; apply surjective_pairing|]. split; [exact HV|].
  assert (FV : Forall (in_poly p) V) by (apply Forall_forall; intros v Hv; apply HV in Hv; apply Hv).
  intros x. split.
  - apply (polytope_hull p m me n V W B); [|intros v Hv; apply HV, Hv]. eapply Forall_impl; [|exact FV]. intros v Hv. apply (in_poly_vle _ _ _ _ _ W) in Hv. apply Hv.
  - apply (hull_inside p m me n V x W FV).
Qed.

(*@ Theorem C68_implicit_refuted : If instead some inequality holds with equality on the whole polytope (as the row 0 x <= 0 does), vertices raises QhullError: no center is strictly inside. *)
Lemma implicit_refuted np p m me n i : exact_np np -> halfspaces_ok np -> wf p m me n -> good_eqs p me n -> (me + 2 <= n)%nat -> fresh p = p ->
  bounded_set (in_poly p) -> (exists c, ball_in p c tol7) -> (i < m)%nat -> (forall x, in_poly p x -> dot (row (pA p) i) x = nth i (pb p) 0) ->
  fst (get_vertices np p) = Err QhullError.
Proof.
  intros Hnp Hhs W G Lt Fr B (c0 & B0) Hi Im. pose proof tol7_pos as Tp.
  destruct (vertices_run np p m me n Hnp W G ltac:(lia) Fr ltac:(exists c0; apply (ball_point p c0 tol7); [lra|exact B0]) B) as (r & c & (Hr & Br & Mx) & Ev).
  assert (Rt : tol7 <= r) by (apply (Mx c0); [lra|exact B0]). replace (Rltb r tol7) with false in Ev by (symmetry; apply Rltb_false; exact Rt).
  pose proof (ball_point p c r ltac:(lra) Br) as Pc. destruct (vertices_from_ok np Hnp Hhs p m me n W G B c Lt Pc) as (_ & K). rewrite Ev, K; [reflexivity|].
  intros Q. specialize (Q i Hi). rewrite (Im c Pc) in Q. lra.
Qed.

(*@ Theorem C68_thin : A non-empty polytope without a ball of radius tol has vertices None, in any dimension. *)
Lemma thin_vertices np p m me n : exact_np np -> wf p m me n -> good_eqs p me n -> (me < n)%nat -> fresh p = p ->
  (exists x, in_poly p x) -> bounded_set (in_poly p) -> (forall c, ~ ball_in p c tol7) -> fst (get_vertices np p) = Ok None.
Proof.
  intros Hnp W G Lt Fr HX B Nb. pose proof tol7_pos as Tp. destruct (vertices_run np p m me n Hnp W G Lt Fr HX B) as (r & c & (Hr & (Lc & Hc & Bc) & Mx) & Ev).
  replace (Rltb r tol7) with true in Ev; [exact Ev|]. symmetry. apply Rltb_true. apply Rnot_le_lt. intros Q. apply (Nb c). split; [exact Lc|]. split; [exact Hc|]. intros y Ly Hy Dy. apply Bc; auto. nra.
Qed.

(*@ Theorem C68_empty : An empty polyhedron none of whose inequalities is constant on the solutions of its equalities has vertices None. *)
Lemma empty_vertices np p m me n : exact_np np -> wf p m me n -> good_eqs p me n -> fresh p = p -> (forall x, ~ in_poly p x) ->
  (forall i, (i < m)%nat -> exists x y, length x = n /\ length y = n /\ eq_holds (pC p) (pd p) x /\ eq_holds (pC p) (pd p) y /\
     dot (row (pA p) i) x <> dot (row (pA p) i) y) ->
  fst (get_vertices np p) = Ok None.
Proof.
  intros Hnp W G Fr He Hi. pose proof tol7_pos as Tp. destruct (chebyshev_empty np p m me n Hnp W G ltac:(rewrite <- Fr; reflexivity) He Hi) as (r & pr & Er & Nr).
  assert (EB : fst (get_bounded np p) = Ok true). { destruct (polytope_is_bounded np p m me n Hnp W) as (p' & ->); try (rewrite <- Fr; reflexivity); auto. exists 0. intros x Hx. elim (He x Hx). }
  assert (ER : fst (get_radius np p) = Ok (Some r)) by (now rewrite Er).
  assert (CO : cache_ok np p) by (rewrite <- Fr; apply cache_fresh).
  destruct (bounded_coh np p CO) as (_ & F1 & H1). destruct (get_bounded np p) as [rb p1] eqn:Gb. cbn [fst snd] in *. subst rb.
  destruct (radius_coh np p1 H1) as (E2 & _ & _). rewrite F1, Fr in E2. rewrite ER in E2. destruct (get_radius np p1) as [rr p2] eqn:Gr. cbn [fst snd] in *. subst rr.
  rewrite vertices_eq. unfold pbind at 1, pget at 1. replace (p_vertices p) with (@None (list vec)) by (rewrite <- Fr; reflexivity).
  unfold pbind at 1. rewrite Gb. cbn [negb]. unfold pbind at 1. rewrite Gr. replace (Rltb r tol7) with true by (symmetry; apply Rltb_true; lra). reflexivity.
Qed.

Lemma norm_triangle u v : length u = length v -> norm (vadd u v) <= norm u + norm v.
Proof.
  intros L. pose proof (norm_nonneg u). pose proof (norm_nonneg v). apply norm_le_sqr; [lra|]. rewrite dot_vadd_l, !dot_vadd_r by len. rewrite (dot_comm v u). pose proof (dot_le_norm u v). pose proof (norm_sqr u). pose proof (norm_sqr v). nra.
Qed.
(*@ Theorem C68_segment : A segment from u to w of length at least 2 tol, cut out of a line by independent equalities and inequalities none of which is redundant by less than tol, has the two vertices u and w. *)
Lemma line_segment_vertices np p m me u w : exact_np np -> wf p m me (me + 1) -> (0 < me)%nat -> indep_rows (pC p) me -> fresh p = p ->
  2 * tol7 <= norm (vsub w u) -> length u = (me + 1)%nat -> length w = (me + 1)%nat ->
  (forall x, in_poly p x <-> exists t, 0 <= t <= 1 /\ x = vadd u (vscale t (vsub w u))) -> (exists x, in_poly p x /\ near x) -> redundancy_gap p m tol7 ->
  exists p', get_vertices np p = (Ok (Some [u; w]), p') \/ get_vertices np p = (Ok (Some [w; u]), p').
Proof.
  intros Hnp W Pm I Fr Lg Lu Lw Hseg (x0 & Hx0 & Nx0) Gap. pose proof tol7_pos as Tp. pose proof W as (HA & Hb & HC & Hd).
  assert (NA : ncols (pA p) = (me + 1)%nat) by apply HA. assert (LC : length (rows (pC p)) = me) by apply HC.
  assert (Vlen : length (vsub w u) = (me + 1)%nat) by len.
  assert (Hu : in_poly p u). { apply Hseg. exists 0. split; [lra|]. apply vec_ext; [len|]. intros i Hi. rewrite nth_vadd by len. rewrite nth_vscale. ring. }
  assert (Hw : in_poly p w). { apply Hseg. exists 1. split; [lra|]. apply vec_ext; [len|]. intros i Hi. rewrite nth_vadd by len. rewrite nth_vscale, nth_vsub by len. ring. }
  assert (B : bounded_set (in_poly p)).
  { exists (norm u + norm (vsub w u)). intros x Hx. apply Hseg in Hx. destruct Hx as (t & Ht & ->). eapply Rle_trans; [apply norm_triangle; len|]. rewrite norm_vscale. rewrite Rabs_right by lra. pose proof (norm_nonneg (vsub w u)). nra. }
  destruct (eliminated np p m me (me + 1) Hnp W ltac:(lia) I) as (E & f & N & R & T1 & X & ER & ET & EX & SE & Lf & SN & H). cbv zeta in H. set (phi := lift N R (mv X (pd p))) in *.
  replace (me + 1 - me)%nat with 1%nat in * by lia. destruct H as (H1 & H2 & H3 & _ & H5 & H6 & H7 & H8 & H9 & H10).
  destruct (H3 u Hu) as (zu & Lzu & Eu). destruct (H3 w Hw) as (zw & Lzw & Ew). destruct zu as [|a0 [|]]; try discriminate Lzu. destruct zw as [|a1 [|]]; try discriminate Lzw.
  assert (Inj : forall a c, phi [a] = phi [c] -> a = c). { intros a c Q. pose proof (H8 [a] [c] eq_refl eq_refl) as D. rewrite Q in D. unfold dist2 in D. rewrite vsub_self, dot_zeros_l in D. cbn in D. nra. }
  assert (D : Rabs (a1 - a0) = norm (vsub w u)). { unfold norm. change (dot (vsub w u) (vsub w u)) with (dist2 w u). rewrite Eu, Ew, H8 by reflexivity. unfold dist2. cbn. rewrite Rplus_0_r. symmetry. apply sqrt_Rsqr_abs. }
  set (lo := Rmin a0 a1). set (hi := Rmax a0 a1). assert (LH : 2 * tol7 <= hi - lo) by (unfold lo, hi, Rmin, Rmax; destruct (Rle_dec a0 a1); unfold Rabs in D; destruct (Rcase_abs (a1 - a0)); lra).
  assert (PQ : forall a, in_poly p (phi [a]) <-> lo <= a <= hi).
  { intros a. rewrite Hseg. split.
    - intros (t & Ht & Q). rewrite Eu, Ew, <- H9 in Q by reflexivity. cbn in Q. apply Inj in Q. unfold lo, hi, Rmin, Rmax. destruct (Rle_dec a0 a1); nra.
    - intros Ha. exists ((a - a0) / (a1 - a0)). assert (Nz : a1 - a0 <> 0) by (intros Z; rewrite Z, Rabs_R0 in D; lra). split.
      + unfold lo, hi, Rmin, Rmax in Ha. destruct (Rle_dec a0 a1).
        * assert (0 < a1 - a0) by lra. split; [apply Rmult_le_pos; [lra|left; apply Rinv_0_lt_compat; lra]|]. apply Rmult_le_reg_r with (a1 - a0); [lra|]. unfold Rdiv. rewrite Rmult_assoc, Rinv_l by lra. lra.
        * assert (0 < a0 - a1) by lra. replace ((a - a0) / (a1 - a0)) with ((a0 - a) / (a0 - a1)) by (field; lra). split; [apply Rmult_le_pos; [lra|left; apply Rinv_0_lt_compat; lra]|]. apply Rmult_le_reg_r with (a0 - a1); [lra|]. unfold Rdiv. rewrite Rmult_assoc, Rinv_l by lra. lra.
      + rewrite Eu, Ew, <- H9 by reflexivity. f_equal. cbn. f_equal. field. exact Nz. }
  set (q := Poly E f (Mat 1 []) [] None None None None None).
  assert (Wq : wf q m 0 1) by (split; [exact SE|]; split; [exact Lf|]; split; [|reflexivity]; repeat split; constructor).
  assert (Inq : forall z, in_poly q z <-> ineq_set E f z) by (intros z; symmetry; apply (no_eq_set q m 0 1 Wq eq_refl)).
  assert (Satq : forall S z, (forall j, In j S -> (j < m)%nat) -> length z = 1%nat -> (sat q S z <-> sat p S (phi z))).
  { intros S z HS Lz. unfold sat. cbn [q pA pb pC pd]. rewrite (proj1 (proj2 SE)), NA. split; intros (_ & _ & K).
    - split; [apply H1, Lz|]. split; [apply eq_holds_mv, H10, Lz|]. intros j Hj. specialize (K j Hj). specialize (H5 z j Lz (HS j Hj)). lra.
    - split; [exact Lz|]. split; [constructor|]. intros j Hj. specialize (K j Hj). specialize (H5 z j Lz (HS j Hj)). lra. }
  assert (Ev : vertices_1d np E f = Ok [[hi]; [lo]] \/ vertices_1d np E f = Ok [[lo]; [hi]]).
  { apply (vertices_1d_ok np q m lo hi Hnp Wq ltac:(lra)).
    - intros a. rewrite Inq, <- H2 by reflexivity. apply PQ.
    - destruct (H3 x0 Hx0) as (z0 & Lz0 & E0). exists z0. split; [apply Inq, H2; [exact Lz0|rewrite <- E0; exact Hx0]|]. unfold near in *. specialize (H6 z0 Lz0). rewrite <- E0 in H6. pose proof (norm_sqr z0). pose proof (norm_sqr x0). pose proof (norm_nonneg z0).
      assert (dot z0 z0 <= dot x0 x0) by nra. assert (0 < tol7 * tol7) by (apply Rmult_lt_0_compat; lra). nra.
    - intros S i Hi Ni HS. destruct (Gap S i Hi Ni HS) as [K|(x & Kx & Vx)].
      + left. intros z Kz. assert (Lz : length z = 1%nat) by (destruct Kz as (Lz & _); cbn [q pA] in Lz; rewrite (proj1 (proj2 SE)) in Lz; exact Lz). apply Satq in Kz; auto. specialize (K _ Kz). specialize (H5 z i Lz Hi). cbn [q pA pb]. lra.
      + right. pose proof Kx as (Lx & Cx & _). rewrite NA in Lx. apply eq_holds_mv in Cx. destruct (H7 x Lx Cx) as (z & Lz & ->). exists z. split; [apply Satq; auto|]. specialize (H5 z i Lz Hi). cbn [q pA pb]. lra. }
  assert (Gq : good_eqs p me (me + 1)) by (right; split; [lia|exact I]).
  destruct (vertices_run np p m me (me + 1) Hnp W Gq ltac:(lia) Fr ltac:(eauto) B) as (r & c & (Hr & Br & Mx) & Rn).
  assert (Rt : tol7 <= r).
  { apply (Mx (phi [(a0 + a1) / 2])); [lra|]. split; [rewrite NA; apply H1; reflexivity|]. split; [apply eq_holds_mv, H10; reflexivity|]. intros y Ly Cy Dy. rewrite NA in Ly. apply eq_holds_mv in Cy. destruct (H7 y Ly Cy) as (z & Lz & ->). destruct z as [|a [|]]; try discriminate Lz. rewrite H8 in Dy by reflexivity. unfold dist2 in Dy. cbn in Dy. apply PQ.
    assert (Q : Rabs (a - (a0 + a1) / 2) <= tol7) by (apply Rsqr_le_abs_0 in Dy || (rewrite <- (Rabs_right tol7) by lra; apply Rsqr_le_abs_0; unfold Rsqr; lra)). pose proof (Rle_abs (a - (a0 + a1) / 2)). pose proof (Rle_abs (- (a - (a0 + a1) / 2))). rewrite Rabs_Ropp in *. unfold lo, hi, Rmin, Rmax in *. destruct (Rle_dec a0 a1); lra. }
  replace (Rltb r tol7) with false in Rn by (symmetry; apply Rltb_false; exact Rt).
  unfold vertices_from, nrows in Rn. rewrite LC in Rn. replace (0 <? me)%nat with true in Rn by (symmetry; apply Nat.ltb_lt; exact Pm). rewrite ER in Rn. cbn [bind] in Rn. rewrite ET in Rn. cbn [bind] in Rn. rewrite (proj1 (proj2 SE)) in Rn. cbn [Nat.eqb] in Rn.
  assert (EL : (phi [hi] = w /\ phi [lo] = u) \/ (phi [hi] = u /\ phi [lo] = w)) by (unfold lo, hi, Rmin, Rmax; destruct (Rle_dec a0 a1); rewrite Eu, Ew; auto).
  exists (snd (get_vertices np p)).
  destruct Ev as [Ev|Ev]; rewrite Ev in Rn; cbn [bind] in Rn; rewrite EX in Rn; cbn [bind map] in Rn; rewrite !(fun a => proj1 (H1 [a] eq_refl)) in Rn; destruct EL as [(L1 & L2)|(L1 & L2)]; rewrite L1, L2 in Rn; rewrite (surjective_pairing (get_vertices np p)), Rn; auto.
Qed.

Lemma prism_in a b c : in_poly (Poly (Mat 3 [[1; 0; 0]; [-1; 0; 0]; [0; 1; 0]; [0; -1; 0]]) [1; 0; 1; 0] (Mat 3 [[0; 0; 2]]) [4] None None None None None) [a; b; c] <->
  0 <= a <= 1 /\ 0 <= b <= 1 /\ c = 2.
Proof.
  unfold in_poly, in_set, ineq_holds, eq_holds. cbn [pA pb pC pd rows ncols length]. split.
  - intros (_ & H & E). inversion H as [|? ? ? ? H1 K1]; subst. inversion K1 as [|? ? ? ? H2 K2]; subst. inversion K2 as [|? ? ? ? H3 K3]; subst. inversion K3 as [|? ? ? ? H4 K4]; subst. inversion E as [|? ? ? ? E1 _]; subst. unfold dot in *. cbn in *. lra.
  - intros H. split; [reflexivity|]. split; repeat first [apply Forall2_nil|apply Forall2_cons]; unfold dot; cbn; lra.
Qed.
(*@ Example C68_example : The square [0, 1] x [0, 1] at height 2, given in R^3 with the equality 2 x_2 = 4, meets the hypotheses (for a routine that meets the contracts); its vertices are its four corners. *)
Lemma prism_example rnd : let np := np_vert rnd in
  let p := Poly (Mat 3 [[1; 0; 0]; [-1; 0; 0]; [0; 1; 0]; [0; -1; 0]]) [1; 0; 1; 0] (Mat 3 [[0; 0; 2]]) [4] None None None None None in
  exists V p', get_vertices np p = (Ok (Some V), p') /\ forall v, In v V <-> In v [[0; 0; 2]; [0; 1; 2]; [1; 0; 2]; [1; 1; 2]].
Proof.
  intros np p. assert (W : wf p 4 1 3) by (repeat split; repeat constructor). destruct (np_vert_ok rnd) as (Hnp & _ & _ & Hhs). pose proof tol7_pos as Tp.
  assert (T3 : forall x, in_poly p x -> exists a b c, x = [a; b; c]) by (intros x Hx; pose proof (proj1 Hx) as Lx; destruct x as [|a [|b [|c [|]]]]; try discriminate Lx; eauto).
  destruct (polytope_vertices np p 4 1 3 Hnp Hhs W) as (V & p' & EV & HV & _).
  - right. split; [lia|]. intros y Ly E. destruct y as [|y0 [|]]; try discriminate Ly. unfold mv, tr, dot in E. cbn in E. injection E as _ _ E. cbn. f_equal. lra.
  - lia.
  - reflexivity.
  - exists 3. intros x Hx. destruct (T3 x Hx) as (a & b & c & ->). apply prism_in in Hx. apply norm_le_sqr; [lra|]. unfold dot. cbn. nra.
  - exists [/ 2; / 2; 2]. split; [reflexivity|]. split; [repeat first [apply Forall2_nil|apply Forall2_cons]; unfold dot; cbn; lra|]. intros y Ly Hy D. destruct y as [|a [|b [|c [|]]]]; try discriminate Ly. apply prism_in. unfold eq_holds in Hy. cbn [p pC pd rows] in Hy. inversion Hy as [|? ? ? ? E1 _]; subst. unfold dot in E1. cbn in E1.
    unfold dist2, dot in D. cbn in D. assert (T1 : tol7 * tol7 <= / 4) by (unfold tol7; lra). assert (C2 : c = 2) by lra. subst c. pose proof (Rle_0_sqr (a - / 2)) as S1. pose proof (Rle_0_sqr (b - / 2)) as S2. unfold Rsqr in *. assert (Qa : (a - / 2) * (a - / 2) <= / 4) by lra. assert (Qb : (b - / 2) * (b - / 2) <= / 4) by lra. clear D S1 S2 Tp T1. split; [|split; [|reflexivity]]; split; nra.
  - intros i Hi. destruct i as [|[|[|[|]]]]; [| | | |lia]; exists [/ 2; / 2; 2]; (split; [apply prism_in; lra|unfold dot; cbn; lra]).
  - exists V, p'. split; [exact EV|]. intros v. rewrite HV. clear EV HV V p'. split.
    + intros (Hv & Ex). destruct (T3 v Hv) as (a & b & c & ->). pose proof Hv as Hv'. apply prism_in in Hv'. destruct Hv' as (Ha & Hb & ->).
      assert (A : a = 0 \/ a = 1).
      { destruct (Req_dec a 0) as [|N0]; [auto|]. destruct (Req_dec a 1) as [|N1]; [auto|]. exfalso. assert (He : exists e, 0 < e /\ e <= a /\ e <= 1 - a) by (exists (Rmin a (1 - a)); split; [apply Rmin_glb_lt; lra|split; [apply Rmin_l|apply Rmin_r]]). destruct He as (e & He1 & He2 & He3).
        specialize (Ex [a - e; b; 2] [a + e; b; 2] ltac:(apply prism_in; lra) ltac:(apply prism_in; lra)). assert (Q : vscale 2 [a; b; 2] = vadd [a - e; b; 2] [a + e; b; 2]) by (cbn; f_equal; [lra|f_equal; [lra|f_equal; lra]]). specialize (Ex Q). injection Ex. lra. }
      assert (B : b = 0 \/ b = 1).
      { destruct (Req_dec b 0) as [|N0]; [auto|]. destruct (Req_dec b 1) as [|N1]; [auto|]. exfalso. assert (He : exists e, 0 < e /\ e <= b /\ e <= 1 - b) by (exists (Rmin b (1 - b)); split; [apply Rmin_glb_lt; lra|split; [apply Rmin_l|apply Rmin_r]]). destruct He as (e & He1 & He2 & He3).
        specialize (Ex [a; b - e; 2] [a; b + e; 2] ltac:(apply prism_in; lra) ltac:(apply prism_in; lra)). assert (Q : vscale 2 [a; b; 2] = vadd [a; b - e; 2] [a; b + e; 2]) by (cbn; f_equal; [lra|f_equal; [lra|f_equal; lra]]). specialize (Ex Q). injection Ex. lra. }
      destruct A as [->| ->]; destruct B as [->| ->]; cbn; auto.
    + intros Hv. assert (C : exists a b, v = [a; b; 2] /\ (a = 0 \/ a = 1) /\ (b = 0 \/ b = 1)) by (cbn in Hv; intuition (subst; eauto 10)).
      destruct C as (a & b & -> & A & B). split; [apply prism_in; lra|]. intros y z Hy Hz Q. destruct (T3 y Hy) as (y1 & y2 & y3 & ->). destruct (T3 z Hz) as (z1 & z2 & z3 & ->). apply prism_in in Hy. apply prism_in in Hz. cbn in Q. injection Q as Q1 Q2 Q3. f_equal; [lra|f_equal; [lra|f_equal; lra]].
Qed.

Lemma square0_in a b : in_poly (Poly (Mat 2 [[1; 0]; [-1; 0]; [0; 1]; [0; -1]; [0; 0]]) [1; 0; 1; 0; 0] (Mat 2 []) [] None None None None None) [a; b] <-> 0 <= a <= 1 /\ 0 <= b <= 1.
Proof.
  unfold in_poly, in_set, ineq_holds, eq_holds. cbn [pA pb pC pd rows ncols length]. split.
  - intros (_ & H & _). inversion H as [|? ? ? ? H1 K1]; subst. inversion K1 as [|? ? ? ? H2 K2]; subst. inversion K2 as [|? ? ? ? H3 K3]; subst. inversion K3 as [|? ? ? ? H4 K4]; subst. unfold dot in *. cbn in *. lra.
  - intros H. split; [reflexivity|]. split; repeat first [apply Forall2_nil|apply Forall2_cons]; unfold dot; cbn; lra.
Qed.
(*@ Theorem C68_zero_row_refuted : The square [0, 1] x [0, 1] with the further inequality 0 x <= 0: the literal claim (the vertices of every polytope are returned) fails with QhullError. *)
Lemma zero_row_vertices_refuted rnd : exists p, wf p 5 0 2 /\ fresh p = p /\ (forall a b, in_poly p [a; b] <-> 0 <= a <= 1 /\ 0 <= b <= 1) /\
  fst (get_vertices (np_vert rnd) p) = Err QhullError.
Proof.
  eexists. split; [|split; [|split; [exact square0_in|]]]; [repeat split; repeat constructor|reflexivity|]. set (p := Poly _ _ _ _ _ _ _ _ _).
  destruct (np_vert_ok rnd) as (Hnp & _ & _ & Hhs). pose proof tol7_pos as Tp.
  assert (T2 : forall x, in_poly p x -> exists a b, x = [a; b]) by (intros x Hx; pose proof (proj1 Hx) as Lx; destruct x as [|a [|b [|]]]; try discriminate Lx; eauto).
  apply (implicit_refuted (np_vert rnd) p 5 0 2 4 Hnp Hhs).
  - repeat split; repeat constructor.
  - left. reflexivity.
  - lia.
  - reflexivity.
  - exists 2. intros x Hx. destruct (T2 x Hx) as (a & b & ->). apply square0_in in Hx. apply norm_le_sqr; [lra|]. unfold dot. cbn. nra.
  - exists [/ 2; / 2]. split; [reflexivity|]. split; [constructor|]. intros y Ly Hy D. destruct y as [|a [|b [|]]]; try discriminate Ly. apply square0_in.
    unfold dist2, dot in D. cbn in D. assert (T1 : tol7 * tol7 <= / 4) by (unfold tol7; lra). pose proof (Rle_0_sqr (a - / 2)) as S1. pose proof (Rle_0_sqr (b - / 2)) as S2. unfold Rsqr in *. assert (Qa : (a - / 2) * (a - / 2) <= / 4) by lra. assert (Qb : (b - / 2) * (b - / 2) <= / 4) by lra. clear D S1 S2 Tp T1. split; split; nra.
  - lia.
  - intros x Hx. destruct (T2 x Hx) as (a & b & ->). unfold dot. cbn. ring.
Qed.

Lemma diagonal_in a b : in_poly (Poly (Mat 2 [[1; 0]; [-1; 0]]) [1; 0] (Mat 2 [[1; -1]]) [0] None None None None None) [a; b] <-> 0 <= a <= 1 /\ a = b.
Proof.
  unfold in_poly, in_set, ineq_holds, eq_holds. cbn [pA pb pC pd rows ncols length]. split.
  - intros (_ & H & E). inversion H as [|? ? ? ? H1 K1]; subst. inversion K1 as [|? ? ? ? H2 K2]; subst. inversion E as [|? ? ? ? E1 _]; subst. unfold dot in *. cbn in *. lra.
  - intros H. split; [reflexivity|]. split; repeat first [apply Forall2_nil|apply Forall2_cons]; unfold dot; cbn; lra.
Qed.
(*@ Example C68_segment_example : The diagonal of the unit square, {0 <= x_0 <= 1, x_0 = x_1}, meets the hypotheses; its vertices are its two ends. *)
Lemma diagonal_example : let p := Poly (Mat 2 [[1; 0]; [-1; 0]]) [1; 0] (Mat 2 [[1; -1]]) [0] None None None None None in
  exists p', get_vertices np0 p = (Ok (Some [[0; 0]; [1; 1]]), p') \/ get_vertices np0 p = (Ok (Some [[1; 1]; [0; 0]]), p').
Proof.
  intros p. assert (Hnp : exact_np np0) by apply np0_ok. apply (line_segment_vertices np0 p 2 1 [0; 0] [1; 1] Hnp).
  - repeat split; repeat constructor.
  - lia.
  - intros y Ly E. destruct y as [|y0 [|]]; try discriminate Ly. unfold mv, tr, dot in E. cbn in E. injection E as E _. cbn. f_equal. lra.
  - reflexivity.
  - assert (Q : 1 <= norm (vsub [1; 1] [0; 0])). { rewrite <- sqrt_1 at 1. apply sqrt_le_1_alt. unfold dot. cbn. lra. } eapply Rle_trans; [|exact Q]. unfold tol7. lra.
  - reflexivity.
  - reflexivity.
  - intros x. split.
    + intros Hx. pose proof (proj1 Hx) as Lx. destruct x as [|a [|b [|]]]; try discriminate Lx. apply diagonal_in in Hx. exists a. split; [lra|]. cbn. f_equal; [lra|f_equal; lra].
    + intros (t & Ht & ->). cbn. apply diagonal_in. lra.
  - exists [0; 0]. split; [apply diagonal_in; lra|]. unfold near, dot, tol7. cbn. lra.
  - intros S i Hi Ni HS. right. destruct i as [|[|]]; [| |lia].
    + exists [2; 2]. split; [|unfold dot, tol7; cbn; lra]. split; [reflexivity|]. split; [repeat first [apply Forall2_nil|apply Forall2_cons]; unfold dot; cbn; lra|]. intros j Hj. pose proof (HS j Hj). destruct j as [|[|]]; [contradiction|unfold dot; cbn; lra|lia].
    + exists [-1; -1]. split; [|unfold dot, tol7; cbn; lra]. split; [reflexivity|]. split; [repeat first [apply Forall2_nil|apply Forall2_cons]; unfold dot; cbn; lra|]. intros j Hj. pose proof (HS j Hj). destruct j as [|[|]]; [unfold dot; cbn; lra|contradiction|lia].
Qed.
