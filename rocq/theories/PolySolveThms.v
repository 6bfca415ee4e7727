(** * PolySolveThms: the parts of Polyhedron that solve linear and quadratic programs (C08-C14, C16), proofs *)
From Coq Require Import ZArith.
From Verif Require Import Arr ArrFacts Spec Numpy Pnnls PnnlsFacts QpFacts GeomUtils Polyhedron PolyThms Oracle SolverThms NullFacts.

Lemma np0_exact : exact_np np0. Proof. exact np0_ok. Qed.

(** ** Linear programs without equalities *)
Lemma lp_noeq np f A b m n : shape A m n -> lp np f A b None None = Ok (lp_core np tol7 f A b (Mat n []) []).
Proof. intros HA. unfold lp. eapply linear_program_core; [exact HA|]. right. auto. Qed.

Lemma in_set_noeq A b n m x : shape A m n -> in_set A b (Mat n []) [] x <-> length x = n /\ vle (mv A x) b.
Proof.
  intros HA. rewrite in_set_vle, (shape_cols _ _ _ HA). split; [tauto|]. intros (H1 & H2). auto.
Qed.
Lemma tol7_pos : 0 < tol7. Proof. unfold tol7. lra. Qed.

Lemma lp_solved np f A b m n x0 lo : exact_np np -> shape A m n -> length b = m -> length f = n ->
  length x0 = n -> vle (mv A x0) b -> (forall x, length x = n -> vle (mv A x) b -> lo <= dot f x) ->
  exists s x l, lp np f A b None None = Ok s /\ s_min s = Some (dot f x) /\ s_argmin s = Some x /\ length x = n /\
    vle (mv A x) b /\ (forall z, length z = n -> vle (mv A z) b -> dot f x <= dot f z) /\
    length l = m /\ nonneg l /\ (forall z, length z = n -> dot f z + dot l (mv A z) = 0).
Proof.
  intros (Hn & Hp & _) HA Lb Lf L0 V0 Hlo. rewrite (lp_noeq np f A b m n HA).
  assert (HC : shape (Mat n []) 0 n) by (repeat split; constructor).
  destruct (lp_core_solvable np tol7 f A b (Mat n []) [] m 0 n Hn Hp tol7_pos HA Lb HC eq_refl Lf) as
    (x & l & nu & -> & Hopt & Lx & Ll & Lnu & NNl & St & _).
  { split; [exists x0; now apply (in_set_noeq A b n m)|]. exists lo. intros x Hx. apply (in_set_noeq A b n m) in Hx; [|exact HA].
    apply Hlo; tauto. }
  destruct Hopt as (H1 & H2). apply (in_set_noeq A b n m) in H1; [|exact HA].
  eexists _, x, l. split; [reflexivity|]. split; [reflexivity|]. split; [reflexivity|]. split; [exact Lx|]. split; [tauto|].
  split; [|split; [exact Ll|split; [exact NNl|]]].
  - intros z Lz Vz. apply H2. now apply (in_set_noeq A b n m).
  - intros z Lz. specialize (St z Lz). destruct nu; [|discriminate]. cbn in St. lra.
Qed.

(** what is known in any case: constraints within tol *)
Lemma lp_any np f A b m n : exact_np np -> shape A m n -> length b = m -> length f = n ->
  exists s, lp np f A b None None = Ok s /\
   ((s = sol_none /\ ~ lp_solvable f A b (Mat n []) []) \/
    exists x l, s_min s = Some (dot f x) /\ s_argmin s = Some x /\ length x = n /\
      (forall i, (i < m)%nat -> dot (row A i) x < nth i b 0 + tol7) /\
      length l = m /\ nonneg l /\ Rabs (dot f x + dot b l) < tol7 /\
      forall z, length z = n -> Rabs (dot f z + dot l (mv A z)) <= tol7 * norm z).
Proof.
  intros (Hn & Hp & _) HA Lb Lf. rewrite (lp_noeq np f A b m n HA).
  assert (HC : shape (Mat n []) 0 n) by (repeat split; constructor).
  destruct (lp_core_spec np tol7 f A b (Mat n []) [] m 0 n Hn Hp HA Lb HC eq_refl Lf)
    as (x & l & nu & r & -> & Hr & Lx & Ll & Lnu & NNl & P1 & P2 & P3 & P4 & P5).
  eexists. split; [reflexivity|]. destruct (Rltb r tol7) eqn:E.
  - apply Rltb_true in E. right. exists x, l. split; [reflexivity|]. split; [reflexivity|]. split; [exact Lx|].
    split; [intros i Hi; specialize (P1 i Hi); lra|]. split; [exact Ll|]. split; [exact NNl|].
    destruct nu; [|discriminate]. split.
    + cbn in P4. rewrite Rplus_0_r in P4. lra.
    + intros z Lz. specialize (P3 z Lz). cbn in P3. rewrite Rplus_0_r in P3. pose proof (norm_nonneg z).
      apply Rle_trans with (r * norm z); [exact P3|]. apply Rmult_le_compat_r; lra.
  - apply Rltb_false in E. left. split; [reflexivity|]. intros Hs. specialize (P5 Hs). pose proof tol7_pos. lra.
Qed.

(** ** C08: emptiness *)
(** points that the emptiness test can see: tol^2 (1 + |x|^2) < 1, i.e. |x| below (about) 10^7 *)
Definition near (x : vec) : Prop := tol7 * tol7 * (1 + dot x x) < 1.

(*@ Theorem C08_empty_criterion : On a fresh polyhedron, empty is True iff there is no point of norm below sqrt(1/tol^2 - 1) = 10^7. *)
Lemma get_empty_ok np p m me n : exact_np np -> wf p m me n -> p_empty p = None ->
  exists e, get_empty np p = (Ok e, set_empty p e) /\ (e = true <-> ~ exists x, in_poly p x /\ near x).
Proof.
  intros (Hn & Hp & Hc & Hi & _) (WA & Wb & WC & Wd) EN.
  unfold get_empty, pbind, pget. rewrite EN. unfold qp.
  destruct (qp_none_iff np tol7 (eye n) (zeros n) (pA p) (pb p) (Some (pC p)) (Some (pd p)) (pC p) (pd p) m me n (zeros n))
    as (s & Es & S1 & S2); auto using tol7_pos, pd_eye with shp.
  { len. } { left; auto. } { len. } { now rewrite mv_eye, vneg_zeros by len. }
  rewrite (shape_cols _ _ _ WA), Es. simpl. eexists. split; [reflexivity|].
  destruct (s_min s) eqn:Em.
  - split; [discriminate|]. intros NE. exfalso. destruct S1 as (_ & S1). destruct S2 as (_ & S2).
    discriminate S1. apply S2. intros (z & Hz & Nz). apply NE. exists z. split; [exact Hz|].
    destruct Hz as (Lz & _). rewrite (shape_cols _ _ _ WA) in Lz.
    rewrite mv_eye, vsub_zeros_r in Nz by len. exact Nz.
  - split; [|reflexivity]. intros _ (z & Hz & Nz). destruct S2 as (S2 & _). apply S2; [now apply S1|]. exists z. split; [exact Hz|].
    destruct Hz as (Lz & _). rewrite (shape_cols _ _ _ WA) in Lz.
    rewrite mv_eye, vsub_zeros_r by len. exact Nz.
Qed.

(*@ Theorem C08_empty_partial : empty is False only if there is a point, and if there is a point of norm at most 9999999 it is False.
   Missing: polyhedra whose points are all further than 10^7 from the origin, for which True is returned (see the refutation). *)
Lemma empty_partial np p m me n : exact_np np -> wf p m me n -> p_empty p = None ->
  exists e p', get_empty np p = (Ok e, p') /\ (e = false -> exists x, in_poly p x) /\
    ((exists x, in_poly p x /\ norm x <= 9999999) -> e = false).
Proof.
  intros Hnp W EN. destruct (get_empty_ok np p m me n Hnp W EN) as (e & E & H). exists e, (set_empty p e). split; [exact E|].
  assert (K : (e = false <-> exists x, in_poly p x /\ near x)).
  { split.
    - intros ->. destruct (Classical_Prop.classic (exists x, in_poly p x /\ near x)) as [|N]; [assumption|].
      apply H in N. discriminate.
    - intros Hx. destruct e; [|reflexivity]. exfalso. now apply (proj1 H eq_refl). }
  split.
  - intros F. apply K in F. destruct F as (x & Hx & _). eauto.
  - intros (x & Hx & Nx). apply K. exists x. split; [exact Hx|]. unfold near. rewrite <- norm_sqr. pose proof (norm_nonneg x).
    assert (norm x * norm x <= 9999999 * 9999999) by (apply Rmult_le_compat; lra). unfold tol7. lra.
Qed.
(*@ Theorem C08_empty_refuted : {x >= 10^8} is not empty but reported empty, with whatever exact library. *)
Lemma empty_refuted : exists p x, wf p 1 0 1 /\ in_poly p x /\
  forall np, exact_np np -> exists p', get_empty np p = (Ok true, p').
Proof.
  set (p := Poly (Mat 1 [[-1]]) [-100000000] (Mat 1 []) [] None None None None None).
  assert (W : wf p 1 0 1) by (unfold wf; simpl; repeat split; repeat constructor).
  exists p, [100000000]. split; [exact W|]. split.
  - split; [reflexivity|]. split; [|constructor]. apply Forall2_cons; [cbn; lra|constructor].
  - intros np Hnp. destruct (get_empty_ok np p 1 0 1 Hnp W eq_refl) as (e & E & H). 
    assert (e = true).
    { apply H. intros (x & (Lx & Hx & _) & Nx). destruct x as [|a [|]]; try discriminate Lx. unfold ineq_holds in Hx. simpl in Hx. inv2 Hx.
      unfold near, tol7 in Nx. cbn in Nx. nra. }
    subst e. eauto.
Qed.

(** ** C14: elimination of equalities *)
(*@ Theorem C14_elimination : For independent equalities (fewer than the dimension) the map z -> N z + R r is a bijection from {E z <= f} to the polyhedron, and preserves distances. *)
Lemma elimination np p m me n : svd_ok np -> inv_ok np -> wf p m me n -> (me < n)%nat -> indep_rows (pC p) me ->
  exists E f N R X, remove_equalities np (pA p) (pb p) (pC p) (pd p) = Ok (E, f, N, R) /\ np_inv np (mm (pC p) R) = Ok X /\
    let x_of z := vadd (mv N z) (mv R (mv X (pd p))) in
    shape E m (n - me) /\ length f = m /\ shape N n (n - me) /\ shape R n me /\
    (forall z, length z = (n - me)%nat -> ineq_holds E f z <-> in_poly p (x_of z)) /\
    (forall x, in_poly p x -> exists z, length z = (n - me)%nat /\ ineq_holds E f z /\ x = x_of z) /\
    (forall z z', length z = (n - me)%nat -> length z' = (n - me)%nat -> dist2 (x_of z) (x_of z') = dist2 z z') /\
    (forall z z', length z = (n - me)%nat -> length z' = (n - me)%nat -> x_of z = x_of z' -> z = z').
Proof.
  intros Hs Hi W Hme HI. pose proof W as (WA & Wb & WC & Wd).
  destruct (remove_equalities_ok np (pA p) (pb p) (pC p) (pd p) m me n Hs Hi WA Wb WC Wd)
    as [(_ & _ & E & f & N & R & X & ER & EX & HE & Lf & HN & HR & HX & Lr & E1 & E2 & IN & CL & VL & SL & OL)|(NI & _)];
    [|elim NI; auto].
  set (r := mv X (pd p)) in *. set (k := (n - me)%nat) in *.
  exists E, f, N, R, X. split; [exact ER|]. split; [exact EX|]. cbv zeta. fold r.
  assert (LN : length (rows N) = n) by apply HN. assert (LR : length (rows R) = n) by apply HR.
  split; [exact HE|]. split; [exact Lf|]. split; [exact HN|]. split; [exact HR|].
  assert (DD : forall z z', length z = k -> length z' = k -> dist2 (vadd (mv N z) (mv R r)) (vadd (mv N z') (mv R r)) = dist2 z z').
  { intros z z' Lz Lz'. unfold dist2.
    replace (vsub (vadd (mv N z) (mv R r)) (vadd (mv N z') (mv R r))) with (mv N (vsub z z')); [apply IN; len|].
    rewrite (mv_vsub N n k) by assumption. vring. }
  split; [|split; [|split]].
  - intros z Lz. rewrite ineq_holds_vle, (in_poly_vle _ _ _ _ _ W). rewrite (VL z Lz). fold (lift N R r z). rewrite (CL z Lz).
    split; [intros H; split; [unfold lift; len|auto]|tauto].
  - intros x Hx. apply (in_poly_vle _ _ _ _ _ W) in Hx. destruct Hx as (Lx & Vx & Cx).
    destruct (SL x Lx Cx) as (z & Lz & ->). exists z. split; [exact Lz|]. split; [|reflexivity].
    rewrite ineq_holds_vle. now apply VL.
  - exact DD.
  - intros z z' Lz Lz' Ez. assert (Z : dist2 z z' = 0).
    { rewrite <- DD by assumption. rewrite Ez. unfold dist2. rewrite vsub_self. apply dot_zeros_l. }
    unfold dist2 in Z. apply dot_self_zero in Z. lenh Z. replace (Nat.min (length z) (length z')) with k in Z by lia. eapply vsub_zero_eq; eauto.
Qed.
(*@ Theorem C14_elimination_rejects : Otherwise (dependent equalities, or as many as variables) it raises ValueError. *)
Lemma elimination_rejects np p m me n : svd_ok np -> inv_ok np -> wf p m me n -> ~ ((me < n)%nat /\ indep_rows (pC p) me) ->
  remove_equalities np (pA p) (pb p) (pC p) (pd p) = Err ValueError.
Proof.
  intros Hs Hi (WA & Wb & WC & Wd) N.
  destruct (remove_equalities_ok np (pA p) (pb p) (pC p) (pd p) m me n Hs Hi WA Wb WC Wd) as [(H1 & H2 & _)|(_ & H)]; [|exact H].
  elim N; auto.
Qed.

(** ** C10, C11: redundant inequalities *)
(** the points satisfying the equalities and the inequalities of index in S *)
Definition sat (p : poly) (S : list nat) (x : vec) : Prop :=
  length x = ncols (pA p) /\ eq_holds (pC p) (pd p) x /\ forall j, In j S -> dot (row (pA p) j) x <= nth j (pb p) 0.

(** removal of one inequality after the other, each implied by those left up to (less than) tol *)
Inductive removal (p : poly) (tol : R) : list nat -> list nat -> Prop :=
| removal_nil S : removal p tol S S
| removal_cons i S S' : In i S ->
    (forall x, sat p (remove Nat.eq_dec i S) x -> dot (row (pA p) i) x < nth i (pb p) 0 + tol) ->
    removal p tol (remove Nat.eq_dec i S) S' -> removal p tol S S'.

Lemma sat_all p m me n x : wf p m me n -> sat p (seq 0 m) x <-> in_poly p x.
Proof.
  intros (WA & Wb & WC & Wd). unfold sat, in_poly, in_set. assert (LA : length (rows (pA p)) = m) by apply WA.
  assert (I : ineq_holds (pA p) (pb p) x <-> forall j, In j (seq 0 m) -> dot (row (pA p) j) x <= nth j (pb p) 0).
  { rewrite ineq_holds_vle, vle_nth. split.
    - intros (_ & H) j Hj. apply in_seq in Hj. specialize (H j ltac:(len)). rewrite nth_mv in H. exact H.
    - intros H. split; [len|]. intros i Hi. lenh Hi. rewrite nth_mv. apply H. apply in_seq. lia. }
  rewrite I. tauto.
Qed.

Lemma removal_incl p tol S S' : removal p tol S S' -> incl S' S.
Proof.
  induction 1; [apply incl_refl|]. intros j Hj. apply IHremoval in Hj. apply in_remove in Hj. tauto.
Qed.

Section Facets.
Variable np : numpy.
Hypothesis Hnp : exact_np np.
Variables (E : mat) (f : vec) (m n : nat) (tol : R).
Hypothesis HE : shape E m n.
Hypothesis Hf : length f = m.
Hypothesis Htol : tol <= 1.
Definition satE (S : list nat) (z : vec) : Prop := length z = n /\ forall j, In j S -> dot (row E j) z <= nth j f 0.
Inductive removalE : list nat -> list nat -> Prop :=
| removalE_nil S : removalE S S
| removalE_cons i S S' : In i S ->
    (forall z, satE (remove Nat.eq_dec i S) z -> dot (row E i) z < nth i f 0 + tol) ->
    removalE (remove Nat.eq_dec i S) S' -> removalE S S'.

Lemma removalE_incl S S' : removalE S S' -> incl S' S.
Proof.
  induction 1; [apply incl_refl|]. intros j Hj. apply IHremovalE in Hj. apply in_remove in Hj. tauto.
Qed.

Lemma relaxed_rows mf i z : (forall j, In j mf -> (j < m)%nat) -> (i < m)%nat ->
  vle (mv (mtake E mf) z) (vtake (vadd f (unit (length f) i)) mf) <->
  forall j, In j mf -> dot (row E j) z <= nth j f 0 + (if Nat.eqb j i then 1 else 0).
Proof.
  intros Hmf Hi. unfold vle. rewrite mv_mtake. unfold vtake.
  assert (G : Forall2 Rle (map (fun j => dot (row E j) z) mf) (map (fun j => nth j (vadd f (unit (length f) i)) 0) mf) <->
              forall j, In j mf -> dot (row E j) z <= nth j (vadd f (unit (length f) i)) 0).
  { clear Hmf. induction mf as [|a mf IH]; simpl.
    - split; [intros _ j []|constructor].
    - split.
      + intros H. apply Forall2_cons_inv in H. destruct H as (H1 & H2). intros j [<-|Hj]; [exact H1|]. now apply IH.
      + intros H. constructor; [apply H; now left|]. apply IH. intros j Hj. apply H. now right. }
  rewrite G. split; intros H j Hj; specialize (H j Hj); specialize (Hmf j Hj);
    rewrite nth_vadd, nth_unit in * by len; exact H.
Qed.

Lemma facet_lp mf i z0 : (forall j, In j mf -> (j < m)%nat) -> In i mf -> satE mf z0 ->
  exists s z, lp np (vneg (row E i)) (mtake E mf) (vtake (vadd f (unit (length f) i)) mf) None None = Ok s /\
    s_min s = Some (- dot (row E i) z) /\ satE (remove Nat.eq_dec i mf) z /\ dot (row E i) z <= nth i f 0 + 1 /\
    (forall w, satE (remove Nat.eq_dec i mf) w -> dot (row E i) w <= nth i f 0 + 1 -> dot (row E i) w <= dot (row E i) z).
Proof.
  intros Hmf Hi (L0 & S0).
  assert (Him := Hmf i Hi).
  assert (HM : shape (mtake E mf) (length mf) n) by (eapply shape_mtake; eauto).
  assert (Eq : forall w, (forall j, In j mf -> dot (row E j) w <= nth j f 0 + (if Nat.eqb j i then 1 else 0)) <->
            (forall j, In j (remove Nat.eq_dec i mf) -> dot (row E j) w <= nth j f 0) /\ dot (row E i) w <= nth i f 0 + 1).
  { intros w. split.
    - intros H. split; [|specialize (H i Hi); now rewrite Nat.eqb_refl in H].
      intros j Hj. apply in_remove in Hj. destruct Hj as (Hj & Nj). specialize (H j Hj).
      destruct (Nat.eqb_spec j i); [contradiction|lra].
    - intros (H1 & H2) j Hj. destruct (Nat.eqb_spec j i) as [->|Nj]; [exact H2|].
      specialize (H1 j ltac:(now apply in_in_remove)). lra. }
  destruct (lp_solved np (vneg (row E i)) (mtake E mf) (vtake (vadd f (unit (length f) i)) mf) (length mf) n z0 (- (nth i f 0 + 1)))
    as (s & z & l & Es & Em & _ & Lz & Vz & Oz & _); auto.
  { len. } { rewrite vneg_length. apply (shape_row _ _ _ _ HE). exact Him. }
  { apply relaxed_rows; auto. apply Eq. split; [|specialize (S0 i Hi); lra]. intros j Hj. apply in_remove in Hj. apply S0; tauto. }
  { intros x Lx Vx. rewrite relaxed_rows in Vx by auto. apply Eq in Vx. rewrite dot_vneg_l. lra. }
  exists s, z. split; [exact Es|]. rewrite dot_vneg_l in Em. split; [exact Em|].
  rewrite relaxed_rows in Vz by auto. apply Eq in Vz. destruct Vz as (V1 & V2).
  split; [split; assumption|]. split; [exact V2|].
  intros w (Lw & Sw) Bw. specialize (Oz w Lw). rewrite !dot_vneg_l in Oz.
  enough (- dot (row E i) z <= - dot (row E i) w) by lra. apply Oz. apply relaxed_rows; auto. apply Eq. auto.
Qed.

(** a facet found redundant on the relaxed problem is redundant without the relaxed row *)
Lemma relaxed_redundant mf i z0 z : In i mf -> (i < m)%nat -> satE mf z0 -> dot (row E i) z < nth i f 0 + tol ->
  (forall w, satE (remove Nat.eq_dec i mf) w -> dot (row E i) w <= nth i f 0 + 1 -> dot (row E i) w <= dot (row E i) z) ->
  forall w, satE (remove Nat.eq_dec i mf) w -> dot (row E i) w < nth i f 0 + tol.
Proof.
  intros Hi Him (L0 & S0) Hz Ho w (Lw & Sw). destruct (Rlt_le_dec (dot (row E i) w) (nth i f 0 + tol)) as [|G]; [assumption|]. exfalso.
  destruct (Rle_lt_dec (dot (row E i) w) (nth i f 0 + 1)) as [B|B].
  - specialize (Ho w (conj Lw Sw) B). lra.
  - set (e0 := dot (row E i) z0) in *. set (e1 := dot (row E i) w) in *. assert (He0 : e0 <= nth i f 0) by (apply S0, Hi).
    set (t := (nth i f 0 + 1 - e0) / (e1 - e0)).
    assert (Ht : 0 <= t <= 1).
    { unfold t. split; [apply Rle_mult_inv_pos; lra|]. apply Rmult_le_reg_r with (e1 - e0); [lra|]. unfold Rdiv. rewrite Rmult_assoc, Rinv_l; lra. }
    assert (Et : e0 + t * (e1 - e0) = nth i f 0 + 1) by (unfold t; field; lra).
    assert (Er : forall j, dot (row E j) (seg z0 w t) = (1 - t) * dot (row E j) z0 + t * dot (row E j) w).
    { intros j. unfold seg. rewrite dot_vadd_r by len. now rewrite !dot_vscale_r. }
    specialize (Ho (seg z0 w t)). rewrite Er in Ho. fold e0 e1 in Ho.
    assert (nth i f 0 + 1 <= dot (row E i) z); [|lra].
    replace (nth i f 0 + 1) with ((1 - t) * e0 + t * e1) by lra. apply Ho; [|lra].
    split; [unfold seg; len|]. intros j Hj. rewrite Er. specialize (Sw j Hj). apply in_remove in Hj. specialize (S0 j (proj1 Hj)). nra.
Qed.

Lemma facets_loop_ok z0 todo : forall mf, NoDup todo -> incl todo mf -> (forall j, In j mf -> (j < m)%nat) -> satE (seq 0 m) z0 ->
  exists mf', facets_loop np tol E f todo mf = Ok mf' /\ removalE mf mf' /\ (exists kp, mf' = filter kp mf) /\
    forall i, In i todo -> In i mf' -> exists z, satE (remove Nat.eq_dec i mf') z /\ nth i f 0 + tol <= dot (row E i) z.
Proof.
  induction todo as [|i todo IH]; intros mf ND IC Hmf S0; cbn [facets_loop].
  - exists mf. split; [reflexivity|]. split; [constructor|]. split; [|intros i []].
    exists (fun _ => true). clear. induction mf; simpl; congruence.
  - apply NoDup_cons_iff in ND. destruct ND as (NIi & ND).
    assert (Hi : In i mf) by (apply IC; now left).
    assert (S0' : satE mf z0). { destruct S0 as (L0 & S0). split; [exact L0|]. intros j Hj. apply S0. apply in_seq. specialize (Hmf j Hj). lia. }
    destruct (facet_lp mf i z0 Hmf Hi S0') as (s & z & Es & Em & Sz & Bz & Oz). rewrite Es. cbn [bind]. rewrite Em.
    destruct (Rltb (- - dot (row E i) z - nth i f 0) tol) eqn:Et.
    + apply Rltb_true in Et.
      destruct (IH (remove Nat.eq_dec i mf)) as (mf' & El & R' & (kp & Ek) & W'); auto.
      * intros j Hj. apply in_in_remove; [intros ->; contradiction|]. apply IC. now right.
      * intros j Hj. apply in_remove in Hj. apply Hmf; tauto.
      * exists mf'. split; [exact El|]. split.
        -- apply removalE_cons with i; auto. apply (relaxed_redundant mf i z0 z); auto. lra.
        -- split.
           ++ exists (fun j => if Nat.eq_dec i j then false else kp j). subst mf'.
              clear. induction mf as [|a mf IH]; simpl; [reflexivity|]. destruct (Nat.eq_dec i a); simpl; [exact IH|].
              destruct (kp a); simpl; congruence.
           ++ intros j [<-|Hj] Hj'; [|now apply W']. apply removalE_incl in R'. apply R' in Hj'. apply in_remove in Hj'. tauto.
    + apply Rltb_false in Et.
      destruct (IH mf) as (mf' & El & R' & Ek & W'); auto.
      * intros j Hj. apply IC. now right.
      * exists mf'. split; [exact El|]. split; [exact R'|]. split; [exact Ek|].
        intros j [<-|Hj] Hj'; [|now apply W']. exists z. split; [|lra]. destruct Sz as (Lz & Sz). split; [exact Lz|].
        intros k Hk. apply Sz. apply in_remove in Hk. apply in_in_remove; [tauto|]. apply (removalE_incl _ _ R'). tauto.
Qed.
End Facets.

Lemma set_empty_constraints p e : pA (set_empty p e) = pA p /\ pb (set_empty p e) = pb p /\ pC (set_empty p e) = pC p /\ pd (set_empty p e) = pd p.
Proof. repeat split. Qed.

(** translation from the reduced problem *)
Lemma removal_of_E p m me n E f k tol (phi : vec -> vec) : wf p m me n ->
  (forall z, length z = k -> length (phi z) = n /\ eq_holds (pC p) (pd p) (phi z) /\
      forall j, (j < m)%nat -> dot (row E j) z - nth j f 0 = dot (row (pA p) j) (phi z) - nth j (pb p) 0) ->
  (forall x, length x = n -> eq_holds (pC p) (pd p) x -> exists z, length z = k /\ x = phi z) ->
  forall S S', (forall j, In j S -> (j < m)%nat) -> removalE E f k tol S S' -> removal p tol S S'.
Proof.
  intros (WA & _) Hphi Hsur S S' HS H. induction H as [S|i S S' Hi Hz H IH]; [constructor|].
  apply removal_cons with i; auto.
  - intros x (Lx & Ex & Sx). rewrite (shape_cols _ _ _ WA) in Lx. destruct (Hsur x Lx Ex) as (z & Lz & ->).
    destruct (Hphi z Lz) as (_ & _ & Hj). specialize (Hz z). pose proof (Hj i (HS i Hi)).
    enough (dot (row E i) z < nth i f 0 + tol) by lra. apply Hz. split; [exact Lz|]. intros j Hjr.
    specialize (Sx j Hjr). apply in_remove in Hjr. specialize (Hj j (HS j (proj1 Hjr))). lra.
  - apply IH. intros j Hj. apply in_remove in Hj. apply HS; tauto.
Qed.

(** what minimal_facets returns *)
Lemma minimal_facets_ok np p m me n tol : exact_np np -> wf p m me n -> tol <= 1 ->
  (me = 0%nat \/ ((me < n)%nat /\ indep_rows (pC p) me)) ->
  p_empty p <> Some true -> (exists x, in_poly p x /\ near x) ->
  exists mf p1, minimal_facets np tol p = (Ok (Some mf), p1) /\ (p1 = p \/ p1 = set_empty p false) /\
    removal p tol (seq 0 m) mf /\ (exists kp, mf = filter kp (seq 0 m)) /\
    forall i, In i mf -> exists x, sat p (remove Nat.eq_dec i mf) x /\ nth i (pb p) 0 + tol <= dot (row (pA p) i) x.
Proof.
  intros Hnp W Htol Hme NE (x0 & Hx0 & Nx0). pose proof W as (WA & Wb & WC & Wd). pose proof Hnp as (_ & _ & _ & Hinv & _ & Hsvd).
  assert (EM : exists p1, get_empty np p = (Ok false, p1) /\ (p1 = p \/ p1 = set_empty p false)).
  { destruct (p_empty p) as [e|] eqn:Ee.
    - exists p. split; [|now left]. unfold get_empty, pbind, pget. rewrite Ee. destruct e; [congruence|reflexivity].
    - destruct (get_empty_ok np p m me n Hnp W Ee) as (e & Eg & He). exists (set_empty p false). split; [|now right].
      destruct e; [|exact Eg]. exfalso. apply (proj1 He eq_refl). eauto. }
  destruct EM as (p1 & Eg & Hp1). 
  assert (C1 : pA p1 = pA p /\ pb p1 = pb p /\ pC p1 = pC p /\ pd p1 = pd p) by (destruct Hp1; subst p1; auto).
  destruct C1 as (C1 & C2 & C3 & C4).
  unfold minimal_facets. unfold pbind at 1. rewrite Eg. unfold pbind at 1. unfold pget, plift. rewrite C1, C2, C3, C4.
  rewrite (nrows_shape _ _ _ WC).
  assert (LA : length (rows (pA p)) = m) by apply WA.
  (* the reduced problem *)
  assert (RED : exists E f k (phi : vec -> vec),
    (if (0 <? me)%nat then q <- remove_equalities np (pA p) (pb p) (pC p) (pd p) ;; (let '(E, f, _, _) := q in Ok (E, f))
     else Ok (pA p, pb p)) = Ok (E, f) /\ shape E m k /\ length f = m /\
    (forall z, length z = k -> length (phi z) = n /\ eq_holds (pC p) (pd p) (phi z) /\
      forall j, (j < m)%nat -> dot (row E j) z - nth j f 0 = dot (row (pA p) j) (phi z) - nth j (pb p) 0) /\
    (forall x, length x = n -> eq_holds (pC p) (pd p) x -> exists z, length z = k /\ x = phi z)).
  { destruct (Nat.ltb_spec 0 me) as [G|G].
    - destruct Hme as [->|(M1 & M2)]; [lia|].
      destruct (remove_equalities_ok np (pA p) (pb p) (pC p) (pd p) m me n Hsvd Hinv WA Wb WC Wd)
        as [(_ & _ & E & f & N & R & X & ER & EX & HE & Lf & HN & HR & HX & Lr & E1 & E2 & IN & CL & VL & SL & OL)|(NI & _)];
        [|elim NI; auto].
      set (r := mv X (pd p)) in *. set (k := (n - me)%nat) in *.
      assert (LN : length (rows N) = n) by apply HN. assert (LR : length (rows R) = n) by apply HR.
      exists E, f, k, (lift N R r). rewrite ER. cbn [bind]. split; [reflexivity|]. split; [exact HE|]. split; [exact Lf|]. split.
      + intros z Lz. split; [unfold lift; len|]. split; [rewrite eq_holds_mv; now apply CL|]. intros j Hj.
        subst E f. rewrite nth_vsub by len.
        unfold row. rewrite <- !nth_mv. rewrite (mv_mm (pA p) N n k) by exact HN. unfold lift.
        rewrite (mv_vadd (pA p) m n) by (auto; len). rewrite nth_vadd by len. ring.
      + intros x Lx Ex. apply SL; [exact Lx|]. now apply eq_holds_mv.
    - assert (Z0 : me = O) by lia. rewrite Z0 in *. exists (pA p), (pb p), n, (fun z => z). split; [reflexivity|]. split; [exact WA|]. split; [exact Wb|].
      split; [|intros x Lx _; eauto]. intros z Lz. split; [exact Lz|]. split; [|reflexivity].
      unfold eq_holds. assert (LC : length (rows (pC p)) = 0%nat) by apply WC. destruct (rows (pC p)); [|discriminate].
      destruct (pd p); [constructor|discriminate]. }
  destruct RED as (E & f & k & phi & -> & HE & Lf & Hphi & Hsur). unfold pbind. rewrite (nrows_shape _ _ _ HE).
  assert (Hz0 : exists z0, satE E f k (seq 0 m) z0).
  { apply (sat_all p m me n x0 W) in Hx0. destruct Hx0 as (Lx & Ex & Sx). rewrite (shape_cols _ _ _ WA) in Lx.
    destruct (Hsur x0 Lx Ex) as (z & Lz & ->). exists z. split; [exact Lz|]. intros j Hj. destruct (Hphi z Lz) as (_ & _ & Hj').
    specialize (Sx j Hj). apply in_seq in Hj. specialize (Hj' j ltac:(lia)). lra. }
  destruct Hz0 as (z0 & S0).
  assert (HIN : forall j, In j (seq 0 m) -> (j < m)%nat) by (intros j Hj; apply in_seq in Hj; lia).
  destruct (facets_loop_ok np Hnp E f m k tol HE Lf Htol z0 (seq 0 m) (seq 0 m) (seq_NoDup m 0) (incl_refl _) HIN S0)
    as (mf & El & Rm & Kp & Wt).
  exists mf, p1. rewrite El. split; [reflexivity|]. split; [exact Hp1|].
  split; [eapply removal_of_E; eauto|]. split; [exact Kp|].
  intros i Hi. assert (Him : In i (seq 0 m)) by (apply (removalE_incl _ _ _ _ _ _ Rm); exact Hi).
  destruct (Wt i Him Hi) as (z & (Lz & Sz) & Bz). destruct (Hphi z Lz) as (P1 & P2 & P3). exists (phi z). split.
  - split; [rewrite (shape_cols _ _ _ WA); exact P1|]. split; [exact P2|]. intros j Hj. specialize (Sz j Hj).
    apply in_remove in Hj. specialize (P3 j). pose proof (removalE_incl _ _ _ _ _ _ Rm j (proj1 Hj)). specialize (P3 (HIN j ltac:(auto))). lra.
  - specialize (P3 i (HIN i Him)). lra.
Qed.

(*@ Theorem C11_minimality : Every facet index returned by minimal_facets(tol) is irredundant by at least tol: some point satisfies all the other returned facets (and the equalities) and violates this one by tol or more. *)
Lemma minimality np p m me n tol : exact_np np -> wf p m me n -> tol <= 1 ->
  (me = 0%nat \/ ((me < n)%nat /\ indep_rows (pC p) me)) ->
  p_empty p <> Some true -> (exists x, in_poly p x /\ near x) ->
  exists mf p1, minimal_facets np tol p = (Ok (Some mf), p1) /\ NoDup mf /\
    forall i, In i mf -> (i < m)%nat /\
      exists x, sat p (remove Nat.eq_dec i mf) x /\ nth i (pb p) 0 + tol <= dot (row (pA p) i) x.
Proof.
  intros. destruct (minimal_facets_ok np p m me n tol) as (mf & p1 & E & _ & Rm & (kp & Ek) & Wt); auto.
  exists mf, p1. split; [exact E|]. split; [subst mf; apply NoDup_filter, seq_NoDup|].
  intros i Hi. split; [|now apply Wt]. apply (removal_incl _ _ _ _ Rm) in Hi. apply in_seq in Hi. lia.
Qed.

Lemma set_rows_poly p p1 m me n mf : wf p m me n -> (p1 = p \/ p1 = set_empty p false) -> (forall j, In j mf -> (j < m)%nat) ->
  let p' := set_b (set_A p1 (mtake (pA p1) mf)) (vtake (pb p1) mf) in
  wf p' (length mf) me n /\ forall x, in_poly p' x <-> sat p mf x.
Proof.
  intros (WA & Wb & WC & Wd) Hp1 Hmf p'.
  assert (C1 : pA p1 = pA p /\ pb p1 = pb p /\ pC p1 = pC p /\ pd p1 = pd p) by (destruct Hp1; subst p1; auto).
  destruct C1 as (C1 & C2 & C3 & C4).
  assert (W' : wf p' (length mf) me n).
  { unfold wf, p'. cbn [pA pb pC pd set_A set_b]. rewrite C1, C2, C3, C4. split; [eapply shape_mtake; eauto|]. split; [len|]. auto. }
  split; [exact W'|]. intros x. unfold in_poly, in_set, sat, p'. cbn [pA pb pC pd set_A set_b mtake ncols]. rewrite C1, C2, C3, C4.
  rewrite ineq_holds_vle, mv_mtake. unfold vtake.
  assert (G : vle (map (fun j => dot (row (pA p) j) x) mf) (map (fun j => nth j (pb p) 0) mf) <->
              forall j, In j mf -> dot (row (pA p) j) x <= nth j (pb p) 0).
  { clear. unfold vle. induction mf as [|a mf IH]; simpl.
    - split; [intros _ j []|constructor].
    - split.
      + intros H. apply Forall2_cons_inv in H. destruct H as (H1 & H2). intros j [<-|Hj]; [exact H1|]. now apply IH.
      + intros H. constructor; [apply H; now left|]. apply IH. intros j Hj. apply H. now right. }
  rewrite G. tauto.
Qed.

(** no facet is redundant by less than tol: with respect to the equalities and any set S of inequalities, an inequality is
    implied, or can be violated by tol (and by no more than 1) *)
Definition redundancy_gap (p : poly) (m : nat) (tol : R) : Prop :=
  forall S i, (i < m)%nat -> ~ In i S -> (forall j, In j S -> (j < m)%nat) ->
    (forall x, sat p S x -> dot (row (pA p) i) x <= nth i (pb p) 0) \/
    (exists x, sat p S x /\ nth i (pb p) 0 + tol <= dot (row (pA p) i) x).

Lemma removal_exact p m tol S S' : (forall j, In j S -> (j < m)%nat) -> redundancy_gap p m tol -> removal p tol S S' ->
  forall x, sat p S' x -> sat p S x.
Proof.
  intros HS Hgap H. induction H as [S|i S S' Hi Hz H IH]; intros x Hx; [exact Hx|].
  assert (HS' : forall j, In j (remove Nat.eq_dec i S) -> (j < m)%nat) by (intros j Hj; apply in_remove in Hj; apply HS; tauto).
  specialize (IH HS' x Hx). destruct IH as (Lx & Ex & Sx). split; [exact Lx|]. split; [exact Ex|]. intros j Hj.
  destruct (Nat.eq_dec j i) as [->|Nj]; [|apply Sx; now apply in_in_remove].
  destruct (Hgap (remove Nat.eq_dec i S) i (HS i Hi)) as [G|(w & Sw & Bw)]; auto.
  - intros C. apply in_remove in C. tauto.
  - apply G. split; auto.
  - specialize (Hz w Sw). lra.
Qed.
Lemma removal_strict p tol S S' : tol <= 0 -> removal p tol S S' -> forall x, sat p S' x -> sat p S x.
Proof.
  intros Ht H. induction H as [S|i S S' Hi Hz H IH]; intros x Hx; [exact Hx|].
  specialize (IH x Hx). pose proof (Hz x IH) as B. destruct IH as (Lx & Ex & Sx). split; [exact Lx|]. split; [exact Ex|]. intros j Hj.
  destruct (Nat.eq_dec j i) as [->|Nj]; [lra|apply Sx; now apply in_in_remove].
Qed.

(*@ Theorem C10_redundancy_removal : On a non-empty polyhedron (with no or independent equalities) remove_redundant_inequalities() succeeds, keeps every point, and what it drops is implied, one row after the other, up to less than tol. *)
Lemma redundancy_removal np p m me n : exact_np np -> wf p m me n ->
  (me = 0%nat \/ ((me < n)%nat /\ indep_rows (pC p) me)) ->
  p_empty p <> Some true -> (exists x, in_poly p x /\ near x) ->
  exists p' mf, remove_redundant_inequalities np p = (Ok tt, p') /\ wf p' (length mf) me n /\
    pA p' = mtake (pA p) mf /\ pb p' = vtake (pb p) mf /\ pC p' = pC p /\ pd p' = pd p /\
    removal p tol7 (seq 0 m) mf /\
    (forall x, in_poly p x -> in_poly p' x).
Proof.
  intros Hnp W Hme NE Hx. assert (T1 : tol7 <= 1) by (unfold tol7; lra).
  destruct (minimal_facets_ok np p m me n tol7 Hnp W T1 Hme NE Hx) as (mf & p1 & E & Hp1 & Rm & _ & _).
  unfold remove_redundant_inequalities. unfold pbind. rewrite E. unfold pget, pput.
  assert (HIN : forall j, In j mf -> (j < m)%nat) by (intros j Hj; apply (removal_incl _ _ _ _ Rm) in Hj; apply in_seq in Hj; lia).
  destruct (set_rows_poly p p1 m me n mf W Hp1 HIN) as (W' & H').
  eexists _, mf. split; [reflexivity|]. split; [exact W'|]. 
  assert (C1 : pA p1 = pA p /\ pb p1 = pb p /\ pC p1 = pC p /\ pd p1 = pd p) by (destruct Hp1; subst p1; auto).
  destruct C1 as (C1 & C2 & C3 & C4). cbn [pA pb pC pd set_A set_b]. rewrite C1, C2, C3, C4.
  repeat match goal with |- _ /\ _ => split end; auto.
  intros x Hxp. replace (set_b _ _) with (set_b (set_A p1 (mtake (pA p1) mf)) (vtake (pb p1) mf)) by (rewrite C1, C2; reflexivity).
  apply H'. apply (sat_all p m me n x W) in Hxp. destruct Hxp as (H1 & H2 & H3). split; [exact H1|]. split; [exact H2|].
  intros j Hj. apply H3. apply (removal_incl _ _ _ _ Rm). exact Hj.
Qed.
(*@ Theorem C10_redundancy_exact_partial : If no inequality is redundant by less than tol, the set is exactly the same.
   Missing: polyhedra with inequalities that are redundant by less than tol, for which the set can grow (see the refutation). *)
Lemma redundancy_exact np p m me n : exact_np np -> wf p m me n ->
  (me = 0%nat \/ ((me < n)%nat /\ indep_rows (pC p) me)) ->
  p_empty p <> Some true -> (exists x, in_poly p x /\ near x) -> redundancy_gap p m tol7 ->
  exists p', remove_redundant_inequalities np p = (Ok tt, p') /\ forall x, in_poly p' x <-> in_poly p x.
Proof.
  intros Hnp W Hme NE Hx Hgap.
  destruct (redundancy_removal np p m me n Hnp W Hme NE Hx) as (p' & mf & E & W' & E1 & E2 & E3 & E4 & Rm & Hin).
  exists p'. split; [exact E|]. intros x. split; [|apply Hin]. intros Hx'.
  apply (sat_all p m me n x W). apply (removal_exact p m tol7 _ mf); auto.
  - intros j Hj. apply in_seq in Hj. lia.
  - assert (HIN : forall j, In j mf -> (j < m)%nat) by (intros j Hj; apply (removal_incl _ _ _ _ Rm) in Hj; apply in_seq in Hj; lia).
    destruct (set_rows_poly p p m me n mf W (or_introl eq_refl) HIN) as (_ & H'). apply H'.
    unfold in_poly in *. cbn [pA pb pC pd set_A set_b]. rewrite E1, E2, E3, E4 in Hx'. exact Hx'.
Qed.
(*@ Theorem C10_strict_tolerance : With tol <= 0 minimal_facets() never changes the set. *)
Lemma strict_tolerance np p m me n tol : exact_np np -> wf p m me n -> tol <= 0 ->
  (me = 0%nat \/ ((me < n)%nat /\ indep_rows (pC p) me)) ->
  p_empty p <> Some true -> (exists x, in_poly p x /\ near x) ->
  exists mf p1, minimal_facets np tol p = (Ok (Some mf), p1) /\ forall x, sat p mf x <-> in_poly p x.
Proof.
  intros Hnp W Ht Hme NE Hx. assert (T1 : tol <= 1) by lra.
  destruct (minimal_facets_ok np p m me n tol Hnp W T1 Hme NE Hx) as (mf & p1 & E & Hp1 & Rm & _ & _).
  exists mf, p1. split; [exact E|]. intros x. rewrite <- (sat_all p m me n x W). split.
  - now apply (removal_strict p tol).
  - intros (H1 & H2 & H3). split; [exact H1|]. split; [exact H2|]. intros j Hj. apply H3, (removal_incl _ _ _ _ Rm), Hj.
Qed.
