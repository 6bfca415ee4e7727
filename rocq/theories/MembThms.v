(** * MembThms: the membership test for any number of constraints (C06) and PWA simulation with it (C28), proofs *)
From Coq Require Import ZArith.
From Verif Require Import Arr ArrFacts Spec SpecDyn Numpy Pnnls GeomUtils Polyhedron PolyThms Dynamics DynThms.
Open Scope R_scope.

Lemma vmax_ge v t : v <> [] -> exists mx, vmax v = Ok mx /\ (mx <= t <-> Forall (fun z => z <= t) v) /\ (t <= mx <-> Exists (fun z => t <= z) v).
Proof.
  destruct v as [|a l]; [congruence|]. intros _. cbn [vmax]. eexists. split; [reflexivity|]. split.
  - rewrite fold_max. split; [intros (H & F); constructor; assumption|intros H; inversion H; auto].
  - revert a. induction l as [|b l IH]; intros a; cbn [fold_left].
    + split; [intros H; left; exact H|intros H; inversion H as [? ? H1|? ? H1]; [exact H1|inversion H1]].
    + rewrite IH. split.
      * intros H. inversion H as [? ? H1|? ? H1]; subst; [|right; right; exact H1]. unfold Rmax in H1. destruct (Rle_dec a b); [right; left; exact H1|left; exact H1].
      * intros H. inversion H as [? ? H1|? ? H1]; subst; [left; apply Rle_trans with (1 := H1), Rmax_l|]. inversion H1 as [? ? H2|? ? H2]; subst; [left; apply Rle_trans with (1 := H2), Rmax_r|right; exact H2].
Qed.
(** what the code accepts: the largest of the residuals of the equalities is compared in absolute value *)
Definition accepted (tol : R) (p : poly) (x : vec) : Prop :=
  Forall2 (fun a bi => dot a x <= bi + tol) (rows (pA p)) (pb p) /\
  Forall2 (fun c di => dot c x <= di + tol) (rows (pC p)) (pd p) /\
  (rows (pC p) <> [] -> exists i, (i < length (rows (pC p)))%nat /\ nth i (pd p) 0 - tol <= dot (row (pC p) i) x).
Lemma exists_residual C d x t : length d = length (rows C) ->
  Exists (fun z => t <= z) (vsub (mv C x) d) <-> exists i, (i < length (rows C))%nat /\ nth i d 0 + t <= dot (row C i) x.
Proof.
  intros L. rewrite Exists_exists. split.
  - intros (z & Hz & H). destruct (In_nth _ _ 0 Hz) as (i & Hi & E). rewrite vsub_length, mv_length in Hi. exists i. split; [unfold nrows in *; lia|].
    rewrite <- E in H. rewrite nth_vsub, nth_mv in H by (len; lia). unfold row. lra.
  - intros (i & Hi & H). exists (nth i (vsub (mv C x) d) 0). split; [apply nth_In; len; lia|]. rewrite nth_vsub, nth_mv by (len; lia). unfold row in H. lra.
Qed.
(*@ Theorem C06_contains_exact : What contains(x, tol) computes for every polyhedron with coherent shapes: ValueError without inequalities; otherwise True iff every inequality holds within tol, no equality is exceeded by more than tol, and at least one equality is not undercut by more than tol. *)
Lemma contains_exact p m me n x tol : wf p m me n -> length x = n ->
  (m = 0%nat -> contains tol p x = Err ValueError) /\
  ((0 < m)%nat -> exists r, contains tol p x = Ok r /\ (r = true <-> accepted tol p x)).
Proof.
  intros (WA & Wb & WC & Wd) Lx. assert (LA : length (rows (pA p)) = m) by apply WA. assert (LC : length (rows (pC p)) = me) by apply WC.
  unfold contains, np_mv. rewrite (shape_cols _ _ _ WA), Lx, Nat.eqb_refl. cbn [bind]. split.
  - intros ->. destruct (pb p); [|discriminate Wb]. destruct (vsub (mv (pA p) x) []) eqn:E; [reflexivity|]. apply (f_equal (@length R)) in E. rewrite vsub_length, mv_length in E. cbn in E. lia.
  - intros Hm. destruct (vmax_ge (vsub (mv (pA p) x) (pb p)) tol) as (mx & -> & Hmx & _); [intros E; apply (f_equal (@length R)) in E; lenh E; lia|].
    cbn [bind]. rewrite forall_residual in Hmx by lia. unfold nrows. rewrite LC. unfold accepted. destruct me as [|me].
    + cbn [Nat.ltb Nat.leb bind]. eexists. split; [reflexivity|]. rewrite andb_true_r, Rleb_true, Hmx.
      destruct (rows (pC p)); [|discriminate LC]. destruct (pd p); [|discriminate Wd]. split; [intros H; split; [exact H|split; [constructor|congruence]]|intros (H & _); exact H].
    + cbn [Nat.ltb Nat.leb]. rewrite (shape_cols _ _ _ WC), Nat.eqb_refl. cbn [bind].
      assert (NE : vsub (mv (pC p) x) (pd p) <> []) by (intros E; apply (f_equal (@length R)) in E; lenh E; lia).
      destruct (vmax_ge _ tol NE) as (mc & Ec & Hc1 & _). destruct (vmax_ge _ (- tol) NE) as (mc' & Ec' & _ & Hc2). rewrite Ec in Ec'. injection Ec' as <-.
      rewrite Ec. cbn [bind]. eexists. split; [reflexivity|]. rewrite andb_true_iff, !Rleb_true, Hmx. rewrite forall_residual in Hc1 by lia. rewrite exists_residual in Hc2 by lia.
      assert (AB : Rabs mc <= tol <-> mc <= tol /\ - tol <= mc) by (unfold Rabs; destruct (Rcase_abs mc); lra). rewrite AB, Hc1, Hc2.
      assert (NC : rows (pC p) <> []) by (intros E; rewrite E in LC; discriminate LC).
      split; [intros (H1 & H2 & i & Hi & H3)|intros (H1 & H2 & H3)]; [split; [exact H1|split; [exact H2|intros _; exists i; split; [exact Hi|lra]]]|].
      destruct (H3 NC) as (i & Hi & H4). split; [exact H1|split; [exact H2|exists i; split; [exact Hi|lra]]].
Qed.
(*@ Example C06_exact_example : With the equalities x0 = 0, x1 = 0 the point (0, -5) is accepted, (0, 5) is not; without inequalities the test raises. *)
Lemma contains_exact_example : let p := Poly (Mat 2 [[0; 0]]) [0] (Mat 2 [[1; 0]; [0; 1]]) [0; 0] None None None None None in
  wf p 1 2 2 /\ contains tol7 p [0; -5] = Ok true /\ contains tol7 p [0; 5] = Ok false /\
  contains tol7 (Poly (Mat 2 []) [] (Mat 2 [[1; 0]]) [0] None None None None None) [0; 0] = Err ValueError.
Proof.
  intros p. assert (W : wf p 1 2 2) by (unfold wf; cbn; repeat split; repeat constructor). split; [exact W|].
  destruct (contains_exact p 1 2 2 [0; -5] tol7 W eq_refl) as (_ & H). destruct (H ltac:(lia)) as (r & -> & Hr).
  destruct (contains_exact p 1 2 2 [0; 5] tol7 W eq_refl) as (_ & H'). destruct (H' ltac:(lia)) as (r' & -> & Hr').
  split; [f_equal; apply Hr|split; [f_equal|reflexivity]].
  - split; [|split]; cbn; [repeat (apply Forall2_cons; [cbn; unfold tol7; lra|]); constructor|repeat (apply Forall2_cons; [cbn; unfold tol7; lra|]); constructor|].
    intros _. exists 0%nat. split; [lia|]. cbn. unfold tol7. lra.
  - destruct r'; [exfalso|reflexivity]. destruct (proj1 Hr' eq_refl) as (_ & F & _). cbn in F. inversion F as [|? ? ? ? _ F2]; subst. inversion F2 as [|? ? ? ? F3 _]; subst. cbn in F3. unfold tol7 in F3. lra.
Qed.

(** ** C28 for arbitrary domains *)
(** m is the first domain that the code accepts *)
Definition first_accepted (D : list poly) (xu : vec) (m : nat) : Prop :=
  (m < length D)%nat /\ (forall d, nth_error D m = Some d -> accepted tol7 d xu) /\ forall k d, (k < m)%nat -> nth_error D k = Some d -> ~ accepted tol7 d xu.
Definition none_accepted (D : list poly) (xu : vec) : Prop := forall d, In d D -> ~ accepted tol7 d xu.
Definition accepted_run (W : pwa) (x0 : vec) (u xs : list vec) (ms : list nat) : Prop :=
  length ms = length u /\ is_switched_trajectory (map aA (w_sys W)) (map aB (w_sys W)) (map ac (w_sys W)) ms x0 u xs /\
  forall t, (t < length u)%nat -> first_accepted (w_dom W) (nth t xs [] ++ nth t u []) (nth t ms O).
(** coherent PWA system whose domains all have an inequality *)
Definition pwa_shapes (W : pwa) (nx nu : nat) : Prop :=
  length (w_sys W) = length (w_dom W) /\
  (forall s, In s (w_sys W) -> system_shape (aA s) (aB s) nx nu /\ length (ac s) = nx) /\
  (forall d, In d (w_dom W) -> exists m me, wf d m me (nx + nu) /\ (0 < m)%nat).
Lemma get_mode_from_accepted D n xu i : length xu = n ->
  (forall d, In d D -> exists m me, wf d m me n /\ (0 < m)%nat) ->
  (exists m, get_mode_from i D xu = Ok (Some (i + m)%nat) /\ first_accepted D xu m) \/
  (get_mode_from i D xu = Ok None /\ none_accepted D xu).
Proof.
  intros Lx. revert i. induction D as [|d D IH]; intros i HD.
  - right. split; [reflexivity|]. intros d [].
  - cbn [get_mode_from]. destruct (HD d (or_introl eq_refl)) as (m & me & Hwf & Hm).
    destruct (proj2 (contains_exact d m me n xu tol7 Hwf Lx) Hm) as (r & E & Hr). rewrite E. cbn [bind]. destruct r.
    + left. exists O. split; [rewrite Nat.add_0_r; reflexivity|]. split; [cbn; lia|]. split.
      * intros d' [= <-]. apply Hr. reflexivity.
      * intros; lia.
    + assert (Hn : ~ accepted tol7 d xu) by (intros W; apply Hr in W; discriminate).
      destruct (IH (S i)) as [(k & E' & F)|(E' & F)]; [intros; apply HD; right; assumption| |].
      * left. exists (S k). split; [rewrite E'; do 2 f_equal; lia|]. destruct F as (F1 & F2 & F3).
        split; [cbn; lia|]. split; [exact F2|].
        intros [|j] d' Hj Hd'; cbn in Hd'; [injection Hd' as <-; exact Hn|]. apply (F3 j); [lia|exact Hd'].
      * right. split; [exact E'|]. intros d' [<-|Hd']; [exact Hn|]. apply F, Hd'.
Qed.

Lemma first_accepted_unique D xu m k : first_accepted D xu m -> first_accepted D xu k -> m = k.
Proof.
  intros (L1 & I1 & N1) (L2 & I2 & N2).
  destruct (lt_eq_lt_dec m k) as [[H|H]|H]; [|exact H|]; exfalso.
  - destruct (nth_error D m) as [d|] eqn:E; [|apply nth_error_None in E; lia]. exact (N2 m d H E (I1 d eq_refl)).
  - destruct (nth_error D k) as [d|] eqn:E; [|apply nth_error_None in E; lia]. exact (N1 k d H E (I2 d eq_refl)).
Qed.
Lemma first_accepted_no D xu m : first_accepted D xu m -> none_accepted D xu -> False.
Proof.
  intros (L & I & _) N. destruct (nth_error D m) as [d|] eqn:E; [|apply nth_error_None in E; lia].
  exact (N d (nth_error_In _ _ E) (I d eq_refl)).
Qed.

Lemma accepted_run_cons W x v u m xs ms s : nth_error (w_sys W) m = Some s -> first_accepted (w_dom W) (x ++ v) m ->
  accepted_run W (affine_step (aA s) (aB s) (ac s) x v) u xs ms -> accepted_run W x (v :: u) (x :: xs) (m :: ms).
Proof.
  intros Es F (L & (LX & X0 & XS) & HM). split; [cbn; lia|]. split; [split; [cbn; lia|split; [reflexivity|]]|].
  - intros [|t] Ht; cbn [nth length] in *.
    + rewrite X0. f_equal; symmetry.
      * rewrite (nth_indep _ _ (aA s)) by (rewrite map_length; apply nth_error_Some; congruence).
        rewrite map_nth. f_equal. apply nth_error_nth with (1 := Es).
      * rewrite (nth_indep _ _ (aB s)) by (rewrite map_length; apply nth_error_Some; congruence).
        rewrite map_nth. f_equal. apply nth_error_nth with (1 := Es).
      * rewrite (nth_indep _ _ (ac s)) by (rewrite map_length; apply nth_error_Some; congruence).
        rewrite map_nth. f_equal. apply nth_error_nth with (1 := Es).
    + apply XS. lia.
  - intros [|t] Ht; cbn [nth length] in *; [exact F|]. apply HM. lia.
Qed.
Lemma accepted_run_uncons W x v u m xs ms s : nth_error (w_sys W) m = Some s ->
  accepted_run W x (v :: u) xs (m :: ms) -> exists xs', xs = x :: xs' /\ first_accepted (w_dom W) (x ++ v) m /\
  accepted_run W (affine_step (aA s) (aB s) (ac s) x v) u xs' ms.
Proof.
  intros Es (L & (LX & X0 & XS) & HM). destruct xs as [|x' xs']; [discriminate|]. cbn in X0. subst x'. exists xs'.
  split; [reflexivity|]. split; [apply (HM O); cbn; lia|]. split; [cbn in L; lia|]. split; [split; [cbn in LX; lia|split]|].
  - specialize (XS O ltac:(cbn; lia)). cbn [nth] in XS. rewrite XS. f_equal.
    + rewrite (nth_indep _ _ (aA s)) by (rewrite map_length; apply nth_error_Some; congruence).
      rewrite map_nth. f_equal. apply nth_error_nth with (1 := Es).
    + rewrite (nth_indep _ _ (aB s)) by (rewrite map_length; apply nth_error_Some; congruence).
      rewrite map_nth. f_equal. apply nth_error_nth with (1 := Es).
    + rewrite (nth_indep _ _ (ac s)) by (rewrite map_length; apply nth_error_Some; congruence).
      rewrite map_nth. f_equal. apply nth_error_nth with (1 := Es).
  - intros t Ht. apply (XS (S t)). cbn. lia.
  - intros t Ht. apply (HM (S t)). cbn. lia.
Qed.

Lemma accepted_simulation_aux W nx nu : pwa_shapes W nx nu -> forall u x0, length x0 = nx -> Forall (fun v => length v = nu) u ->
  (exists xs ms, pwa_simulate W x0 u = Ok (xs, ms) /\ accepted_run W x0 u xs ms) \/
  (pwa_simulate W x0 u = Err ValueError /\
   exists k xs ms, (k < length u)%nat /\ accepted_run W x0 (firstn k u) xs ms /\ none_accepted (w_dom W) (nth k xs [] ++ nth k u [])).
Proof.
  intros (LW & HS & HD) u. induction u as [|v u IH]; intros x0 Hx Hu.
  - left. exists [x0], []. split; [reflexivity|]. split; [reflexivity|]. split; [split; [reflexivity|split; [reflexivity|]]|]; cbn; intros; lia.
  - inversion Hu as [|? ? Hv Hu']; subst. cbn [pwa_simulate]. unfold get_mode.
    destruct (get_mode_from_accepted (w_dom W) (length x0 + length v) (x0 ++ v) 0) as [(m & E & F)|(E & F)]; [len|exact HD| |].
    + rewrite E. cbn [bind Nat.add].
      destruct (nth_error (w_sys W) m) as [s|] eqn:Es; [|apply nth_error_None in Es; destruct F; lia].
      destruct (HS s (nth_error_In _ _ Es)) as ((HA & HB) & Hc).
      rewrite (np_mv_ok (aA s) (length x0) (length x0) x0), (np_mv_ok (aB s) (length x0) (length v) v) by auto. cbn [bind].
      assert (LA : length (rows (aA s)) = length x0) by apply HA. assert (LB : length (rows (aB s)) = length x0) by apply HB.
      destruct (IH (affine_step (aA s) (aB s) (ac s) x0 v)) as [(xs & ms & E2 & R2)|(E2 & k & xs & ms & Hk & R2 & NM)]; [unfold affine_step; len|exact Hu'| |].
      * left. exists (x0 :: xs), (m :: ms). unfold affine_step in E2. rewrite E2. split; [reflexivity|].
        apply (accepted_run_cons W x0 v u m xs ms s); assumption.
      * right. unfold affine_step in E2. rewrite E2. split; [reflexivity|]. exists (S k), (x0 :: xs), (m :: ms).
        split; [cbn; lia|]. split; [|exact NM]. cbn [firstn]. apply (accepted_run_cons W x0 v (firstn k u) m xs ms s); assumption.
    + right. rewrite E. split; [reflexivity|]. exists O, [x0], []. split; [cbn; lia|].
      split; [|exact F]. split; [reflexivity|]. split; [split; [reflexivity|split; [reflexivity|]]|]; cbn; intros; lia.
Qed.

Lemma accepted_run_unique W x u : length (w_sys W) = length (w_dom W) -> forall xs ms ys ns, accepted_run W x u xs ms -> accepted_run W x u ys ns -> xs = ys /\ ms = ns.
Proof.
  intros LW. revert x. induction u as [|v u IH]; intros x xs ms ys ns R1 R2.
  - destruct R1 as (L1 & (X1 & Y1 & _) & _), R2 as (L2 & (X2 & Y2 & _) & _). cbn in *.
    destruct ms; [|discriminate]. destruct ns; [|discriminate].
    destruct xs as [|a [|? ?]]; try discriminate. destruct ys as [|b [|? ?]]; try discriminate. cbn in *. subst. auto.
  - destruct ms as [|m ms]; [destruct R1; discriminate|]. destruct ns as [|k ns]; [destruct R2; discriminate|].
    assert (F1 : first_accepted (w_dom W) (x ++ v) m).
    { destruct R1 as (_ & (LX & X0 & _) & H). specialize (H O ltac:(cbn; lia)). cbn [nth] in H. rewrite <- X0. exact H. }
    assert (F2 : first_accepted (w_dom W) (x ++ v) k).
    { destruct R2 as (_ & (LX & X0 & _) & H). specialize (H O ltac:(cbn; lia)). cbn [nth] in H. rewrite <- X0. exact H. }
    assert (k = m) by (eapply first_accepted_unique; eauto). subst k.
    destruct (nth_error (w_sys W) m) as [s|] eqn:Es; [|apply nth_error_None in Es; destruct F1; lia].
    destruct (accepted_run_uncons _ _ _ _ _ _ _ _ Es R1) as (xs' & -> & _ & R1').
    destruct (accepted_run_uncons _ _ _ _ _ _ _ _ Es R2) as (ys' & -> & _ & R2').
    destruct (IH _ _ _ _ _ R1' R2') as (-> & ->). auto.
Qed.
Lemma accepted_run_firstn W x u xs ms k : accepted_run W x u xs ms -> accepted_run W x (firstn k u) (firstn (S k) xs) (firstn k ms).
Proof.
  intros (L & (LX & X0 & XS) & HM). split; [rewrite !firstn_length; lia|]. split; [split; [rewrite !firstn_length; lia|split]|].
  - destruct xs; [discriminate|]. exact X0.
  - intros t Ht. rewrite firstn_length in Ht. rewrite !nth_firstn' by lia. apply XS. lia.
  - intros t Ht. rewrite firstn_length in Ht. rewrite !nth_firstn' by lia. apply HM. lia.
Qed.

(*@ Theorem C28_exact : The same for domains with any number of equalities: simulate returns exactly the run in which every step uses the first domain accepted by contains (C06_contains_exact), and raises ValueError exactly when no domain is accepted; it raises nothing else. *)
Lemma accepted_simulation W nx nu x0 u : pwa_shapes W nx nu -> length x0 = nx -> Forall (fun v => length v = nu) u ->
  (forall xs ms, pwa_simulate W x0 u = Ok (xs, ms) <-> accepted_run W x0 u xs ms) /\
  (pwa_simulate W x0 u = Err ValueError <->
     exists k xs ms, (k < length u)%nat /\ accepted_run W x0 (firstn k u) xs ms /\ none_accepted (w_dom W) (nth k xs [] ++ nth k u [])) /\
  (forall e, pwa_simulate W x0 u = Err e -> e = ValueError).
Proof.
  intros HW Hx Hu. assert (LW : length (w_sys W) = length (w_dom W)) by apply HW.
  destruct (accepted_simulation_aux W nx nu HW u x0 Hx Hu) as [(xs & ms & E & R0)|(E & k & xs & ms & Hk & R0 & NM)]; rewrite E.
  - split; [|split].
    + intros ys ns. split; [intros [= <- <-]; exact R0|]. intros R1. destruct (accepted_run_unique W x0 u LW _ _ _ _ R0 R1) as (-> & ->). reflexivity.
    + split; [discriminate|]. intros (k & ys & ns & Hk & R1 & NM). exfalso.
      pose proof (accepted_run_firstn _ _ _ _ _ k R0) as R2. destruct (accepted_run_unique _ _ _ LW _ _ _ _ R1 R2) as (-> & ->).
      rewrite nth_firstn' in NM by lia. destruct R0 as (_ & _ & HM). exact (first_accepted_no _ _ _ (HM k Hk) NM).
    + discriminate.
  - split; [|split].
    + intros ys ns. split; [discriminate|]. intros R1. exfalso.
      pose proof (accepted_run_firstn _ _ _ _ _ k R1) as R2. destruct (accepted_run_unique _ _ _ LW _ _ _ _ R0 R2) as (-> & ->).
      rewrite nth_firstn' in NM by lia. destruct R1 as (_ & _ & HM). exact (first_accepted_no _ _ _ (HM k Hk) NM).
    + split; [|reflexivity]. intros _. exists k, xs, ms. auto.
    + congruence.
Qed.

(*@ Theorem C28_equalities_refuted : A domain with two equalities, x = 0 and u = 0: the pair (0, -5) is in no domain, but simulate does not raise. *)
Lemma simulation_equalities_refuted : exists W, pwa_shapes W 1 1 /\ no_mode (w_dom W) [0; -5] /\ pwa_simulate W [0] [[-5]] = Ok ([[0]; [-5]], [0%nat]).
Proof.
  exists (PWA 1 1 [ASys (Mat 1 [[1]]) (Mat 1 [[1]]) [0]] [Poly (Mat 2 [[0; 0]]) [0] (Mat 2 [[1; 0]; [0; 1]]) [0; 0] None None None None None]).
  set (W := PWA _ _ _ _). assert (HW : pwa_shapes W 1 1).
  { split; [reflexivity|]. split; [intros s [<-|[]]; repeat split; repeat constructor|]. intros d [<-|[]]. exists 1%nat, 2%nat. split; [unfold wf; cbn; repeat split; repeat constructor|lia]. }
  split; [exact HW|]. split.
  - intros d [<-|[]] (_ & F). cbn in F. inversion F as [|? ? ? ? _ F2]; subst. inversion F2 as [|? ? ? ? F3 _]; subst. cbn in F3. unfold Rabs, tol7 in F3. destruct (Rcase_abs _) in F3; lra.
  - apply (accepted_simulation W 1 1 [0] [[-5]] HW eq_refl ltac:(repeat constructor)). split; [reflexivity|]. split.
    + split; [reflexivity|]. split; [reflexivity|]. intros t Ht. cbn in Ht. assert (t = 0%nat) by lia. subst t. cbn. unfold affine_step. cbn. f_equal. ring.
    + intros t Ht. cbn in Ht. assert (t = 0%nat) by lia. subst t. split; [cbn; lia|]. split; [|cbn; intros; lia]. intros d E. cbn in E. injection E as <-.
      split; [|split]; cbn; [repeat (apply Forall2_cons; [cbn; unfold tol7; lra|]); constructor|repeat (apply Forall2_cons; [cbn; unfold tol7; lra|]); constructor|].
      intros _. exists 0%nat. split; [lia|]. cbn. unfold tol7. lra.
Qed.
