(** * RoundPwaThms: rounding errors of the simulation of piecewise affine systems and examples (C93, C94), proofs *)
From Coq Require Import Permutation.
From Flocq Require Import Core.
From Verif Require Import Arr ArrFacts Spec SpecDyn SpecEig SpecRound Pnnls PnnlsFacts Polyhedron PolyThms MembThms Dynamics DynThms McaisThms SpectralThms Round RoundThms Round64 Round64Thms RoundSimThms.

Lemma contains_ineqs p x m n t : wf p m 0 n -> (0 < m)%nat -> length x = n -> exists c, contains t p x = Ok c /\ (c = true <-> forall i, (i < m)%nat -> dot (row (pA p) i) x <= nth i (pb p) 0 + t).
Proof.
  intros HW Hm Lx. pose proof HW as (HA & Lb & HC & Ld). assert (NA : ncols (pA p) = n) by apply HA. assert (LA : length (rows (pA p)) = m) by apply HA. assert (LC : nrows (pC p) = 0%nat) by apply HC.
  unfold contains, np_mv. rewrite NA, Lx, Nat.eqb_refl, LC. cbn [bind Nat.ltb Nat.leb]. 
  assert (NN : vsub (mv (pA p) x) (pb p) <> []). { intros Z. apply (f_equal (@length R)) in Z. lenh Z. cbn in Z. lia. }
  destruct (vmax_le _ t NN) as (mx & -> & KM). cbn [bind]. rewrite andb_true_r. eexists. split; [reflexivity|]. split.
  - intros Q i Hi. apply Rleb_true in Q. apply KM in Q. rewrite Forall_nth in Q. specialize (Q i 0 ltac:(len)). rewrite nth_vsub, nth_mv in Q by len. unfold row. lra.
  - intros Q. apply Rleb_true, KM. apply Forall_nth. intros i d Hi. rewrite (nth_indep _ d 0) by exact Hi. lenh Hi. rewrite nth_vsub, nth_mv by len. specialize (Q i ltac:(lia)). unfold row in Q. lra.
Qed.
(*@ Theorem C93_clear : for polyhedra without equalities: if no residual is within the rounding error E of the tolerance, contains with rounded operations returns exactly what exact evaluation returns *)
Lemma fl_contains_clear u eta rnd tol p x E m n r : rounding u eta rnd -> wf p m 0 n -> (0 < m)%nat -> length x = n -> residual_bound u eta E (pA p) (pb p) x ->
  (forall i, (i < m)%nat -> E < Rabs (dot (row (pA p) i) x - nth i (pb p) 0 - tol)) -> fl_contains rnd tol p x r -> r = contains tol p x.
Proof.
  intros RN HW Hm Lx EA CL HR. assert (EC : residual_bound u eta E (pC p) (pd p) x). { intros i Hi. destruct HW as (_ & _ & HC & _). replace (nrows (pC p)) with 0%nat in Hi by (symmetry; apply HC). lia. }
  destruct (fl_contains_sandwich u eta rnd tol p x E m 0 n RN HW Hm Lx EA EC) as (_ & H). destruct (H r HR) as (c & -> & H1 & H2). 
  destruct (contains_ineqs p x m n tol HW Hm Lx) as (c0 & E0 & K0). destruct (contains_ineqs p x m n (tol - E) HW Hm Lx) as (c1 & E1 & K1). destruct (contains_ineqs p x m n (tol + E) HW Hm Lx) as (c2 & E2 & K2).
  rewrite E0. f_equal. rewrite E1 in H1. rewrite E2 in H2. destruct c0.
  - apply H1. f_equal. apply K1. intros i Hi. pose proof (proj1 K0 eq_refl i Hi) as Q. specialize (CL i Hi). unfold Rabs in CL. destruct (Rcase_abs _) in CL; lra.
  - destruct c; [|reflexivity]. exfalso. specialize (H2 eq_refl). injection H2 as H2. pose proof (proj1 K2 H2) as Q. assert (false = true) by (apply K0; intros i Hi; specialize (Q i Hi); specialize (CL i Hi); unfold Rabs in CL; destruct (Rcase_abs _) in CL; lra). discriminate.
Qed.

(** all systems and domains have the sizes of the piecewise affine system; the domains have inequalities only *)
Definition pwa_sizes (W : pwa) (nx nu : nat) : Prop :=
  (forall s, In s (w_sys W) -> system_shape (aA s) (aB s) nx nu /\ length (ac s) = nx) /\
  (forall d, In d (w_dom W) -> exists m, (0 < m)%nat /\ wf d m 0 (nx + nu)).
Lemma fl_mode_clear u eta rnd E nx nu xu D : rounding u eta rnd -> length xu = (nx + nu)%nat -> 
  (forall d, In d D -> exists m, (0 < m)%nat /\ wf d m 0 (nx + nu)) -> (forall d, In d D -> residual_bound u eta E (pA d) (pb d) xu) ->
  (forall d i, In d D -> (i < nrows (pA d))%nat -> E < Rabs (dot (row (pA d) i) xu - nth i (pb d) 0 - tol7)) ->
  forall k r, fl_mode_from rnd xu k D r -> r = get_mode_from k D xu.
Proof.
  intros RN Lx. induction D as [|d D IH]; intros WF RB CL k r HR; [inversion HR; reflexivity|].
  assert (KEY : forall q, fl_contains rnd tol7 d xu q -> q = contains tol7 d xu).
  { intros q Hq. destruct (WF d (or_introl eq_refl)) as (m & Hm & HW). apply (fl_contains_clear u eta rnd tol7 d xu E m (nx + nu) q RN HW Hm Lx); [apply RB; now left| |exact Hq]. intros i Hi. apply CL; [now left|]. destruct HW as (HA & _). replace (nrows (pA d)) with m; [exact Hi|symmetry; apply HA]. }
  cbn [get_mode_from]. inversion HR as [| ? ? ? ? HC | ? ? ? HC | ? ? ? ? HC HR']; subst; apply KEY in HC; rewrite <- HC; cbn [bind]; try reflexivity.
  apply IH; auto; intros; [apply WF|apply RB|apply CL]; auto; now right.
Qed.
Lemma vsub_app_r a b v : length a = length b -> vsub (a ++ v) (b ++ v) = vsub a b ++ zeros (length v).
Proof.
  intros L. apply vec_ext; [len|]. intros i Hi. lenh Hi. rewrite nth_vsub by len. destruct (Nat.lt_ge_cases i (length a)).
  - rewrite !app_nth1 by len. now rewrite nth_vsub by lia.
  - rewrite !app_nth2 by len. rewrite nth_zeros. len. replace (i - length b)%nat with (i - length a)%nat by lia. ring.
Qed.
Lemma sup_app a b : sup (a ++ b) = Rmax (sup a) (sup b).
Proof.
  apply Rle_antisym.
  - apply sup_le; [eapply Rle_trans; [apply (sup_nonneg a)|apply Rmax_l]|]. intros i Hi. destruct (Nat.lt_ge_cases i (length a)).
    + rewrite app_nth1 by assumption. eapply Rle_trans; [apply nth_sup|apply Rmax_l].
    + rewrite app_nth2 by assumption. eapply Rle_trans; [apply nth_sup|apply Rmax_r].
  - apply Rmax_lub; apply sup_le; try apply sup_nonneg; intros i Hi.
    + rewrite <- (app_nth1 a b) by assumption. apply nth_sup.
    + replace (nth i b 0) with (nth (length a + i) (a ++ b) 0) by (rewrite app_nth2_plus; reflexivity). apply nth_sup.
Qed.
Lemma fl_pwa_inv rnd W x v us q : fl_pwa_simulate rnd W x (v :: us) q -> (exists e, fl_get_mode rnd W x v (Err e)) \/ fl_get_mode rnd W x v (Ok None) \/ (exists m, fl_get_mode rnd W x v (Ok (Some m)) /\ nth_error (w_sys W) m = None) \/
  exists m s x' q', fl_get_mode rnd W x v (Ok (Some m)) /\ nth_error (w_sys W) m = Some s /\ fl_aff_step rnd s x v x' /\ fl_pwa_simulate rnd W x' us q' /\ q = (r <- q' ;; Ok (x :: fst r, m :: snd r)).
Proof. inversion 1; subst; eauto 10. right. right. right. do 4 eexists. eauto. Qed.
(*@ Theorem C94_pwa : let E bound the rounding errors of the membership tests and F those of the dynamics near the exact trajectory, al the row sums of the matrices A and be those of the normals of the domains.  If along the exact trajectory no residual of a domain is closer to the tolerance than E + be F (1 + .. + al^(t-1)), PieceWiseAffineSystem.simulate with rounded operations does not raise, visits exactly the modes of the exact simulation, and at time t its state differs by at most F (1 + .. + al^(t-1)) *)
Lemma pwa_rounded u eta rnd W nx nu al be E F x0 us ys ms : rounding u eta rnd -> pwa_sizes W nx nu -> length x0 = nx -> Forall (fun v => length v = nu) us -> 
  0 <= al -> 0 <= be -> 0 <= F -> (forall s i, In s (w_sys W) -> (i < nx)%nat -> abs_dot (row (aA s) i) (ones nx) <= al) ->
  (forall d i, In d (w_dom W) -> (i < nrows (pA d))%nat -> abs_dot (row (pA d) i) (ones (nx + nu)) <= be) ->
  pwa_simulate W x0 us = Ok (ys, ms) ->
  (forall t x, (t < length us)%nat -> length x = nx -> sup (vsub x (nth t ys [])) <= F * geometric al t ->
     (forall d, In d (w_dom W) -> residual_bound u eta E (pA d) (pb d) (x ++ nth t us [])) /\
     forall s i, In s (w_sys W) -> (i < nx)%nat -> rounding_error u eta (nx + nu + 2) (abs_dot (row (aA s) i) x + abs_dot (row (aB s) i) (nth t us []) + Rabs (nth i (ac s) 0)) <= F) ->
  (forall t d i, (t < length us)%nat -> In d (w_dom W) -> (i < nrows (pA d))%nat ->
     E + be * (F * geometric al t) < Rabs (dot (row (pA d) i) (nth t ys [] ++ nth t us []) - nth i (pb d) 0 - tol7)) ->
  forall q, fl_pwa_simulate rnd W x0 us q -> exists xs, q = Ok (xs, ms) /\ length xs = length ys /\ forall t, (t <= length us)%nat -> length (nth t xs []) = nx /\ sup (vsub (nth t xs []) (nth t ys [])) <= F * geometric al t.
Proof.
  intros RN (WS & WD) L0 LU Pal Pbe PF Hal Hbe HS RB CL q HQ.
  assert (GEN : forall us, Forall (fun v => length v = nu) us -> forall k x y ys ms, length x = nx -> length y = nx -> sup (vsub x y) <= F * geometric al k -> pwa_simulate W y us = Ok (ys, ms) ->
    (forall t x, (t < length us)%nat -> length x = nx -> sup (vsub x (nth t ys [])) <= F * geometric al (k + t) ->
     (forall d, In d (w_dom W) -> residual_bound u eta E (pA d) (pb d) (x ++ nth t us [])) /\
     forall s i, In s (w_sys W) -> (i < nx)%nat -> rounding_error u eta (nx + nu + 2) (abs_dot (row (aA s) i) x + abs_dot (row (aB s) i) (nth t us []) + Rabs (nth i (ac s) 0)) <= F) ->
    (forall t d i, (t < length us)%nat -> In d (w_dom W) -> (i < nrows (pA d))%nat ->
     E + be * (F * geometric al (k + t)) < Rabs (dot (row (pA d) i) (nth t ys [] ++ nth t us []) - nth i (pb d) 0 - tol7)) ->
    forall q, fl_pwa_simulate rnd W x us q -> exists xs, q = Ok (xs, ms) /\ length xs = length ys /\ forall t, (t <= length us)%nat -> length (nth t xs []) = nx /\ sup (vsub (nth t xs []) (nth t ys [])) <= F * geometric al (k + t)).
  { clear us ys ms LU HS RB CL q HQ x0 L0. induction us as [|v us IH]; intros LU k x y ys ms Lx Ly HE HS RB CL q HQ.
    { inversion HQ; subst. cbn in HS. injection HS as <- <-. exists [x]. split; [reflexivity|]. split; [reflexivity|]. intros [|t] Ht; [cbn [nth]; rewrite Nat.add_0_r; split; [reflexivity || exact Lx|exact HE]|cbn in Ht; lia]. }
    pose proof (Forall_inv LU) as Lv. pose proof (Forall_inv_tail LU) as LU'. cbv beta in Lv. cbn [pwa_simulate] in HS.
    destruct (get_mode W y v) as [[m|]|e] eqn:GM; cbn [bind] in HS; try discriminate. destruct (nth_error (w_sys W) m) as [s|] eqn:NS; [|discriminate].
    pose proof (nth_error_In _ _ NS) as IS. destruct (WS s IS) as ((HA & HB) & Lc).
    assert (EA : np_mv (aA s) y = Ok (mv (aA s) y)) by (unfold np_mv; replace (ncols (aA s)) with (length y) by (rewrite Ly; symmetry; apply HA); now rewrite Nat.eqb_refl).
    assert (EB : np_mv (aB s) v = Ok (mv (aB s) v)) by (unfold np_mv; replace (ncols (aB s)) with (length v) by (rewrite Lv; symmetry; apply HB); now rewrite Nat.eqb_refl).
    rewrite EA, EB in HS. cbn [bind] in HS. set (y' := vadd (vadd (mv (aA s) y) (mv (aB s) v)) (ac s)) in *. destruct (pwa_simulate W y' us) as [(ys', ms')|e] eqn:HS'; cbn [bind] in HS; [|discriminate]. injection HS as <- <-.
    assert (LAy : length (mv (aA s) y) = nx) by (len; apply HA). assert (LBv : length (mv (aB s) v) = nx) by (len; apply HB). assert (LAx : length (mv (aA s) x) = nx) by (len; apply HA).
    assert (Ly' : length y' = nx) by (unfold y'; len).
    destruct (RB 0%nat x ltac:(cbn; lia) Lx ltac:(cbn [nth]; rewrite Nat.add_0_r; exact HE)) as (RB0 & RS0). cbn [nth] in RB0, RS0.
    assert (MODE : forall r, fl_get_mode rnd W x v r -> r = Ok (Some m)).
    { intros r Hr. rewrite <- GM. transitivity (get_mode W x v).
      - unfold fl_get_mode in Hr. apply (fl_mode_clear u eta rnd E nx nu (x ++ v) (w_dom W) RN ltac:(len) WD RB0) in Hr; [exact Hr|]. intros d i Hd Hi.
        specialize (CL 0%nat d i ltac:(cbn; lia) Hd Hi). cbn [nth] in CL. rewrite Nat.add_0_r in CL. 
        destruct (WD d Hd) as (md & Hmd & (HAd & _)). assert (Lr : length (row (pA d) i) = (nx + nu)%nat) by (apply (shape_In (pA d) md (nx + nu)); [exact HAd|apply nth_In; exact Hi]).
        assert (DD : Rabs (dot (row (pA d) i) (x ++ v) - dot (row (pA d) i) (y ++ v)) <= be * (F * geometric al k)).
        { rewrite <- dot_vsub_r by len. rewrite vsub_app_r by lia. eapply Rle_trans; [apply dot_le_abs|]. eapply Rle_trans; [apply abs_dot_sup; len|]. rewrite Lr. apply Rmult_le_compat; [apply abs_dot_nonneg|apply sup_nonneg|apply Hbe; assumption|]. rewrite sup_app, sup_zeros. apply Rmax_lub; [exact HE|]. pose proof (geometric_nonneg al k Pal). nra. }
        apply rabs_inv in DD. unfold Rabs in CL |- *. destruct (Rcase_abs _) in CL; destruct (Rcase_abs _); lra.
      - unfold get_mode. assert (CE : forall d, In d (w_dom W) -> contains tol7 d (x ++ v) = contains tol7 d (y ++ v)).
        { intros d Hd. destruct (WD d Hd) as (md & Hmd & HWd). pose proof HWd as (HAd & _).
          destruct (contains_ineqs d (x ++ v) md _ tol7 HWd Hmd ltac:(len)) as (c1 & -> & K1). destruct (contains_ineqs d (y ++ v) md _ tol7 HWd Hmd ltac:(len)) as (c2 & -> & K2). f_equal.
          assert (IFF : c1 = true <-> c2 = true).
          { rewrite K1, K2. assert (Q : forall i, (i < md)%nat -> (dot (row (pA d) i) (x ++ v) <= nth i (pb d) 0 + tol7 <-> dot (row (pA d) i) (y ++ v) <= nth i (pb d) 0 + tol7)).
            { intros i Hi'. assert (Hi : (i < nrows (pA d))%nat) by (replace (nrows (pA d)) with md by (symmetry; apply HAd); exact Hi'). specialize (CL 0%nat d i ltac:(cbn; lia) Hd Hi). cbn [nth] in CL. rewrite Nat.add_0_r in CL. 
              assert (Lr : length (row (pA d) i) = (nx + nu)%nat) by (apply (shape_In (pA d) md (nx + nu)); [exact HAd|apply nth_In; exact Hi]).
              assert (PE : 0 <= E). { eapply Rle_trans; [apply (rounding_error_nonneg u eta rnd RN (length (x ++ v) + 1) (abs_dot (row (pA d) i) (x ++ v) + Rabs (nth i (pb d) 0)))|apply (RB0 d Hd i Hi)]. pose proof (abs_dot_nonneg (row (pA d) i) (x ++ v)). pose proof (Rabs_pos (nth i (pb d) 0)). lra. }
              assert (DD : Rabs (dot (row (pA d) i) (x ++ v) - dot (row (pA d) i) (y ++ v)) <= be * (F * geometric al k)).
              { rewrite <- dot_vsub_r by len. rewrite vsub_app_r by lia. eapply Rle_trans; [apply dot_le_abs|]. eapply Rle_trans; [apply abs_dot_sup; len|]. rewrite Lr. apply Rmult_le_compat; [apply abs_dot_nonneg|apply sup_nonneg|apply Hbe; assumption|]. rewrite sup_app, sup_zeros. apply Rmax_lub; [exact HE|]. pose proof (geometric_nonneg al k Pal). nra. }
              apply rabs_inv in DD. unfold Rabs in CL. destruct (Rcase_abs _) in CL; split; intros; lra. }
            split; intros A i Hi; apply (Q i Hi); auto. }
          destruct c1, c2; auto; [symmetry|]; apply IFF; reflexivity. }
        generalize 0%nat. revert CE. generalize (w_dom W). induction l as [|d l IHl]; intros CE j; [reflexivity|]. cbn [get_mode_from]. rewrite CE by now left. destruct (contains tol7 d (y ++ v)) as [[|]|]; cbn [bind]; auto. apply IHl. intros; apply CE; now right. }
    apply fl_pwa_inv in HQ. destruct HQ as [(e & HM)|[HM|[(m' & HM & HN)|(m' & s' & x' & q' & HM & HN & ST & HQ' & ->)]]]; apply MODE in HM; try discriminate; injection HM as ->; rewrite NS in HN; [discriminate|]. injection HN as <-.
    destruct (aff_step_err u eta rnd s x v x' nx nu RN (conj HA HB) Lc Lx Lv ST) as (Lx' & SE).
    assert (HE' : sup (vsub x' y') <= F * geometric al (Datatypes.S k)).
    { set (z := vadd (vadd (mv (aA s) x) (mv (aB s) v)) (ac s)). assert (Lz : length z = nx) by (unfold z; len).
      eapply Rle_trans; [apply (sup_vsub_tri x' z y' nx); assumption|]. rewrite geometric_S. apply Rle_trans with (F + al * (F * geometric al k)); [|right; ring]. apply Rplus_le_compat.
      - apply (sup_of_entries _ _ _ nx); auto. intros i Hi. eapply Rle_trans; [apply SE; exact Hi|]. apply RS0; assumption.
      - replace (vsub z y') with (mv (aA s) (vsub x y)).
        + eapply Rle_trans; [apply (sup_mv (aA s) nx nx al); auto; len|]. apply Rmult_le_compat_l; [exact Pal|exact HE].
        + rewrite (mv_vsub (aA s) nx nx) by (auto; lia). unfold z, y'. apply vec_ext; [len|]. intros i Hi. lenh Hi. rewrite nth_vsub, nth_vsub by len. rewrite !nth_vadd by len. ring. }
    assert (IHQ := IH LU' (Datatypes.S k) x' y' ys' ms' Lx' Ly' HE' HS').
    destruct (IHQ) with (q := q') as (xs & -> & LX & BND).
    - intros t z Ht Lz Hz. apply (RB (Datatypes.S t) z); [cbn; lia|exact Lz|]. cbn [nth]. rewrite Nat.add_succ_r. exact Hz.
    - intros t d i Ht Hd Hi. specialize (CL (Datatypes.S t) d i ltac:(cbn; lia) Hd Hi). cbn [nth] in CL. rewrite Nat.add_succ_r in CL. exact CL.
    - exact HQ'.
    - exists (x :: xs). split; [reflexivity|]. split; [cbn; lia|]. intros [|t] Ht; cbn [nth]; [rewrite Nat.add_0_r; split; [exact Lx|exact HE]|]. rewrite Nat.add_succ_r. apply BND. cbn in Ht. lia. }
  apply (GEN us LU 0%nat x0 x0 ys ms); auto. replace (vsub x0 x0) with (zeros nx); [rewrite sup_zeros; cbn; lra|]. apply vec_ext; [len|]. intros i Hi. rewrite nth_vsub by lia. rewrite nth_zeros. ring.
Qed.

(** ** Rounded evaluations exist *)
Lemma fl_residual_total rnd A x b : exists q, fl_residual rnd A x b q.
Proof. unfold fl_residual. destruct (Nat.eqb _ _); [|eauto]. destruct (fl_mv_total rnd A x) as (y & Hy). eauto. Qed.
Lemma fl_contains_total rnd tol p x : exists r, fl_contains rnd tol p x r.
Proof.
  unfold fl_contains. destruct (fl_residual_total rnd (pA p) x (pb p)) as ([mx|e] & Hq); [|exists (Err e), (Err e); auto].
  destruct (0 <? nrows (pC p))%nat eqn:NC; [|exists (Ok (Rleb mx tol)), (Ok mx); auto].
  destruct (fl_residual_total rnd (pC p) x (pd p)) as (q' & Hq'). exists (me <- q' ;; Ok (Rleb mx tol && Rleb (Rabs me) tol)%bool), (Ok mx). split; [exact Hq|]. eauto.
Qed.
Lemma fl_mode_total rnd xu D : forall i, exists r, fl_mode_from rnd xu i D r.
Proof.
  induction D as [|d D IH]; intros i; [eexists; constructor|]. destruct (fl_contains_total rnd tol7 d xu) as ([[|]|e] & H).
  - eexists. apply fl_mode_in. exact H.
  - destruct (IH (Datatypes.S i)) as (r & Hr). exists r. now apply fl_mode_out.
  - eexists. now apply fl_mode_err with (e := e).
Qed.
Lemma fl_mm_total rnd A B : exists M, fl_mm rnd A B M.
Proof.
  assert (R1 : forall r l, exists q, Forall2 (fun c s => fl_dot rnd (combine r c) s) l q). { intros r. induction l as [|c l (q & IH)]; [exists []; constructor|]. destruct (fl_dot_total rnd (combine r c)) as (s & Hs). exists (s :: q). now constructor. }
  assert (R2 : forall l, exists m, Forall2 (fun r q => Forall2 (fun c s => fl_dot rnd (combine r c) s) (rows (tr B)) q) l m). { induction l as [|r l (m & IH)]; [exists []; constructor|]. destruct (R1 r (rows (tr B))) as (q & Hq). exists (q :: m). now constructor. }
  destruct (R2 (rows A)) as (m & Hm). exists (Mat (ncols B) m). split; [reflexivity|exact Hm].
Qed.
(*@ Theorem C94_total : for every way to round, every system and all data, each of the four simulations has a rounded evaluation *)
Lemma fl_total rnd : (forall S x us, exists xs, fl_lin_simulate rnd S x us xs) /\ (forall S x us, exists xs, fl_aff_simulate rnd S x us xs) /\
  (forall S K x N, exists xs, fl_closed_loop rnd S K x N xs) /\ (forall W x us, exists q, fl_pwa_simulate rnd W x us q).
Proof.
  assert (AFF : forall s x v, exists x', fl_aff_step rnd s x v x'). { intros s x v. destruct (fl_mv_total rnd (aA s) x) as (a & Ha). destruct (fl_mv_total rnd (aB s) v) as (b & Hb). eexists. exists a, b. eauto. }
  assert (RUN : forall step, (forall x v, exists x', step x v x') -> forall us x, exists xs, fl_run step x us xs). { intros step ST. induction us as [|v us IH]; intros x; [eexists; constructor|]. destruct (ST x v) as (x' & H). destruct (IH x') as (xs & Hxs). eexists. econstructor; eassumption. }
  split; [|split; [|split]].
  - intros S x us. apply RUN. intros y v. destruct (fl_mv_total rnd (lA S) y) as (a & Ha). destruct (fl_mv_total rnd (lB S) v) as (b & Hb). eexists. exists a, b. eauto.
  - intros S x us. apply RUN. apply AFF.
  - intros S K x N. revert x. induction N as [|N IH]; intros x; [eexists; constructor|]. destruct (fl_mm_total rnd (lB S) K) as (BK & HBK). destruct (fl_mv_total rnd (fl_madd rnd (lA S) BK) x) as (x' & Hx'). destruct (IH x') as (xs & Hxs). exists (x :: xs). econstructor; [|exact Hxs]. exists BK. auto.
  - intros W x us. revert x. induction us as [|v us IH]; intros x; [eexists; constructor|]. destruct (fl_mode_total rnd (x ++ v) (w_dom W) 0) as (r & Hr). change (fl_get_mode rnd W x v r) in Hr.
    destruct r as [[m|]|e]; [|eexists; apply fl_pwa_none; exact Hr|eexists; eapply fl_pwa_raise; exact Hr]. destruct (nth_error (w_sys W) m) as [s|] eqn:NS; [|eexists; eapply fl_pwa_index; eassumption].
    destruct (AFF s x v) as (x' & Hx'). destruct (IH x') as (q & Hq). eexists. eapply fl_pwa_step; eassumption.
Qed.

(** ** Examples *)
Lemma rabs_m1 : Rabs (-1) = 1. Proof. rewrite Rabs_left; lra. Qed.
Definition tri_poly : poly := Poly (Mat 2 [[1; 1]; [-1; 0]; [0; -1]]) [1; 0; 0] (Mat 2 []) [] None None None None None.
(*@ Example C93_example : the triangle x1 + x2 <= 1, x >= 0 in float64: contains does not raise for any point with coordinates up to 1000, accepts every point of the triangle, and accepts no point that violates an inequality by more than 1.125e-7 *)
Lemma tri_float a b : Rabs a <= 1000 -> Rabs b <= 1000 -> (exists r, fl_contains binary64 tol7 tri_poly [a; b] r) /\ forall r, fl_contains binary64 tol7 tri_poly [a; b] r ->
  exists c, r = Ok c /\ (0 <= a -> 0 <= b -> a + b <= 1 -> c = true) /\ (c = true -> a + b <= 1 + 9 / 8 / 10 ^ 7 /\ - (9 / 8 / 10 ^ 7) <= a /\ - (9 / 8 / 10 ^ 7) <= b).
Proof.
  intros HA HB. split; [apply fl_contains_total|]. intros r Hr.
  destruct (fl_contains_64 tri_poly [a; b] 3 2 r) as (c & -> & H1 & H2); auto; try lia; [unfold wf, shape; cbn; repeat split; repeat constructor| |].
  - pose proof (Rabs_pos a). pose proof (Rabs_pos b). intros [|[|[|i]]] Hi; [| | |lia]; cbn; rewrite ?rabs_m1, ?Rabs_R0, ?Rabs_R1; lra.
  - exists c. split; [reflexivity|]. split.
    + intros Pa Pb Pab. apply H1. split; [reflexivity|]. split; [|constructor]. repeat (constructor; [cbn; lra|]). constructor.
    + intros HC. specialize (H2 HC). pose proof (H2 0%nat ltac:(lia)) as Q0. pose proof (H2 1%nat ltac:(lia)) as Q1. pose proof (H2 2%nat ltac:(lia)) as Q2. cbn in Q0, Q1, Q2. lra.
Qed.

Definition loop_sys : lsys := LSys (Mat 1 [[2]]) (Mat 1 [[1]]) None.
Definition loop_gain : mat := Mat 1 [[- (3 / 2)]].
(*@ Example C94_example : x(t+1) = 2 x(t) + u(t) with u = -1.5 x in float64: however the operations are evaluated, |x(t)| <= 15 (3/4)^t |x(0)| + 15 * 2^-1073 for every initial state and every number of steps *)
Lemma loop_float x0 N : (exists xs, fl_closed_loop binary64 loop_sys loop_gain [x0] N xs) /\ forall xs, fl_closed_loop binary64 loop_sys loop_gain [x0] N xs ->
  length xs = S N /\ forall t, (t <= N)%nat -> Rabs (nth 0 (nth t xs []) 0) <= 15 * (3 / 4) ^ t * Rabs x0 + 15 * / 2 ^ 1073.
Proof.
  split; [apply (fl_total binary64)|]. intros xs RUN.
  assert (EM : madd (lA loop_sys) (mm (lB loop_sys) loop_gain) = Mat 1 [[/ 2]]). { unfold loop_sys, loop_gain, madd, mm, vadd. cbn. do 3 f_equal. lra. }
  assert (U : u64 = / 9007199254740992) by (unfold u64; f_equal; cbn [pow]; ring). assert (PE : 0 < eta64) by (unfold eta64; apply Rinv_0_lt_compat, pow_lt; lra).
  assert (SE : eta64 <= / 10 ^ 6). { unfold eta64. apply Rinv_le_contravar; [lra|]. apply Rle_trans with (2 ^ 20); [lra|]. apply Rle_pow; [lra|lia]. }
  assert (LR : 0 <= loop_relative u64 eta64 1 1 (7 / 2) <= / 40). { split; [apply (loop_nonneg _ _ binary64); [apply binary64_rounding|lra]|]. unfold loop_relative, rounding_error. cbn [Nat.add INR pow]. rewrite U. lra. }
  assert (S1 : forall v, sup [v] = Rabs v). { intros v. cbn. rewrite Rmax_left; [reflexivity|apply Rabs_pos]. }
  destruct (closed_loop_contraction u64 eta64 binary64 loop_sys loop_gain 1 1 (7 / 2) 1 (/ 2) N [x0] xs) as (LX & BND); auto using binary64_rounding; try lra; try (rewrite EM).
  - unfold system_shape, shape; cbn; repeat split; repeat constructor.
  - unfold shape; cbn; repeat split; repeat constructor.
  - intros [|i] [|j] Hi Hj; try lia. cbn. rewrite Rabs_Ropp, Rabs_R1, !Rabs_pos_eq by lra. lra.
  - intros x Lx. destruct x as [|v [|]]; try discriminate. cbn [flow]. unfold mv. cbn [rows map dot]. rewrite !S1, Rplus_0_r, Rabs_mult, (Rabs_pos_eq (/ 2)) by lra. lra.
  - intros [|i] Hi; [|lia]. cbn. rewrite Rabs_R1, Rabs_pos_eq by lra. lra.
  - replace (4 * (geometric (/ 2) 1 + 1) * (/ 2 + 2) ^ 1) with 20 by (unfold geometric; cbn; lra). lra.
  - split; [exact LX|]. intros t Ht. specialize (BND t Ht). rewrite Nat.div_1_r, S1 in BND. eapply Rle_trans; [apply nth_sup|]. eapply Rle_trans; [exact BND|].
    assert (C : (/ 2 + 2) ^ 1 * (4 * geometric (/ 2) 1 + 2) = 15) by (unfold geometric; cbn; lra). rewrite C. apply Rplus_le_compat_l, Rmult_le_compat_l; [lra|]. 
    replace (/ 2 ^ 1073) with (4 * eta64); [unfold loop_absolute; cbn [INR pow]; rewrite U; lra|]. unfold eta64. replace 1075%nat with (2 + 1073)%nat by reflexivity. rewrite pow_add. assert (2 ^ 1073 <> 0) by (apply pow_nonzero; lra). generalize dependent (2 ^ 1073). intros z Hz. cbn [pow]. field. exact Hz.
Qed.

Definition fold_pwa : pwa := PWA 1 1 [ASys (Mat 1 [[- / 2]]) (Mat 1 [[1]]) [0]; ASys (Mat 1 [[/ 2]]) (Mat 1 [[1]]) [0]]
  [Poly (Mat 2 [[1; 0]]) [0] (Mat 2 []) [] None None None None None; Poly (Mat 2 [[-1; 0]]) [0] (Mat 2 []) [] None None None None None].
(*@ Example C94_pwa_example : x(t+1) = |x(t)| / 2 + u(t) from 8 with the inputs -10 and 1 in float64: however the operations are evaluated, the modes are x >= 0, then x <= 0, and the states are 8, -6, 4 up to 2.5e-8 *)
Lemma fold_float : (exists q, fl_pwa_simulate binary64 fold_pwa [8] [[-10]; [1]] q) /\ forall q, fl_pwa_simulate binary64 fold_pwa [8] [[-10]; [1]] q ->
  exists x1 x2, q = Ok ([[8]; [x1]; [x2]], [1; 0]%nat) /\ Rabs (x1 - -6) <= 5 / 2 / 10 ^ 8 /\ Rabs (x2 - 4) <= 5 / 2 / 10 ^ 8.
Proof.
  split; [apply (fl_total binary64)|]. intros q Hq. assert (T : tol7 = / 10000000) by (unfold tol7; lra).
  assert (EX : pwa_simulate fold_pwa [8] [[-10]; [1]] = Ok ([[8]; [-6]; [4]], [1; 0]%nat)).
  { assert (M1 : get_mode fold_pwa [8] [-10] = Ok (Some 1%nat)). { unfold get_mode, fold_pwa, contains, np_mv. cbn. rewrite (proj2 (Rleb_false _ _)) by lra. cbn. rewrite (proj2 (Rleb_true _ _)) by lra. reflexivity. }
    assert (M2 : get_mode fold_pwa [-6] [1] = Ok (Some 0%nat)). { unfold get_mode, fold_pwa, contains, np_mv. cbn. rewrite (proj2 (Rleb_true _ _)) by lra. reflexivity. }
    cbn [pwa_simulate]. rewrite M1. cbn [bind nth_error fold_pwa w_sys aA aB ac]. unfold np_mv. cbn [ncols length Nat.eqb bind]. unfold mv, vadd. cbn [rows map dot map2].
    replace (/ 2 * 8 + 0 + (1 * -10 + 0) + 0) with (-6) by lra. fold fold_pwa. rewrite M2. cbn [bind nth_error fold_pwa w_sys aA aB ac]. unfold np_mv. cbn [ncols length Nat.eqb bind]. unfold mv, vadd. cbn [rows map dot map2].
    replace (- / 2 * -6 + 0 + (1 * 1 + 0) + 0) with 4 by lra. reflexivity. }
  assert (HH : Rabs (- / 2) = / 2) by (rewrite Rabs_Ropp, Rabs_pos_eq; lra). assert (H2 : Rabs (/ 2) = / 2) by (rewrite Rabs_pos_eq; lra).
  destruct (pwa_rounded u64 eta64 binary64 fold_pwa 1 1 (/ 2) 1 (tol7 / 8) (tol7 / 8) [8] [[-10]; [1]] [[8]; [-6]; [4]] [1; 0]%nat binary64_rounding) with (q := q) as (xs & -> & LX & BND); try lra; auto.
  - split.
    + intros s [<-|[<-|[]]]; unfold system_shape, shape; cbn; repeat split; repeat constructor.
    + intros d [<-|[<-|[]]]; exists 1%nat; (split; [lia|]); unfold wf, shape; cbn; repeat split; repeat constructor.
  - intros s i [<-|[<-|[]]] Hi; (destruct i; [|lia]); cbn; rewrite ?HH, ?H2, ?Rabs_R1; lra.
  - intros d i [<-|[<-|[]]] Hi; cbn in Hi; (destruct i; [|lia]); cbn; rewrite ?rabs_m1, ?Rabs_R0, ?Rabs_R1; lra.
  - intros t x Ht Lx Hx. destruct x as [|v [|]]; try discriminate. assert (HV : Rabs v <= 10).
    { assert (S1 : forall v, sup [v] = Rabs v). { intros w. cbn. rewrite Rmax_left; [reflexivity|apply Rabs_pos]. }
      cbn [length] in Ht. destruct t as [|[|t]]; [| |lia]; unfold vsub in Hx; cbn [nth map2] in Hx; rewrite S1 in Hx; unfold geometric in Hx; cbn [seq fold_right pow] in Hx; apply rabs_inv in Hx; apply Rabs_le; lra. }
    pose proof (Rabs_pos v) as PV. assert (RU : Rabs (-10) = 10) by (rewrite Rabs_left; lra). split.
    + intros d [<-|[<-|[]]] i Hi; cbn in Hi; (destruct i; [|lia]); apply error_small; try (cbn; lia); destruct t as [|[|t]]; try (cbn in Ht; lia); cbn; rewrite ?RU, ?rabs_m1, ?Rabs_R0, ?Rabs_R1; first [lia|lra].
    + intros s i [<-|[<-|[]]] Hi; (destruct i; [|lia]); apply error_small; try (cbn; lia); destruct t as [|[|t]]; try (cbn in Ht; lia); cbn; rewrite ?HH, ?H2, ?RU, ?Rabs_R0, ?Rabs_R1; first [lia|lra].
  - intros t d i Ht [<-|[<-|[]]] Hi; cbn in Hi; (destruct i; [|lia]); destruct t as [|[|t]]; try (cbn in Ht; lia); unfold geometric; cbn; unfold Rabs; destruct (Rcase_abs _); lra.
  - cbn in LX. pose proof (BND 1%nat ltac:(cbn; lia)) as B1. pose proof (BND 2%nat ltac:(cbn; lia)) as B2. pose proof (BND 0%nat ltac:(cbn; lia)) as B0.
    destruct B0 as (L0 & B0). destruct B1 as (L1 & B1). destruct B2 as (L2 & B2). destruct xs as [|[|w0 [|]] [|[|w1 [|]] [|[|w2 [|]] [|]]]]; try discriminate.
    assert (S1 : forall v, sup [v] = Rabs v). { intros v. cbn. rewrite Rmax_left; [reflexivity|apply Rabs_pos]. }
    unfold vsub in B0, B1, B2. cbn [nth map2] in B0, B1, B2. rewrite S1 in B0, B1, B2. unfold geometric in B0, B1, B2. cbn in B0, B1, B2. exists w1, w2. split; [|split; lra].
    assert (E0 : w0 = 8) by (apply rabs_inv in B0; lra). rewrite E0. reflexivity.
Qed.
