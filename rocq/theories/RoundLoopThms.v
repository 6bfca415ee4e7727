(** * RoundLoopThms: the closed loop of the explicit controller in rounded arithmetic (C101), proofs *)
From Coq Require Import Lra Lia Classical.
From Verif Require Import Arr ArrFacts Spec SpecMpc SpecDyn SpecEig SpecRound Numpy Pnnls QpFacts Polyhedron PolyThms Dynamics DynThms CondenseThms LqrThms McaisThms SpectralThms Mpqp MpqpThms Controllers CtrlThms ContThms ExplThms Round RoundExpl RoundThms RoundSimThms RoundPwaThms LocalThms PlantThms HoldThms CartHoldThms RoundExplThms RobustThms.
Local Open Scope list_scope.
Lemma pow_linear u n : 0 <= u <= 1 -> (1 + u) ^ n <= 1 + u * (2 ^ n - 1) /\ 1 <= 2 ^ n.
Proof.
  intros Hu. induction n as [|n (IH1 & IH2)]; [cbn; lra|]. split; [|cbn [pow]; lra]. cbn [pow]. apply Rle_trans with ((1 + u) * (1 + u * (2 ^ n - 1))); [apply Rmult_le_compat_l; lra|].
  assert (0 <= u * (2 ^ n - 1)) by (apply Rmult_le_pos; lra). assert (u * (u * (2 ^ n - 1)) <= 1 * (u * (2 ^ n - 1))) by (apply Rmult_le_compat_r; lra). lra.
Qed.
(** errors are proportional to the precision *)
Lemma error_linear u eta n s b : 0 <= u <= 1 -> 0 <= eta -> 0 <= s <= b -> rounding_error u eta n s <= 2 ^ n * (b + 2 * INR n) * (u + eta).
Proof.
  intros Hu He Hs. destruct (pow_linear u n Hu) as (H1 & H2). pose proof (pos_INR n) as PN. unfold rounding_error. assert (UP : (1 + u) ^ n <= 2 ^ n) by (apply pow_incr; lra).
  assert (T1 : ((1 + u) ^ n - 1) * s <= u * 2 ^ n * b). { apply Rle_trans with (u * 2 ^ n * s); [apply Rmult_le_compat_r; [lra|]; lra|]. apply Rmult_le_compat_l; [apply Rmult_le_pos; lra|lra]. }
  assert (T2 : 2 * INR n * (1 + u) ^ n * eta <= 2 * INR n * 2 ^ n * eta). { apply Rmult_le_compat_r; [exact He|]. apply Rmult_le_compat_l; lra. }
  assert (0 <= eta * 2 ^ n * b) by (repeat apply Rmult_le_pos; lra). assert (0 <= u * (2 * INR n * 2 ^ n)) by (apply Rmult_le_pos; [lra|]; repeat apply Rmult_le_pos; lra). lra.
Qed.
Lemma abs_dot_ball a x n g : length a = n -> length x = n -> sup x <= g -> abs_dot a x <= abs_dot a (ones n) * g.
Proof.
  intros La. revert x n La. unfold abs_dot. induction a as [|p a IH]; intros [|y x] [|n] La Lx Hg; try discriminate; [cbn; lra|]. cbn in La, Lx. change (ones (Datatypes.S n)) with (1 :: ones n). cbn [map dot]. rewrite Rabs_R1.
  change (sup (y :: x)) with (Rmax (Rabs y) (sup x)) in Hg. pose proof (Rmax_l (Rabs y) (sup x)). pose proof (Rmax_r (Rabs y) (sup x)). specialize (IH x n ltac:(lia) ltac:(lia) ltac:(lra)). assert (Rabs p * Rabs y <= Rabs p * g) by (apply Rmult_le_compat_l; [apply Rabs_pos|lra]). lra.
Qed.
(** ** The first region of the table *)
Lemma chunks nu N : forall v : vec, length v = (nu * N)%nat -> exists us, length us = N /\ Forall (fun w => length w = nu) us /\ List.concat us = v.
Proof.
  induction N as [|N IH]; intros v L; [exists []; destruct v; [repeat split; constructor|cbn in L; lia]|]. destruct (IH (skipn nu v)) as (us & L1 & F & C); [rewrite skipn_length; lia|].
  exists (firstn nu v :: us). split; [cbn; lia|]. split; [constructor; [rewrite firstn_length; lia|exact F]|]. cbn. rewrite C. apply firstn_skipn.
Qed.
(** without active constraints u(x) is the unconstrained minimizer *)
Lemma free_minimizer q nu nx m c x v : MpqpThms.coherent q nu nx m -> region_ok q nu nx m [] c -> length x = nx -> length v = nu -> q_cost q x v <= q_cost q x (cr_u c x) -> v = cr_u c x.
Proof.
  intros Hq (_ & _ & _ & _ & RO) Lx Lv HC. destruct (RO x Lx) as (Lu & Lp & St & _ & Z & _). pose proof Hq as (SH & (HS & HP) & SX & _ & Lf & _ & SAu & _).
  rewrite !(q_cost_split q nu nx m x) in HC by assumption. assert (LF : length (vadd (mv (q_Hux q) x) (q_fu q)) = nu) by (rewrite vadd_length, mv_length, (proj1 SX); lia).
  rewrite (qp_expand (q_Huu q) _ nu (cr_u c x) v SH HS Lu Lv LF) in HC. assert (LD : length (vsub v (cr_u c x)) = nu) by (rewrite vsub_length; lia).
  assert (D0 : dot (vadd (mv (q_Huu q) (cr_u c x)) (vadd (mv (q_Hux q) x) (q_fu q))) (vsub v (cr_u c x)) = 0).
  { pose proof (St _ LD) as E. assert (PZ : cr_p c x = zeros m) by (apply (nth_ext _ _ 0 0); [rewrite zeros_length; exact Lp|]; intros i _; rewrite nth_zeros; apply Z; intros []). rewrite PZ, dot_zeros_l in E.
    rewrite dot_vadd_l by (rewrite mv_length, (proj1 SH), LF; reflexivity). rewrite dot_vadd_l by (rewrite mv_length, (proj1 SX), Lf; reflexivity). lra. }
  rewrite D0 in HC. destruct (classic (vsub v (cr_u c x) = zeros nu)) as [EZ|NZ].
  - apply (nth_ext _ _ 0 0); [lia|]. intros i Hi. assert (G : nth i (vsub v (cr_u c x)) 0 = 0) by (rewrite EZ; apply nth_zeros). rewrite nth_vsub in G by lia. lra.
  - exfalso. specialize (HP _ LD NZ). lra.
Qed.
Lemma loop_prefix np q fuel step : forall buf crs res, explicit_loop np fuel step q buf crs = Ok res -> exists l, res = crs ++ l.
Proof.
  induction fuel as [|fuel IH]; intros buf crs res; [discriminate|]. cbn [explicit_loop]. destruct buf as [|e buf]; [intros E; injection E as <-; exists []; rewrite app_nil_r; reflexivity|].
  destruct (uncovered crs (e :: buf)) as [[|(x & g) rest]|]; cbn [bind]; [intros E; injection E as <-; exists []; rewrite app_nil_r; reflexivity| |discriminate]. destruct (explicit_solve_given_point np q x (Some g)) as [[cr|]|]; cbn [bind]; [|apply IH|discriminate].
  destruct (minimal_facets np tol7 (cr_poly cr)) as ([[mf|]|] & p'); try discriminate. destruct (mapM _ mf) as [new|]; cbn [bind]; [|discriminate]. intros E. destruct (IH _ _ _ E) as (l & ->). rewrite <- app_assoc. eexists. reflexivity.
Qed.
(*@ Theorem C101_first : The first region of every stored explicit solution of the controller with terminal cost and gain of solve_dare and an invariant terminal set that contains the origin: it is that of the empty active set, it consists of exactly the states from which u = K x is admissible over the horizon -- so it contains the terminal set --, and its input sequence is the one of u = K x. In particular there is a first region, and the program has constraints (without any, store_explicit_solution raises) *)
Lemma stored_first np S N Q Rm P D X_N K nx nu C fuel step crs : mpc_setup np S N Q Rm P D X_N K nx nu C -> lqr_pair np S Q Rm P K nx nu -> in_poly X_N (zeros nx) -> store_explicit_solution np fuel step C = Ok crs ->
  (0 < length (q_b (c_mpqp C)))%nat /\ exists c0 crs', crs = c0 :: crs' /\ cr_active c0 = [] /\
  (forall x us xs, length x = nx -> length us = N -> Forall (fun v => length v = nu) us -> is_trajectory (linear_step (lA S) (lB S)) x us xs -> (forall t, (t < N)%nat -> nth t us [] = mv K (nth t xs [])) ->
     cr_u c0 x = List.concat us /\ (in_poly (cr_poly c0) x <-> mpc_admissible (lA S) (lB S) nu N (in_poly D) (in_poly X_N) x us xs)) /\
  (forall x, in_poly X_N x -> in_poly (cr_poly c0) x).
Proof.
  intros SET LQ X0 ES. pose proof SET as (Hnp & HD & E & SK & TI). pose proof HD as ((SA & SB & HN & SQ & SP & SR & _ & (mx & mex & WX)) & _ & _ & _ & _ & PR).
  destruct (mpc_program np S N Q Rm P D X_N nx nu Hnp HD) as (q & m & E' & Hq & HC). rewrite E in E'. injection E' as ->. cbn [c_mpqp] in *. unfold store_explicit_solution in ES. cbn [c_mpqp] in ES.
  destruct (active_set_ok np q (nu * N) nx m [] Hnp Hq) as [(_ & c & Ec & RO)|(NI & _)]; [intros i []| |exfalso; apply NI; intros [|] L _; [reflexivity|discriminate L]].
  (* K is optimal *)
  assert (KEY : forall x us xs, length x = nx -> length us = N -> Forall (fun v => length v = nu) us -> is_trajectory (linear_step (lA S) (lB S)) x us xs -> (forall t, (t < N)%nat -> nth t us [] = mv K (nth t xs [])) ->
     cr_u c x = List.concat us /\ (in_poly (cr_poly c) x <-> mpc_admissible (lA S) (lB S) nu N (in_poly D) (in_poly X_N) x us xs)).
  { intros x us xs Lx L F T HK. destruct (HC x us xs Lx L F T) as (C1 & C2). pose proof RO as (_ & _ & _ & _ & RO'). destruct (RO' x Lx) as (Lu & Lp & _ & _ & Z & _ & IP).
    assert (EU : List.concat us = cr_u c x).
    { apply (free_minimizer q (nu * N) nx m c x _ Hq RO Lx); [rewrite (concat_length_const us nu F), L; lia|]. destruct (chunks nu N (cr_u c x) Lu) as (us' & L' & F' & CC). destruct (trajectory_exists (lA S) (lB S) nx nu x us' SA SB Lx) as (xs' & T').
      rewrite <- CC. rewrite (proj1 (HC x us' xs' Lx L' F' T')), C1. destruct (lqr_identity np S Q Rm P K nx nu Hnp SA SB SQ SR PR LQ) as (_ & _ & _ & M & PM & HI).
      rewrite (lqr_telescope (lA S) (lB S) Q Rm P K M nx nu us x xs SA SB Lx F T HI), (lqr_telescope (lA S) (lB S) Q Rm P K M nx nu us' x xs' SA SB Lx F' T' HI). apply Rplus_le_compat_l. rewrite (sum_upto_ext _ (fun _ => 0)).
      - assert (ZZ : forall n, sum_upto (fun _ => 0) n = 0) by (induction n as [|n IH]; cbn [sum_upto]; lra). rewrite ZZ. apply sum_upto_nonneg. intros t Ht. assert (LD : length (vsub (nth t us' []) (mv K (nth t xs' []))) = nu) by (rewrite vsub_length, mv_length, (proj1 SK), (Forall_len_nth us' nu) by auto; lia). pose proof (proj2 (pd_psd _ _ PM) _ LD). lra.
      - intros t Ht. rewrite HK by lia. rewrite vsub_self, dot_zeros_l. ring. }
    split; [symmetry; exact EU|]. rewrite IP, <- C2, EU. split; [intros (_ & H); exact H|intros H; split; [|exact H]]. apply Forall_forall. intros a Ha. destruct (In_nth _ _ 0 Ha) as (i & _ & <-). rewrite Z by (intros []). lra. }
  assert (ALL : forall x, in_poly X_N x -> in_poly (cr_poly c) x).
  { intros x HX. assert (Lx : length x = nx) by exact (proj1 (proj1 (in_poly_vle _ mx mex nx x WX) HX)). destruct (mpc_lqr np S N Q Rm P D X_N K nx nu _ x Hnp HD E LQ Lx) as (_ & _ & G). destruct (G TI HX) as (us & xs & HA & HK). pose proof HA as (L & F & T & _). apply (KEY x us xs Lx L F T HK). exact HA. }
  pose proof Hq as (_ & _ & _ & _ & _ & Lfx & _ & _ & Lb & _). pose proof RO as (_ & AC & W & _).
  unfold explicit_solve in ES. rewrite Lfx in ES. destruct fuel as [|fuel]; [discriminate ES|]. cbn [explicit_loop uncovered fst covered mapM bind existsb] in ES. unfold explicit_solve_given_point in ES. rewrite Ec in ES. cbn [bind] in ES. unfold cr_contains in ES.
  destruct m as [|m].
  { exfalso. revert ES. unfold contains. replace (np_mv (pA (cr_poly c)) (zeros nx)) with (Ok (@nil R)); [|]. - cbn [bind vsub map2 vmax]. discriminate. - unfold np_mv. rewrite (proj1 (proj2 (proj1 W))), zeros_length, Nat.eqb_refl. f_equal. symmetry. apply length_zero_iff_nil. rewrite mv_length. apply W. }
  split; [rewrite Lb; lia|].
  destruct (contains_ineqs (cr_poly c) (zeros nx) (Datatypes.S m) nx tol7 W ltac:(lia) (zeros_length nx)) as (b & EB & HB). rewrite EB in ES. cbn [bind] in ES.
  assert (b = true) as ->. { apply HB. pose proof (ALL _ X0) as Hx. apply (in_poly_vle _ _ 0 nx _ W) in Hx. destruct Hx as (_ & HV & _). apply vle_nth in HV. destruct HV as (LV & HV). intros j Hj. assert (Lb' : length (pb (cr_poly c)) = Datatypes.S m) by apply W. specialize (HV j ltac:(rewrite LV; lia)). rewrite nth_mv in HV. unfold row, tol7. lra. }
  cbn [bind] in ES. pose proof (facets_fields np tol7 (cr_poly c)) as (F1 & F2 & F3 & F4). destruct (minimal_facets np tol7 (cr_poly c)) as ([[mf|]|] & p'); try discriminate ES. cbn [snd] in F1, F2, F3, F4. match type of ES with bind ?a _ = _ => destruct a as [new|]; cbn [bind] in ES; [|discriminate ES] end. apply loop_prefix in ES. destruct ES as (l & ->).
  eexists. exists l. split; [reflexivity|]. split; [exact AC|]. assert (SAME : forall x, in_poly p' x <-> in_poly (cr_poly c) x) by (intros x; unfold in_poly; rewrite F1, F2, F3, F4; reflexivity). cbn [cr_poly].
  split; [intros x us xs Lx L F T HK; rewrite SAME; exact (KEY x us xs Lx L F T HK)|intros x HX; apply SAME, ALL, HX].
Qed.
Section Found.
Variables (np : numpy) (S : lsys) (N : nat) (Q Rm P : mat) (D X_N : poly) (K : mat) (nx nu : nat) (C : mpc) (sg : R) (fuel : nat) (step : R) (c0 : critical_region) (crs : list critical_region).
Hypothesis SET : mpc_setup np S N Q Rm P D X_N K nx nu C.
Hypothesis LQ : lqr_pair np S Q Rm P K nx nu.
Hypothesis BALL : forall x, length x = nx -> sup x <= sg -> in_poly X_N x.
Hypothesis Pm : (0 < length (q_b (c_mpqp C)))%nat.
Hypothesis ES : store_explicit_solution np fuel step C = Ok (c0 :: crs).
Hypothesis IN0 : forall x, length x = nx -> sup x <= sg -> in_poly (cr_poly c0) x.
(** the first region answers *)
Lemma first_found u eta rnd x r : rounding u eta rnd -> length x = nx -> sup x <= sg -> (forall c, In c (c0 :: crs) -> residual_bound u eta tol7 (pA (cr_poly c)) (pb (cr_poly c)) x) -> fl_feedback_explicit rnd C (Some (c0 :: crs)) x r ->
  exists w, r = Ok (Some w) /\ length w = nu /\ forall i, (i < nu)%nat -> Rabs (nth i w 0 - (dot (row (cr_ux c0) i) x + nth i (cr_u0 c0) 0)) <= rounding_error u eta (nx + 1) (abs_dot (row (cr_ux c0) i) x + Rabs (nth i (cr_u0 c0) 0)).
Proof.
  intros RN Lx Sx RB Hr. pose proof SET as (Hnp & HD & E & _). destruct (stored_table np S N Q Rm P D X_N nx nu C fuel step (c0 :: crs) Hnp HD E Pm ES) as (H1 & H2 & H3 & TB & HS).
  assert (W0 : MpqpThms.within (tol7 - tol7) (cr_poly c0) x).
  { pose proof (Forall_inv TB) as (m & Hm & W). pose proof (IN0 x Lx Sx) as Hx. apply (in_poly_vle _ m 0 nx x W) in Hx. destruct Hx as (_ & HV & _). apply vle_nth in HV. destruct HV as (LV & HV). intros i Hi. specialize (HV i ltac:(rewrite LV; exact Hi)). rewrite nth_mv in HV. unfold row. lra. }
  destruct (feedback_rounded u eta rnd C (c0 :: crs) x tol7 nx nu N RN TB Lx H1 H2 H3) as (_ & _ & H). { intros c I. destruct (HS c I) as (B1 & B2). split; [exact B1|]. split; [exact B2|apply RB, I]. }
  destruct (H r Hr) as [(_ & NN)|(pre & c & post & w & EC & -> & _ & NN & Lw & HV)]; [exfalso; apply (NN c0 (or_introl eq_refl)); exact W0|].
  destruct pre as [|c1 pre]; [|exfalso; injection EC as <- _; apply (NN c0 (or_introl eq_refl)); exact W0]. injection EC as <- _. exists w. auto.
Qed.
(** .. with the gain *)
Lemma first_law x i : length x = nx -> sup x <= sg -> (i < nu)%nat -> dot (row (cr_ux c0) i) x + nth i (cr_u0 c0) 0 = nth i (mv K x) 0.
Proof.
  intros Lx Sx Hi. pose proof SET as (Hnp & HD & E & SK & TI). destruct (stored_table np S N Q Rm P D X_N nx nu C fuel step (c0 :: crs) Hnp HD E Pm ES) as (H1 & H2 & H3 & TB & HS).
  pose proof (mpc_feedback_lqr np S N Q Rm P D X_N K nx nu C x Hnp HD E LQ TI Lx (BALL x Lx Sx)) as FB.
  assert (G : get_critical_region (c0 :: crs) x = Ok (Some c0)).
  { cbn [get_critical_region]. unfold cr_contains. pose proof (Forall_inv TB) as (m & Hm & W). destruct (contains_ineqs (cr_poly c0) x m nx tol7 W Hm Lx) as (b & EB & HB). rewrite EB. cbn [bind]. replace b with true; [reflexivity|]. symmetry. apply HB.
    pose proof (IN0 x Lx Sx) as Hx. apply (in_poly_vle _ m 0 nx x W) in Hx. destruct Hx as (_ & HV & _). apply vle_nth in HV. destruct HV as (LV & HV). intros j Hj. assert (Lb : length (pb (cr_poly c0)) = m) by apply W. specialize (HV j ltac:(rewrite LV; lia)). rewrite nth_mv in HV. unfold row, tol7. lra. }
  assert (FE : feedback_explicit C (Some (c0 :: crs)) x = Ok (Some (mv K x))).
  { destruct (explicit_agreement np S N Q Rm P D X_N nx nu C fuel step (c0 :: crs) c0 x Hnp HD E ES Lx G (IN0 x Lx Sx)) as [(_ & EF)|(EF & _)]; [rewrite EF; exact FB|]. exfalso. unfold feedback in FB. rewrite EF in FB. discriminate FB. }
  apply (proj2 (explicit_unrounded C (Some (c0 :: crs)) (c0 :: crs) x)) in FE.
  assert (RN : rounding 0 0 (fun a => a)) by (split; [lra|split; [lra|]]; intros a; rewrite Rminus_diag_eq by reflexivity; rewrite Rabs_R0; lra).
  assert (R0 : forall n s, rounding_error 0 0 n s = 0) by (intros n s; unfold rounding_error; rewrite Rplus_0_r, pow1; ring).
  destruct (first_found 0 0 (fun a => a) x _ RN Lx Sx ltac:(intros c _ j _; rewrite R0; unfold tol7; lra) FE) as (w & Ew & _ & HW). injection Ew as <-. specialize (HW i Hi). rewrite R0 in HW. apply rabs_inv in HW. lra.
Qed.
End Found.
(*@ Theorem C101_loop : The closed loop in rounded arithmetic: the explicit controller (terminal cost and gain of solve_dare, invariant terminal set, Q positive definite), with lookup, input law and state update rounded and summed in any order, with a neighbourhood of the origin in the terminal set. There are a radius rho0, a precision u0 and constants th, q, c of the problem such that for every arithmetic with relative error u and absolute error eta per operation, u + eta <= u0, and every run with |x(0)| <= rho0: the controller always answers, its input is within c (u + eta) of the exact K x, which meets the constraints, and q |x(t)|^2 <= (1 - th)^t c |x(0)|^2 + c (u + eta) *)
Lemma explicit_loop_rounded np S N Q Rm P D X_N K nx nu C sg fuel step crs : mpc_setup np S N Q Rm P D X_N K nx nu C -> lqr_pair np S Q Rm P K nx nu -> Spec.pd Q nx -> 0 < sg -> (forall x, length x = nx -> sup x <= sg -> in_poly X_N x) ->
  store_explicit_solution np fuel step C = Ok crs ->
  exists rho0 th q c u0, 0 < rho0 /\ 0 < th <= 1 /\ 0 < q /\ 0 <= c /\ 0 < u0 /\ forall u eta rnd (z : nat -> vec) (r : nat -> res (option vec)), rounding u eta rnd -> u + eta <= u0 -> (forall t, length (z t) = nx) -> sup (z 0%nat) <= rho0 ->
    (forall t, fl_feedback_explicit rnd C (Some crs) (z t) (r t)) -> (forall t v, r t = Ok (Some v) -> fl_lin_step rnd S (z t) v (z (Datatypes.S t))) ->
    forall t, exists v, r t = Ok (Some v) /\ length v = nu /\ feedback np C (z t) = Ok (Some (mv K (z t))) /\ in_poly D (z t ++ mv K (z t)) /\ sup (vsub v (mv K (z t))) <= c * (u + eta) /\
      q * (sup (z t) * sup (z t)) <= (1 - th) ^ t * (c * (sup (z 0%nat) * sup (z 0%nat))) + c * (u + eta).
Proof.
  intros SET LQ PQ Psg BALL ES. destruct (stored_first np S N Q Rm P D X_N K nx nu C fuel step crs SET LQ) as (Pm & c0 & crs' & -> & _ & _ & IN1); [apply BALL; [apply zeros_length|rewrite sup_zeros; lra]|exact ES|]. rename crs' into crs.
  assert (IN0 : forall x, length x = nx -> sup x <= sg -> in_poly (cr_poly c0) x) by (intros x Lx Sx; apply IN1, BALL; assumption). pose proof SET as (Hnp & HD & E & SK & TI). pose proof HD as ((SA & SB & HN & _) & _).
  destruct (stored_table np S N Q Rm P D X_N nx nu C fuel step (c0 :: crs) Hnp HD E Pm ES) as (H1 & H2 & H3 & TB & HS).
  destruct (mpc_robust_local np S N Q Rm P D X_N K nx nu C sg SET LQ PQ Psg BALL) as (rho0 & th & q & c & d0 & Pr & Hth & Pq & Pc & Pd & LOC).
  destruct (common_constant (fun cr b => forall x i, length x = nx -> sup x <= sg -> (i < nrows (pA (cr_poly cr)))%nat -> abs_dot (row (pA (cr_poly cr)) i) x + Rabs (nth i (pb (cr_poly cr)) 0) <= b) (c0 :: crs)) as (s1 & Ps1 & HS1).
  { intros cr b b' Hb H x i Lx Sx Hi. specialize (H x i Lx Sx Hi). lra. }
  { intros cr I. unfold table_ok in TB. rewrite Forall_forall in TB. destruct (TB cr I) as (m & Hm & W). assert (SAp : shape (pA (cr_poly cr)) m nx) by apply W. destruct (row_sums _ m nx SAp) as (al & Pal & AL). exists (al * sg + sup (pb (cr_poly cr))). pose proof (sup_nonneg (pb (cr_poly cr))). assert (0 <= al * sg) by (apply Rmult_le_pos; lra). split; [lra|].
    intros x i Lx Sx Hi. assert (Hm' : (i < m)%nat) by (replace m with (nrows (pA (cr_poly cr))) by apply SAp; exact Hi). pose proof (abs_dot_ball (row (pA (cr_poly cr)) i) x nx sg (shape_row _ m nx i SAp Hm') Lx Sx) as B. pose proof (nth_sup (pb (cr_poly cr)) i). assert (abs_dot (row (pA (cr_poly cr)) i) (ones nx) * sg <= al * sg) by (apply Rmult_le_compat_r; [lra|apply AL; exact Hm']). lra. }
  destruct (HS c0 (or_introl eq_refl)) as (SU & LU). destruct (row_sums _ _ _ SU) as (ul & Pul & UL). destruct (row_sums _ _ _ SA) as (al & Pal & AL). destruct (row_sums _ _ _ SB) as (bl & Pbl & BL). destruct (row_sums _ _ _ SK) as (kl & Pkl & KL).
  set (s2 := ul * sg + sup (cr_u0 c0)). assert (Ps2 : 0 <= s2) by (unfold s2; pose proof (sup_nonneg (cr_u0 c0)); assert (0 <= ul * sg) by (apply Rmult_le_pos; lra); lra).
  set (e1 := 2 ^ (nx + 1) * (s1 + 2 * INR (nx + 1))). set (e2 := 2 ^ (nx + 1) * (s2 + 2 * INR (nx + 1))). set (s3 := al * sg + bl * (kl * sg + 1)). set (e3 := 2 ^ (nx + nu + 1) * (s3 + 2 * INR (nx + nu + 1))).
  assert (PK : 0 <= kl * sg) by (apply Rmult_le_pos; lra). assert (Ps3 : 0 <= s3) by (unfold s3; assert (0 <= al * sg) by (apply Rmult_le_pos; lra); assert (0 <= bl * (kl * sg + 1)) by (apply Rmult_le_pos; lra); lra).
  assert (P2 : forall n, 0 < 2 ^ n) by (intros n; apply pow_lt; lra). assert (Pe1 : 0 <= e1) by (unfold e1; pose proof (pos_INR (nx + 1)); apply Rmult_le_pos; [left; apply P2|lra]). assert (Pe2 : 0 <= e2) by (unfold e2; pose proof (pos_INR (nx + 1)); apply Rmult_le_pos; [left; apply P2|lra]). assert (Pe3 : 0 <= e3) by (unfold e3; pose proof (pos_INR (nx + nu + 1)); apply Rmult_le_pos; [left; apply P2|lra]).
  set (g := e3 + bl * e2). assert (Pg : 0 <= g) by (unfold g; assert (0 <= bl * e2) by (apply Rmult_le_pos; lra); lra).
  set (u0 := Rmin (Rmin (tol7 / (e1 + 1)) (/ (e2 + 1))) (d0 / (g + 1))). assert (T7 : 0 < tol7) by (unfold tol7; lra).
  assert (Pu0 : 0 < u0). { unfold u0. apply Rmin_pos; [apply Rmin_pos|]; [apply Rdiv_lt_0_compat; lra|apply Rinv_0_lt_compat; lra|apply Rdiv_lt_0_compat; lra]. }
  assert (U1 : e1 * u0 <= tol7). { assert (u0 <= tol7 / (e1 + 1)) by (unfold u0; eapply Rle_trans; apply Rmin_l). assert (X : (e1 + 1) * (tol7 / (e1 + 1)) = tol7) by (field; lra). assert ((e1 + 1) * u0 <= (e1 + 1) * (tol7 / (e1 + 1))) by (apply Rmult_le_compat_l; lra). lra. }
  assert (U2 : e2 * u0 <= 1 /\ u0 <= 1). { assert (u0 <= / (e2 + 1)) by (unfold u0; eapply Rle_trans; [apply Rmin_l|apply Rmin_r]). assert (X : (e2 + 1) * / (e2 + 1) = 1) by (field; lra). assert (Y : (e2 + 1) * u0 <= (e2 + 1) * / (e2 + 1)) by (apply Rmult_le_compat_l; lra). assert (0 <= e2 * u0) by (apply Rmult_le_pos; lra). lra. }
  assert (U3 : g * u0 <= d0). { assert (u0 <= d0 / (g + 1)) by (unfold u0; apply Rmin_r). assert (X : (g + 1) * (d0 / (g + 1)) = d0) by (field; lra). assert ((g + 1) * u0 <= (g + 1) * (d0 / (g + 1))) by (apply Rmult_le_compat_l; lra). lra. }
  exists rho0, th, q, (c * (1 + g) + e2), u0. split; [exact Pr|]. split; [exact Hth|]. split; [exact Pq|]. split; [assert (0 <= c * (1 + g)) by (apply Rmult_le_pos; lra); lra|]. split; [exact Pu0|].
  intros u eta rnd z r RN Hu Lz S0 HF HZ. pose proof RN as (Pu & Pet & _). assert (Hu1 : 0 <= u <= 1) by lra. set (ep := u + eta) in *. assert (Pep : 0 <= ep) by (unfold ep; lra).
  assert (NB : forall (a y : vec) b, 0 <= abs_dot a y + Rabs b) by (intros a y b; pose proof (abs_dot_nonneg a y); pose proof (Rabs_pos b); lra).
  (* one step in the ball *)
  assert (ONE : forall t, sup (z t) <= sg -> exists v, r t = Ok (Some v) /\ length v = nu /\ sup (vsub v (mv K (z t))) <= e2 * ep /\ feedback np C (z t) = Ok (Some (mv K (z t))) /\ sup (vsub (z (Datatypes.S t)) (linear_step (lA S) (lB S) (z t) (mv K (z t)))) <= g * ep).
  { intros t St. destruct (first_found np S N Q Rm P D X_N K nx nu C sg fuel step c0 crs SET Pm ES IN0 u eta rnd (z t) (r t) RN (Lz t) St) as (v & Er & Lv & HV); [|apply HF|].
    { intros cr I i Hi. rewrite (Lz t). eapply Rle_trans; [apply (error_linear u eta (nx + 1) _ s1 Hu1 Pet); split; [apply NB|apply (HS1 cr I); auto]|]. fold e1. apply Rle_trans with (e1 * u0); [apply Rmult_le_compat_l; [exact Pe1|exact Hu]|exact U1]. }
    assert (LK : length (mv K (z t)) = nu) by (rewrite mv_length; apply SK).
    assert (HV2 : forall i, (i < nu)%nat -> Rabs (nth i v 0 - nth i (mv K (z t)) 0) <= e2 * ep).
    { intros i Hi. specialize (HV i Hi). rewrite (first_law np S N Q Rm P D X_N K nx nu C sg fuel step c0 crs SET LQ BALL Pm ES IN0 (z t) i (Lz t) St Hi) in HV. eapply Rle_trans; [exact HV|]. apply (error_linear u eta (nx + 1) _ s2 Hu1 Pet). split; [apply NB|].
      assert (Hi' : (i < nu * N)%nat) by nia. pose proof (abs_dot_ball (row (cr_ux c0) i) (z t) nx sg (shape_row _ _ nx i SU Hi') (Lz t) St) as B. pose proof (nth_sup (cr_u0 c0) i). assert (abs_dot (row (cr_ux c0) i) (ones nx) * sg <= ul * sg) by (apply Rmult_le_compat_r; [lra|apply UL; exact Hi']). unfold s2. lra. }
    assert (E2P : e2 * ep <= 1) by (apply Rle_trans with (e2 * u0); [apply Rmult_le_compat_l; assumption|apply U2]). assert (P2e : 0 <= e2 * ep) by (apply Rmult_le_pos; assumption).
    assert (DV : sup (vsub v (mv K (z t))) <= e2 * ep) by (apply sup_le; [exact P2e|]; intros i Hi; rewrite nth_vsub by lia; apply HV2; lenh Hi; lia).
    assert (SKz : sup (mv K (z t)) <= kl * sg) by (eapply Rle_trans; [apply (sup_mv K nu nx kl (z t) SK Pkl KL (Lz t))|apply Rmult_le_compat_l; assumption]).
    assert (SV : sup v <= kl * sg + 1). { apply sup_le; [lra|]. intros i Hi. specialize (HV2 i ltac:(lia)). pose proof (nth_sup (mv K (z t)) i) as Q2. pose proof (Rabs_triang (nth i v 0 - nth i (mv K (z t)) 0) (nth i (mv K (z t)) 0)) as Q3. replace (nth i v 0 - nth i (mv K (z t)) 0 + nth i (mv K (z t)) 0) with (nth i v 0) in Q3 by ring. lra. }
    exists v. split; [exact Er|]. split; [exact Lv|]. split; [exact DV|]. split; [apply (mpc_feedback_lqr np S N Q Rm P D X_N K nx nu C (z t) Hnp HD E LQ TI (Lz t)), BALL; auto|].
    destruct (lin_step_err u eta rnd S (z t) v (z (Datatypes.S t)) nx nu RN (conj SA SB) (Lz t) Lv (HZ t v Er)) as (_ & HE). assert (Pge : 0 <= g * ep) by (apply Rmult_le_pos; assumption). assert (LA : forall w, length w = nu -> length (linear_step (lA S) (lB S) (z t) w) = nx) by (intros w Lw; apply (step_length _ _ nx nu); auto).
    apply sup_le; [exact Pge|]. intros i Hi. assert (Hi' : (i < nx)%nat) by (rewrite vsub_length, Lz, LA in Hi by exact LK; lia). rewrite nth_vsub by (rewrite Lz, LA by exact LK; reflexivity). specialize (HE i Hi').
    assert (B1 : abs_dot (row (lA S) i) (z t) + abs_dot (row (lB S) i) v <= s3).
    { pose proof (abs_dot_ball (row (lA S) i) (z t) nx sg (shape_row _ _ nx i SA Hi') (Lz t) St) as Ba. pose proof (abs_dot_ball (row (lB S) i) v nu (kl * sg + 1) (shape_row _ _ nu i SB Hi') Lv SV) as Bb. assert (abs_dot (row (lA S) i) (ones nx) * sg <= al * sg) by (apply Rmult_le_compat_r; [lra|apply AL; exact Hi']). assert (abs_dot (row (lB S) i) (ones nu) * (kl * sg + 1) <= bl * (kl * sg + 1)) by (apply Rmult_le_compat_r; [lra|apply BL; exact Hi']). unfold s3. lra. }
    assert (B2 : rounding_error u eta (nx + nu + 1) (abs_dot (row (lA S) i) (z t) + abs_dot (row (lB S) i) v) <= e3 * ep) by (apply (error_linear u eta (nx + nu + 1) _ s3 Hu1 Pet); split; [pose proof (abs_dot_nonneg (row (lA S) i) (z t)); pose proof (abs_dot_nonneg (row (lB S) i) v); lra|exact B1]).
    assert (B3 : Rabs (nth i (linear_step (lA S) (lB S) (z t) v) 0 - nth i (linear_step (lA S) (lB S) (z t) (mv K (z t))) 0) <= bl * (e2 * ep)).
    { unfold linear_step. rewrite !nth_vadd by (rewrite !mv_length, (proj1 SA), (proj1 SB); reflexivity). rewrite !nth_mv. fold (row (lA S) i) (row (lB S) i).
      pose proof (dot_abs_err (row (lB S) i) v (mv K (z t)) nu (e2 * ep) (shape_row _ _ nu i SB Hi') Lv LK HV2) as D1. pose proof (dot_abs_err (row (lB S) i) (mv K (z t)) v nu (e2 * ep) (shape_row _ _ nu i SB Hi') LK Lv ltac:(intros j Hj; rewrite Rabs_minus_sym; apply HV2; exact Hj)) as D2.
      assert (abs_dot (row (lB S) i) (ones nu) * (e2 * ep) <= bl * (e2 * ep)) by (apply Rmult_le_compat_r; [exact P2e|apply BL; exact Hi']). apply Rabs_le. lra. }
    pose proof (Rabs_triang (nth i (z (Datatypes.S t)) 0 - nth i (linear_step (lA S) (lB S) (z t) v) 0) (nth i (linear_step (lA S) (lB S) (z t) v) 0 - nth i (linear_step (lA S) (lB S) (z t) (mv K (z t))) 0)) as TR.
    replace (nth i (z (Datatypes.S t)) 0 - nth i (linear_step (lA S) (lB S) (z t) v) 0 + (nth i (linear_step (lA S) (lB S) (z t) v) 0 - nth i (linear_step (lA S) (lB S) (z t) (mv K (z t))) 0)) with (nth i (z (Datatypes.S t)) 0 - nth i (linear_step (lA S) (lB S) (z t) (mv K (z t))) 0) in TR by ring. unfold g. lra. }
  assert (DL : 0 <= g * ep <= d0). { split; [apply Rmult_le_pos; assumption|]. apply Rle_trans with (g * u0); [apply Rmult_le_compat_l; assumption|exact U3]. }
  assert (RUN : forall T t, (t < T)%nat -> sup (z t) <= sg).
  { induction T as [|T IH]; intros t Ht; [lia|]. destruct (LOC (g * ep) z T DL Lz S0) with (t := t) as (w & _ & _ & St & _); [|lia|exact St]. intros k w Hk Ew. destruct (ONE k (IH k Hk)) as (v & _ & _ & _ & Ef & B). rewrite Ew in Ef. injection Ef as ->. exact B. }
  intros t. destruct (ONE t (RUN (Datatypes.S t) t ltac:(lia))) as (v & Er & Lv & DV & Ef & _). exists v. split; [exact Er|]. split; [exact Lv|]. split; [exact Ef|].
  destruct (LOC (g * ep) z t DL Lz S0) with (t := t) as (w & Ew & Dw & _ & Bw); [|lia|]. { intros k w Hk Ew. destruct (ONE k (RUN (Datatypes.S k) k ltac:(lia))) as (v' & _ & _ & _ & Ef' & B). rewrite Ew in Ef'. injection Ef' as ->. exact B. }
  rewrite Ef in Ew. injection Ew as <-. split; [exact Dw|]. assert (Pcg : 0 <= c * (1 + g)) by (apply Rmult_le_pos; lra). split.
  - eapply Rle_trans; [exact DV|]. apply Rmult_le_compat_r; [exact Pep|lra].
  - eapply Rle_trans; [exact Bw|]. assert (PT : 0 <= (1 - th) ^ t) by (apply pow_le; lra). pose proof (sup_nonneg (z 0%nat)) as P0. assert (P00 : 0 <= sup (z 0%nat) * sup (z 0%nat)) by (apply Rmult_le_pos; exact P0). assert (Pcc : 0 <= c * g) by (apply Rmult_le_pos; assumption).
    apply Rplus_le_compat; [apply Rmult_le_compat_l; [exact PT|]; apply Rmult_le_compat_r; [exact P00|lra]|]. rewrite <- Rmult_assoc. apply Rmult_le_compat_r; [exact Pep|lra].
Qed.
(*@ Theorem C101_runs : Such runs exist: for every arithmetic of this kind, every state and every stored table, the rounded controller returns some result, and for every input there is a rounded next state *)
Lemma rounded_runs np S N Q Rm P D X_N K nx nu C fuel step crs u eta rnd x : mpc_setup np S N Q Rm P D X_N K nx nu C -> lqr_pair np S Q Rm P K nx nu -> in_poly X_N (zeros nx) -> store_explicit_solution np fuel step C = Ok crs ->
  rounding u eta rnd -> length x = nx -> (exists r, fl_feedback_explicit rnd C (Some crs) x r) /\ forall v, length v = nu -> exists y, fl_lin_step rnd S x v y /\ length y = nx.
Proof.
  intros SET LQ X0 ES RN Lx. destruct (stored_first np S N Q Rm P D X_N K nx nu C fuel step crs SET LQ X0 ES) as (Pm & _). pose proof SET as (Hnp & HD & E & SK & TI). pose proof HD as ((SA & SB & _) & _). destruct (stored_table np S N Q Rm P D X_N nx nu C fuel step crs Hnp HD E Pm ES) as (H1 & H2 & H3 & TB & HS). split.
  - destruct (common_constant (fun c e => residual_bound u eta e (pA (cr_poly c)) (pb (cr_poly c)) x) crs) as (e & _ & HE).
    { intros c e e' He H i Hi. specialize (H i Hi). lra. }
    { intros c _. destruct (common_constant (fun i e => rounding_error u eta (length x + 1) (abs_dot (row (pA (cr_poly c)) i) x + Rabs (nth i (pb (cr_poly c)) 0)) <= e) (seq 0 (nrows (pA (cr_poly c))))) as (e & Pe & He).
      - intros i e e' He H. lra.
      - intros i _. exists (Rabs (rounding_error u eta (length x + 1) (abs_dot (row (pA (cr_poly c)) i) x + Rabs (nth i (pb (cr_poly c)) 0)))). split; [apply Rabs_pos|apply Rle_abs].
      - exists e. split; [exact Pe|]. intros i Hi. apply He. apply in_seq. lia. }
    apply (feedback_rounded u eta rnd C crs x e nx nu N RN TB Lx H1 H2 H3). intros c I. destruct (HS c I) as (B1 & B2). split; [exact B1|]. split; [exact B2|apply HE, I].
  - intros v Lv. destruct (fl_mv_total rnd (lA S) x) as (a & Ha). destruct (fl_mv_total rnd (lB S) v) as (b & Hb). exists (fl_vadd rnd a b). assert (FS : fl_lin_step rnd S x v (fl_vadd rnd a b)) by (exists a, b; auto). split; [exact FS|]. apply (lin_step_err u eta rnd S x v _ nx nu RN (conj SA SB) Lx Lv FS).
Qed.
(** ** Example *)
(*@ Example C101_example : x+ = x + u with Q = 1, R = 2, P = 2, K = -1/2, |x| <= 1, |u| <= 1, horizon 1, terminal set [-1, 1]: all hypotheses of C101_loop hold with sg = 1, and the stored table has one region *)
Lemma loop_rounded_example : exists np C c0, mpc_setup np S_1 1 (Mat 1 [[1]]) (Mat 1 [[2]]) (Mat 1 [[2]]) D_box X_int (Mat 1 [[- (1 / 2)]]) 1 1 C /\ lqr_pair np S_1 (Mat 1 [[1]]) (Mat 1 [[2]]) (Mat 1 [[2]]) (Mat 1 [[- (1 / 2)]]) 1 1 /\ Spec.pd (Mat 1 [[1]]) 1 /\ (forall x, length x = 1%nat -> sup x <= 1 -> in_poly X_int x) /\ in_poly X_int (zeros 1) /\ store_explicit_solution np 4 (/ 100000) C = Ok [c0] /\ cr_u c0 [1] = [- (1 / 2)].
Proof.
  destruct explicit_loop_example as (C & c & SET & LQ & PQ & ES & _ & ADM & _). assert (X0 : in_poly X_int (zeros 1)) by (apply in_X_int; lra). eexists. exists C, c. split; [exact SET|]. split; [exact LQ|]. split; [exact PQ|]. split.
  { intros [|a [|]] L H; try discriminate L. rewrite sup1 in H. apply rabs_inv in H. apply in_X_int. lra. }
  split; [exact X0|]. split; [exact ES|]. destruct (stored_first _ _ _ _ _ _ _ _ _ _ _ _ _ _ _ SET LQ X0 ES) as (_ & c1 & l & El & _ & KEY & _). injection El as <- _. destruct ADM as (L & F & T & _). apply (KEY [1] _ _ eq_refl L F T). intros [|t] Ht; [|lia]. cbn. f_equal. lra.
Qed.
