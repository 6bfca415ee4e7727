(** * ExplValThms: the value and the continuity of the explicit controller within the lookup tolerance (C102), proofs *)
From Coq Require Import Lra Lia.
From Verif Require Import Arr ArrFacts Spec SpecMpc SpecDyn SpecEig Numpy Pnnls PnnlsFacts QpFacts Polyhedron PolyThms Mpqp MpqpThms TolThms PolyMore VertThms LawThms SpecRound Round RoundExpl RoundThms RoundSimThms RoundPwaThms PlantThms RoundExplThms ExplGapThms.
Local Open Scope list_scope.
(*@ Theorem C102_value : The value of the region found: for every table stored by explicit_solve there is one constant c such that wherever a region contains the parameter up to tau, its V(x) differs from the optimal value by at most c tau (1 + |x| + tau) *)
Lemma explicit_value np Huu Hux Hxx fu fx g Au Ax b nu nx m q fuel step crs :
  exact_np np -> mp_data Huu Hux Hxx fu fx Au Ax b nu nx m -> MultiParametricQuadraticProgram np Huu Hux Hxx fu fx g Au Ax b = Ok q -> explicit_solve np fuel step q = Ok crs ->
  exists c, 0 <= c /\ forall cr tau x w, In cr crs -> 0 < tau -> length x = nx -> MpqpThms.within tau (cr_poly cr) x -> mp_minimizer Huu Hux Hxx fu fx g Au Ax b x w -> Rabs (cr_V cr x - mp_cost Huu Hux Hxx fu fx g x w) <= c * tau * (1 + sup x + tau).
Proof.
  intros Hnp D E1 E2. destruct (explicit_gap np _ _ _ _ _ _ _ _ _ _ _ _ q fuel step crs Hnp D E1 E2) as (c0 & Pc0 & GAP). destruct (constructed _ _ _ _ _ _ _ _ _ _ _ _ _ _ Hnp D E1) as (Hq & Hi0 & Eq). pose proof (loop_fields np q fuel step _ [] crs (Forall_nil _) E2) as FF. rewrite Forall_forall in FF.
  pose proof Hq as (H1 & PD & H2 & H3 & L1 & L2 & H4 & H5 & L3 & _). destruct (row_sums (q_Huu q) nu nu H1) as (hs & Phs & HS). destruct (row_sums (q_Hux q) nu nx H2) as (ks & Pks & KS).
  destruct (common_constant (fun cr c => forall tau x w, 0 < tau -> length x = nx -> MpqpThms.within tau (cr_poly cr) x -> mp_minimizer Huu Hux Hxx fu fx g Au Ax b x w -> Rabs (cr_V cr x - mp_cost Huu Hux Hxx fu fx g x w) <= c * tau * (1 + sup x + tau)) crs) as (c & Pc & HC).
  - intros cr c c' Hc H tau x w PT Lx HW HM. eapply Rle_trans; [apply (H tau x w PT Lx HW HM)|]. pose proof (sup_nonneg x). apply Rmult_le_compat_r; [lra|]. apply Rmult_le_compat_r; lra.
  - intros cr I. destruct (FF cr I) as (act & cr0 & Ea & (S1 & S2 & S3 & S4 & S5 & _) & U1 & U2). destruct (region_shape np q nu nx m act cr0 Hnp Hq Ea) as (SU & LU0). rewrite <- U1 in SU. rewrite <- U2 in LU0. destruct (row_sums (cr_ux cr) nu nx SU) as (us & Pus & US).
    set (s0 := sup (cr_u0 cr)). set (sf := sup (q_fu q)). assert (Ps0 : 0 <= s0) by apply sup_nonneg. assert (Psf : 0 <= sf) by apply sup_nonneg. pose proof (pos_INR nu) as PN.
    set (k := hs * us + hs * s0 + ks + sf + 2 * hs * c0). assert (Pk : 0 <= k) by (unfold k; repeat (apply Rmult_le_pos || apply Rplus_le_le_0_compat); lra).
    exists (INR nu * c0 * k). split; [repeat apply Rmult_le_pos; assumption|]. intros tau x w PT Lx HW HM. specialize (GAP cr tau x w I PT Lx HW HM).
    destruct (some_region np q nu nx m act cr0 Hnp Hq Ea) as (_ & _ & (_ & _ & _ & _ & HX)). destruct (HX x Lx) as (Lu & _ & _ & _ & _ & EV & _). rewrite <- S1 in Lu, EV. rewrite <- S3 in EV. rewrite EV. assert (Lw : length w = nu) by (destruct HM as ((L & _) & _); destruct D as ((_ & DL) & _); subst q; cbn in *; rewrite L; apply H4).
    assert (SD : sup (vsub (cr_u cr x) w) <= c0 * tau) by (eapply Rle_trans; [apply sup_of_norm|exact GAP]). assert (PF : 0 <= c0 * tau) by (apply Rmult_le_pos; lra).
    assert (ND : forall i, (i < nu)%nat -> Rabs (nth i (cr_u cr x) 0 - nth i w 0) <= c0 * tau) by (intros i Hi; rewrite <- nth_vsub by lia; eapply Rle_trans; [apply nth_sup|exact SD]).
    assert (ECW : mp_cost Huu Hux Hxx fu fx g x w = q_cost q x w) by (subst q; reflexivity). rewrite ECW, !(q_cost_split q nu nx m) by assumption.
    assert (Lf : length (vadd (mv (q_Hux q) x) (q_fu q)) = nu) by (assert (length (mv (q_Hux q) x) = nu) by (rewrite mv_length; apply H2); len).
    pose proof (sup_nonneg x) as PX. pose proof (sup_mv (q_Hux q) nu nx ks x H2 Pks KS Lx) as B1. pose proof (sup_vadd (mv (q_Hux q) x) (q_fu q) ltac:(rewrite mv_length; rewrite (proj1 H2); lia)) as B2. fold sf in B2.
    pose proof (sup_mv (cr_ux cr) nu nx us x SU Pus US Lx) as B3. pose proof (sup_vadd (mv (cr_ux cr) x) (cr_u0 cr) ltac:(rewrite mv_length; rewrite (proj1 SU); lia)) as B4. fold s0 in B4. fold (cr_u cr x) in B4.
    assert (B5 : sup w <= us * sup x + s0 + c0 * tau). { apply sup_le; [assert (0 <= us * sup x) by (apply Rmult_le_pos; assumption); lra|]. intros i Hi. pose proof (ND i ltac:(lia)) as Q1. pose proof (nth_sup (cr_u cr x) i) as Q2. apply rabs_inv in Q1, Q2. apply Rabs_le. lra. }
    assert (HSx : 0 <= hs * (us * sup x + s0 + c0 * tau)) by (apply Rmult_le_pos; [exact Phs|]; assert (0 <= us * sup x) by (apply Rmult_le_pos; assumption); lra).
    set (kk := hs * (us * sup x + s0 + c0 * tau) + (ks * sup x + sf)).
    assert (TS : tr (q_Huu q) = q_Huu q) by apply PD.
    pose proof (cost_near (q_Huu q) (vadd (mv (q_Hux q) x) (q_fu q)) kk nu hs H1 TS Phs HS (cr_u cr x) w (c0 * tau) Lf Lu Lw PF) as C1. pose proof (cost_near (q_Huu q) (vadd (mv (q_Hux q) x) (q_fu q)) kk nu hs H1 TS Phs HS w (cr_u cr x) (c0 * tau) Lf Lw Lu PF ND) as C2.
    assert (M1 : hs * sup (cr_u cr x) <= hs * (us * sup x + s0 + c0 * tau)) by (apply Rmult_le_compat_l; lra). assert (M2 : hs * sup w <= hs * (us * sup x + s0 + c0 * tau)) by (apply Rmult_le_compat_l; lra).
    specialize (C1 ltac:(intros i Hi; rewrite Rabs_minus_sym; apply ND, Hi) ltac:(unfold kk; lra)). specialize (C2 ltac:(unfold kk; lra)).
    assert (KB : kk + hs * (c0 * tau) <= k * (1 + sup x + tau)).
    { unfold kk, k. assert (T1 : 0 <= hs * us) by (apply Rmult_le_pos; assumption). assert (T2 : 0 <= hs * s0) by (apply Rmult_le_pos; assumption). assert (T3 : 0 <= hs * c0) by (apply Rmult_le_pos; assumption).
      assert (0 <= hs * us * (1 + tau)) by (apply Rmult_le_pos; lra). assert (0 <= hs * s0 * (sup x + tau)) by (apply Rmult_le_pos; lra). assert (0 <= ks * (1 + tau)) by (apply Rmult_le_pos; lra). assert (0 <= sf * (sup x + tau)) by (apply Rmult_le_pos; lra). assert (0 <= hs * c0 * (1 + sup x)) by (apply Rmult_le_pos; lra). lra. }
    assert (FB : INR nu * (c0 * tau * (kk + hs * (c0 * tau))) <= INR nu * c0 * k * tau * (1 + sup x + tau)).
    { replace (INR nu * c0 * k * tau * (1 + sup x + tau)) with (INR nu * (c0 * tau * (k * (1 + sup x + tau)))) by ring. apply Rmult_le_compat_l; [exact PN|]. apply Rmult_le_compat_l; [exact PF|exact KB]. }
    apply Rabs_le. lra.
  - exists c. split; [exact Pc|]. intros cr tau x w I. apply (HC cr I).
Qed.
Lemma region_found np Huu Hux Hxx fu fx g Au Ax b nu nx m q fuel step crs cr x :
  exact_np np -> mp_data Huu Hux Hxx fu fx Au Ax b nu nx m -> MultiParametricQuadraticProgram np Huu Hux Hxx fu fx g Au Ax b = Ok q -> explicit_solve np fuel step q = Ok crs -> length x = nx -> get_critical_region crs x = Ok (Some cr) -> In cr crs /\ MpqpThms.within tol7 (cr_poly cr) x.
Proof.
  intros Hnp D E1 E2 Lx Hg. destruct (constructed _ _ _ _ _ _ _ _ _ _ _ _ _ _ Hnp D E1) as (Hq & Hi & Eq). pose proof (loop_fields np q fuel step _ [] crs (Forall_nil _) E2) as F.
  assert (FW : Forall (fun c' => wf (cr_poly c') m 0 nx) crs).
  { eapply Forall_impl; [|exact F]. intros c' (act & c & Ea & (_ & _ & _ & F1 & F2 & F3 & F4) & _). destruct (some_region np q nu nx m act c Hnp Hq Ea) as (_ & _ & (_ & _ & W & _)). unfold wf in *. rewrite F1, F2, F3, F4. exact W. }
  assert (Hm : (0 < m)%nat).
  { destruct m; [|lia]. exfalso. destruct crs as [|c crs]; [discriminate Hg|]. cbn [get_critical_region] in Hg. unfold cr_contains in Hg. rewrite (contains_raises (cr_poly c) 0 nx x tol7 (Forall_inv FW) Lx) in Hg. discriminate Hg. }
  destruct (lookup_split crs nx x ltac:(eapply Forall_impl; [|exact FW]; intros c' W; exists m; auto) Lx) as [(pre & c0 & post & Ecrs & Hin & _ & Hg')|(_ & Hg')]; rewrite Hg' in Hg; [injection Hg as ->|discriminate].
  split; [rewrite Ecrs; apply in_or_app; right; left; reflexivity|exact Hin].
Qed.
(*@ Theorem C102_jump : The jumps of the lookup function are at most proportional to the tolerance: there are constants L and c such that at any two feasible parameters at which ExplicitSolution.u answers, the answers differ by at most L |x - y| + c 1e-7 *)
Lemma explicit_jump np Huu Hux Hxx fu fx g Au Ax b nu nx m q fuel step crs :
  exact_np np -> mp_data Huu Hux Hxx fu fx Au Ax b nu nx m -> MultiParametricQuadraticProgram np Huu Hux Hxx fu fx g Au Ax b = Ok q -> explicit_solve np fuel step q = Ok crs ->
  exists L c, 0 <= L /\ 0 <= c /\ forall x y vx vy ux uy, length x = nx -> length y = nx -> mp_feasible Au Ax b x vx -> mp_feasible Au Ax b y vy -> es_u crs x = Ok (Some ux) -> es_u crs y = Ok (Some uy) -> norm (vsub ux uy) <= L * norm (vsub x y) + c * tol7.
Proof.
  intros Hnp D E1 E2. destruct (explicit_gap np _ _ _ _ _ _ _ _ _ _ _ _ q fuel step crs Hnp D E1 E2) as (c & Pc & GAP). destruct (law_lipschitz np _ _ _ _ _ _ _ _ _ _ _ _ q Hnp D E1) as (L & PL & LIP). exists L, (2 * c). split; [exact PL|]. split; [lra|].
  assert (ONE : forall x v u, length x = nx -> mp_feasible Au Ax b x v -> es_u crs x = Ok (Some u) -> exists w, mp_minimizer Huu Hux Hxx fu fx g Au Ax b x w /\ length u = nu /\ length w = nu /\ norm (vsub u w) <= c * tol7).
  { intros x v u Lx Fx EX. destruct (constructed _ _ _ _ _ _ _ _ _ _ _ _ _ _ Hnp D E1) as (Hq & Hi & Eq). assert (Fq : q_feasible q x v) by (rewrite Eq; exact Fx). destruct (minimizer_kkt np q nu nx m x v Hnp Hq Lx Fq) as (w & l & HM & _). assert (Lw : length w = nu) by (destruct HM as ((L0 & _) & _); rewrite L0; apply Hq).
    unfold es_u, es_eval in EX. destruct (get_critical_region crs x) as [[cr|]|] eqn:G; cbn [bind] in EX; [injection EX as <-|discriminate EX|discriminate EX]. destruct (region_found np _ _ _ _ _ _ _ _ _ _ _ _ q fuel step crs cr x Hnp D E1 E2 Lx G) as (I & HW).
    pose proof (loop_fields np q fuel step _ [] crs (Forall_nil _) E2) as FF. rewrite Forall_forall in FF. destruct (FF cr I) as (act & cr0 & Ea & _ & U1 & U2). destruct (region_shape np q nu nx m act cr0 Hnp Hq Ea) as (SU & LU0). rewrite <- U1 in SU. rewrite <- U2 in LU0.
    exists w. assert (HM' : mp_minimizer Huu Hux Hxx fu fx g Au Ax b x w) by (rewrite Eq in HM; exact HM). split; [exact HM'|]. split; [unfold cr_u; rewrite vadd_length, mv_length, (proj1 SU), LU0; lia|]. split; [exact Lw|]. apply GAP; [exact I|unfold tol7; lra|exact Lx|exact HW|exact HM']. }
  intros x y vx vy ux uy Lx Ly Fx Fy EX EY. destruct (ONE x vx ux Lx Fx EX) as (wx & Mx & Lux & Lwx & Gx). destruct (ONE y vy uy Ly Fy EY) as (wy & My & Luy & Lwy & Gy). pose proof (LIP x y wx wy Lx Ly Mx My) as GL.
  replace (vsub ux uy) with (vadd (vsub ux wx) (vadd (vsub wx wy) (vsub wy uy))) by (apply vec_ext; [len|]; intros i Hi; rewrite !nth_vadd by len; rewrite !nth_vsub by lia; ring).
  eapply Rle_trans; [apply norm_triangle; len|]. pose proof (norm_triangle (vsub wx wy) (vsub wy uy) ltac:(len)) as TR. assert (NS : norm (vsub wy uy) = norm (vsub uy wy)) by (replace (vsub wy uy) with (vneg (vsub uy wy)) by (apply vec_ext; [len|]; intros i Hi; rewrite nth_vneg, !nth_vsub by lia; ring); apply norm_vneg). lra.
Qed.
(*@ Example C102_value_example : min 1/2 u^2 s.t. x <= u: at x = 1e-7 the table answers 0 where the minimizer is 1e-7 with the value 1e-14 / 2, and the answers at 1e-7 and just above differ by more than 1e-7 *)
Lemma value_example np : exact_np np -> exists q crs, MultiParametricQuadraticProgram np (Mat 1 [[1]]) (Mat 1 [[0]]) (Mat 1 [[0]]) [0] [0] 0 (Mat 1 [[-1]]) (Mat 1 [[1]]) [0] = Ok q /\ explicit_solve np 3 (/ 100000) q = Ok crs /\
  es_u crs [tol7] = Ok (Some [0]) /\ mp_minimizer (Mat 1 [[1]]) (Mat 1 [[0]]) (Mat 1 [[0]]) [0] [0] 0 (Mat 1 [[-1]]) (Mat 1 [[1]]) [0] [tol7] [tol7] /\ mp_cost (Mat 1 [[1]]) (Mat 1 [[0]]) (Mat 1 [[0]]) [0] [0] 0 [tol7] [tol7] = / 2 * (tol7 * tol7) /\
  forall e, 0 < e -> mp_feasible (Mat 1 [[-1]]) (Mat 1 [[1]]) [0] [tol7 + e] [tol7 + e] /\ es_u crs [tol7 + e] = Ok (Some [tol7 + e]).
Proof.
  intros Hnp. assert (T7 : 0 < tol7) by (unfold tol7; lra). destruct (ex_lookup np 0 (/ 100000) Hnp ltac:(unfold tol7; lra)) as (crs & E & _ & H). exists (ex_q ex_I), crs. split; [apply ex_ctor; exact Hnp|]. split; [exact E|]. split; [rewrite H, (proj2 (Rleb_true tol7 tol7)) by lra; reflexivity|]. split.
  - split; [split; [reflexivity|]; intros i Hi; cbn in Hi; assert (i = 0%nat) by lia; subst; cbn; lra|]. intros v (Lv & Fv). destruct v as [|v [|]]; try discriminate Lv. specialize (Fv 0%nat ltac:(cbn; lia)). cbn in Fv. unfold mp_cost. cbn. split; [nra|]. intros E'. f_equal. assert (v * v = tol7 * tol7) by lra. nra.
  - split; [unfold mp_cost; cbn; lra|]. intros e He. split; [split; [reflexivity|]; intros i Hi; cbn in Hi; assert (i = 0%nat) by lia; subst; cbn; lra|]. rewrite H, (proj2 (Rleb_false (tol7 + e) tol7)) by lra. reflexivity.
Qed.
