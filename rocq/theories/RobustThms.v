(** * RobustThms: the linear model predictive controller under disturbances (C100), proofs *)
From Coq Require Import Lra Lia Classical.
From Verif Require Import Arr ArrFacts Spec SpecMpc SpecDyn SpecEig SpecRound Numpy QpFacts Polyhedron PolyThms Dynamics DynThms CondenseThms LqrThms McaisThms SpectralThms Mpqp MpqpThms Controllers CtrlThms ContThms Round RoundThms RoundSimThms RoundPwaThms LocalThms PlantThms HoldThms CartHoldThms.

Lemma sup_sq x : sup x * sup x <= dot x x.
Proof.
  induction x as [|a x IH]; [cbn; lra|]. pose proof (sup_nonneg x) as P. assert (PD : 0 <= dot x x) by (eapply Rle_trans; [apply Rle_0_sqr|exact IH]).
  cbn [dot]. change (sup (a :: x)) with (Rmax (Rabs a) (sup x)). unfold Rmax. destruct (Rle_dec (Rabs a) (sup x)).
  - pose proof (Rle_0_sqr a) as Q. unfold Rsqr in Q. lra.
  - rewrite <- Rabs_mult. rewrite (Rabs_right (a * a)) by (apply Rle_ge, Rle_0_sqr). lra.
Qed.
Lemma pd_lower np Q n : exact_np np -> shape Q n n -> Spec.pd Q n -> exists q, 0 < q /\ forall x, length x = n -> q * (sup x * sup x) <= / 2 * dot x (mv Q x).
Proof.
  intros Hnp SQ PQ. destruct (form_domination np Hnp (eye n) Q n (shape_eye n) SQ PQ) as (c & Pc & H). exists (/ (2 * (c + 1))). split; [apply Rinv_0_lt_compat; lra|].
  intros x Lx. specialize (H x Lx). rewrite mv_eye in H by exact Lx. pose proof (sup_sq x) as S1. assert (P : 0 <= dot x (mv Q x)) by (apply (proj2 (pd_psd _ _ PQ)); exact Lx).
  apply (Rmult_le_reg_l (2 * (c + 1))); [lra|]. rewrite <- Rmult_assoc, Rinv_r by lra. lra.
Qed.
Lemma form_upper M n : shape M n n -> exists p, 0 <= p /\ forall x, length x = n -> / 2 * dot x (mv M x) <= p * (sup x * sup x).
Proof.
  intros SM. destruct (row_sums M n n SM) as (s & Ps & HS). exists (INR n * s). pose proof (pos_INR n) as PN. split; [apply Rmult_le_pos; assumption|].
  intros x Lx. pose proof (dot_sup x (mv M x)) as D. rewrite Lx in D. pose proof (sup_mv M n n s x SM Ps HS Lx) as S1. pose proof (sup_nonneg x) as PX. pose proof (sup_nonneg (mv M x)) as PM.
  assert (B : sup x * sup (mv M x) <= sup x * (s * sup x)) by (apply Rmult_le_compat_l; assumption). assert (B2 : INR n * (sup x * sup (mv M x)) <= INR n * (sup x * (s * sup x))) by (apply Rmult_le_compat_l; assumption).
  assert (Z : 0 <= INR n * (sup x * (s * sup x))) by (repeat apply Rmult_le_pos; assumption). lra.
Qed.

Section Robust.
Variables (np : numpy) (S : lsys) (N : nat) (Q Rm P : mat) (D X_N : poly) (K : mat) (nx nu : nat) (C : mpc).
Hypothesis SET : mpc_setup np S N Q Rm P D X_N K nx nu C.
Hypothesis LQ : lqr_pair np S Q Rm P K nx nu.
Let adm := mpc_admissible (lA S) (lB S) nu N (in_poly D) (in_poly X_N).
Let cost := trajectory_cost Q Rm P.
Lemma cost_nonneg y vs ys : length y = nx -> length vs = N -> Forall (fun v => length v = nu) vs -> is_trajectory (linear_step (lA S) (lB S)) y vs ys -> 0 <= cost vs ys.
Proof.
  destruct SET as (Hnp & HD & _). pose proof HD as ((SA & SB & _) & _ & _ & PQ' & PP & PR).
  intros Ly Lv Fv Ty. pose proof (trajectory_lengths _ _ nx nu _ _ _ SA SB Ly Ty) as Fy. assert (Lys : length ys = Datatypes.S (length vs)) by apply Ty. unfold cost, trajectory_cost.
  assert (0 <= sum_upto (fun t => / 2 * (dot (nth t ys []) (mv Q (nth t ys [])) + dot (nth t vs []) (mv Rm (nth t vs [])))) (length vs)).
  { apply sum_upto_nonneg. intros t Ht. pose proof (proj2 PQ' (nth t ys []) ltac:(apply Forall_len_nth; [exact Fy|lia])). pose proof (proj2 (pd_psd _ _ PR) (nth t vs []) ltac:(apply Forall_len_nth; [exact Fv|lia])). lra. }
  pose proof (proj2 PP (nth (length vs) ys []) ltac:(apply Forall_len_nth; [exact Fy|lia])). lra.
Qed.
(** a cheap admissible sequence makes the solver answer *)
Lemma answers x us xs : length x = nx -> adm x us xs -> cost us xs < far -> exists us' V, feedforward np C x = Ok (Some us', Some V) /\ feedback np C x = Ok (Some (nth 0 us' [])) /\ V <= cost us xs /\ in_poly D (x ++ nth 0 us' []) /\ length (nth 0 us' []) = nu /\ exists xs', adm x us' xs' /\ V = cost us' xs'.
Proof.
  destruct SET as (Hnp & HD & E & _). intros Lx HA HC. pose proof HD as ((SA & SB & HN & _) & _). destruct (mpc_none np S N Q Rm P D X_N nx nu C x Hnp HD E Lx) as (us0 & xs0 & (A0 & _) & [(_ & _ & HF)|(us' & xs' & E1 & E2 & (A1 & HO) & _)]).
  - exfalso. specialize (HF us xs HA). destruct A0 as (L0 & F0 & T0 & _). pose proof (cost_nonneg x us0 xs0 Lx L0 F0 T0) as CN. unfold cost in *. lra.
  - exists us', (cost us' xs'). split; [exact E1|]. split; [exact E2|]. split; [apply HO; exact HA|]. pose proof A1 as (Lu & Fu & (Lxs & H0 & _) & (HS & _)). split; [|split; [apply Forall_len_nth; [exact Fu|lia]|exists xs'; split; [exact A1|reflexivity]]].
    specialize (HS 0%nat ltac:(lia)). rewrite H0 in HS. exact HS.
Qed.
(** the first stage is part of the cost *)
Lemma stage_below q x us xs : (forall y, length y = nx -> q * (sup y * sup y) <= / 2 * dot y (mv Q y)) -> length x = nx -> adm x us xs -> q * (sup x * sup x) <= cost us xs.
Proof.
  destruct SET as (Hnp & HD & _). pose proof HD as ((SA & SB & HN & _) & _ & _ & PQ' & PP & PR). intros HQ Lx (Lu & Fu & Tr & _). pose proof (trajectory_lengths _ _ nx nu _ _ _ SA SB Lx Tr) as Fy. pose proof Tr as (Lxs & H0 & _).
  unfold cost, trajectory_cost. pose proof (proj2 PP (nth (length us) xs []) ltac:(apply Forall_len_nth; [exact Fy|lia])) as PN.
  assert (G : / 2 * (dot (nth 0 xs []) (mv Q (nth 0 xs [])) + dot (nth 0 us []) (mv Rm (nth 0 us []))) <= sum_upto (fun t => / 2 * (dot (nth t xs []) (mv Q (nth t xs [])) + dot (nth t us []) (mv Rm (nth t us [])))) (length us)).
  { apply (sum_upto_ge (fun t => / 2 * (dot (nth t xs []) (mv Q (nth t xs [])) + dot (nth t us []) (mv Rm (nth t us []))))); [lia|]. intros t Ht. pose proof (proj2 PQ' (nth t xs []) ltac:(apply Forall_len_nth; [exact Fy|lia])). pose proof (proj2 (pd_psd _ _ PR) (nth t us []) ltac:(apply Forall_len_nth; [exact Fu|lia])). lra. }
  rewrite H0 in G. specialize (HQ x Lx). pose proof (proj2 (pd_psd _ _ PR) (nth 0 us []) ltac:(apply Forall_len_nth; [exact Fu|lia])). lra.
Qed.
Section Margin.
Variables (sg r M rho : R).
Hypothesis Psg : 0 < sg.
Hypothesis BALL : forall x, length x = nx -> sup x <= sg -> in_poly X_N x.
Hypothesis Pr : 0 < r.
Hypothesis Prho : 0 < rho.
Hypothesis PM : 0 < M < far.
Hypothesis MARGIN : forall x us xs, length x = nx -> adm x us xs -> cost us xs <= rho -> forall y, length y = nx -> sup (vsub y x) <= r -> exists us' xs', adm y us' xs' /\ cost us' xs' <= M.
Lemma rho_answers x us xs : length x = nx -> adm x us xs -> cost us xs <= rho -> exists us' V, feedforward np C x = Ok (Some us', Some V) /\ feedback np C x = Ok (Some (nth 0 us' [])) /\ V <= cost us xs /\ V <= M /\ in_poly D (x ++ nth 0 us' []) /\ length (nth 0 us' []) = nu /\ exists xs', adm x us' xs' /\ V = cost us' xs'.
Proof.
  intros Lx HA HC. destruct (MARGIN x us xs Lx HA HC x Lx) as (us1 & xs1 & A1 & C1). { rewrite vsub_self by reflexivity. rewrite sup_zeros. lra. }
  destruct (answers x us1 xs1 Lx A1 ltac:(lra)) as (us' & V & E1 & E2 & V1 & HDx & Lu & xs' & A' & EV). exists us', V. split; [exact E1|]. split; [exact E2|].
  destruct (Rlt_le_dec (cost us xs) far) as [HL|HL].
  - destruct (answers x us xs Lx HA HL) as (us2 & V2 & E3 & _ & V3 & _). rewrite E1 in E3. injection E3 as <- <-. split; [exact V3|]. split; [lra|]. split; [exact HDx|]. split; [exact Lu|]. exists xs'. auto.
  - split; [lra|]. split; [lra|]. split; [exact HDx|]. split; [exact Lu|]. exists xs'. auto.
Qed.
(** the optimal cost grows at most linearly with a disturbance of the state *)
Lemma disturbed x us xs w : length x = nx -> adm x us xs -> cost us xs <= rho -> length w = nx -> sup (vsub w x) <= r -> exists us' xs', adm w us' xs' /\ cost us' xs' <= cost us xs + M / r * sup (vsub w x).
Proof.
  intros Lx HA HC Lw Hw. destruct SET as (Hnp & HD & E & _). set (d := sup (vsub w x)) in *. assert (Pd : 0 <= d) by apply sup_nonneg.
  destruct (rho_answers x us xs Lx HA HC) as (us1 & V1 & F1 & _ & B1 & _ & _ & _ & xs1 & A1 & EV1).
  destruct (Rle_lt_or_eq_dec 0 d Pd) as [Pd'|Zd].
  - set (y := vadd x (vscale (r / d) (vsub w x))). assert (Ly : length y = nx) by (unfold y; len).
    destruct (MARGIN x us xs Lx HA HC y Ly) as (us2 & xs2 & A2 & C2).
    { replace (vsub y x) with (vscale (r / d) (vsub w x)) by (unfold y; apply vec_ext; [len|intros i Hi; rewrite nth_vsub, nth_vadd by len; ring]). apply sup_le; [lra|]. intros i Hi. rewrite nth_vscale, Rabs_mult. rewrite (Rabs_right (r / d)) by (apply Rle_ge, Rlt_le, Rdiv_lt_0_compat; lra).
      apply Rle_trans with (r / d * d); [|right; field; lra]. apply Rmult_le_compat_l; [apply Rlt_le, Rdiv_lt_0_compat; lra|]. apply nth_sup. }
    destruct (answers y us2 xs2 Ly A2 ltac:(lra)) as (us3 & V3 & F3 & _ & B3 & _).
    assert (Ht : 0 <= d / r <= 1). { split; [apply Rlt_le, Rdiv_lt_0_compat; lra|]. apply (Rmult_le_reg_r r); [lra|]. unfold Rdiv. rewrite Rmult_assoc, Rinv_l by lra. lra. }
    destruct (mpc_convex np S N Q Rm P D X_N nx nu C x y us1 us3 V1 V3 (d / r) Hnp HD E Lx Ly F1 F3 Ht) as ((us' & xs' & A' & C') & _). cbv zeta in A'.
    replace (vadd (vscale (1 - d / r) x) (vscale (d / r) y)) with w in A'.
    2:{ apply vec_ext; [unfold y; len|]. intros i Hi. unfold y. rewrite nth_vadd, !nth_vscale, nth_vadd, nth_vscale, nth_vsub by len. field. lra. }
    exists us', xs'. split; [exact A'|]. unfold cost in *. assert (P1 : 0 <= V1) by (rewrite EV1; apply (cost_nonneg x us1 xs1); try exact Lx; apply A1). assert (X1 : d / r * V3 <= d / r * M) by (apply Rmult_le_compat_l; [apply Ht|lra]). assert (X2 : 0 <= d / r * V1) by (apply Rmult_le_pos; [apply Ht|exact P1]).
    replace (M / r * d) with (d / r * M) by (field; lra). lra.
  - replace w with x. { exists us, xs. split; [exact HA|]. rewrite <- Zd. lra. }
    symmetry. apply vec_ext; [lia|]. intros i Hi. pose proof (nth_sup (vsub w x) i) as Q0. fold d in Q0. rewrite <- Zd in Q0. rewrite nth_vsub in Q0 by lia. apply rabs_inv in Q0. lra.
Qed.
(** one step: the optimal cost contracts, up to the disturbance *)
Lemma robust_step q : 0 < q -> (forall x, length x = nx -> q * (sup x * sup x) <= / 2 * dot x (mv Q x)) -> exists th d0, 0 < th <= 1 /\ 0 < d0 /\ forall dl x us xs, 0 <= dl <= d0 -> length x = nx -> adm x us xs -> cost us xs <= rho ->
  exists us' V, feedforward np C x = Ok (Some us', Some V) /\ feedback np C x = Ok (Some (nth 0 us' [])) /\ in_poly D (x ++ nth 0 us' []) /\ q * (sup x * sup x) <= V /\ V <= cost us xs /\
    forall y, length y = nx -> sup (vsub y (linear_step (lA S) (lB S) x (nth 0 us' []))) <= dl -> exists us2 xs2, adm y us2 xs2 /\ cost us2 xs2 <= (1 - th) * V + M / r * dl /\ cost us2 xs2 <= rho.
Proof.
  intros Pq HQ. pose proof SET as (Hnp & HD & E & SK & TI). pose proof HD as ((SA & SB & HN & SQ & SP & SR & _) & _ & _ & PQ' & PP & PR).
  destruct (form_upper P nx SP) as (p & Pp & HP).
  set (c := q + p + rho / (sg * sg)). assert (Psg2 : 0 < sg * sg) by (apply Rmult_lt_0_compat; lra). assert (Prs : 0 < rho / (sg * sg)) by (apply Rdiv_lt_0_compat; lra). assert (Pc : 0 < c) by (unfold c; lra).
  set (th := q / c). assert (Pth : 0 < th) by (apply Rdiv_lt_0_compat; lra). assert (th1 : th <= 1). { apply (Rmult_le_reg_r c); [lra|]. unfold th, Rdiv. rewrite Rmult_assoc, Rinv_l by lra. unfold c. lra. }
  set (d0 := Rmin r (th * rho * r / M)). assert (Pd0 : 0 < d0). { unfold d0. apply Rmin_pos; [lra|]. apply Rdiv_lt_0_compat; [|lra]. apply Rmult_lt_0_compat; [apply Rmult_lt_0_compat; lra|lra]. }
  exists th, d0. split; [lra|]. split; [exact Pd0|]. intros dl x us xs Hdl Lx HA HC.
  destruct (rho_answers x us xs Lx HA HC) as (us' & V & E1 & E2 & V1 & V2 & HDx & Lu & xs' & A' & EV). exists us', V. split; [exact E1|]. split; [exact E2|]. split; [exact HDx|]. split; [rewrite EV; apply (stage_below q x us' xs' HQ Lx A')|]. split; [exact V1|].
  intros y Ly Hy. set (u := nth 0 us' []) in *. set (x1 := linear_step (lA S) (lB S) x u) in *. assert (Lx1 : length x1 = nx) by (apply (step_length _ _ nx nu); assumption).
  destruct (cost_decrease np S N Q Rm P D X_N K nx nu C x us' V SET LQ Lx E1) as (ST & PV & _ & DEC & EX). fold u x1 in ST, DEC, EX. destruct (EX ltac:(unfold far in PM; lra)) as (us1 & V' & F1). specialize (DEC us1 V' F1).
  destruct (mpc_none np S N Q Rm P D X_N nx nu C x1 Hnp HD E Lx1) as (us0 & xs0 & _ & [(EN & _)|(us1' & xs1 & E1' & _ & (A1 & _) & _)]); rewrite F1 in *; [discriminate EN|]. injection E1' as <- ->.
  assert (UP : V <= c * (sup x * sup x)).
  { pose proof (sup_nonneg x) as PX. assert (PX2 : 0 <= sup x * sup x) by (apply Rmult_le_pos; exact PX). destruct (Rle_lt_dec (sup x) sg) as [HB|HB].
    - destruct (mpc_lqr np S N Q Rm P D X_N K nx nu C x Hnp HD E LQ Lx) as (_ & G & FX). destruct (FX TI (BALL x Lx HB)) as (usl & xsl & HAl & HKl). destruct (G usl xsl HAl HKl) as (EL & _). rewrite E1 in EL. injection EL as _ ->.
      eapply Rle_trans; [apply (HP x Lx)|]. apply Rmult_le_compat_r; [exact PX2|unfold c; lra].
    - apply Rle_trans with (rho / (sg * sg) * (sup x * sup x)); [|apply Rmult_le_compat_r; [exact PX2|unfold c; lra]]. apply Rle_trans with (rho / (sg * sg) * (sg * sg)); [replace (rho / (sg * sg) * (sg * sg)) with rho by (field; lra); lra|]. apply Rmult_le_compat_l; [lra|]. apply Rmult_le_compat; lra. }
  assert (STG : th * V <= / 2 * (dot x (mv Q x) + dot u (mv Rm u))).
  { pose proof (HQ x Lx) as HQx. pose proof (proj2 (pd_psd _ _ PR) u Lu) as PU. apply Rle_trans with (q * (sup x * sup x)); [|lra]. unfold th. apply Rle_trans with (q / c * (c * (sup x * sup x))); [apply Rmult_le_compat_l; [apply Rlt_le, Rdiv_lt_0_compat; lra|exact UP]|]. right. field. lra. }
  assert (C1 : cost us1 xs1 <= (1 - th) * V) by (unfold cost; lra). assert (VR : V <= rho) by lra. assert (C2 : cost us1 xs1 <= rho) by (assert (0 <= th * V) by (apply Rmult_le_pos; lra); lra).
  assert (Hr : dl <= r) by (pose proof (Rmin_l r (th * rho * r / M)) as Q0; fold d0 in Q0; lra). destruct (disturbed x1 us1 xs1 y Lx1 A1 C2 Ly ltac:(lra)) as (us2 & xs2 & A2 & C3).
  assert (PMr : 0 < M / r) by (apply Rdiv_lt_0_compat; lra). assert (X : M / r * sup (vsub y x1) <= M / r * dl) by (apply Rmult_le_compat_l; lra). exists us2, xs2. split; [exact A2|]. split; [lra|].
  assert (Y : M / r * dl <= th * rho). { apply Rle_trans with (M / r * (th * rho * r / M)); [|right; field; lra]. apply Rmult_le_compat_l; [lra|]. pose proof (Rmin_r r (th * rho * r / M)) as Q0. fold d0 in Q0. lra. }
  assert (Z : (1 - th) * V <= (1 - th) * rho) by (apply Rmult_le_compat_l; lra). lra.
Qed.
End Margin.
End Robust.

(*@ Theorem C100_robust : The linear model predictive controller (terminal cost and gain of solve_dare, invariant terminal set that contains a neighbourhood of the origin, Q positive definite) tolerates disturbances. Let every state within r of a state of optimal cost at most rho have an admissible sequence of cost at most M (below the 5e13 of the solver). Then there are th in (0, 1] and d0 > 0 such that on every run of x+ = A x + B u + w with |w| <= dl <= d0 from a state of cost at most rho (as long as the disturbances are bounded so), feedback returns an input at all times, the constraints hold, and the values satisfy, if 1/2 x'Q x >= q |x|^2, q |x(t)|^2 <= V(t) <= (1 - th)^t V(0) + M dl / (r th), V(t) <= rho *)
Lemma mpc_robust np S N Q Rm P D X_N K nx nu C sg r M rho q : mpc_setup np S N Q Rm P D X_N K nx nu C -> lqr_pair np S Q Rm P K nx nu -> 0 < q -> (forall x, length x = nx -> q * (sup x * sup x) <= / 2 * dot x (mv Q x)) -> 0 < sg -> (forall x, length x = nx -> sup x <= sg -> in_poly X_N x) ->
  0 < r -> 0 < rho -> 0 < M < (10 ^ 14 - 1) / 2 ->
  (forall x us xs, length x = nx -> mpc_admissible (lA S) (lB S) nu N (in_poly D) (in_poly X_N) x us xs -> trajectory_cost Q Rm P us xs <= rho ->
     forall y, length y = nx -> sup (vsub y x) <= r -> exists us' xs', mpc_admissible (lA S) (lB S) nu N (in_poly D) (in_poly X_N) y us' xs' /\ trajectory_cost Q Rm P us' xs' <= M) ->
  exists th d0, 0 < th <= 1 /\ 0 < d0 /\ forall dl (z : nat -> vec) T us0 xs0, 0 <= dl <= d0 -> (forall t, length (z t) = nx) ->
    mpc_admissible (lA S) (lB S) nu N (in_poly D) (in_poly X_N) (z 0%nat) us0 xs0 -> trajectory_cost Q Rm P us0 xs0 <= rho ->
    (forall t u, (t < T)%nat -> feedback np C (z t) = Ok (Some u) -> sup (vsub (z (Datatypes.S t)) (linear_step (lA S) (lB S) (z t) u)) <= dl) ->
    forall t, (t <= T)%nat -> exists us V, feedforward np C (z t) = Ok (Some us, Some V) /\ feedback np C (z t) = Ok (Some (nth 0 us [])) /\ in_poly D (z t ++ nth 0 us []) /\
      q * (sup (z t) * sup (z t)) <= V /\ V <= rho /\ V <= (1 - th) ^ t * trajectory_cost Q Rm P us0 xs0 + M / (r * th) * dl.
Proof.
  intros SET LQ Pq HQ Psg BALL Pr Prho PM MARGIN. destruct (robust_step np S N Q Rm P D X_N K nx nu C SET LQ sg r M rho Psg BALL Pr Prho PM MARGIN q Pq HQ) as (th & d0 & Hth & Pd & STEP).
  exists th, d0. split; [exact Hth|]. split; [exact Pd|]. intros dl z T us0 xs0 Hdl Lz A0 C0 HW. set (V0 := trajectory_cost Q Rm P us0 xs0) in *.
  assert (INV : forall t, (t <= T)%nat -> exists us xs, mpc_admissible (lA S) (lB S) nu N (in_poly D) (in_poly X_N) (z t) us xs /\ trajectory_cost Q Rm P us xs <= rho /\ trajectory_cost Q Rm P us xs <= (1 - th) ^ t * V0 + M / (r * th) * dl).
  { assert (Pe : 0 <= M / (r * th) * dl) by (apply Rmult_le_pos; [apply Rlt_le, Rdiv_lt_0_compat; [lra|apply Rmult_lt_0_compat; lra]|lra]). induction t as [|t IH]; intros Ht; [|destruct (IH ltac:(lia)) as (us & xs & A1 & C1 & C2)].
    - exists us0, xs0. split; [exact A0|]. split; [exact C0|]. cbn [pow]. fold V0. lra.
    - destruct (STEP dl (z t) us xs Hdl (Lz t) A1 C1) as (us' & V & E1 & E2 & _ & _ & V1 & NEXT). destruct (NEXT (z (Datatypes.S t)) (Lz _) (HW t _ Ht E2)) as (us2 & xs2 & A2 & C3 & C4). exists us2, xs2. split; [exact A2|]. split; [exact C4|].
      eapply Rle_trans; [exact C3|]. assert (X : (1 - th) * V <= (1 - th) * ((1 - th) ^ t * V0 + M / (r * th) * dl)) by (apply Rmult_le_compat_l; lra). cbn [pow]. replace (M / r * dl) with (th * (M / (r * th) * dl)) by (field; lra). lra. }
  intros t Ht. destruct (INV t Ht) as (us & xs & A1 & C1 & C2). destruct (STEP dl (z t) us xs Hdl (Lz t) A1 C1) as (us' & V & E1 & E2 & HDx & HV & V1 & _). exists us', V. split; [exact E1|]. split; [exact E2|]. split; [exact HDx|]. split; [exact HV|]. split; lra.
Qed.
(*@ Theorem C100_local : Without any hypothesis on margins: there are a radius rho0 > 0 and constants th, q, c, d0 such that on every run of x+ = A x + B u + w with |w| <= dl <= d0 and |x(0)| <= rho0, feedback returns an input at all times, the constraints hold, |x(t)| <= sg, and q |x(t)|^2 <= (1 - th)^t c |x(0)|^2 + c dl *)
Lemma mpc_robust_local np S N Q Rm P D X_N K nx nu C sg : mpc_setup np S N Q Rm P D X_N K nx nu C -> lqr_pair np S Q Rm P K nx nu -> Spec.pd Q nx -> 0 < sg -> (forall x, length x = nx -> sup x <= sg -> in_poly X_N x) ->
  exists rho0 th q c d0, 0 < rho0 /\ 0 < th <= 1 /\ 0 < q /\ 0 <= c /\ 0 < d0 /\ forall dl (z : nat -> vec) T, 0 <= dl <= d0 -> (forall t, length (z t) = nx) -> sup (z 0%nat) <= rho0 ->
    (forall t u, (t < T)%nat -> feedback np C (z t) = Ok (Some u) -> sup (vsub (z (Datatypes.S t)) (linear_step (lA S) (lB S) (z t) u)) <= dl) ->
    forall t, (t <= T)%nat -> exists u, feedback np C (z t) = Ok (Some u) /\ in_poly D (z t ++ u) /\ sup (z t) <= sg /\ q * (sup (z t) * sup (z t)) <= (1 - th) ^ t * (c * (sup (z 0%nat) * sup (z 0%nat))) + c * dl.
Proof.
  intros SET LQ PQ Psg BALL. pose proof SET as (Hnp & HD & E & SK & TI). pose proof HD as ((SA & SB & HN & SQ & SP & SR & _) & _ & _ & PQ' & PP & PR).
  destruct (pd_lower np Q nx Hnp SQ PQ) as (q & Pq & HQ). destruct (form_upper P nx SP) as (p & Pp & HP).
  set (s := Rmin sg (/ (p + 1))). assert (Pip : 0 < / (p + 1)) by (apply Rinv_0_lt_compat; lra). assert (Ps : 0 < s) by (apply Rmin_pos; assumption). assert (Hs1 : s <= sg) by apply Rmin_l. assert (Hs2 : s <= / (p + 1)) by apply Rmin_r.
  assert (PS : p * (s * s) <= 1 /\ s <= 1). { assert (I1 : (p + 1) * / (p + 1) = 1) by (apply Rinv_r; lra). assert (s <= 1) by nra. split; [|assumption]. assert (p * s <= 1) by nra. nra. }
  assert (RUN : forall y, length y = nx -> sup y <= s -> exists us xs, mpc_admissible (lA S) (lB S) nu N (in_poly D) (in_poly X_N) y us xs /\ trajectory_cost Q Rm P us xs <= p * (sup y * sup y)).
  { intros y Ly Sy. destruct (mpc_lqr np S N Q Rm P D X_N K nx nu C y Hnp HD E LQ Ly) as (_ & G & FX). destruct (FX TI (BALL y Ly ltac:(lra))) as (us & xs & HA & HK). destruct (G us xs HA HK) as (EF & _).
    destruct (mpc_none np S N Q Rm P D X_N nx nu C y Hnp HD E Ly) as (us0 & xs0 & _ & [(EN & _)|(us1 & xs1 & E1 & _ & (A1 & _) & _)]); rewrite EF in *; [discriminate EN|]. injection E1 as -> EV. exists us1, xs1. split; [exact A1|]. rewrite <- EV. apply HP, Ly. }
  set (rho := q * (s * s) / 4). assert (Prho : 0 < rho) by (unfold rho; assert (0 < q * (s * s)) by (repeat apply Rmult_lt_0_compat; assumption); lra).
  assert (MARGIN : forall x us xs, length x = nx -> mpc_admissible (lA S) (lB S) nu N (in_poly D) (in_poly X_N) x us xs -> trajectory_cost Q Rm P us xs <= rho ->
     forall y, length y = nx -> sup (vsub y x) <= s / 2 -> exists us' xs', mpc_admissible (lA S) (lB S) nu N (in_poly D) (in_poly X_N) y us' xs' /\ trajectory_cost Q Rm P us' xs' <= 1).
  { intros x us xs Lx HA HC y Ly Hy. pose proof (stage_below np S N Q Rm P D X_N K nx nu C SET q x us xs HQ Lx HA) as ST. pose proof (sup_nonneg x) as PX. pose proof (sup_nonneg y) as PY.
    assert (SX : sup x <= s / 2). { destruct (Rle_lt_dec (sup x) (s / 2)) as [H|H]; [exact H|]. exfalso. assert (B : s / 2 * (s / 2) < sup x * sup x) by (apply Rmult_le_0_lt_compat; lra). assert (q * (s / 2 * (s / 2)) < q * (sup x * sup x)) by (apply Rmult_lt_compat_l; assumption). unfold rho in HC. lra. }
    assert (SY : sup y <= s). { apply sup_le; [lra|]. intros i Hi. pose proof (nth_sup (vsub y x) i) as Q1. rewrite nth_vsub in Q1 by lia. pose proof (nth_sup x i) as Q2. pose proof (Rabs_triang (nth i y 0 - nth i x 0) (nth i x 0)) as Q3. replace (nth i y 0 - nth i x 0 + nth i x 0) with (nth i y 0) in Q3 by ring. lra. }
    destruct (RUN y Ly SY) as (us' & xs' & A' & C'). exists us', xs'. split; [exact A'|]. eapply Rle_trans; [exact C'|]. apply Rle_trans with (p * (s * s)); [|apply PS]. apply Rmult_le_compat_l; [exact Pp|]. apply Rmult_le_compat; lra. }
  destruct (mpc_robust np S N Q Rm P D X_N K nx nu C s (s / 2) 1 rho q SET LQ Pq HQ Ps (fun x L H => BALL x L ltac:(lra)) ltac:(lra) Prho ltac:(lra) MARGIN) as (th & d0 & Hth & Pd & H).
  set (f := q / (4 * (p + q))). assert (Pf : 0 < f) by (apply Rdiv_lt_0_compat; lra). assert (F4 : f * (4 * (p + q)) = q) by (unfold f; field; lra). assert (F1 : f <= / 4) by nra.
  set (c := p + 1 / (s / 2 * th)). assert (Pst : 0 < 1 / (s / 2 * th)) by (apply Rdiv_lt_0_compat; [lra|apply Rmult_lt_0_compat; lra]).
  exists (f * s), th, q, c, d0. split; [apply Rmult_lt_0_compat; assumption|]. split; [exact Hth|]. split; [exact Pq|]. split; [unfold c; lra|]. split; [exact Pd|]. intros dl z T Hdl Lz S0 HW t Ht.
  pose proof (sup_nonneg (z 0%nat)) as P0. assert (FS : f * s <= s / 4) by nra. destruct (RUN (z 0%nat) (Lz 0%nat) ltac:(lra)) as (us0 & xs0 & A0 & C0).
  assert (C1 : trajectory_cost Q Rm P us0 xs0 <= rho).
  { eapply Rle_trans; [exact C0|]. apply Rle_trans with (p * (f * s * (f * s))); [apply Rmult_le_compat_l; [exact Pp|]; apply Rmult_le_compat; lra|]. unfold rho. assert (PF : p * f <= q / 4) by nra. assert (PF2 : p * f * f <= q / 4) by nra. assert (0 <= s * s) by nra. replace (p * (f * s * (f * s))) with (p * f * f * (s * s)) by ring. nra. }
  destruct (H dl z T us0 xs0 Hdl Lz A0 C1 HW t Ht) as (us & V & _ & E2 & HDx & HV & HV1 & HV2). exists (nth 0 us []). split; [exact E2|]. split; [exact HDx|].
  split. { destruct (Rle_lt_dec (sup (z t)) (s / 2)) as [G|G]; [lra|]. exfalso. assert (B : s / 2 * (s / 2) < sup (z t) * sup (z t)) by (apply Rmult_le_0_lt_compat; lra). assert (q * (s / 2 * (s / 2)) < q * (sup (z t) * sup (z t))) by (apply Rmult_lt_compat_l; assumption). unfold rho in HV1. lra. }
  assert (PT : 0 <= (1 - th) ^ t) by (apply pow_le; lra). assert (P00 : 0 <= sup (z 0%nat) * sup (z 0%nat)) by (apply Rmult_le_pos; exact P0).
  assert (X1 : (1 - th) ^ t * trajectory_cost Q Rm P us0 xs0 <= (1 - th) ^ t * (c * (sup (z 0%nat) * sup (z 0%nat)))). { apply Rmult_le_compat_l; [exact PT|]. eapply Rle_trans; [exact C0|]. apply Rmult_le_compat_r; [exact P00|unfold c; lra]. }
  assert (X2 : 1 / (s / 2 * th) * dl <= c * dl) by (apply Rmult_le_compat_r; [lra|unfold c; lra]). lra.
Qed.
(** ** Example *)
(*@ Example C100_example : x+ = x + u with Q = 1, R = 2, P = 2, K = -1/2, |x| <= 1, |u| <= 1, horizon 1, terminal set [-1, 1]: the hypotheses of C100_robust and C100_local hold with sg = 1, r = 1/2, rho = 1/4, M = 1, q = 1/2; and under the constant disturbance w = dl <= 1/8 the loop stays at x = 2 dl, so the bound cannot tend to 0 *)
Lemma robust_example : exists np C, mpc_setup np S_1 1 (Mat 1 [[1]]) (Mat 1 [[2]]) (Mat 1 [[2]]) D_box X_int (Mat 1 [[- (1 / 2)]]) 1 1 C /\ lqr_pair np S_1 (Mat 1 [[1]]) (Mat 1 [[2]]) (Mat 1 [[2]]) (Mat 1 [[- (1 / 2)]]) 1 1 /\ Spec.pd (Mat 1 [[1]]) 1 /\ (forall x, length x = 1%nat -> / 2 * (sup x * sup x) <= / 2 * dot x (mv (Mat 1 [[1]]) x)) /\
  (forall x, length x = 1%nat -> sup x <= 1 -> in_poly X_int x) /\
  (forall x us xs, length x = 1%nat -> mpc_admissible (lA S_1) (lB S_1) 1 1 (in_poly D_box) (in_poly X_int) x us xs -> trajectory_cost (Mat 1 [[1]]) (Mat 1 [[2]]) (Mat 1 [[2]]) us xs <= / 4 ->
     forall y, length y = 1%nat -> sup (vsub y x) <= / 2 -> exists us' xs', mpc_admissible (lA S_1) (lB S_1) 1 1 (in_poly D_box) (in_poly X_int) y us' xs' /\ trajectory_cost (Mat 1 [[1]]) (Mat 1 [[2]]) (Mat 1 [[2]]) us' xs' <= 1) /\
  forall dl, 0 <= dl <= / 8 -> (exists us xs, mpc_admissible (lA S_1) (lB S_1) 1 1 (in_poly D_box) (in_poly X_int) [2 * dl] us xs /\ trajectory_cost (Mat 1 [[1]]) (Mat 1 [[2]]) (Mat 1 [[2]]) us xs <= / 4) /\
    feedback np C [2 * dl] = Ok (Some [- dl]) /\ sup (vsub [2 * dl] (linear_step (lA S_1) (lB S_1) [2 * dl] [- dl])) <= dl.
Proof.
  destruct hold_example as (np & C & Hnp & _ & HD & E & HL & PQ & _ & TI & BX & _). exists np, C.
  split; [split; [exact Hnp|split; [exact HD|split; [exact E|split; [apply scalar_shape|exact TI]]]]|]. split; [exact HL|]. split; [exact PQ|]. split.
  { intros [|a [|]] L; try discriminate L. rewrite sup1, <- Rabs_mult, Rabs_right by (apply Rle_ge, Rle_0_sqr). cbn. lra. }
  split; [exact BX|].
  assert (RUN : forall a, -1 <= a <= 1 -> exists us xs, mpc_admissible (lA S_1) (lB S_1) 1 1 (in_poly D_box) (in_poly X_int) [a] us xs /\ trajectory_cost (Mat 1 [[1]]) (Mat 1 [[2]]) (Mat 1 [[2]]) us xs = a * a).
  { intros a Ha. exists [[- (a / 2)]], [[a]; [a + - (a / 2)]]. split; [|rewrite one_step_cost; field]. apply one_step_admissible. exists (- (a / 2)). split; [reflexivity|]. split; [reflexivity|]. split; [apply in_D_box; lra|apply in_X_int; lra]. }
  split.
  - intros x us xs Lx HA HC y Ly Hy. destruct x as [|a [|]]; try discriminate Lx. destruct y as [|b [|]]; try discriminate Ly. apply one_step_admissible in HA. destruct HA as (u & -> & -> & _). rewrite one_step_cost in HC. cbn [vsub map2] in Hy. rewrite sup1 in Hy. apply rabs_inv in Hy.
    assert (A2 : a * a <= / 4) by (assert (0 <= (a + 2 * u) * (a + 2 * u)) by apply Rle_0_sqr; nra). assert (-1 <= b <= 1) by nra. destruct (RUN b ltac:(lra)) as (us' & xs' & A' & C'). exists us', xs'. split; [exact A'|]. rewrite C'. nra.
  - intros dl Hdl. split; [|split].
    + destruct (RUN (2 * dl) ltac:(lra)) as (us' & xs' & A' & C'). exists us', xs'. split; [exact A'|]. rewrite C'. nra.
    + rewrite (mpc_feedback_lqr np _ _ _ _ _ _ _ _ 1 1 _ [2 * dl] Hnp HD E HL TI eq_refl); [cbn; do 3 f_equal; lra|]. apply in_X_int. lra.
    + cbn [linear_step lA lB S_1]. unfold linear_step. cbn. rewrite Rmax_left by apply Rabs_pos. right. replace (2 * dl - (1 * (2 * dl) + 0 + (1 * - dl + 0))) with dl by ring. apply Rabs_right. lra.
Qed.
