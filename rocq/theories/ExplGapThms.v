(** * ExplGapThms: how far the explicit controller is from the on-line one (C102), proofs *)
From Coq Require Import Lra Lia Classical.
From Verif Require Import Arr ArrFacts Spec SpecMpc SpecDyn SpecEig SpecRound Numpy Pnnls PnnlsFacts QpFacts Polyhedron PolyThms Dynamics DynThms CondenseThms LqrThms McaisThms SpectralThms Mpqp MpqpThms TolThms Controllers CtrlThms ContThms ExplThms HoldThms CartHoldThms LawThms RobustThms Round RoundExpl RoundThms RoundSimThms RoundPwaThms LocalThms PlantThms RoundExplThms.
Local Open Scope list_scope.
Local Ltac qf := cbn [q_Huu q_Hux q_Hxx q_fu q_fx q_g q_Au q_Ax q_b] in *.
(** ** Perturbed data as parameters: f - Au' e and b + d *)
Section Gap.
Variables (np : numpy) (q : mpqp) (nu nx m : nat).
Hypothesis ENP : exact_np np.
Hypothesis HQ : MpqpThms.coherent q nu nx m.
Definition wide_Hux : mat := hstack (hstack (q_Hux q) (mneg (tr (q_Au q)))) (zmat nu m).
Definition wide_Ax : mat := hstack (hstack (q_Ax q) (zmat m m)) (mneg (eye m)).
Lemma wide_Hux_mv x e d : length x = nx -> length e = m -> length d = m -> mv wide_Hux ((x ++ e) ++ d) = vsub (mv (q_Hux q) x) (mv (tr (q_Au q)) e).
Proof.
  intros Lx Le Ld. pose proof HQ as (_ & _ & SX & _ & _ & _ & SAu & _). assert (ST : shape (mneg (tr (q_Au q))) nu m) by eauto with shp. unfold wide_Hux.
  rewrite (mv_hstack _ _ nu (nx + m) m) by (eauto with shp || (rewrite app_length; lia)). rewrite (mv_hstack _ _ nu nx m) by auto. rewrite mv_zmat, mv_mneg.
  assert (L1 : length (mv (q_Hux q) x) = nu) by (rewrite mv_length; apply SX). assert (L2 : length (mv (tr (q_Au q)) e) = nu) by (rewrite mv_length; apply (shape_tr _ m nu SAu)).
  apply (nth_ext _ _ 0 0); [len|]. intros i Hi. assert (Hi' : (i < nu)%nat) by (lenh Hi; lia). rewrite nth_vadd by len. rewrite nth_vadd by len. rewrite nth_zeros, nth_vsub by lia. rewrite nth_vneg. lra.
Qed.
Lemma wide_Ax_row x e d i : length x = nx -> length e = m -> length d = m -> (i < m)%nat -> dot (row wide_Ax i) ((x ++ e) ++ d) = dot (row (q_Ax q) i) x - nth i d 0.
Proof.
  intros Lx Le Ld Hi. pose proof HQ as (_ & _ & _ & _ & _ & _ & _ & SX & _). unfold row at 1. rewrite <- nth_mv. unfold wide_Ax.
  assert (SI : shape (mneg (eye m)) m m) by eauto with shp. rewrite (mv_hstack _ _ m (nx + m) m) by (eauto with shp || (rewrite app_length; lia)). rewrite (mv_hstack _ _ m nx m) by eauto with shp. rewrite mv_zmat, mv_mneg, mv_eye by exact Ld.
  assert (L1 : length (mv (q_Ax q) x) = m) by (rewrite mv_length; apply SX). rewrite nth_vadd by len. rewrite nth_vadd by len. rewrite nth_zeros, nth_vneg, nth_mv. unfold row. lra.
Qed.
Lemma wide_data : mp_data (q_Huu q) wide_Hux (zmat (nx + m + m) (nx + m + m)) (q_fu q) (zeros (nx + m + m)) (q_Au q) wide_Ax (q_b q) nu (nx + m + m) m.
Proof.
  pose proof HQ as (H1 & H2 & H3 & H4 & L1 & L2 & H5 & H6 & L3 & _). unfold wide_Hux, wide_Ax. repeat (split; [solve [assumption | eauto 8 with shp | apply zeros_length]|]). assumption.
Qed.
(** minimizers of the perturbed programs differ by at most a multiple of the perturbation *)
Lemma wide_lipschitz : exists L, 0 <= L /\ forall x e d p v w, length x = nx -> length e = m -> length d = m ->
  length v = nu -> (forall i, (i < m)%nat -> dot (row (q_Au q) i) v + dot (row (q_Ax q) i) x <= nth i (q_b q) 0 + nth i d 0) ->
  length p = m -> nonneg (vadd p e) -> (forall s, length s = nu -> dot (mv (q_Huu q) v) s + dot (mv (q_Hux q) x) s + dot (q_fu q) s + dot p (mv (q_Au q) s) = 0) ->
  (forall i, (i < m)%nat -> (nth i p 0 + nth i e 0) * (nth i (q_b q) 0 + nth i d 0 - dot (row (q_Au q) i) v - dot (row (q_Ax q) i) x) = 0) ->
  q_minimizer q x w -> norm (vsub v w) <= L * (sup e + sup d).
Proof.
  pose proof wide_data as WD. destruct (region_returned np _ _ _ _ _ 0 _ _ _ _ _ _ ENP WD) as (q' & Eq' & _). destruct (constructed _ _ _ _ _ _ _ _ _ _ _ _ _ _ ENP WD Eq') as (Hq' & Hi & EQ).
  destruct (law_lipschitz np _ _ _ _ _ _ _ _ _ _ _ _ _ ENP WD Eq') as (L & PL & HL). pose proof HQ as (H1 & H2 & H3 & H4 & L1 & L2 & H5 & H6 & L3 & _).
  pose proof (pos_INR (nx + m + m)) as PN. exists (L * (INR (nx + m + m) + 1)). split; [apply Rmult_le_pos; lra|]. intros x e d p v w Lx Le Ld Lv HF Lp HP HS HC HW.
  set (X := (x ++ e) ++ d). set (X0 := (x ++ zeros m) ++ zeros m). assert (LX : length X = (nx + m + m)%nat) by (unfold X; rewrite !app_length; lia). assert (LX0 : length X0 = (nx + m + m)%nat) by (unfold X0; rewrite !app_length, !zeros_length; lia).
  assert (M1 : q_minimizer q' X v).
  { apply (kkt_minimizer q' nu (nx + m + m) m X v (vadd p e) Hq' LX); rewrite EQ; unfold q_feasible, q_multipliers, mp_feasible, mp_multipliers; qf.
    - split; [rewrite Lv; symmetry; apply H5|]. intros i Hi'. unfold X. rewrite wide_Ax_row by (assumption || lia). specialize (HF i ltac:(lia)). lra.
    - split; [len|]. split; [exact HP|]. split.
      + intros s Hs. unfold X. rewrite wide_Hux_mv by assumption. assert (Ls : length s = nu) by (rewrite Hs; apply H5). specialize (HS s Ls). rewrite dot_vsub_l by (rewrite !mv_length, (proj1 H3), (proj1 (shape_tr _ m nu H5)); reflexivity). rewrite (dot_mv_tr _ m nu) by assumption. rewrite dot_vadd_l by lia. lra.
      + intros i Hi'. unfold X. rewrite wide_Ax_row by (assumption || lia). rewrite nth_vadd by lia. specialize (HC i ltac:(lia)). etransitivity; [|exact HC]. ring. }
  assert (M0 : q_minimizer q' X0 w).
  { destruct HW as (F0 & O). assert (FX : forall y, q_feasible q' X0 y <-> q_feasible q x y).
    { intros y. rewrite EQ. unfold q_feasible, mp_feasible. qf. apply and_iff_compat_l. split; intros G i Hi'; specialize (G i Hi'); unfold X0 in *; rewrite wide_Ax_row in * by (assumption || apply zeros_length || lia); rewrite nth_zeros in *; lra. }
    assert (CX : forall y y', length y = nu -> length y' = nu -> q_cost q' X0 y - q_cost q' X0 y' = q_cost q x y - q_cost q x y').
    { intros y y' Ly Ly'. assert (E0 : mv wide_Hux X0 = mv (q_Hux q) x). { unfold X0. rewrite wide_Hux_mv by (assumption || apply zeros_length). rewrite mv_zeros. assert (LL : length (mv (q_Hux q) x) = nu) by (rewrite mv_length; apply H3). pose proof (shape_tr _ m nu H5) as (LT & _). apply (nth_ext _ _ 0 0); [rewrite vsub_length, zeros_length; unfold nrows in *; lia|]. intros i Hi'. rewrite nth_vsub by (rewrite zeros_length; unfold nrows in *; lia). rewrite nth_zeros. lra. }
      rewrite EQ. unfold q_cost, mp_cost. qf. rewrite E0. lra. }
    assert (LEN : forall y, q_feasible q x y -> length y = nu) by (intros y (Ey & _); rewrite Ey; apply H5).
    split; [apply FX; exact F0|]. intros y Fy. apply FX in Fy. destruct (O y Fy) as (O1 & O2). pose proof (CX y w (LEN y Fy) (LEN w F0)) as Q1. fold (q_cost q x w) in O1, O2. fold (q_cost q x y) in O1, O2. fold (q_cost q' X0 w). fold (q_cost q' X0 y). split; [lra|]. intros EY. apply O2. lra. }
  unfold q_minimizer in M1, M0. rewrite EQ in M1, M0. qf. specialize (HL X X0 v w LX LX0 M1 M0). eapply Rle_trans; [exact HL|]. rewrite Rmult_assoc. apply Rmult_le_compat_l; [exact PL|].
  eapply Rle_trans; [apply norm_of_sup|]. assert (LV : length (vsub X X0) = (nx + m + m)%nat) by (rewrite vsub_length; lia). rewrite LV. apply Rmult_le_compat_l; [lra|].
  pose proof (sup_nonneg e). pose proof (sup_nonneg d). apply sup_le; [lra|]. intros i Hi'. rewrite nth_vsub by lia. unfold X, X0.
  destruct (Nat.lt_ge_cases i (nx + m)) as [A|A].
  - rewrite !(app_nth1 (_ ++ _)) by (rewrite app_length, ?zeros_length; lia). destruct (Nat.lt_ge_cases i nx) as [B|B].
    + rewrite !app_nth1 by lia. rewrite Rminus_diag_eq by reflexivity. rewrite Rabs_R0. lra.
    + rewrite !app_nth2 by lia. rewrite nth_zeros, Rminus_0_r. pose proof (nth_sup e (i - length x)). lra.
  - rewrite !(app_nth2 (_ ++ _)) by (rewrite app_length, ?zeros_length; lia). rewrite nth_zeros, Rminus_0_r. pose proof (nth_sup d (i - length (x ++ e))). lra.
Qed.
Lemma region_gap act cr Lp Lc : explicit_solve_given_active_set np q act = Ok (Some cr) ->
  (forall i, (i < m)%nat -> lipschitz nx (nth i Lp 0) (fun y => nth i (cr_p cr y) 0) /\ lipschitz nx (nth i Lc 0) (fun y => dot (row (q_Au q) i) (cr_u cr y) + dot (row (q_Ax q) i) y - nth i (q_b q) 0)) ->
  exists c, 0 <= c /\ forall tau x w, 0 < tau -> length x = nx -> MpqpThms.within tau (cr_poly cr) x -> q_minimizer q x w -> norm (vsub (cr_u cr x) w) <= c * tau.
Proof.
  intros EA HL. destruct wide_lipschitz as (L & PL & WL). pose proof (sup_nonneg Lp) as PLp. pose proof (sup_nonneg Lc) as PLc. exists (L * (2 + sup Lp + sup Lc)). split; [apply Rmult_le_pos; lra|]. intros tau x w PT Lx HW HM.
  destruct (region_tolerance_by tau np q nu nx m act cr x PT ENP HQ EA Lx HW) as (RA & RI & RN & Lu & Lpp & _ & _).
  destruct (some_region np q nu nx m act cr ENP HQ EA) as (_ & _ & (_ & _ & _ & _ & RO)). destruct (RO x Lx) as (_ & _ & St & _).
  set (inb := fun i => if in_dec Nat.eq_dec i act then true else false).
  set (e := map (fun i => if inb i then Rmax 0 (- nth i (cr_p cr x) 0) else 0) (seq 0 m)).
  set (d := map (fun i => if inb i then 0 else Rmax 0 (dot (row (q_Au q) i) (cr_u cr x) + dot (row (q_Ax q) i) x - nth i (q_b q) 0)) (seq 0 m)).
  assert (Le : length e = m) by (unfold e; rewrite map_length, seq_length; reflexivity). assert (Ld : length d = m) by (unfold d; rewrite map_length, seq_length; reflexivity).
  assert (Ne : forall i, (i < m)%nat -> nth i e 0 = if inb i then Rmax 0 (- nth i (cr_p cr x) 0) else 0) by (intros i Hi; unfold e; rewrite (nth_map_0 (fun i => if inb i then Rmax 0 (- nth i (cr_p cr x) 0) else 0)) by (rewrite seq_length; exact Hi); rewrite seq_nth by exact Hi; reflexivity).
  assert (Nd : forall i, (i < m)%nat -> nth i d 0 = if inb i then 0 else Rmax 0 (dot (row (q_Au q) i) (cr_u cr x) + dot (row (q_Ax q) i) x - nth i (q_b q) 0)).
  { intros i Hi. unfold d. rewrite (nth_map_0 (fun i => if inb i then 0 else Rmax 0 (dot (row (q_Au q) i) (cr_u cr x) + dot (row (q_Ax q) i) x - nth i (q_b q) 0))) by (rewrite seq_length; exact Hi). rewrite seq_nth by exact Hi. reflexivity. }
  assert (MX : forall l i, Rmax 1 (nth i l 0) <= 1 + sup l) by (intros l i; pose proof (sup_nonneg l); apply Rmax_lub; [lra|]; pose proof (nth_sup l i); pose proof (Rle_abs (nth i l 0)); lra).
  assert (Se : sup e <= tau * (1 + sup Lp)).
  { apply sup_le; [apply Rmult_le_pos; lra|]. intros i Hi. rewrite Le in Hi. rewrite (Ne i Hi). unfold inb. destruct (in_dec Nat.eq_dec i act) as [Ia|Na]; [|rewrite Rabs_R0; apply Rmult_le_pos; lra]. rewrite Rabs_right by (apply Rle_ge, Rmax_l). destruct (RI i Ia) as (_ & G). specialize (G _ (proj1 (HL i Hi))).
    assert (tau * Rmax 1 (nth i Lp 0) <= tau * (1 + sup Lp)) by (apply Rmult_le_compat_l; [lra|apply MX]). apply Rmax_lub; [apply Rmult_le_pos; lra|lra]. }
  assert (Sd : sup d <= tau * (1 + sup Lc)).
  { apply sup_le; [apply Rmult_le_pos; lra|]. intros i Hi. rewrite Ld in Hi. rewrite (Nd i Hi). unfold inb. destruct (in_dec Nat.eq_dec i act) as [Ia|Na]; [rewrite Rabs_R0; apply Rmult_le_pos; lra|]. rewrite Rabs_right by (apply Rle_ge, Rmax_l). destruct (RN i Hi Na) as (_ & G). specialize (G _ (proj2 (HL i Hi))).
    assert (tau * Rmax 1 (nth i Lc 0) <= tau * (1 + sup Lc)) by (apply Rmult_le_compat_l; [lra|apply MX]). apply Rmax_lub; [apply Rmult_le_pos; lra|lra]. }
  eapply Rle_trans; [apply (WL x e d (cr_p cr x) (cr_u cr x) w Lx Le Ld Lu)|].
  - intros i Hi. rewrite (Nd i Hi). unfold inb. destruct (in_dec Nat.eq_dec i act) as [Ia|Na]; [destruct (RI i Ia) as (G & _); lra|]. match goal with |- _ <= _ + Rmax 0 ?a => pose proof (Rmax_r 0 a) end. lra.
  - exact Lpp.
  - apply Forall_forall. intros a Ha. destruct (In_nth _ _ 0 Ha) as (i & Hi & <-). assert (Hi' : (i < m)%nat) by (rewrite vadd_length in Hi; lia). rewrite nth_vadd by lia. rewrite (Ne i Hi'). unfold inb. destruct (in_dec Nat.eq_dec i act) as [Ia|Na].
    + match goal with |- _ <= _ + Rmax 0 ?a => pose proof (Rmax_r 0 a) end. lra.
    + destruct (RN i Hi' Na) as (G & _). lra.
  - exact St.
  - intros i Hi. rewrite (Ne i Hi), (Nd i Hi). unfold inb. destruct (in_dec Nat.eq_dec i act) as [Ia|Na]; [destruct (RI i Ia) as (G & _); rewrite <- G; ring|destruct (RN i Hi Na) as (G & _); rewrite G; ring].
  - exact HM.
  - rewrite Rmult_assoc. apply Rmult_le_compat_l; [exact PL|]. lra.
Qed.
End Gap.
(*@ Theorem C102_program : For every table stored by explicit_solve there is one constant c such that wherever a region of the table contains the parameter up to tau, its input is within c tau of the minimizer *)
Lemma explicit_gap np Huu Hux Hxx fu fx g Au Ax b nu nx m q fuel step crs :
  exact_np np -> mp_data Huu Hux Hxx fu fx Au Ax b nu nx m -> MultiParametricQuadraticProgram np Huu Hux Hxx fu fx g Au Ax b = Ok q -> explicit_solve np fuel step q = Ok crs ->
  exists c, 0 <= c /\ forall cr tau x w, In cr crs -> 0 < tau -> length x = nx -> MpqpThms.within tau (cr_poly cr) x -> mp_minimizer Huu Hux Hxx fu fx g Au Ax b x w -> norm (vsub (cr_u cr x) w) <= c * tau.
Proof.
  intros Hnp D E1 E2. destruct (constructed _ _ _ _ _ _ _ _ _ _ _ _ _ _ Hnp D E1) as (Hq & Hi & Eq). pose proof (loop_fields np q fuel step _ [] crs (Forall_nil _) E2) as FF. rewrite Forall_forall in FF.
  destruct (common_constant (fun cr c => forall tau x w, 0 < tau -> length x = nx -> MpqpThms.within tau (cr_poly cr) x -> mp_minimizer Huu Hux Hxx fu fx g Au Ax b x w -> norm (vsub (cr_u cr x) w) <= c * tau) crs) as (c & Pc & HC).
  - intros cr c c' Hc H tau x w PT Lx HW HM. eapply Rle_trans; [apply (H tau x w PT Lx HW HM)|]. apply Rmult_le_compat_r; lra.
  - intros cr I. destruct (FF cr I) as (act & c0 & Ea & (S1 & S2 & S3 & S4 & S5 & _) & _). destruct (tolerance_constants _ _ _ _ _ _ _ _ _ _ _ _ _ _ _ _ _ _ Hnp D E1 E2 I) as (Lp & Lc & HL).
    destruct (region_gap np q nu nx m Hnp Hq act c0 Lp Lc Ea) as (c & Pc & HC).
    { intros i Hi'. specialize (HL i Hi'). rewrite S1, S2 in HL. subst q. exact HL. }
    exists c. split; [exact Pc|]. intros tau x w PT Lx HW HM. rewrite S1. unfold MpqpThms.within in HW. rewrite S4, S5 in HW. apply (HC tau x w PT Lx HW). subst q. exact HM.
  - exists c. split; [exact Pc|]. intros cr tau x w I. apply (HC cr I).
Qed.
(** ** The controller *)
(** without inequalities the lookup takes the maximum of an empty array *)
Lemma no_rows rnd C crs x v : (forall cr, In cr crs -> rows (pA (cr_poly cr)) = []) -> ~ fl_feedback_explicit rnd C (Some crs) x (Ok (Some v)).
Proof.
  intros H. assert (NC : forall cr b, In cr crs -> ~ fl_contains rnd tol7 (cr_poly cr) x (Ok b)).
  { intros cr b I (r & HR & HB). unfold fl_residual in HR. assert (EE : exists e, r = Err e). { destruct (Nat.eqb _ _); [|exists ValueError; exact HR]. destruct HR as (y & Hy & ->). unfold fl_mv in Hy. rewrite (H cr I) in Hy. inversion Hy. subst y. eexists. reflexivity. } destruct EE as (e & ->). discriminate HB. }
  assert (NL : forall l, (forall cr, In cr l -> In cr crs) -> forall cr, ~ fl_lookup rnd x l (Ok (Some cr))).
  { intros l HI cr HL. destruct l as [|c l]; inversion HL as [|? ? ? ?|c' l' HC'|c' l' r' HC' HL']; subst; apply (NC _ _ (HI _ (or_introl eq_refl)) HC'). }
  intros (q & (q1 & q2 & (q3 & H3 & M3) & H2 & ->) & E). destruct q3 as [[c|]|e].
  - apply (NL crs (fun _ h => h) c H3).
  - subst q1. destruct q2 as [o|e]; cbn in E; discriminate E.
  - subst q1. discriminate E.
Qed.
(*@ Theorem C102_controller : For every table stored by a linear model predictive controller there is one constant c such that at every state that has an admissible sequence, an input returned by feedback_explicit -- also in rounded arithmetic, with E bounding the rounding errors of the residuals and F those of the input -- differs from the first input of the optimal sequence by at most c (1e-7 + E) + F *)
Lemma controller_gap np S N Q Rm P D X_N nx nu C fuel step crs : exact_np np -> mpc_data S N Q Rm P D X_N nx nu -> ModelPredictiveController np S N Q Rm P D X_N = Ok C -> store_explicit_solution np fuel step C = Ok crs ->
  exists c, 0 <= c /\ forall u eta rnd x E F us xs v, rounding u eta rnd -> length x = nx -> 0 <= E ->
    (forall cr, In cr crs -> residual_bound u eta E (pA (cr_poly cr)) (pb (cr_poly cr)) x /\ forall i, (i < nu)%nat -> rounding_error u eta (nx + 1) (SpecRound.abs_dot (row (cr_ux cr) i) x + Rabs (nth i (cr_u0 cr) 0)) <= F) ->
    mpc_optimal (lA S) (lB S) Q Rm P nu N (in_poly D) (in_poly X_N) x us xs -> fl_feedback_explicit rnd C (Some crs) x (Ok (Some v)) ->
    length v = nu /\ forall i, (i < nu)%nat -> Rabs (nth i v 0 - nth i (nth 0 us []) 0) <= c * (tol7 + E) + F.
Proof.
  intros Hnp HD EC ES. destruct (Nat.eq_dec (length (q_b (c_mpqp C))) 0) as [Z|NZ].
  { exists 0. split; [lra|]. intros u eta rnd x E F us xs v _ _ _ _ _ HV. exfalso. revert HV. apply no_rows. intros cr I. destruct (mpc_program np S N Q Rm P D X_N nx nu Hnp HD) as (q & m & E' & Hq & _). rewrite EC in E'. injection E' as ->. cbn [c_mpqp] in *. assert (Lb : length (q_b q) = m) by (unfold MpqpThms.coherent in Hq; tauto).
    pose proof (loop_fields np q fuel step _ [] crs (Forall_nil _) ES) as FF. rewrite Forall_forall in FF. destruct (FF cr I) as (act & c & Ea & (_ & _ & _ & F1 & _) & _). destruct (some_region np q (nu * N) nx m act c Hnp Hq Ea) as (_ & _ & (_ & _ & (W & _) & _)). rewrite F1. destruct W as (W & _). rewrite Lb in Z. rewrite Z in W. destruct (rows (pA (cr_poly c))); [reflexivity|discriminate W]. }
  assert (Pm : (0 < length (q_b (c_mpqp C)))%nat) by lia. destruct (stored_table np S N Q Rm P D X_N nx nu C fuel step crs Hnp HD EC Pm ES) as (H1 & H2 & H3 & TB & HS). pose proof (mpc_constructed np S N Q Rm P D X_N nx nu C HD EC) as ED. cbv zeta in ED.
  destruct (mpc_program np S N Q Rm P D X_N nx nu Hnp HD) as (q & m & E' & Hq & HC). rewrite EC in E'. injection E' as ->. cbn [c_mpqp] in *. pose proof Hq as (S1 & PD & S2 & S3 & L3 & L4 & S4 & S5 & Lb & _).
  assert (MD : mp_data (q_Huu q) (q_Hux q) (q_Hxx q) (q_fu q) (q_fx q) (q_Au q) (q_Ax q) (q_b q) (nu * N) nx m) by (unfold mp_data; tauto).
  destruct (explicit_gap np _ _ _ _ _ _ _ _ _ _ _ _ q fuel step crs Hnp MD ED ES) as (c & Pc & GAP). exists c. split; [exact Pc|]. intros u eta rnd x E F us xs v RN Lx PE HB HO HV.
  destruct (optimal_minimizer np S N Q Rm P D X_N nx nu q m x us xs Hq HC HD Hnp Lx HO) as (MIN & _). pose proof HO as ((Lu & Fu & _) & _).
  destruct (feedback_rounded u eta rnd (MPC S N q) crs x E nx nu N RN TB Lx H1 H2 H3) as (_ & _ & H). { intros cr I. destruct (HS cr I) as (B1 & B2). split; [exact B1|]. split; [exact B2|apply HB, I]. }
  destruct (H _ HV) as [(X & _)|(pre & cr & post & w & Ecrs & Ew & HW & _ & Lw & HE)]; [discriminate X|]. injection Ew as <-. split; [exact Lw|]. intros i Hi.
  assert (I : In cr crs) by (rewrite Ecrs; apply in_or_app; right; left; reflexivity). destruct (HS cr I) as (SU & LU). specialize (HE i Hi). pose proof (proj2 (HB cr I) i Hi) as HF. assert (T7 : 0 < tol7) by (unfold tol7; lra).
  pose proof (GAP cr (tol7 + E) x (List.concat us) I ltac:(lra) Lx HW MIN) as G. assert (L0 : (0 < length us)%nat) by lia. destruct us as [|u0 us]; [cbn in L0; lia|]. cbn [nth]. pose proof (Forall_inv Fu : length u0 = nu) as Lu0.
  assert (LCU : length (cr_u cr x) = (nu * N)%nat) by (unfold cr_u; rewrite vadd_length, mv_length, (proj1 SU), LU; lia). assert (LC : length (List.concat (u0 :: us)) = (nu * N)%nat) by (rewrite (concat_length_const _ nu Fu), Lu; lia).
  assert (Hi' : (i < nu * N)%nat) by nia. pose proof (nth_sup (vsub (cr_u cr x) (List.concat (u0 :: us))) i) as NS. pose proof (sup_of_norm (vsub (cr_u cr x) (List.concat (u0 :: us)))) as SN. rewrite nth_vsub in NS by lia. unfold cr_u in NS at 1. rewrite nth_vadd in NS by (rewrite mv_length, (proj1 SU); lia). rewrite nth_mv in NS. fold (row (cr_ux cr) i) in NS.
  assert (EN : nth i (List.concat (u0 :: us)) 0 = nth i u0 0) by (cbn; apply app_nth1; lia). rewrite EN in NS.
  pose proof (Rabs_triang (nth i v 0 - (dot (row (cr_ux cr) i) x + nth i (cr_u0 cr) 0)) (dot (row (cr_ux cr) i) x + nth i (cr_u0 cr) 0 - nth i u0 0)) as TR.
  replace (nth i v 0 - (dot (row (cr_ux cr) i) x + nth i (cr_u0 cr) 0) + (dot (row (cr_ux cr) i) x + nth i (cr_u0 cr) 0 - nth i u0 0)) with (nth i v 0 - nth i u0 0) in TR by ring. lra.
Qed.
(*@ Theorem C102_exact : In exact arithmetic: wherever both controllers return an input, the two inputs differ by at most c 1e-7 in every component, with c a constant of the controller and its table *)
Lemma exact_gap np S N Q Rm P D X_N nx nu C fuel step crs : exact_np np -> mpc_data S N Q Rm P D X_N nx nu -> ModelPredictiveController np S N Q Rm P D X_N = Ok C -> store_explicit_solution np fuel step C = Ok crs ->
  exists c, 0 <= c /\ forall x v w, length x = nx -> feedback_explicit C (Some crs) x = Ok (Some v) -> feedback np C x = Ok (Some w) -> length v = nu /\ length w = nu /\ sup (vsub v w) <= c * tol7.
Proof.
  intros Hnp HD EC ES. destruct (controller_gap np S N Q Rm P D X_N nx nu C fuel step crs Hnp HD EC ES) as (c & Pc & GAP). exists c. split; [exact Pc|]. intros x v w Lx FE FB.
  destruct (feedback_optimal np S N Q Rm P D X_N nx nu C x w Hnp HD EC Lx FB) as (us & xs & _ & -> & _ & HO).
  assert (RN : rounding 0 0 (fun a => a)) by (split; [lra|split; [lra|]]; intros a; rewrite Rminus_diag_eq by reflexivity; rewrite Rabs_R0; lra). assert (R0 : forall n s, rounding_error 0 0 n s = 0) by (intros n s; unfold rounding_error; rewrite Rplus_0_r, pow1; ring).
  apply (proj2 (explicit_unrounded C (Some crs) crs x)) in FE. destruct (GAP 0 0 (fun a => a) x 0 0 us xs v RN Lx (Rle_refl 0)) as (Lv & HV); [|exact HO|exact FE|].
  - intros cr _. split; [intros i _; rewrite R0; lra|intros i _; rewrite R0; lra].
  - pose proof HO as ((Lu & Fu & _) & _). pose proof HD as ((_ & _ & HN & _) & _). assert (Lw : length (nth 0 us []) = nu) by (apply (Forall_len_nth us nu); [exact Fu|lia]). split; [exact Lv|]. split; [exact Lw|]. apply sup_le; [apply Rmult_le_pos; [exact Pc|unfold tol7; lra]|]. intros i Hi. rewrite nth_vsub by lia. eapply Rle_trans; [apply HV; lenh Hi; lia|lra].
Qed.
(** ** The closed loop *)
(*@ Theorem C102_loop : The explicit controller in the loop, under the hypotheses of C100_robust: there are th in (0, 1], d0 > 0 and constants b, c such that, as long as it answers, every run from a state of cost at most rho, with residual and input rounding errors at most E and F and a plant error at most w, stays within q |x(t)|^2 <= (1 - th)^t V(0) + M dl / (r th) with dl = b (c (1e-7 + E) + F) + w, if dl <= d0; and each input it applies is within c (1e-7 + E) + F of the one of the on-line controller, which meets the constraints *)
Lemma explicit_gap_loop np S N Q Rm P D X_N K nx nu C fuel step crs sg r M rho q : mpc_setup np S N Q Rm P D X_N K nx nu C -> lqr_pair np S Q Rm P K nx nu -> store_explicit_solution np fuel step C = Ok crs ->
  0 < q -> (forall x, length x = nx -> q * (sup x * sup x) <= / 2 * dot x (mv Q x)) -> 0 < sg -> (forall x, length x = nx -> sup x <= sg -> in_poly X_N x) -> 0 < r -> 0 < rho -> 0 < M < (10 ^ 14 - 1) / 2 ->
  (forall x us xs, length x = nx -> mpc_admissible (lA S) (lB S) nu N (in_poly D) (in_poly X_N) x us xs -> trajectory_cost Q Rm P us xs <= rho ->
     forall y, length y = nx -> sup (vsub y x) <= r -> exists us' xs', mpc_admissible (lA S) (lB S) nu N (in_poly D) (in_poly X_N) y us' xs' /\ trajectory_cost Q Rm P us' xs' <= M) ->
  exists th d0 b c, 0 < th <= 1 /\ 0 < d0 /\ 0 <= b /\ 0 <= c /\ forall u eta rnd E F w (z v : nat -> vec) T us0 xs0, let dl := b * (c * (tol7 + E) + F) + w in rounding u eta rnd -> 0 <= E -> 0 <= F -> 0 <= w -> dl <= d0 -> (forall t, length (z t) = nx) ->
    mpc_admissible (lA S) (lB S) nu N (in_poly D) (in_poly X_N) (z 0%nat) us0 xs0 -> trajectory_cost Q Rm P us0 xs0 <= rho ->
    (forall t cr, (t < T)%nat -> In cr crs -> residual_bound u eta E (pA (cr_poly cr)) (pb (cr_poly cr)) (z t) /\ forall i, (i < nu)%nat -> rounding_error u eta (nx + 1) (SpecRound.abs_dot (row (cr_ux cr) i) (z t) + Rabs (nth i (cr_u0 cr) 0)) <= F) ->
    (forall t, (t < T)%nat -> fl_feedback_explicit rnd C (Some crs) (z t) (Ok (Some (v t))) /\ sup (vsub (z (Datatypes.S t)) (linear_step (lA S) (lB S) (z t) (v t))) <= w) ->
    forall t, (t <= T)%nat -> exists uo, feedback np C (z t) = Ok (Some uo) /\ in_poly D (z t ++ uo) /\ q * (sup (z t) * sup (z t)) <= (1 - th) ^ t * trajectory_cost Q Rm P us0 xs0 + M / (r * th) * dl /\
      q * (sup (z t) * sup (z t)) <= rho /\ ((t < T)%nat -> sup (vsub (v t) uo) <= c * (tol7 + E) + F).
Proof.
  intros SET LQ ES Pq HQ Psg BALL Pr Prho PM MARGIN. pose proof SET as (Hnp & HD & EC & _). pose proof HD as ((SA & SB & _) & _). destruct (controller_gap np S N Q Rm P D X_N nx nu C fuel step crs Hnp HD EC ES) as (c & Pc & GAP).
  destruct (mpc_robust np S N Q Rm P D X_N K nx nu C sg r M rho q SET LQ Pq HQ Psg BALL Pr Prho PM MARGIN) as (th & d0 & Hth & Pd & ROB). destruct (row_sums (lB S) nx nu SB) as (b & Pb & HB). exists th, d0, b, c. split; [exact Hth|]. split; [exact Pd|]. split; [exact Pb|]. split; [exact Pc|].
  intros u eta rnd E F w z v T us0 xs0 dl RN PE PF Pw Hdl Lz A0 C0 HE HV. set (g := c * (tol7 + E) + F) in *. assert (T7 : 0 < tol7) by (unfold tol7; lra). assert (Pg : 0 <= g) by (unfold g; assert (0 <= c * (tol7 + E)) by (apply Rmult_le_pos; lra); lra).
  assert (Pdl : 0 <= dl) by (unfold dl; assert (0 <= b * g) by (apply Rmult_le_pos; assumption); lra).
  assert (NEAR : forall t uo, (t < T)%nat -> feedback np C (z t) = Ok (Some uo) -> length (v t) = nu /\ length uo = nu /\ sup (vsub (v t) uo) <= g).
  { intros t uo Ht EF. destruct (feedback_optimal np S N Q Rm P D X_N nx nu C (z t) uo Hnp HD EC (Lz t) EF) as (us & xs & _ & -> & Lu & HO). destruct (GAP u eta rnd (z t) E F us xs (v t) RN (Lz t) PE (fun cr I => HE t cr Ht I) HO (proj1 (HV t Ht))) as (Lv & G). split; [exact Lv|]. split; [exact Lu|]. apply sup_le; [exact Pg|]. intros i Hi. rewrite nth_vsub by lia. apply G. lenh Hi. lia. }
  intros t Ht. destruct (ROB dl z T us0 xs0 (conj Pdl Hdl) Lz A0 C0) with (t := t) as (us & V & _ & E2 & HDx & V1 & V2 & V3); [|exact Ht|].
  - intros s uo Hs EF. destruct (NEAR s uo Hs EF) as (Lv & Lu & G). destruct (HV s Hs) as (_ & HW).
    replace (vsub (z (Datatypes.S s)) (linear_step (lA S) (lB S) (z s) uo)) with (vadd (vsub (z (Datatypes.S s)) (linear_step (lA S) (lB S) (z s) (v s))) (mv (lB S) (vsub (v s) uo))).
    2:{ unfold linear_step. pose proof (proj1 SA) as LA'. pose proof (proj1 SB) as LB'. assert (La : length (mv (lA S) (z s)) = nx) by (rewrite mv_length; exact LA'). assert (Lb1 : forall y, length (mv (lB S) y) = nx) by (intros y; rewrite mv_length; exact LB').
        pose proof (Lz (Datatypes.S s)) as Lz1. pose proof (Lb1 (v s)). pose proof (Lb1 uo). pose proof (Lb1 (vsub (v s) uo)). apply vec_ext; [len|]. intros i Hi. rewrite nth_vadd by len. rewrite !nth_vsub by len. rewrite !nth_vadd by len. rewrite (mv_vsub (lB S) nx nu) by (assumption || lia). rewrite nth_vsub by len. ring. }
    assert (L1 : length (vsub (z (Datatypes.S s)) (linear_step (lA S) (lB S) (z s) (v s))) = nx) by (rewrite vsub_length, (step_length _ _ nx nu) by assumption; rewrite Lz; lia).
    eapply Rle_trans; [apply sup_vadd; rewrite L1, mv_length; symmetry; apply SB|]. pose proof (sup_mv (lB S) nx nu b (vsub (v s) uo) SB Pb HB ltac:(len)) as X. assert (Y : b * sup (vsub (v s) uo) <= b * g) by (apply Rmult_le_compat_l; assumption). unfold dl. lra.
  - exists (nth 0 us []). split; [exact E2|]. split; [exact HDx|]. split; [lra|]. split; [lra|]. intros Ht'. apply (NEAR t _ Ht' E2).
Qed.
(*@ Example C102_example : The rate is attained: min 1/2 u^2 s.t. x <= u. At every x in (0, 1e-7] the table answers 0 and the minimizer is x, so c is at least 1 *)
Lemma gap_example np : exact_np np -> exists q crs, MultiParametricQuadraticProgram np (Mat 1 [[1]]) (Mat 1 [[0]]) (Mat 1 [[0]]) [0] [0] 0 (Mat 1 [[-1]]) (Mat 1 [[1]]) [0] = Ok q /\ explicit_solve np 3 (/ 100000) q = Ok crs /\
  forall x, 0 < x <= tol7 -> es_u crs [x] = Ok (Some [0]) /\ mp_minimizer (Mat 1 [[1]]) (Mat 1 [[0]]) (Mat 1 [[0]]) [0] [0] 0 (Mat 1 [[-1]]) (Mat 1 [[1]]) [0] [x] [x] /\ sup (vsub [0] [x]) = x.
Proof.
  intros Hnp. destruct (ex_lookup np 0 (/ 100000) Hnp ltac:(unfold tol7; lra)) as (crs & E & _ & H). exists (ex_q ex_I), crs. split; [apply ex_ctor; exact Hnp|]. split; [exact E|]. intros x Hx. split; [rewrite H, (proj2 (Rleb_true x tol7)) by lra; reflexivity|]. split.
  - split; [split; [reflexivity|]; intros i Hi; cbn in Hi; assert (i = 0%nat) by lia; subst; cbn; lra|]. intros v (Lv & Fv). destruct v as [|v [|]]; try discriminate Lv. specialize (Fv 0%nat ltac:(cbn; lia)). cbn in Fv. unfold mp_cost. cbn. split; [nra|]. intros E'. f_equal. assert (v * v = x * x) by lra. nra.
  - unfold sup. cbn. rewrite Rabs_left1 by lra. rewrite Rmax_left; lra.
Qed.
(*@ Example C102_loop_example : x+ = x + u with Q = 1, R = 2, P = 2, K = -1/2, |x| <= 1, |u| <= 1, horizon 1, terminal set [-1, 1]: all hypotheses of C102_loop hold with sg = 1, r = 1/2, rho = 1/4, M = 1, q = 1/2, and the stored table of one region answers in every admissible state *)
Lemma explicit_gap_loop_example : exists np C c0, mpc_setup np S_1 1 (Mat 1 [[1]]) (Mat 1 [[2]]) (Mat 1 [[2]]) D_box X_int (Mat 1 [[- (1 / 2)]]) 1 1 C /\ lqr_pair np S_1 (Mat 1 [[1]]) (Mat 1 [[2]]) (Mat 1 [[2]]) (Mat 1 [[- (1 / 2)]]) 1 1 /\ store_explicit_solution np 4 (/ 100000) C = Ok [c0] /\
  (forall x, length x = 1%nat -> / 2 * (sup x * sup x) <= / 2 * dot x (mv (Mat 1 [[1]]) x)) /\ (forall x, length x = 1%nat -> sup x <= 1 -> in_poly X_int x) /\
  (forall x us xs, length x = 1%nat -> mpc_admissible (lA S_1) (lB S_1) 1 1 (in_poly D_box) (in_poly X_int) x us xs -> trajectory_cost (Mat 1 [[1]]) (Mat 1 [[2]]) (Mat 1 [[2]]) us xs <= / 4 ->
     forall y, length y = 1%nat -> sup (vsub y x) <= / 2 -> exists us' xs', mpc_admissible (lA S_1) (lB S_1) 1 1 (in_poly D_box) (in_poly X_int) y us' xs' /\ trajectory_cost (Mat 1 [[1]]) (Mat 1 [[2]]) (Mat 1 [[2]]) us' xs' <= 1) /\
  (forall y us xs, length y = 1%nat -> mpc_admissible (lA S_1) (lB S_1) 1 1 (in_poly D_box) (in_poly X_int) y us xs -> get_critical_region [c0] y = Ok (Some c0)) /\
  feedback_explicit C (Some [c0]) [1] = Ok (Some [- (1 / 2)]).
Proof.
  destruct explicit_loop_example as (C & c & SET & LQ & _ & ES & COV & _ & FE). destruct robust_example as (_ & _ & _ & _ & _ & HQ & BX & MG & _). eexists. exists C, c. split; [exact SET|]. split; [exact LQ|]. split; [exact ES|]. split; [exact HQ|]. split; [exact BX|]. split; [exact MG|]. split; [|exact FE]. intros y us xs Ly HA. apply (COV y us xs Ly HA).
Qed.
