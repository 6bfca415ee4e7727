(** * CartHoldThms: the cart-pole with a zero-order hold (C97), proofs *)
From Coq Require Import Lra Lia String.
From Coquelicot Require Import Coquelicot.
From Verif Require Import Arr ArrFacts Spec SpecMpc SpecDyn SpecEig SpecRound SpecHold SpecCart Numpy Dynamics DynThms ZohThms OdeThms SampThms LqrThms QpFacts SolverThms Oracle CondenseThms McaisThms Mpqp Controllers Polyhedron PolyThms CtrlThms DareThms NoteThms SpectralThms RoundThms RoundSimThms Walls WallThms CartDyn LocalThms Gurobi Programs Hybrid HybridThms HybridOptThms HybridLoopThms PlantThms HoldThms.
Local Open Scope list_scope.

(** coordinates in which the linearized cart-pole is decoupled: the centre of mass (a double integrator) and the two exponential modes of the pole *)
Definition pw (mc mp l g : R) : R := sqrt (g * (mc + mp) / (l * mc)).
Definition pa (mp mc l : R) : R := l * mp / (mc + mp).
Definition state_of (w a z zd p q : R) : vec := [z + a * ((p - q) / (2 * w)); (p - q) / (2 * w); zd + a * ((p + q) / 2); (p + q) / 2].
Lemma pw_pos mc mp l g : 0 < mc -> 0 < mp -> 0 < l -> 0 < g -> 0 < pw mc mp l g.
Proof. intros. unfold pw. apply sqrt_lt_R0. apply Rdiv_lt_0_compat; [apply Rmult_lt_0_compat; lra|apply Rmult_lt_0_compat; lra]. Qed.
Lemma pw_sq mc mp l g : 0 < mc -> 0 < mp -> 0 < l -> 0 < g -> pw mc mp l g * pw mc mp l g = g * (mc + mp) / (l * mc).
Proof. intros. unfold pw. apply sqrt_sqrt. apply Rlt_le, Rdiv_lt_0_compat; apply Rmult_lt_0_compat; lra. Qed.
Lemma state_coords w a x1 x2 x3 x4 : 0 < w -> [x1; x2; x3; x4] = state_of w a (x1 - a * x2) (x3 - a * x4) (x4 + w * x2) (x4 - w * x2).
Proof. intros. unfold state_of. repeat (f_equal; [field; lra|]). f_equal. field. Qed.
Definition cart_motion (w a b c z zd p q u t : R) : vec :=
  state_of w a (z + zd * t + c * u * (t * t) / 2) (zd + c * u * t) (exp (w * t) * (p + b * u / w) - b * u / w) (exp (- (w * t)) * (q - b * u / w) + b * u / w).
Lemma cart_motion_ode mc mp l g z zd p q u h : 0 < mc -> 0 < mp -> 0 < l -> 0 < g -> ode_solution (cart_A_free mc mp l g) (cart_B mc l) (zeros 4) [u] 4 h (cart_motion (pw mc mp l g) (pa mp mc l) (1 / (l * mc)) (1 / (mc + mp)) z zd p q u).
Proof.
  intros Hmc Hmp Hl Hg. pose proof (pw_pos mc mp l g Hmc Hmp Hl Hg) as Pw. pose proof (pw_sq mc mp l g Hmc Hmp Hl Hg) as Ew. set (w := pw mc mp l g) in *. split; [reflexivity|]. intros t _ i Hi. unfold cart_motion, state_of, pa, cart_A_free, cart_B.
  assert (EG : g = w * w * (l * mc) / (mc + mp)) by (rewrite Ew; field; lra).
  destruct i as [|[|[|[|]]]]; [| | | |lia]; cbn; apply is_derive_Reals; auto_derive; try exact I; rewrite ?EG; field; lra.
Qed.
Lemma cart_hold_step np mc mp l g h S z zd p q u : 0 < mc -> 0 < mp -> 0 < l -> 0 < g -> 0 <= h ->
  is_expm (mscale h (zoh_matrix (cart_A_free mc mp l g) (cart_B mc l) (zeros 4))) (np_expm np (mscale h (zoh_matrix (cart_A_free mc mp l g) (cart_B mc l) (zeros 4)))) 6 -> lin_from_continuous np (cart_A_free mc mp l g) (cart_B mc l) h "zero_order_hold" = Ok S ->
  let w := pw mc mp l g in let a := pa mp mc l in let b := 1 / (l * mc) in let c := 1 / (mc + mp) in
  linear_step (lA S) (lB S) (state_of w a z zd p q) [u] = state_of w a (z + zd * h + c * u * (h * h) / 2) (zd + c * u * h) (exp (w * h) * p + (exp (w * h) - 1) * (b / w) * u) (exp (- (w * h)) * q + (1 - exp (- (w * h))) * (b / w) * u).
Proof.
  intros Hmc Hmp Hl Hg Hh HE ES w a b c. pose proof (pw_pos mc mp l g Hmc Hmp Hl Hg) as Pw. fold w in Pw. assert (SS : system_shape (cart_A_free mc mp l g) (cart_B mc l) 4 1) by (split; unfold shape; cbn; repeat split; repeat constructor).
  destruct (proj1 (proj1 (lin_continuous np _ _ h) 4%nat 1%nat SS Hh) HE) as (S' & ES' & _ & HZ). rewrite ES in ES'. injection ES' as <-.
  pose proof (HZ [u] _ eq_refl (cart_motion_ode mc mp l g z zd p q u h Hmc Hmp Hl Hg)) as H. fold w a b c in H. unfold cart_motion at 2 in H. rewrite !Rmult_0_r, Ropp_0, exp_0 in H.
  match type of H with _ = linear_step _ _ ?s _ => replace s with (state_of w a z zd p q) in H end.
  - rewrite <- H. unfold cart_motion. unfold state_of. repeat (f_equal; [field; lra|]). f_equal. field; lra.
  - unfold state_of. repeat (f_equal; [field; lra|]). f_equal. field; lra.
Qed.
(*@ Theorem C97_cart_controllable : For all positive masses, lengths, gravity and all steps h > 0 the zero-order hold of the linearized cart-pole (from_continuous with zero_order_hold, exact matrix exponential) is controllable: some four inputs lead from any state to any other *)
Lemma cart_hold_steerable np mc mp l g h S : 0 < mc -> 0 < mp -> 0 < l -> 0 < g -> 0 < h ->
  is_expm (mscale h (zoh_matrix (cart_A_free mc mp l g) (cart_B mc l) (zeros 4))) (np_expm np (mscale h (zoh_matrix (cart_A_free mc mp l g) (cart_B mc l) (zeros 4)))) 6 -> lin_from_continuous np (cart_A_free mc mp l g) (cart_B mc l) h "zero_order_hold" = Ok S ->
  steerable (lA S) (lB S) 4 1 4.
Proof.
  intros Hmc Hmp Hl Hg Hh HE ES x0 xf L0 Lf. pose proof (cart_hold_step np mc mp l g h S) as ST. pose proof (pw_pos mc mp l g Hmc Hmp Hl Hg) as Pw. set (w := pw mc mp l g) in *. set (a := pa mp mc l) in *. set (b := 1 / (l * mc)) in *. set (c := 1 / (mc + mp)) in *.
  assert (Pb : 0 < b) by (unfold b; apply Rdiv_lt_0_compat; [lra|apply Rmult_lt_0_compat; lra]). assert (Pc : 0 < c) by (unfold c; apply Rdiv_lt_0_compat; lra).
  assert (ST' : forall z zd p q u, linear_step (lA S) (lB S) (state_of w a z zd p q) [u] = state_of w a (z + zd * h + c * u * (h * h) / 2) (zd + c * u * h) (exp (w * h) * p + (exp (w * h) - 1) * (b / w) * u) (exp (- (w * h)) * q + (1 - exp (- (w * h))) * (b / w) * u)) by (intros z zd p q u; apply ST; try assumption; lra). clear ST.
  destruct x0 as [|y1 [|y2 [|y3 [|y4 [|? ?]]]]]; try discriminate. destruct xf as [|v1 [|v2 [|v3 [|v4 [|? ?]]]]]; try discriminate. rewrite (state_coords w a y1 y2 y3 y4), (state_coords w a v1 v2 v3 v4) by exact Pw.
  set (z0 := y1 - a * y2). set (zd0 := y3 - a * y4). set (p0 := y4 + w * y2). set (q0 := y4 - w * y2). set (zf := v1 - a * v2). set (zdf := v3 - a * v4). set (pf := v4 + w * v2). set (qf := v4 - w * v2).
  set (la := exp (w * h)) in *. assert (L1 : 1 < la) by (unfold la; rewrite <- exp_0; apply exp_increasing; apply Rmult_lt_0_compat; lra). assert (EM : exp (- (w * h)) = / la) by (unfold la; apply exp_Ropp). rewrite EM in ST'. clearbody z0 zd0 p0 q0 zf zdf pf qf la w a b c.
  set (al := (zdf - zd0) / (c * h)). set (be := (zf - z0 - 4 * h * zd0) / (c * (h * h)) - al / 2). set (ga := (pf - la * la * la * la * p0) / ((la - 1) * (b / w))). set (de := (qf - / la * / la * / la * / la * q0) / ((1 - / la) * (b / w))).
  set (G := (ga - al - be * (la - 1)) / ((la - 1) * (la - 1))). set (D := (de - al - be * (/ la - 1)) / ((/ la - 1) * (/ la - 1))). set (B0 := (G - D) / (la - / la)). set (A0 := G - B0 * la).
  assert (IL : / la < 1) by (rewrite <- Rinv_1; apply Rinv_lt_contravar; lra). assert (PI : 0 < / la) by (apply Rinv_0_lt_compat; lra).
  exists (fun t => match t with 0%nat => [B0] | 1%nat => [A0 - 2 * B0] | 2%nat => [B0 - 2 * A0 + be] | _ => [A0 + al - be] end). split; [intros [|[|[|t]]]; reflexivity|].
  assert (Fal : al * (c * h) = zdf - zd0) by (unfold al; field; lra). assert (Fbe : (be + al / 2) * (c * (h * h)) = zf - z0 - 4 * h * zd0) by (unfold be; field; lra).
  assert (Fga : (la - 1) * (b / w) * ga = pf - la * la * la * la * p0) by (unfold ga; field; lra). assert (Fde : (1 - / la) * (b / w) * de = qf - / la * / la * / la * / la * q0) by (unfold de; set (i := / la) in *; field; lra).
  assert (FG : G * ((la - 1) * (la - 1)) = ga - al - be * (la - 1)) by (unfold G; field; lra). assert (FD : D * ((/ la - 1) * (/ la - 1)) = de - al - be * (/ la - 1)) by (unfold D; set (i := / la) in *; field; lra).
  assert (F1 : A0 + B0 * la = G) by (unfold A0; ring). assert (F2 : A0 + B0 * / la = D) by (unfold A0, B0; set (i := / la) in *; field; lra). clearbody al be ga de G D A0 B0. set (i := / la) in *. clearbody i.
  cbn [state]. repeat match goal with |- context [vadd (mv (lA S) ?x) (mv (lB S) ?u)] => change (vadd (mv (lA S) x) (mv (lB S) u)) with (linear_step (lA S) (lB S) x u) end. rewrite !ST'.
  match goal with |- state_of _ _ ?z1 ?z2 ?z3 ?z4 = _ => assert (E1 : z1 = zf); [|assert (E2 : z2 = zdf); [|assert (E3 : z3 = pf); [|assert (E4 : z4 = qf); [|rewrite E1, E2, E3, E4; reflexivity]]]] end.
  - transitivity (z0 + 4 * h * zd0 + (be + al / 2) * (c * (h * h))); [field|lra].
  - transitivity (zd0 + al * (c * h)); [ring|lra].
  - transitivity (la * la * la * la * p0 + (la - 1) * (b / w) * ((A0 + B0 * la) * ((la - 1) * (la - 1)) + al + be * (la - 1))); [ring|]. rewrite F1, FG. replace (ga - al - be * (la - 1) + al + be * (la - 1)) with ga by ring. lra.
  - transitivity (i * i * i * i * q0 + (1 - i) * (b / w) * ((A0 + B0 * i) * ((i - 1) * (i - 1)) + al + be * (i - 1))); [ring|]. rewrite F2, FD. replace (de - al - be * (i - 1) + al + be * (i - 1)) with de by ring. lra.
Qed.
Lemma continuous_fresh np A B h method S : lin_from_continuous np A B h method = Ok S -> l_controllable S = None.
Proof. intros ES. unfold lin_from_continuous in ES. destruct (check_affine_system _ _ _ _); [|discriminate]. cbn [bind] in ES. destruct (if String.eqb _ _ then _ else _) as [[[Ad Bd] cd]|]; [|discriminate]. cbn [bind] in ES. unfold LinearSystem in ES. destruct (check_affine_system _ _ _ _); [|discriminate]. cbn [bind] in ES. injection ES as <-. reflexivity. Qed.
(*@ Theorem C97_cart : The nonlinear cart-pole of cart_pole_dynamics.m (free, or pushed back by one of the walls) in continuous time, for all positive parameters and steps: solve_dare succeeds for the zero-order hold of the linearization, and its gain K stabilizes the nonlinear plant: there are rho > 0 and constants c, m such that on all motions with u = K x(k h) for k h <= t < (k+1) h and |x(0)| <= rho, |x(t)| <= c (3/4)^(k / m) |x(0)| for all times t in [k h, (k+1) h] *)
Lemma cart_sampled_lqr np mc mp l d k g h Q Rm : 0 < mc -> 0 < mp -> 0 < l -> 0 < d -> 0 < g -> 0 < h -> shape Q 4 4 -> shape Rm 1 1 -> Spec.pd Q 4 -> Spec.pd Rm 1 -> exact_np np ->
  is_expm (mscale h (zoh_matrix (cart_A_free mc mp l g) (cart_B mc l) (zeros 4))) (np_expm np (mscale h (zoh_matrix (cart_A_free mc mp l g) (cart_B mc l) (zeros 4)))) 6 ->
  (forall S, lin_from_continuous np (cart_A_free mc mp l g) (cart_B mc l) h "zero_order_hold" = Ok S -> riccati (lA S) (lB S) Q Rm (np_dare np (lA S) (lB S) Q Rm) 4 1 /\ psd (np_dare np (lA S) (lB S) Q Rm) 4) ->
  exists S P K, lin_from_continuous np (cart_A_free mc mp l g) (cart_B mc l) h "zero_order_hold" = Ok S /\ fst (solve_dare np S Q Rm) = Ok (P, K) /\
  exists m c rho, (0 < m)%nat /\ 0 <= c /\ 0 < rho /\ forall phi, length (phi 0%nat 0) = 4%nat -> sup (phi 0%nat 0) <= rho -> (forall T, sampled_run (cart_field mc mp l d k g) (fun x u => u = mv K x) 4 h phi T) ->
  forall i t, 0 <= t <= h -> sup (phi i t) <= c * (3 / 4) ^ (i / m) * sup (phi 0%nat 0).
Proof.
  intros Hmc Hmp Hl Hd Hg Hh SQ SR PQ PR Hnp HE RIC. assert (SS : system_shape (cart_A_free mc mp l g) (cart_B mc l) 4 1) by (split; unfold shape; cbn; repeat split; repeat constructor).
  destruct (proj1 (proj1 (lin_continuous np _ _ h) 4%nat 1%nat SS ltac:(lra)) HE) as (S & ES & (SA & SB) & _). destruct (RIC S ES) as (RI & PSD). pose proof (cart_hold_steerable np mc mp l g h S Hmc Hmp Hl Hg Hh HE ES) as STE.
  pose proof (continuous_fresh _ _ _ _ _ _ ES) as FC.
  destruct (proj1 (solve_dare_ok np S Q Rm 4 1 Hnp SA SB SQ SR ltac:(lia) FC PR RI PSD) STE) as (P & K & ED). exists S, P, K. split; [exact ES|]. split; [exact ED|].
  apply (sampled_lqr np (cart_field mc mp l d k g) (cart_A_free mc mp l g) (cart_B mc l) 4 1 h S Q Rm P K Hnp); try assumption.
  - split; [exact SS|]. split; [lra|]. split; [apply cart_field_derivative; assumption|]. split; assumption.
  - split; [lia|]. split; [exact FC|]. split; [exact RI|]. split; [exact PSD|exact ED].
Qed.
Definition np_hold (P : mat) : numpy := exact_numpy (fun A => A) spectral expm0 (fun _ _ _ _ => P) (fun _ n => zeros n) (fun _ _ _ => Ok []) (fun _ => Err QhullError).
Lemma np_hold_exact P : exact_np (np_hold P).
Proof. split; [exact nnls0_ok|]. split; [exact pinv0_ok|]. split; [exact chol0_ok|]. split; [exact inv0_ok|]. split; [exact solve0_ok|exact svd0_ok]. Qed.
(*@ Example C97_cart_example : For the numbers of the script and the notebook and Q, R identities there are exact libraries that meet the hypotheses of C97_cart *)
Lemma cart_hold_example : exists np, exact_np np /\ is_expm (mscale (/ 20) (zoh_matrix (cart_A_free 1 1 1 10) (cart_B 1 1) (zeros 4))) (np_expm np (mscale (/ 20) (zoh_matrix (cart_A_free 1 1 1 10) (cart_B 1 1) (zeros 4)))) 6 /\
  forall S, lin_from_continuous np (cart_A_free 1 1 1 10) (cart_B 1 1) (/ 20) "zero_order_hold" = Ok S -> riccati (lA S) (lB S) (eye 4) (eye 1) (np_dare np (lA S) (lB S) (eye 4) (eye 1)) 4 1 /\ psd (np_dare np (lA S) (lB S) (eye 4) (eye 1)) 4.
Proof.
  assert (SS : system_shape (cart_A_free 1 1 1 10) (cart_B 1 1) 4 1) by (split; unfold shape; cbn; repeat split; repeat constructor).
  assert (HE : forall P, is_expm (mscale (/ 20) (zoh_matrix (cart_A_free 1 1 1 10) (cart_B 1 1) (zeros 4))) (np_expm (np_hold P) (mscale (/ 20) (zoh_matrix (cart_A_free 1 1 1 10) (cart_B 1 1) (zeros 4)))) 6).
  { intros P. apply expm0_ok. apply shape_mscale. apply (zoh_shape _ _ _ 4 1); [apply SS|apply SS|reflexivity]. }
  destruct (proj1 (proj1 (lin_continuous (np_hold (eye 4)) _ _ (/ 20)) 4%nat 1%nat SS ltac:(lra)) (HE _)) as (S & ES & (SA & SB) & _).
  pose proof (cart_hold_steerable _ 1 1 1 10 (/ 20) S ltac:(lra) ltac:(lra) ltac:(lra) ltac:(lra) ltac:(lra) (HE _) ES) as STE.
  destruct (dare_exists (lA S) (lB S) (eye 4) (eye 1) 4 1 SA SB (shape_eye 4) (shape_eye 1) (pd_psd _ _ (SolverThms.pd_eye 4)) (SolverThms.pd_eye 1) STE) as (P & RI & PSD & _).
  exists (np_hold P). split; [apply np_hold_exact|]. split; [apply HE|]. intros S' ES'. change (lin_from_continuous (np_hold (eye 4)) (cart_A_free 1 1 1 10) (cart_B 1 1) (/ 20) "zero_order_hold" = Ok S') in ES'. rewrite ES in ES'. injection ES' as <-. split; [exact RI|exact PSD].
Qed.
(** ** Scalar plants *)
Lemma scalar_pair np a b q r p : exact_np np -> np_dare np (Mat 1 [[a]]) (Mat 1 [[b]]) (Mat 1 [[q]]) (Mat 1 [[r]]) = Mat 1 [[p]] -> b <> 0 -> 0 < r -> 0 <= p -> p * (r + b * b * p) = a * a * p * (r + b * b * p) - (a * p * b) * (a * p * b) + q * (r + b * b * p) ->
  lqr_pair np (LSys (Mat 1 [[a]]) (Mat 1 [[b]]) None) (Mat 1 [[q]]) (Mat 1 [[r]]) (Mat 1 [[p]]) (Mat 1 [[- (b * p * a / (r + b * b * p))]]) 1 1.
Proof.
  intros Hnp EP Nb Pr Pp E. set (S := LSys _ _ _). assert (D0 : r + b * b * p <> 0) by nra. assert (RI : riccati (Mat 1 [[a]]) (Mat 1 [[b]]) (Mat 1 [[q]]) (Mat 1 [[r]]) (Mat 1 [[p]]) 1 1) by (apply scalar_riccati; assumption).
  assert (PS : psd (Mat 1 [[p]]) 1) by (apply scalar_psd; exact Pp). split; [lia|]. split; [reflexivity|]. cbn [lA lB S]. rewrite EP. split; [exact RI|]. split; [exact PS|].
  destruct (dare_returns np Hnp S (Mat 1 [[q]]) (Mat 1 [[r]]) 1 1 (scalar_shape _) (scalar_shape _) (scalar_shape _) ltac:(lia) eq_refl (scalar_pd r Pr)) as (R1 & _ & R3); [cbn [lA lB S]; rewrite EP; exact RI|cbn [lA lB S]; rewrite EP; exact PS|].
  destruct (R1 (scalar_steerable a b Nb)) as (K & EK). destruct (R3 _ _ EK) as (_ & Mi & SM & _ & HM & EK'). rewrite EK, EK'. cbn [lA lB S] in *. rewrite EP in *. do 2 f_equal.
  destruct Mi as [nc rs]. destruct SM as (L1 & L2 & L3). cbn in L1, L2, L3. subst nc. destruct rs as [|v [|]]; try discriminate L1. inversion L3 as [|? ? Lv _]; subst. destruct v as [|mi [|]]; try discriminate Lv.
  cbv -[Rplus Rmult IZR Rminus Ropp] in HM. injection HM as HM. assert (EM : mi = / (r + b * b * p)). { apply (Rmult_eq_reg_r (r + b * b * p)); [|exact D0]. rewrite Rinv_l by exact D0. lra. } subst mi. cbv -[Rplus Rmult IZR Rminus Ropp Rdiv Rinv]. f_equal. f_equal. f_equal. field. exact D0.
Qed.
Lemma scalar_system S a b : system_shape (lA S) (lB S) 1 1 -> l_controllable S = None -> (forall x u, linear_step (lA S) (lB S) [x] [u] = [a * x + b * u]) -> S = LSys (Mat 1 [[a]]) (Mat 1 [[b]]) None.
Proof.
  intros (SA & SB) FC H. destruct S as [A B lc]. cbn [lA lB l_controllable] in *. subst lc. destruct A as [na ra], B as [nb rb]. destruct SA as (A1 & A2 & A3), SB as (B1 & B2 & B3). cbn in A1, A2, A3, B1, B2, B3. subst na nb.
  destruct ra as [|va [|]]; try discriminate A1. destruct rb as [|vb [|]]; try discriminate B1. inversion A3 as [|? ? La _]; subst. inversion B3 as [|? ? Lb _]; subst. destruct va as [|ea [|]]; try discriminate La. destruct vb as [|eb [|]]; try discriminate Lb.
  pose proof (H 1 0) as H1. pose proof (H 0 1) as H2. cbn in H1, H2. injection H1 as H1. injection H2 as H2. assert (ea = a) by lra. assert (eb = b) by lra. subst. reflexivity.
Qed.
Definition bilinear (x u : vec) : vec := [nth 0 u 0 * (1 + nth 0 x 0)].
Lemma sup1 a : sup [a] = Rabs a.
Proof. cbn. apply Rmax_left, Rabs_pos. Qed.
Lemma bilinear_derivative : field_derivative bilinear (Mat 1 [[0]]) (Mat 1 [[1]]) 1 1.
Proof.
  split; [reflexivity|]. intros eps He. exists eps. split; [exact He|]. intros [|x [|]] [|u [|]] Lx Lu Hx Hu; try discriminate. rewrite sup1 in *. change (sup (vsub (bilinear [x] [u]) (linear_step (Mat 1 [[0]]) (Mat 1 [[1]]) [x] [u]))) with (sup [u * (1 + x) - ((0 * x + 0) + (1 * u + 0))]). rewrite !sup1.
  replace (u * (1 + x) - ((0 * x + 0) + (1 * u + 0))) with (u * x) by ring. rewrite Rabs_mult. pose proof (Rabs_pos u). pose proof (Rabs_pos x). nra.
Qed.
Lemma hold_integrator P : exists S, hold_model (np_hold P) bilinear (Mat 1 [[0]]) (Mat 1 [[1]]) 1 1 1 S /\ S = S_1.
Proof.
  assert (SS : system_shape (Mat 1 [[0]]) (Mat 1 [[1]]) 1 1) by (split; apply scalar_shape).
  assert (HE : is_expm (mscale 1 (zoh_matrix (Mat 1 [[0]]) (Mat 1 [[1]]) (zeros 1))) (np_expm (np_hold P) (mscale 1 (zoh_matrix (Mat 1 [[0]]) (Mat 1 [[1]]) (zeros 1)))) 3) by (apply expm0_ok, shape_mscale, (zoh_shape _ _ _ 1 1); [apply SS|apply SS|reflexivity]).
  destruct (proj1 (proj1 (lin_continuous (np_hold P) _ _ 1) 1%nat 1%nat SS ltac:(lra)) HE) as (S & ES & SD & HZ). exists S. split.
  - split; [exact SS|]. split; [lra|]. split; [exact bilinear_derivative|]. split; [exact HE|exact ES].
  - apply scalar_system; [exact SD|exact (continuous_fresh _ _ _ _ _ _ ES)|]. intros x u. replace x with (x + u * 0) at 1 by ring. rewrite <- (HZ [u] (fun t => [x + u * t]) eq_refl).
    + f_equal. ring.
    + split; [reflexivity|]. intros t _ [|i] Hi; [|lia]. cbn. replace (0 * (x + u * t) + 0 + (1 * u + 0) + 0) with u by ring. apply is_derive_Reals. auto_derive; [exact I|]. ring.
Qed.
(** the motions of dx/dt = (1 + x) u, sampled with u = - x / 2 *)
Fixpoint bilinear_state (z : R) (k : nat) : R := match k with O => z | Datatypes.S k' => (1 + bilinear_state z k') * exp (- (1 / 2) * bilinear_state z k') - 1 end.
Definition bilinear_run (z : R) (k : nat) (t : R) : vec := [(1 + bilinear_state z k) * exp (- (1 / 2) * bilinear_state z k * t) - 1].
Lemma bilinear_start z k : bilinear_run z k 0 = [bilinear_state z k].
Proof. unfold bilinear_run. rewrite Rmult_0_r, exp_0. f_equal. ring. Qed.
Lemma bilinear_motion z k u : u = mv (Mat 1 [[- (1 / 2)]]) (bilinear_run z k 0) -> bilinear_run z (Datatypes.S k) 0 = bilinear_run z k 1 /\ held_solution bilinear u 1 1 (bilinear_run z k).
Proof.
  intros ->. rewrite !bilinear_start. split.
  - unfold bilinear_run. cbn [bilinear_state]. rewrite Rmult_1_r. reflexivity.
  - split; [reflexivity|]. intros t _ [|i] Hi; [|lia]. unfold bilinear, bilinear_run. cbn [nth mv rows map]. cbn. apply is_derive_Reals. auto_derive; [exact I|]. ring.
Qed.
(*@ Example C97_example : dx/dt = (1 + x) u with h = 1: the zero-order hold of its linearization dx/dt = u is x + u; with Q = 1, R = 2, K = -1/2, horizon 1 and terminal set [-1, 1], all hypotheses of C97_lqr and C97_mpc hold, and from every state there is a run of the plant with the gain and, where the controller returns K x, with the controller: x(t) = (1 + x_k) exp(- x_k t / 2) - 1 between the samples *)
Lemma hold_example : exists np C, exact_np np /\ hold_model np bilinear (Mat 1 [[0]]) (Mat 1 [[1]]) 1 1 1 S_1 /\ mpc_data S_1 1 (Mat 1 [[1]]) (Mat 1 [[2]]) (Mat 1 [[2]]) D_box X_int 1 1 /\ ModelPredictiveController np S_1 1 (Mat 1 [[1]]) (Mat 1 [[2]]) (Mat 1 [[2]]) D_box X_int = Ok C /\
  lqr_pair np S_1 (Mat 1 [[1]]) (Mat 1 [[2]]) (Mat 1 [[2]]) (Mat 1 [[- (1 / 2)]]) 1 1 /\ Spec.pd (Mat 1 [[1]]) 1 /\ Spec.pd (Mat 1 [[2]]) 1 /\ terminal_invariant (lA S_1) (lB S_1) (Mat 1 [[- (1 / 2)]]) (in_poly D_box) (in_poly X_int) /\
  (forall x, length x = 1%nat -> sup x <= 1 -> in_poly X_int x) /\ forall z, bilinear_run z 0 0 = [z] /\ (forall T, sampled_run bilinear (fun x u => u = mv (Mat 1 [[- (1 / 2)]]) x) 1 1 (bilinear_run z) T) /\
  forall k, Rabs (bilinear_state z k) <= 1 -> feedback np C (bilinear_run z k 0) = Ok (Some (mv (Mat 1 [[- (1 / 2)]]) (bilinear_run z k 0))) /\ forall u, feedback np C (bilinear_run z k 0) = Ok (Some u) -> bilinear_run z (Datatypes.S k) 0 = bilinear_run z k 1 /\ held_solution bilinear u 1 1 (bilinear_run z k).
Proof.
  set (np := np_hold (Mat 1 [[2]])). assert (Hnp : exact_np np) by apply np_hold_exact. destruct (hold_integrator (Mat 1 [[2]])) as (S & HM & ->).
  assert (HD : mpc_data S_1 1 (Mat 1 [[1]]) (Mat 1 [[2]]) (Mat 1 [[2]]) D_box X_int 1 1) by (apply mpc_data_1; [exact wf_D_box|exact wf_X_int|lra|lra|lra]).
  destruct (mpc_program np _ _ _ _ _ _ _ _ _ Hnp HD) as (q & m & E & _). exists np, (MPC S_1 1 q).
  assert (TI : terminal_invariant (lA S_1) (lB S_1) (Mat 1 [[- (1 / 2)]]) (in_poly D_box) (in_poly X_int)).
  { intros x Hx. pose proof (proj1 Hx) as Lx. cbn in Lx. destruct x as [|a [|]]; try discriminate Lx. apply in_X_int in Hx. split.
    - cbn. apply in_D_box. lra.
    - cbn. apply in_X_int. lra. }
  assert (HL : lqr_pair np S_1 (Mat 1 [[1]]) (Mat 1 [[2]]) (Mat 1 [[2]]) (Mat 1 [[- (1 / 2)]]) 1 1).
  { replace (- (1 / 2)) with (- (1 * 2 * 1 / (2 + 1 * 1 * 2))) by lra. apply scalar_pair; [exact Hnp|reflexivity|lra|lra|lra|lra]. }
  assert (BX : forall x, length x = 1%nat -> sup x <= 1 -> in_poly X_int x).
  { intros [|a [|]] L H; try discriminate L. apply in_X_int. rewrite sup1 in H. apply rabs_inv in H. lra. }
  split; [exact Hnp|]. split; [exact HM|]. split; [exact HD|]. split; [exact E|]. split; [exact HL|]. split; [apply scalar_pd; lra|]. split; [apply scalar_pd; lra|]. split; [exact TI|]. split; [exact BX|]. intros z. split; [apply bilinear_start|]. split.
  - intros T k _. destruct (bilinear_motion z k _ eq_refl) as (H1 & H2). split; [exact H1|]. eexists. split; [reflexivity|exact H2].
  - intros k Hk. assert (F : feedback np (MPC S_1 1 q) (bilinear_run z k 0) = Ok (Some (mv (Mat 1 [[- (1 / 2)]]) (bilinear_run z k 0)))).
    { apply (mpc_feedback_lqr np _ _ _ _ _ _ _ _ 1 1 _ _ Hnp HD E HL TI); [reflexivity|]. apply BX; [reflexivity|]. rewrite bilinear_start, sup1. exact Hk. }
    split; [exact F|]. intros u Eu. rewrite F in Eu. injection Eu as <-. apply bilinear_motion. reflexivity.
Qed.
(** ** Explicit Euler *)
Lemma euler_scalar np : exists S, lin_from_continuous np (Mat 1 [[1]]) (Mat 1 [[1]]) 2 "explicit_euler" = Ok S /\ S = LSys (Mat 1 [[3]]) (Mat 1 [[2]]) None.
Proof.
  assert (SS : system_shape (Mat 1 [[1]]) (Mat 1 [[1]]) 1 1) by (split; apply scalar_shape). destruct (proj2 (proj1 (lin_continuous np _ _ 2) 1%nat 1%nat SS ltac:(lra))) as (S & ES & SD & H). exists S. split; [exact ES|].
  apply scalar_system; [exact SD|exact (continuous_fresh _ _ _ _ _ _ ES)|]. intros x u. rewrite H by reflexivity. cbn. f_equal. ring.
Qed.
Lemma exp_2_big : 13 / 2 + 6 / 100 < exp 2.
Proof.
  assert (H : 1 + / 8 < exp (/ 8)) by (apply exp_ineq1; lra). replace 2 with (/ 8 + / 8 + (/ 8 + / 8) + (/ 8 + / 8 + (/ 8 + / 8)) + (/ 8 + / 8 + (/ 8 + / 8) + (/ 8 + / 8 + (/ 8 + / 8)))) by field.
  assert (D : forall x c, 0 < c -> c < exp x -> c * c < exp (x + x)). { intros x c Hc H1. rewrite exp_plus. apply Rmult_le_0_lt_compat; lra. }
  apply D in H; [|lra]. apply D in H; [|lra]. apply D in H; [|lra]. apply D in H; [|lra]. lra.
Qed.
Definition unstable_run (z : R) (k : nat) (t : R) : vec := [((15 - 4 * exp 2) / 11) ^ k * z * ((15 - 4 * exp t) / 11)].
(*@ Theorem C97_euler_refuted : With from_continuous(A, B, h, 'explicit_euler') the claim C97_lqr is false, even for a linear plant: dx/dt = x + u, h = 2, whose Euler model 3 x + 2 u is stabilized by the gain -15/11 of solve_dare (Q = 2/11, R = 2/5). On the plant, with the input held, |x(k h)| grows at least like 1.01^k from every initial state *)
Lemma euler_refuted : exists np S Q Rm P K, exact_np np /\ field_derivative (fun x u => vadd x u) (Mat 1 [[1]]) (Mat 1 [[1]]) 1 1 /\ lin_from_continuous np (Mat 1 [[1]]) (Mat 1 [[1]]) 2 "explicit_euler" = Ok S /\
  shape Q 1 1 /\ shape Rm 1 1 /\ Spec.pd Q 1 /\ Spec.pd Rm 1 /\ lqr_pair np S Q Rm P K 1 1 /\ attractive (madd (lA S) (mm (lB S) K)) 1 /\
  forall z, exists phi, phi 0%nat 0 = [z] /\ (forall T, sampled_run (fun x u => vadd x u) (fun x u => u = mv K x) 1 2 phi T) /\ forall k, (101 / 100) ^ k * Rabs z <= sup (phi k 0).
Proof.
  set (np := np_hold (Mat 1 [[1]])). assert (Hnp : exact_np np) by apply np_hold_exact. destruct (euler_scalar np) as (S & ES & EQ). subst S.
  assert (HL : lqr_pair np (LSys (Mat 1 [[3]]) (Mat 1 [[2]]) None) (Mat 1 [[2 / 11]]) (Mat 1 [[2 / 5]]) (Mat 1 [[1]]) (Mat 1 [[- (15 / 11)]]) 1 1).
  { replace (- (15 / 11)) with (- (2 * 1 * 3 / (2 / 5 + 2 * 2 * 1))) by lra. apply scalar_pair; [exact Hnp|reflexivity|lra|lra|lra|lra]. }
  exists np, (LSys (Mat 1 [[3]]) (Mat 1 [[2]]) None), (Mat 1 [[2 / 11]]), (Mat 1 [[2 / 5]]), (Mat 1 [[1]]), (Mat 1 [[- (15 / 11)]]). split; [exact Hnp|]. split.
  { split; [intros [|x [|]] [|u [|]] Lx Lu; try discriminate; reflexivity|]. intros eps He. exists 1. split; [lra|]. intros [|x [|]] [|u [|]] Lx Lu _ _; try discriminate. change (sup (vsub (vadd [x] [u]) (linear_step (Mat 1 [[1]]) (Mat 1 [[1]]) [x] [u]))) with (sup [x + u - ((1 * x + 0) + (1 * u + 0))]).
    rewrite !sup1. replace (x + u - ((1 * x + 0) + (1 * u + 0))) with 0 by ring. rewrite Rabs_R0. apply Rmult_le_pos; [lra|]. pose proof (Rabs_pos x). pose proof (Rabs_pos u). lra. }
  split; [exact ES|]. split; [apply scalar_shape|]. split; [apply scalar_shape|]. split; [apply scalar_pd; lra|]. split; [apply scalar_pd; lra|]. split; [exact HL|]. split.
  { apply (lqr_attractive np (LSys (Mat 1 [[3]]) (Mat 1 [[2]]) None) (Mat 1 [[2 / 11]]) (Mat 1 [[2 / 5]]) 1 1 (Mat 1 [[1]]) (Mat 1 [[- (15 / 11)]]) Hnp); try apply scalar_shape; try (apply scalar_pd; lra). exact HL. }
  intros z. exists (unstable_run z). assert (E0 : forall k, unstable_run z k 0 = [((15 - 4 * exp 2) / 11) ^ k * z]) by (intros k; unfold unstable_run; rewrite exp_0; f_equal; field). split; [rewrite E0; f_equal; cbn; ring|]. split.
  - intros T k _. split; [rewrite E0; unfold unstable_run; f_equal; cbn [pow]; ring|]. eexists. split; [reflexivity|]. rewrite E0. split; [reflexivity|]. intros t _ [|i] Hi; [|lia]. unfold unstable_run. cbn. apply is_derive_Reals. auto_derive; [exact I|]. field.
  - intros k. rewrite E0, sup1, Rabs_mult. apply Rmult_le_compat_r; [apply Rabs_pos|]. rewrite <- RPow_abs. apply pow_incr. split; [lra|]. pose proof exp_2_big. rewrite Rabs_left by lra. lra.
Qed.
(*@ Example C97_hybrid_example : The plant dx/dt = (1 + x) u with h = 1 and the hybrid controller of C96_hybrid_example, whose mode of the origin is its zero-order hold x + u: all hypotheses of C97_hybrid hold, and for x(0) = 1 there is a Gurobi with which feedback returns K x(0) = -1/2 and the plant moves along 2 exp(- t / 2) - 1 until the next sample *)
Lemma hold_hybrid_example : exists np C, hold_model np bilinear (Mat 1 [[0]]) (Mat 1 [[1]]) 1 1 1 S_1 /\ hyb_controller np W_near 1 I_1 R_2 R_2 X_int 1 1 2 0 C /\ origin_mode W_near 0 S_1 D_box 1 2 /\
  lqr_pair np S_1 I_1 R_2 R_2 (Mat 1 [[- (1 / 2)]]) 1 1 /\ Spec.pd I_1 1 /\ terminal_invariant (lA S_1) (lB S_1) (Mat 1 [[- (1 / 2)]]) (in_poly D_box) (in_poly X_int) /\ (forall x, length x = 1%nat -> sup x <= 1 -> in_poly X_int x) /\
  exists grb, gurobi_solves grb (k_mpmiqp C) (bilinear_run 1 0 0) /\ forall k u, (k < 1)%nat -> hybrid_feedback grb C (bilinear_run 1 k 0) = Ok (Some u) -> u = [- (1 / 2)] /\ bilinear_run 1 (Datatypes.S k) 0 = bilinear_run 1 k 1 /\ held_solution bilinear u 1 1 (bilinear_run 1 k).
Proof.
  destruct hybrid_level_example as (C & (Hn0 & H1 & H2 & H3 & H4 & H5 & H6 & EC) & OM & _ & PI & TI & BALL & _ & grb & HG & FB & _). set (np := np_hold R_2). assert (Hnp : exact_np np) by apply np_hold_exact. destruct (hold_integrator R_2) as (S & HM & ->). exists np, C. split; [exact HM|].
  assert (EC' : HybridModelPredictiveController np W_near 1 I_1 R_2 R_2 X_int = Ok C).
  { rewrite <- EC. unfold HybridModelPredictiveController. destruct (near_constants np Hnp) as (-> & ->). destruct (near_constants _ Hn0) as (-> & ->). reflexivity. }
  split; [repeat (split; [assumption|]); exact EC'|]. split; [exact OM|]. split.
  { replace (- (1 / 2)) with (- (1 * 2 * 1 / (2 + 1 * 1 * 2))) by lra. apply scalar_pair; [exact Hnp|reflexivity|lra|lra|lra|lra]. }
  split; [exact PI|]. split; [exact TI|]. split; [exact BALL|]. exists grb. split; [rewrite bilinear_start; exact HG|]. intros [|k] u Hk Eu; [|lia]. rewrite bilinear_start in Eu. cbn [bilinear_state] in Eu. rewrite FB in Eu. injection Eu as <-. split; [reflexivity|]. apply bilinear_motion. rewrite bilinear_start. cbn. f_equal. lra.
Qed.
