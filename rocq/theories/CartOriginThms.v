(** * CartOriginThms: the controller of the notebook on a nonlinear plant (C98), proofs *)
From Coq Require Import Lra Lia String.
From Coquelicot Require Import Coquelicot.
From Verif Require Import Arr ArrFacts Spec SpecMpc SpecProg SpecDyn SpecEig SpecRound SpecHold SpecOrigin SpecCart Numpy Dynamics DynThms ZohThms OdeThms SampThms LqrThms QpFacts SolverThms Oracle CondenseThms McaisThms Mpqp Controllers Polyhedron PolyThms CtrlThms HorizonThms DareThms NoteThms SpectralThms RoundThms RoundSimThms Walls WallThms CartDyn LocalThms Gurobi Programs Hybrid HybridThms HybridOptThms HybridLoopThms ExampleCtrl ExThms ExLoopThms CartPole CartThms PlantThms HoldThms CartHoldThms OriginThms.
Local Open Scope list_scope.

Lemma step_ext A B c A' B' nx nu : shape A nx nx -> shape B nx nu -> length c = nx -> shape A' nx nx -> shape B' nx nu -> (forall x u, length x = nx -> length u = nu -> affine_step A B c x u = linear_step A' B' x u) -> A = A' /\ B = B' /\ c = zeros nx.
Proof.
  intros SA SB Lc SA' SB' H. unfold affine_step, linear_step in H. assert (Z : forall m n (M : mat), shape M m n -> mv M (zeros n) = zeros m) by (intros m n M (L & _); rewrite mv_zeros; unfold nrows; rewrite L; reflexivity).
  assert (E : c = zeros nx). { pose proof (H (zeros nx) (zeros nu) (zeros_length _) (zeros_length _)) as H0. rewrite !(Z nx nx) in H0 by assumption. rewrite !(Z nx nu) in H0 by assumption. rewrite vadd_zeros_r in H0 by apply zeros_length. rewrite vadd_zeros_l in H0 by exact Lc. exact H0. }
  subst c. split; [|split; [|reflexivity]].
  - apply (mat_ext A A' nx nx SA SA'). intros x Lx. pose proof (H x (zeros nu) Lx (zeros_length _)) as H0. rewrite !(Z nx nu) in H0 by assumption. rewrite !vadd_zeros_r in H0 by (rewrite ?vadd_length, ?mv_length, ?zeros_length, ?(proj1 SA), ?(proj1 SA'); lia). exact H0.
  - apply (mat_ext B B' nx nu SB SB'). intros u Lu. pose proof (H (zeros nx) u (zeros_length _) Lu) as H0. rewrite !(Z nx nx) in H0 by assumption. rewrite vadd_zeros_r in H0 by (rewrite vadd_length, mv_length, zeros_length, (proj1 SB); lia). rewrite !vadd_zeros_l in H0 by (rewrite mv_length; first [apply SB|apply SB']). exact H0.
Qed.
Lemma positive_bound (f : nat -> R) (k n : nat) : (forall j, (j < n)%nat -> j <> k -> 0 < f j) -> exists m, 0 < m /\ forall j, (j < n)%nat -> j <> k -> m <= f j.
Proof.
  induction n as [|n IH]; intros H; [exists 1; split; [lra|intros; lia]|]. destruct (IH ltac:(intros; apply H; lia)) as (m & Pm & Hm). destruct (Nat.eq_dec n k) as [->|N].
  - exists m. split; [exact Pm|]. intros j Hj Nj. apply Hm; lia.
  - exists (Rmin m (f n)). split; [apply Rmin_glb_lt; [exact Pm|apply H; lia]|]. intros j Hj Nj. destruct (Nat.eq_dec j n) as [->|]; [apply Rmin_r|]. eapply Rle_trans; [apply Rmin_l|]. apply Hm; lia.
Qed.
(** the mode of the origin of the model of the notebook *)
Lemma cart_origin_mode ridges np taylor nx k xlim ulim a b n h W A B S : cart_setup np taylor nx k xlim ulim a b n h -> (exists j, (j < n)%nat /\ a + INR j * ((b - a) / (INR n - 1)) = 0) -> taylor (zeros nx) = (A, B, zeros nx) ->
  (forall j, (j < nx)%nat -> j <> k -> 0 < nth j xlim 0) -> 0 < ulim -> cart_pole_pwa ridges np taylor nx k xlim ulim a b n h = Ok W -> lin_from_continuous np A B h "zero_order_hold" = Ok S ->
  system_shape A B nx 1 /\ is_expm (mscale h (zoh_matrix A B (zeros nx))) (np_expm np (mscale h (zoh_matrix A B (zeros nx)))) (nx + 1 + 1) /\
  exists j D dl sg, (j < n)%nat /\ origin_mode W j S D nx dl /\ 0 < sg /\ forall xu, length xu = (nx + 1)%nat -> sup xu <= sg -> in_poly D xu.
Proof.
  intros CS (j & Hj & Ej) ET XP UP EW ES. destruct (cart_model ridges np taylor nx k xlim ulim a b n h CS) as (W' & EW' & LS & HW & HD & HE & HM & _). rewrite EW in EW'. injection EW' as <-.
  pose proof HW as (Wx & Wu & (_ & HS) & LD & HDw). pose proof CS as (Hk & Lx & _ & _ & Hn & Hab & _ & Hh & HT). pose proof (step_pos a b n Hab Hn) as SP. set (st := grid_step a b n) in *.
  assert (EZ : vscale 0 (unit nx k) = zeros nx). { apply (nth_ext _ _ 0 0); [rewrite vscale_length, unit_length, zeros_length; reflexivity|]. intros i _. rewrite nth_vscale, nth_zeros. ring. }
  assert (IP : In (zeros nx) (linearization_points nx k a b n)). { apply points_in. exists j. split; [exact Hj|]. unfold grid, grid_step. rewrite Ej. symmetry. exact EZ. }
  specialize (HT _ IP). rewrite ET in HT. destruct HT as (SS & _ & HX). split; [exact SS|]. split; [exact HX|].
  destruct (proj1 (proj1 (lin_continuous np A B h) nx 1%nat SS Hh) HX) as (S' & ES' & (SA & SB) & HZ). rewrite ES in ES'. injection ES' as <-.
  assert (G0 : grid a b n j = 0) by exact Ej. destruct (HM j Hj) as (HM1 & HM2). rewrite Ej, EZ, ET in HM1.
  assert (IJ : In (nth j (w_sys W) asys0) (w_sys W)) by (apply nth_In; lia). destruct (HS _ IJ) as ((SAj & SBj) & Lcj).
  assert (EJ : nth j (w_sys W) asys0 = ASys (lA S) (lB S) (zeros nx)).
  { destruct (step_ext (aA (nth j (w_sys W) asys0)) (aB (nth j (w_sys W) asys0)) (ac (nth j (w_sys W) asys0)) (lA S) (lB S) nx 1 SAj SBj Lcj SA SB) as (E1 & E2 & E3).
    - intros x u Lxx Lu. destruct (proj1 (ode_solutions A B (zeros nx) u x nx 1 SS (zeros_length _) Lu Lxx)) as (y & Y0 & HY). pose proof (HM1 u y Lu (HY h)) as H1. pose proof (HZ u y Lu (HY h)) as H2. rewrite Y0 in H1, H2. rewrite <- H2, H1. unfold mode_step. rewrite !(nth_map_lt _ (w_sys W) j asys0) by lia. reflexivity.
    - destruct (nth j (w_sys W) asys0) as [Aj Bj cj]. cbn [aA aB ac] in *. subst. reflexivity. }
  destruct (positive_bound (fun i => nth i xlim 0) k nx XP) as (m & Pm & Hm).
  exists j, (nth j (w_dom W) poly0), (st / 2), (Rmin m (Rmin ulim (st / 2))). split; [exact Hj|].
  assert (SPLIT : forall xu : vec, length xu = (nx + 1)%nat -> xu = firstn nx xu ++ skipn nx xu /\ length (firstn nx xu) = nx) by (intros xu L; split; [symmetry; apply firstn_skipn|rewrite firstn_length; lia]).
  split; [|split; [repeat apply Rmin_glb_lt; lra|]].
  - split; [split; [lia|split; [exact EJ|reflexivity]]|]. split; [lra|]. intros i xu Hi Ni Hxu. rewrite LS in Hi. destruct (HDw (nth i (w_dom W) poly0) ltac:(apply nth_In; lia)) as (mm & mme & WD). assert (Lxu : length xu = (nx + 1)%nat) by (rewrite (proj1 Hxu); apply WD).
    destruct (SPLIT xu Lxu) as (E & L1). rewrite E in Hxu. apply (proj2 (HM i Hi) _ _ L1) in Hxu. destruct Hxu as ((_ & _ & LO) & _). assert (EN : nth k (firstn nx xu) 0 = nth k xu 0) by (rewrite E at 2; rewrite app_nth1 by lia; reflexivity). rewrite EN in LO.
    eapply Rle_trans; [|apply (nth_sup xu k)]. destruct (le_lt_dec i j) as [Hij|Hij].
    + assert (Hl : (i < j)%nat) by lia. rewrite cart_hi_grid in LO by lia. fold st in LO. pose proof (grid_lt a b n i j Hab Hn Hl) as GG. rewrite G0 in GG. fold st in GG. rewrite Rabs_left by lra. lra.
    + rewrite cart_lo_grid in LO by lia. fold st in LO. pose proof (grid_lt a b n j i Hab Hn Hij) as GG. rewrite G0 in GG. fold st in GG. rewrite Rabs_right by lra. lra.
  - intros xu Lxu Sxu. destruct (SPLIT xu Lxu) as (E & L1). rewrite E. apply HM2; [exact L1|]. assert (EN : forall i, (i < nx)%nat -> nth i (firstn nx xu) 0 = nth i xu 0) by (intros i Hi; rewrite E at 2; rewrite app_nth1 by lia; reflexivity).
    assert (AB : forall i, Rabs (nth i xu 0) <= m /\ Rabs (nth i xu 0) <= ulim /\ Rabs (nth i xu 0) <= st / 2).
    { intros i. pose proof (nth_sup xu i). assert (M1 := Rmin_l m (Rmin ulim (st / 2))). assert (M2 := Rmin_r m (Rmin ulim (st / 2))). assert (M3 := Rmin_l ulim (st / 2)). assert (M4 := Rmin_r ulim (st / 2)). lra. }
    split; [split; [exact L1|]; split|].
    + intros i Hi Ni. rewrite EN by exact Hi. destruct (AB i) as (A1 & _). apply rabs_inv in A1. pose proof (Hm i Hi Ni). lra.
    + rewrite EN by exact Hk. destruct (AB k) as (_ & _ & A1). apply rabs_inv in A1. unfold cart_lo, cart_hi. fold (grid_step a b n). fold st. unfold grid in G0. fold st in G0.
      assert (Ga : INR j * st = - a) by lra. split; [destruct (Nat.eqb_spec j 0) as [->|]; [cbn [INR] in Ga; lra|lra]|]. destruct (Nat.eqb_spec (Datatypes.S j) n) as [E1|]; [|lra]. assert (GL : grid a b n (n - 1) = b) by (apply grid_last; exact Hn). replace (n - 1)%nat with j in GL by lia. unfold grid in GL. fold st in GL. lra.
    + assert (L2 : length (skipn nx xu) = 1%nat) by (rewrite skipn_length; lia). destruct (skipn nx xu) as [|v [|]] eqn:Ev; try discriminate L2. exists v. split; [reflexivity|]. assert (EV : nth nx xu 0 = v) by (rewrite E; rewrite app_nth2 by lia; rewrite L1, Nat.sub_diag; reflexivity). destruct (AB nx) as (_ & A1 & _). rewrite EV in A1. apply rabs_inv in A1. lra.
Qed.
Lemma steers_later A B nx nu n N : shape A nx nx -> shape B nx nu -> steerable A B nx nu n -> (n <= N)%nat -> forall x, length x = nx -> exists u, steers A B nx nu N x u.
Proof.
  intros SA SB ST HN x Lx. destruct (ST x (zeros nx) Lx (zeros_length _)) as (u & Lu & E). exists (fun t => if (t <? n)%nat then u t else zeros nu). split; [intros t; destruct (t <? n)%nat; [apply Lu|apply zeros_length]|].
  assert (H : forall T, state A B x (fun t => if (t <? n)%nat then u t else zeros nu) (n + T) = zeros nx).
  { induction T as [|T IH].
    - rewrite Nat.add_0_r, <- E. apply state_ext. intros t Ht. apply Nat.ltb_lt in Ht. rewrite Ht. reflexivity.
    - rewrite Nat.add_succ_r. cbn [state]. rewrite IH. replace (n + T <? n)%nat with false by (symmetry; apply Nat.ltb_ge; lia). rewrite !mv_zeros. unfold nrows. rewrite (proj1 SA), (proj1 SB). apply vadd_zeros_r, zeros_length. }
  specialize (H (N - n)%nat). replace (n + (N - n))%nat with N in H by lia. exact H.
Qed.
(*@ Theorem C98_notebook : The controller that the notebook builds for its piecewise affine model (linearizations of dx/dt = f(x, u) at several angles, zero-order hold h), on the nonlinear plant dx/dt = f(x, u) itself, its input held for h: let the origin be one of the linearization points, an equilibrium in the interior of the limits, whose linearization A, B is the derivative of f, and let the model of this linearization be able to reach the origin in N steps. There are rho > 0, a gain K and constants c, m such that on all runs with |x(0)| <= rho, as long as drake solves its programs, feedback returns K x and |x(t)| <= c (3/4)^(k / m) |x(0)| for all t in [k h, (k+1) h] *)
Lemma cart_nonlinear ridges np taylor nx k xlim ulim a b n h W N q r f A B S : exact_np np -> cart_setup np taylor nx k xlim ulim a b n h -> (exists j, (j < n)%nat /\ a + INR j * ((b - a) / (INR n - 1)) = 0) -> taylor (zeros nx) = (A, B, zeros nx) -> field_derivative f A B nx 1 ->
  (forall j, (j < nx)%nat -> j <> k -> 0 < nth j xlim 0) -> 0 < ulim -> cart_pole_pwa ridges np taylor nx k xlim ulim a b n h = Ok W -> sharp_gaps W nx -> (0 < N)%nat -> 0 < q -> 0 < r ->
  lin_from_continuous np A B h "zero_order_hold" = Ok S -> (forall x, length x = nx -> exists u, steers (lA S) (lB S) nx 1 N x u) ->
  exists C K m c rho, cart_pole_controller np W N q r = Ok C /\ shape K 1 nx /\ (0 < m)%nat /\ 0 <= c /\ 0 < rho /\ forall drake phi T, length (phi 0%nat 0) = nx -> sup (phi 0%nat 0) <= rho -> (forall t, (t < T)%nat -> drake_solves drake C (phi t 0)) ->
  (forall t u, (t < T)%nat -> example_feedback drake C (phi t 0) = Ok (Some u) -> phi (Datatypes.S t) 0 = phi t h /\ held_solution f u nx h (phi t)) ->
  forall t, (t < T)%nat -> example_feedback drake C (phi t 0) = Ok (Some (mv K (phi t 0))) /\ forall s, 0 <= s <= h -> sup (phi t s) <= c * (3 / 4) ^ (t / m) * sup (phi 0%nat 0).
Proof.
  intros Hnp CS OJ ET FD XP UP EW SG HN Hq Hr ES REACH. destruct (cart_origin_mode ridges np taylor nx k xlim ulim a b n h W A B S CS OJ ET XP UP EW ES) as (SS & HX & j & D & dl & sg & Hj & OM & Psg & BALL).
  destruct (cart_ready ridges np taylor nx k xlim ulim a b n h W N q r Hnp CS (conj OJ (ex_intro _ A (ex_intro _ B ET))) EW SG HN Hq Hr) as (X_N & IX & (_ & ED & _ & HC & _) & EC).
  pose proof ED as (HW & HDm & NE & H2 & _ & SQ & SP & SR & WX). pose proof HC as (_ & _ & _ & _ & _ & PR & _). pose proof CS as (Hk & _ & _ & _ & _ & _ & _ & Hh & _).
  destruct (proj1 (proj1 (lin_continuous np A B h) nx 1%nat SS Hh) HX) as (S' & ES' & (SA & SB) & _). rewrite ES in ES'. injection ES' as <-.
  pose proof (scaled_eye_pd q nx Hq) as PQ.
  destruct (law_exists _ _ _ _ nx 1 N SA SB SQ SR PQ PR HN REACH) as (K & c0 & OL).
  destruct (example_optimal np (fun _ => None) W N _ _ _ X_N nx 1 _ _ Hnp HW HN HDm H2 (proj1 (proj2 (proj2 (proj2 (proj2 ED))))) SQ SP SR WX NE) as (C & ECC & _).
  destruct (drake_origin np W N _ _ _ X_N nx 1 _ _ C j S D dl sg K c0 Hnp ED HN HC ECC PQ OM IX OL Psg BALL) as (r0 & Pr0 & _ & FB).
  destruct (sampled_origin np f A B nx 1 h S _ _ N K c0 r0 (conj SS (conj Hh (conj FD (conj HX ES)))) OL Pr0) as (m & c & rho & Hm & Pc & Prho & H).
  exists C, K, m, c, rho. split; [rewrite EC; exact ECC|]. split; [apply OL|]. split; [exact Hm|]. split; [exact Pc|]. split; [exact Prho|]. intros drake phi T L0 S0 DS HF t Ht.
  destruct (H (drake_solves drake C) (example_feedback drake C) (fun x Lx Sx G => proj1 (FB drake x Lx Sx G)) phi T L0 S0 DS HF t Ht) as (_ & _ & E & BD). split; [exact E|exact BD].
Qed.
(*@ Theorem C98_cart : In particular the cart-pole: for all masses, pole lengths, gravities, hold times h > 0 and horizons N >= 4, whatever the other linearization points and the springs of the walls, the controller of the notebook stabilizes the nonlinear cart-pole locally, with its input held for h *)
Lemma cart_pole_nonlinear ridges np taylor k xlim ulim a b n h W N q r mc mp l d ks g : exact_np np -> 0 < mc -> 0 < mp -> 0 < l -> 0 < d -> 0 < g -> 0 < h -> cart_setup np taylor 4 k xlim ulim a b n h -> (exists j, (j < n)%nat /\ a + INR j * ((b - a) / (INR n - 1)) = 0) -> taylor (zeros 4) = (cart_A_free mc mp l g, cart_B mc l, zeros 4) ->
  (forall j, (j < 4)%nat -> j <> k -> 0 < nth j xlim 0) -> 0 < ulim -> cart_pole_pwa ridges np taylor 4 k xlim ulim a b n h = Ok W -> sharp_gaps W 4 -> (4 <= N)%nat -> 0 < q -> 0 < r ->
  exists C K m c rho, cart_pole_controller np W N q r = Ok C /\ shape K 1 4 /\ (0 < m)%nat /\ 0 <= c /\ 0 < rho /\ forall drake phi T, length (phi 0%nat 0) = 4%nat -> sup (phi 0%nat 0) <= rho -> (forall t, (t < T)%nat -> drake_solves drake C (phi t 0)) ->
  (forall t u, (t < T)%nat -> example_feedback drake C (phi t 0) = Ok (Some u) -> phi (Datatypes.S t) 0 = phi t h /\ held_solution (cart_field mc mp l d ks g) u 4 h (phi t)) ->
  forall t, (t < T)%nat -> example_feedback drake C (phi t 0) = Ok (Some (mv K (phi t 0))) /\ forall s, 0 <= s <= h -> sup (phi t s) <= c * (3 / 4) ^ (t / m) * sup (phi 0%nat 0).
Proof.
  intros Hnp Hmc Hmp Hl Hd Hg Hh CS OJ ET XP UP EW SG HN Hq Hr. pose proof CS as (_ & _ & _ & _ & _ & _ & _ & _ & HT).
  assert (IP : In (zeros 4) (linearization_points 4 k a b n)). { destruct OJ as (j & Hj & Ej). apply points_in. exists j. split; [exact Hj|]. unfold grid, grid_step. rewrite Ej. apply (nth_ext _ _ 0 0); [rewrite vscale_length, unit_length; reflexivity|]. intros i _. rewrite nth_vscale, nth_zeros. ring. }
  specialize (HT _ IP). rewrite ET in HT. destruct HT as (SS & _ & HX). destruct (proj1 (proj1 (lin_continuous np _ _ h) 4%nat 1%nat SS ltac:(lra)) HX) as (S & ES & (SA & SB) & _).
  apply (cart_nonlinear ridges np taylor 4 k xlim ulim a b n h W N q r (cart_field mc mp l d ks g) _ _ S Hnp CS OJ ET (cart_field_derivative mc mp l d ks g Hmc Hmp Hl Hd) XP UP EW SG ltac:(lia) Hq Hr ES).
  apply (steers_later _ _ 4 1 4 N SA SB); [|exact HN]. apply (cart_hold_steerable np mc mp l g h S Hmc Hmp Hl Hg Hh HX ES).
Qed.
(** ** Scalar plants *)
Lemma scalar_home b x us xs : b <> 0 -> run_home (Mat 1 [[1]]) (Mat 1 [[b]]) 1 1 1 [x] us xs -> us = [[- (x / b)]].
Proof.
  intros Nb (Lu & Fu & (Lx & X0 & ST) & _ & TM). destruct us as [|u [|]]; try discriminate Lu. inversion Fu as [|? ? L1 _]; subst. destruct u as [|v [|]]; try discriminate L1. specialize (ST 0%nat ltac:(cbn; lia)). cbn [List.length nth] in ST, TM. rewrite TM in ST. rewrite X0 in ST. cbn in ST. injection ST as E. f_equal. f_equal. apply (Rmult_eq_reg_l b); [|exact Nb]. replace (b * - (x / b)) with (- x) by (field; exact Nb). lra.
Qed.
Lemma scalar_reach b x : b <> 0 -> length x = 1%nat -> exists u, steers (Mat 1 [[1]]) (Mat 1 [[b]]) 1 1 1 x u.
Proof. intros Nb Lx. destruct x as [|z [|]]; try discriminate Lx. exists (fun _ => [- (z / b)]). split; [reflexivity|]. cbn. f_equal. field. exact Nb. Qed.
(** the motions of dx/dt = (1 + x) u, sampled with u = - g x *)
Fixpoint home_state (z : R) (k : nat) : R := match k with O => z | Datatypes.S k' => (1 + home_state z k') * exp (- home_state z k') - 1 end.
Definition home_run (g z : R) (k : nat) (t : R) : vec := [(1 + home_state z k) * exp (- (g * home_state z k * t)) - 1].
Lemma home_start g z k : home_run g z k 0 = [home_state z k].
Proof. unfold home_run. rewrite Rmult_0_r, Ropp_0, exp_0. f_equal. ring. Qed.
Lemma home_motion g h z k u : g * h = 1 -> u = [- (g * home_state z k)] -> home_run g z (Datatypes.S k) 0 = home_run g z k h /\ held_solution bilinear u 1 h (home_run g z k).
Proof.
  intros E ->. split.
  - rewrite home_start. unfold home_run. cbn [home_state]. replace (g * home_state z k * h) with (home_state z k * (g * h)) by ring. rewrite E, Rmult_1_r. reflexivity.
  - split; [reflexivity|]. intros t _ [|i] Hi; [|lia]. unfold bilinear, home_run. cbn. apply is_derive_Reals. auto_derive; [exact I|]. ring.
Qed.
Lemma home_bound z k : -1 <= z <= 1 -> -1 <= home_state z k <= 1.
Proof.
  intros Hz. induction k as [|k IH]; [exact Hz|]. cbn [home_state]. set (s := home_state z k) in *. pose proof (exp_pos (- s)) as P1. split; [pose proof (Rmult_le_pos (1 + s) _ ltac:(lra) (Rlt_le _ _ P1)); lra|].
  assert (H : 1 + s <= exp s) by (destruct (Req_dec s 0) as [->|]; [rewrite exp_0; lra|left; apply exp_ineq1; assumption]). pose proof (Rmult_le_compat_r _ _ _ (Rlt_le _ _ P1) H) as H1. rewrite <- exp_plus in H1. replace (s + - s) with 0 in H1 by ring. rewrite exp_0 in H1. lra.
Qed.
Lemma in_origin x : in_poly (VorThms.seg 0 0) x <-> x = zeros 1.
Proof.
  split.
  - intros H. pose proof (proj1 H) as L. destruct x as [|a [|]]; try discriminate L. apply VorThms.seg_in in H. cbn. f_equal. lra.
  - intros ->. apply (VorThms.seg_in 0 0 0). lra.
Qed.
Lemma box_ball xu : length xu = 2%nat -> sup xu <= 1 -> in_poly D_box xu.
Proof. intros L H. destruct xu as [|a [|u [|]]]; try discriminate L. pose proof (nth_sup [a; u] 0) as H0. pose proof (nth_sup [a; u] 1) as H1. cbn [nth] in H0, H1. assert (A0 : Rabs a <= 1) by lra. assert (A1 : Rabs u <= 1) by lra. apply rabs_inv in A0, A1. apply in_D_box. lra. Qed.
(*@ Example C98_example : dx/dt = (1 + x) u with h = 1: the zero-order hold of its linearization dx/dt = u is x + u; with Q = 1, R = P = 2, horizon 1 and the terminal set {0} all hypotheses of C98_law, C98_feedback and C98_sampled_mpc hold, the gain is -1 (u = - x), and from every state there is a run of the plant with the inputs of the controller: x(t) = (1 + x_k) exp(- x_k t) - 1 between the samples *)
Lemma origin_example : exists np C K c, exact_np np /\ hold_model np bilinear (Mat 1 [[0]]) (Mat 1 [[1]]) 1 1 1 S_1 /\ mpc_data S_1 1 (Mat 1 [[1]]) (Mat 1 [[2]]) (Mat 1 [[2]]) D_box (VorThms.seg 0 0) 1 1 /\ ModelPredictiveController np S_1 1 (Mat 1 [[1]]) (Mat 1 [[2]]) (Mat 1 [[2]]) D_box (VorThms.seg 0 0) = Ok C /\
  (forall x, in_poly (VorThms.seg 0 0) x <-> x = zeros 1) /\ Spec.pd (Mat 1 [[1]]) 1 /\ Spec.pd (Mat 1 [[2]]) 1 /\ (forall x, length x = 1%nat -> exists u, steers (lA S_1) (lB S_1) 1 1 1 x u) /\ origin_law (lA S_1) (lB S_1) (Mat 1 [[1]]) (Mat 1 [[2]]) 1 1 1 K c /\ (forall x, mv K [x] = [- x]) /\
  (forall xu, length xu = 2%nat -> sup xu <= 1 -> in_poly D_box xu) /\ feedback np C [1] = Ok (Some [-1]) /\
  forall z, home_run 1 z 0 0 = [z] /\ forall k u, feedback np C (home_run 1 z k 0) = Ok (Some u) -> home_run 1 z (Datatypes.S k) 0 = home_run 1 z k 1 /\ held_solution bilinear u 1 1 (home_run 1 z k).
Proof.
  set (np := np_hold (Mat 1 [[2]])). assert (Hnp : exact_np np) by apply np_hold_exact. destruct (hold_integrator (Mat 1 [[2]])) as (S & HM & ->). assert (N1 : 1 <> 0) by lra.
  assert (HD : mpc_data S_1 1 (Mat 1 [[1]]) (Mat 1 [[2]]) (Mat 1 [[2]]) D_box (VorThms.seg 0 0) 1 1) by (apply mpc_data_1; [exact wf_D_box|apply VorThms.seg_wf|lra|lra|lra]).
  destruct (mpc_program np _ _ _ _ _ _ _ _ _ Hnp HD) as (q & m & E & _). assert (RE : forall x, length x = 1%nat -> exists u, steers (lA S_1) (lB S_1) 1 1 1 x u) by (intros x Lx; apply (scalar_reach 1); assumption).
  destruct (law_exists (lA S_1) (lB S_1) (Mat 1 [[1]]) (Mat 1 [[2]]) 1 1 1 (scalar_shape _) (scalar_shape _) (scalar_shape _) (scalar_shape _) (scalar_pd 1 ltac:(lra)) (scalar_pd 2 ltac:(lra)) ltac:(lia) RE) as (K & c & OL).
  exists np, (MPC S_1 1 q), K, c. split; [exact Hnp|]. split; [exact HM|]. split; [exact HD|]. split; [exact E|]. split; [exact in_origin|]. split; [apply scalar_pd; lra|]. split; [apply scalar_pd; lra|]. split; [exact RE|]. split; [exact OL|]. split.
  { intros x. destruct (proj2 (proj2 (proj2 OL)) [x] eq_refl) as (us & xs & HR & U0 & _). apply (scalar_home 1 x us xs N1) in HR. rewrite <- U0, HR. cbn [nth]. f_equal. field. }
  split; [exact box_ball|].
  assert (FB : forall x u, feedback np (MPC S_1 1 q) [x] = Ok (Some u) -> u = [- x]).
  { intros x u Eu. destruct (mpc_none np _ _ _ _ _ _ _ _ _ _ [x] Hnp HD E eq_refl) as (us0 & xs0 & _ & [(_ & FN & _)|(us & xs & _ & FS & (A1 & _) & _)]); [rewrite FN in Eu; discriminate Eu|]. rewrite FS in Eu. injection Eu as <-. apply (home_of _ _ 1 1 1 _ _ [x] us xs in_origin) in A1. rewrite (scalar_home 1 x us xs N1 A1). cbn [nth]. f_equal. field. }
  split.
  { destruct (mpc_none np _ _ _ _ _ _ _ _ _ _ [1] Hnp HD E eq_refl) as (us0 & xs0 & (A0 & _) & [(_ & _ & FR)|(us & xs & _ & FS & _)]).
    - exfalso. assert (AD : mpc_admissible (lA S_1) (lB S_1) 1 1 (in_poly D_box) (in_poly (VorThms.seg 0 0)) [1] [[-1]] [[1]; [0]]).
      { split; [reflexivity|]. split; [repeat constructor|]. split; [split; [reflexivity|]; split; [reflexivity|]; intros [|t] Ht; [cbn; f_equal; lra|cbn in Ht; lia]|]. split; [intros [|t] Ht; [cbn; apply in_D_box; lra|cbn in Ht; lia]|]. apply (VorThms.seg_in 0 0 0). lra. }
      specialize (FR _ _ AD). pose proof A0 as (L0 & F0 & T0 & _). pose proof (trajectory_lengths _ _ 1 1 _ _ _ (scalar_shape _) (scalar_shape _) (eq_refl (x := 1%nat) : length [1] = 1%nat) T0) as Fx0. pose proof (proj1 T0) as Lx0.
      pose proof (nonneg_cost (Mat 1 [[1]]) (Mat 1 [[2]]) (Mat 1 [[2]]) 1 1 us0 xs0 (scalar_psd 1 ltac:(lra)) (scalar_psd 2 ltac:(lra)) (scalar_pd 2 ltac:(lra)) F0 ltac:(intros t Ht; apply Forall_len_nth; [exact Fx0|lia])) as N0. assert (V : trajectory_cost (Mat 1 [[1]]) (Mat 1 [[2]]) (Mat 1 [[2]]) [[-1]] [[1]; [0]] = 3 / 2) by (unfold trajectory_cost; cbn; lra). rewrite V in FR. unfold far in FR. lra.
    - rewrite FS. do 2 f_equal. rewrite (FB 1 _ FS). f_equal. }
  intros z. split; [apply home_start|]. intros k u Eu. apply home_motion; [lra|]. rewrite home_start in Eu. rewrite (FB _ _ Eu). f_equal. lra.
Qed.
(*@ Example C98_notebook_example : dx/dt = (1 + x) u with the linearization points 0 and 2 of C86_hold_refuted (both linearized as dx/dt = u), h = 1/20, one step of horizon, q = r = 1/100: all hypotheses of C98_notebook hold, and from every state of [-1, 1] there is a run of the plant with the inputs of the controller of the notebook, with a solver for the programs at all the samples *)
Lemma notebook_example ridges : exists np W C S, exact_np np /\ cart_setup np int_taylor 1 0 [0] 100 0 2 2 (/ 20) /\ (exists j, (j < 2)%nat /\ 0 + INR j * ((2 - 0) / (INR 2 - 1)) = 0) /\ int_taylor (zeros 1) = (Mat 1 [[0]], Mat 1 [[1]], zeros 1) /\ field_derivative bilinear (Mat 1 [[0]]) (Mat 1 [[1]]) 1 1 /\
  (forall j, (j < 1)%nat -> j <> 0%nat -> 0 < nth j [0] 0) /\ cart_pole_pwa ridges np int_taylor 1 0 [0] 100 0 2 2 (/ 20) = Ok W /\ sharp_gaps W 1 /\ lin_from_continuous np (Mat 1 [[0]]) (Mat 1 [[1]]) (/ 20) "zero_order_hold" = Ok S /\ (forall x, length x = 1%nat -> exists u, steers (lA S) (lB S) 1 1 1 x u) /\
  cart_pole_controller np W 1 (/ 100) (/ 100) = Ok C /\ example_feedback int_drake C [/ 2] = Ok (Some [-10]) /\
  forall z, -1 <= z <= 1 -> home_run 20 z 0 0 = [z] /\ forall k, drake_solves int_drake C (home_run 20 z k 0) /\ forall u, example_feedback int_drake C (home_run 20 z k 0) = Ok (Some u) -> home_run 20 z (Datatypes.S k) 0 = home_run 20 z k (/ 20) /\ held_solution bilinear u 1 (/ 20) (home_run 20 z k).
Proof.
  destruct cart_library as (np & Hnp & HE). destruct (int_pwa ridges np HE) as (W & EW & ED & HW & LS & HM). pose proof (int_gaps W ED HW LS HM) as SG. pose proof (int_setup np HE) as CS.
  assert (OJ : exists j, (j < 2)%nat /\ 0 + INR j * ((2 - 0) / (INR 2 - 1)) = 0) by (exists 0%nat; split; [lia|cbn; lra]).
  assert (CO : cart_origin int_taylor 1 0 2 2) by (split; [exact OJ|eexists _, _; reflexivity]).
  destruct (cart_ready ridges np _ _ _ _ _ _ _ _ _ W 1 (/ 100) (/ 100) Hnp CS CO EW SG ltac:(lia) ltac:(lra) ltac:(lra)) as (X_N & IX & HS & EC).
  destruct (cart_closed_loop ridges np _ _ _ _ _ _ _ _ _ W 1 (/ 100) (/ 100) Hnp CS CO EW SG ltac:(lia) ltac:(lra) ltac:(lra)) as (C & EC' & _).
  assert (SS : system_shape (Mat 1 [[0]]) (Mat 1 [[1]]) 1 1) by (split; apply scalar_shape).
  assert (HX : is_expm (mscale (/ 20) (zoh_matrix (Mat 1 [[0]]) (Mat 1 [[1]]) (zeros 1))) (np_expm np (mscale (/ 20) (zoh_matrix (Mat 1 [[0]]) (Mat 1 [[1]]) (zeros 1)))) 3) by (apply HE, shape_mscale, (zoh_shape _ _ _ 1 1); [apply SS|apply SS|reflexivity]).
  destruct (proj1 (proj1 (lin_continuous np _ _ (/ 20)) 1%nat 1%nat SS ltac:(lra)) HX) as (S & ES & SD & HZ).
  assert (E1 : S = LSys (Mat 1 [[1]]) (Mat 1 [[/ 20]]) None).
  { apply scalar_system; [exact SD|exact (continuous_fresh _ _ _ _ _ _ ES)|]. intros x u. replace x with (x + u * 0) at 1 by ring. rewrite <- (HZ [u] (fun t => [x + u * t]) eq_refl); [f_equal; lra|]. exact (int_flow u x (/ 20)). }
  exists np, W, C, S. split; [exact Hnp|]. split; [exact CS|]. split; [exact OJ|]. split; [reflexivity|]. split; [exact bilinear_derivative|]. split; [intros; lia|]. split; [exact EW|]. split; [exact SG|]. split; [exact ES|]. split; [rewrite E1; intros x Lx; apply scalar_reach; [lra|exact Lx]|]. split; [exact EC'|]. rewrite EC in EC'.
  assert (DS : forall b, -1 <= b <= 1 -> drake_solves int_drake C [b]) by (intros b Hb; exact (int_drake_ok np W X_N C b Hnp ED LS HM IX HS EC' Hb)).
  assert (FB : forall b, -1 <= b <= 1 -> example_feedback int_drake C [b] = Ok (Some [- 20 * b])).
  { intros b Hb. destruct (example_right np int_drake _ _ _ _ _ _ _ _ _ _ C [b] HS EC' eq_refl (DS b Hb)) as (RA & FB). pose proof (int_run W b ED LS HM Hb) as RN. apply (terminal_ext _ _ _ _ _ _ _ _ _ _ _ _ IX) in RN.
    destruct RA as [(us1 & xs1 & modes1 & E2 & (R1 & _))|(_ & NR)]; [|elim (NR _ _ _ RN)]. rewrite (FB _ _ _ _ E2). apply (terminal_ext _ _ _ _ _ _ _ _ _ _ _ _ IX) in R1. rewrite (proj1 (int_run_inv W b us1 modes1 xs1 LS HM R1)). reflexivity. }
  split; [rewrite FB by lra; do 3 f_equal; lra|]. intros z Hz. split; [apply home_start|]. intros k. pose proof (home_bound z k Hz) as Hk. rewrite home_start. split; [apply DS, Hk|]. intros u Eu. rewrite FB in Eu by exact Hk. injection Eu as <-. apply home_motion; [lra|]. f_equal. lra.
Qed.
(*@ Example C98_hybrid_example : The same plant with a hybrid controller of two modes (x + u on [-1, 1] x [-1, 1] and x + u - 1 on [2, 3] x [-1, 1]), horizon 1 and the terminal set {0}: all hypotheses of C98_hybrid and C98_sampled_hybrid hold, and for x(0) = 1 there is a Gurobi with which feedback returns K x(0) = -1 and the plant moves along 2 exp(- t) - 1 until the next sample *)
Lemma origin_hybrid_example : exists np C K c, hold_model np bilinear (Mat 1 [[0]]) (Mat 1 [[1]]) 1 1 1 S_1 /\ hyb_controller np W_near 1 I_1 R_2 R_2 (VorThms.seg 0 0) 1 1 2 0 C /\ Spec.pd I_1 1 /\ origin_mode W_near 0 S_1 D_box 1 2 /\ (forall x, in_poly (VorThms.seg 0 0) x <-> x = zeros 1) /\
  origin_law (lA S_1) (lB S_1) I_1 R_2 1 1 1 K c /\ (forall xu, length xu = 2%nat -> sup xu <= 1 -> in_poly D_box xu) /\
  exists grb, gurobi_solves grb (k_mpmiqp C) (home_run 1 1 0 0) /\ hybrid_feedback grb C [1] = Ok (Some [-1]) /\ forall k u, (k < 1)%nat -> hybrid_feedback grb C (home_run 1 1 k 0) = Ok (Some u) -> home_run 1 1 (Datatypes.S k) 0 = home_run 1 1 k 1 /\ held_solution bilinear u 1 1 (home_run 1 1 k).
Proof.
  destruct hybrid_level_example as (_ & (_ & HW & HN & HD & _ & (HE0 & _) & HC & _) & OM & _ & PI & _). set (np := np_hold R_2). assert (Hnp : exact_np np) by apply np_hold_exact. destruct (hold_integrator R_2) as (S & HM & ->). assert (N1 : 1 <> 0) by lra.
  pose proof HC as (SQ & SP & SR & _ & _ & PR & _). assert (RE : forall x, length x = 1%nat -> exists u, steers (lA S_1) (lB S_1) 1 1 1 x u) by (intros x Lx; apply (scalar_reach 1); assumption).
  destruct (law_exists (lA S_1) (lB S_1) I_1 R_2 1 1 1 (scalar_shape _) (scalar_shape _) SQ SR PI PR ltac:(lia) RE) as (K & c & OL).
  assert (HE : no_eqs W_near (VorThms.seg 0 0)) by (split; [exact HE0|reflexivity]).
  destruct (near_constants np Hnp) as (E1 & E2).
  assert (EQ : exists q, hybrid_condense_program W_near 1 I_1 R_2 R_2 (VorThms.seg 0 0) [[[-2]; [1]]; [[-3]; [0]]] [[[2]; [4]]; [[1]; [3]]] [[[0; 0; 0; 0]; [2; -3; 0; 0]]; [[-2; 3; 0; 0]; [0; 0; 0; 0]]] = Ok q /\
    sharp_data (Some (hyb_H q)) (hyb_f q [1]) (hyb_A q) (hyb_b q [1]) (Mat (ncols (hyb_A q)) []) []).
  { destruct (hybrid_condense_program W_near 1 I_1 R_2 R_2 (VorThms.seg 0 0) _ _ _) as [q|e] eqn:Eq; [|exfalso; cbn in Eq; discriminate]. exists q. split; [reflexivity|].
    vm_compute in Eq. injection Eq as <-. unfold sharp_data. repeat match goal with |- _ /\ _ => split end.
    - intros r Hr. vm_compute in Hr. repeat (destruct Hr as [<-|Hr]; [sharp_row|]). destruct Hr.
    - unfold hyb_f. cbn. sharp_row.
    - intros r Hr. vm_compute in Hr. repeat (destruct Hr as [<-|Hr]; [sharp_row|]). destruct Hr.
    - unfold hyb_b. cbn; apply sharp_quarter; repeat (apply Forall_cons; [first [left; lra|right; left; lra|right; right; lra]|]); apply Forall_nil.
    - intros r [].
    - intros b []. }
  destruct EQ as (q & Eq & SH).
  assert (EC : HybridModelPredictiveController np W_near 1 I_1 R_2 R_2 (VorThms.seg 0 0) = Ok (HMPC W_near 1 I_1 R_2 R_2 (VorThms.seg 0 0) [[[-2]; [1]]; [[-3]; [0]]] [[[2]; [4]]; [[1]; [3]]] [[[0; 0; 0; 0]; [2; -3; 0; 0]]; [[-2; 3; 0; 0]; [0; 0; 0; 0]]] q)).
  { unfold HybridModelPredictiveController. rewrite E1. cbn [bind]. rewrite E2. cbn [bind]. rewrite Eq. reflexivity. }
  match type of EC with _ = Ok ?c' => exists np, c', K, c; assert (HB : hyb_controller np W_near 1 I_1 R_2 R_2 (VorThms.seg 0 0) 1 1 2 0 c') end.
  { split; [exact Hnp|]. split; [exact HW|]. split; [exact HN|]. split; [exact HD|]. split; [apply VorThms.seg_wf|]. split; [exact HE|]. split; [exact HC|exact EC]. }
  split; [exact HM|]. split; [exact HB|]. split; [exact PI|]. split; [exact OM|]. split; [exact in_origin|]. split; [exact OL|]. split; [exact box_ball|].
  destruct (gurobi_for match build_model (Some (hyb_H q)) (hyb_f q [1]) (hyb_A q) (hyb_b q [1]) None None with Ok M => [set_binary (ncols (h_Au q) + ncols (h_Az q)) M] | Err _ => [] end) as (grb & HG).
  assert (G : gurobi_solves grb q [1]) by (split; [exact SH|]; intros M0 EM; cbv zeta; apply HG; rewrite EM; left; reflexivity).
  assert (S0 : home_run 1 1 0 0 = [1]) by apply home_start. exists grb. split; [rewrite S0; exact G|].
  assert (FB : hybrid_feedback grb (HMPC W_near 1 I_1 R_2 R_2 (VorThms.seg 0 0) [[[-2]; [1]]; [[-3]; [0]]] [[[2]; [4]]; [[1]; [3]]] [[[0; 0; 0; 0]; [2; -3; 0; 0]]; [[-2; 3; 0; 0]; [0; 0; 0; 0]]] q) [1] = Ok (Some [-1])).
  { assert (AD : mpc_admissible (lA S_1) (lB S_1) 1 1 (in_poly D_box) (in_poly (VorThms.seg 0 0)) [1] [[-1]] [[1]; [0]]).
    { split; [reflexivity|]. split; [repeat constructor|]. split; [split; [reflexivity|]; split; [reflexivity|]; intros [|t] Ht; [cbn; f_equal; lra|cbn in Ht; lia]|]. split; [intros [|t] Ht; [cbn; apply in_D_box; lra|cbn in Ht; lia]|]. apply (VorThms.seg_in 0 0 0). lra. }
    assert (R0 : pwa_run_from W_near (VorThms.seg 0 0) 1 1 [1] [[-1]] [0%nat] [[1]; [0]]) by (apply (one_mode W_near 0 S_1 D_box 1 1 (VorThms.seg 0 0) 1 [1] _ [0%nat] _ HW (scalar_shape _) (scalar_shape _) (proj1 OM) eq_refl); [intros [|t] Ht; [reflexivity|lia]|exact AD]).
    destruct (hybrid_optimal np grb W_near 1 I_1 R_2 R_2 (VorThms.seg 0 0) 1 1 2 0 _ Hnp HW ltac:(lia) HN HD SQ SP SR (VorThms.seg_wf 0 0) HE EC [1] eq_refl G) as [(us & xs & modes & _ & (HA & _) & EB)|(_ & _ & _ & NR)]; [|elim (NR HC _ _ _ R0)].
    rewrite EB. do 2 f_equal. fold (pwa_run_from W_near (VorThms.seg 0 0) 1 1 [1] us modes xs) in HA. pose proof HA as (Lu & Fu & Lm & HMd & TRJ & HDd & _). rewrite map_length in HMd. destruct us as [|u [|]]; try discriminate Lu. destruct modes as [|m [|]]; try discriminate Lm.
    assert (m = 0%nat) as ->.
    { pose proof (HMd m (or_introl eq_refl)) as Hm. cbn in Hm. destruct m as [|[|m]]; [reflexivity| |lia]. exfalso. specialize (HDd 0%nat ltac:(cbn; lia)). cbn [nth map w_dom W_near] in HDd. destruct TRJ as (_ & X0 & _). rewrite X0 in HDd. apply in_far in HDd. destruct HDd as (a & v & E & H & _). injection E as <- _. lra. }
    apply (one_mode W_near 0 S_1 D_box 1 1 (VorThms.seg 0 0) 1 [1] _ [0%nat] _ HW (scalar_shape _) (scalar_shape _) (proj1 OM) eq_refl) in HA; [|intros [|t] Ht; [reflexivity|lia]]. apply (home_of _ _ 1 1 1 _ _ [1] _ xs in_origin) in HA. apply (scalar_home 1 1 _ xs N1) in HA. rewrite HA. cbn [nth]. f_equal. lra. }
  split; [exact FB|]. intros [|k] u Hk Eu; [|lia]. rewrite S0, FB in Eu. injection Eu as <-. apply home_motion; [lra|]. cbn [home_state]. f_equal. lra.
Qed.
