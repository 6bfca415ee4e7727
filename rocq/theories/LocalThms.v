(** * LocalThms: the LQR gain of a linearization and the nonlinear plant (C95), proofs *)
From Coq Require Import Lra Lia.
From Verif Require Import Arr ArrFacts Spec SpecDyn SpecEig SpecSym SpecRound SpecCart Numpy Dynamics DynThms LqrThms McaisThms CtrlThms NoteThms Symbolic SymThms SpectralThms RoundThms RoundSimThms Walls WallThms CartDyn CartDynThms.

(** if F is differentiable at 0 with an attractive derivative, the trajectories that start near 0 decay; F is needed only up to the distance sg *)
Lemma local_decay M n (F : vec -> vec -> Prop) sg : shape M n n -> attractive M n -> 0 < sg -> (forall x y, length x = n -> sup x <= sg -> F x y -> length y = n) ->
  (forall eps, 0 < eps -> exists dl, 0 < dl /\ forall x y, length x = n -> sup x <= dl -> F x y -> sup (vsub y (mv M x)) <= eps * sup x) ->
  exists m c rho, (0 < m)%nat /\ 0 <= c /\ 0 < rho /\ forall (z : nat -> vec) T, length (z 0%nat) = n -> sup (z 0%nat) <= rho -> (forall t, (t < T)%nat -> F (z t) (z (S t))) ->
  forall t, (t <= T)%nat -> length (z t) = n /\ sup (z t) <= sg /\ sup (z t) <= c * (3 / 4) ^ (t / m) * sup (z 0%nat).
Proof.
  intros SM AT Psg LF DF. destruct (attractive_contracts M n SM AT) as (m & Hm & CT). destruct (row_sums M n n SM) as (al & Hal & RS).
  set (D := 4 * (geometric al m + 1) * (al + 2) ^ m). set (c := (al + 2) ^ m * (4 * geometric al m + 2)).
  assert (PL : 0 <= geometric al m) by (apply geometric_nonneg; exact Hal). assert (PG : 1 <= (al + 2) ^ m) by (apply pow_R1_Rle; lra).
  assert (PD : 4 <= D). { unfold D. assert (1 <= (geometric al m + 1) * (al + 2) ^ m) by nra. lra. } assert (PC : 0 <= c) by (unfold c; apply Rmult_le_pos; lra).
  destruct (DF (/ D) ltac:(apply Rinv_0_lt_compat; lra)) as (dl0 & Pdl0 & HD0). set (dl := Rmin dl0 sg). assert (Pdl : 0 < dl) by (apply Rmin_glb_lt; assumption). assert (Dsg : dl <= sg) by apply Rmin_r.
  assert (HD : forall x y, length x = n -> sup x <= dl -> F x y -> sup (vsub y (mv M x)) <= / D * sup x) by (intros x y Lx Sx; apply HD0; [exact Lx|eapply Rle_trans; [exact Sx|apply Rmin_l]]).
  exists m, c, (dl / (c + 1)). split; [exact Hm|]. split; [exact PC|]. split; [apply Rdiv_lt_0_compat; lra|].
  intros z T L0 S0 ST.
  assert (CR : c * (dl / (c + 1)) <= dl). { apply Rmult_le_reg_r with (c + 1); [lra|]. unfold Rdiv. replace (c * (dl * / (c + 1)) * (c + 1)) with (c * dl) by (field; lra). nra. }
  assert (R0 : dl / (c + 1) <= dl). { apply Rmult_le_reg_r with (c + 1); [lra|]. unfold Rdiv. rewrite Rmult_assoc, Rinv_l by lra. nra. }
  assert (PERT : forall N, (N <= T)%nat -> (forall t, (t <= N)%nat -> length (z t) = n) -> (forall t, (t < N)%nat -> sup (z t) <= dl) -> forall t, (t <= N)%nat -> sup (z t) <= c * (3 / 4) ^ (t / m) * sup (z 0%nat)).
  { intros N HT LZ HN t Ht. pose proof (relative_pert M n m al SM Hm CT Hal RS z (/ D) 0 N LZ) as RP.
    assert (DI : 0 <= / D <= 1). { split; [apply Rlt_le, Rinv_0_lt_compat; lra|]. rewrite <- Rinv_1. apply Rinv_le_contravar; lra. }
    specialize (RP DI). fold D in RP. specialize (RP ltac:(right; field; lra) ltac:(lra)).
    specialize (RP ltac:(intros s Hs; rewrite Rplus_0_r; apply HD; [apply LZ; lia|apply HN, Hs|apply ST; lia])). cbv zeta in RP. specialize (RP t Ht). fold c in RP. lra. }
  assert (SMALL : forall N, (N <= T)%nat -> forall t, (t <= N)%nat -> length (z t) = n /\ sup (z t) <= dl).
  { induction N as [|N IH]; intros HT t Ht; [replace t with 0%nat by lia; split; [exact L0|lra]|]. assert (t <= N \/ t = S N)%nat as [|E] by lia; [apply IH; lia|]. subst t. specialize (IH ltac:(lia)). destruct (IH N (le_n N)) as (LN & SN).
    pose proof (LF _ _ LN ltac:(lra) (ST N ltac:(lia))) as LS. split; [exact LS|].
    assert (LA : forall t, (t <= S N)%nat -> length (z t) = n) by (intros t Ht'; assert (t <= N \/ t = S N)%nat as [E|E] by lia; [apply IH, E|subst t; exact LS]).
    pose proof (PERT (S N) HT LA ltac:(intros t Ht'; apply IH; lia) (S N) (le_n _)) as B. set (k := (S N / m)%nat) in *. assert (P34 : 0 <= (3 / 4) ^ k <= 1) by (split; [apply pow_le; lra|rewrite <- (pow1 k); apply pow_incr; lra]).
    pose proof (sup_nonneg (z 0%nat)). eapply Rle_trans; [exact B|]. apply Rle_trans with (c * sup (z 0%nat)); [|eapply Rle_trans; [apply Rmult_le_compat_l; [exact PC|exact S0]|exact CR]]. apply Rmult_le_compat_r; [lra|]. rewrite <- (Rmult_1_r c) at 2. apply Rmult_le_compat_l; lra. }
  intros t Ht. destruct (SMALL t Ht t (le_n t)) as (LT & ST'). split; [exact LT|]. split; [lra|]. apply (PERT t Ht); [intros; apply (SMALL t Ht); assumption|intros; apply (SMALL t Ht); lia|lia].
Qed.
(** a plant x+ = F(x, u), as a relation, that is differentiable at the origin with the derivative A dx + B du *)
Definition linearizes (F : vec -> vec -> vec -> Prop) (A B : mat) (nx nu : nat) : Prop :=
  forall eps, 0 < eps -> exists dl, 0 < dl /\ forall x u y, length x = nx -> length u = nu -> sup x <= dl -> sup u <= dl -> F x u y -> sup (vsub y (linear_step A B x u)) <= eps * (sup x + sup u).
(** a control law that is K x up to the distance sg, on a plant with the derivative A, B *)
Lemma local_law A B K nx nu (F : vec -> vec -> vec -> Prop) (ctrl : vec -> vec -> Prop) sg : shape A nx nx -> shape B nx nu -> shape K nu nx -> attractive (madd A (mm B K)) nx -> 0 < sg ->
  (forall x u y, length x = nx -> length u = nu -> F x u y -> length y = nx) -> linearizes F A B nx nu -> (forall x u, length x = nx -> sup x <= sg -> ctrl x u -> u = mv K x) ->
  exists m c rho, (0 < m)%nat /\ 0 <= c /\ 0 < rho /\ forall (z : nat -> vec) T, length (z 0%nat) = nx -> sup (z 0%nat) <= rho -> (forall t, (t < T)%nat -> exists u, ctrl (z t) u /\ F (z t) u (z (S t))) ->
  forall t, (t <= T)%nat -> sup (z t) <= sg /\ length (z t) = nx /\ sup (z t) <= c * (3 / 4) ^ (t / m) * sup (z 0%nat).
Proof.
  intros SA SB SK AT Psg LF DF CT. set (M := madd A (mm B K)) in *. assert (SM : shape M nx nx) by (unfold M; eauto with shp).
  destruct (row_sums K nu nx SK) as (ka & Pka & RK). assert (KX : forall x, length x = nx -> sup (mv K x) <= ka * sup x) by (intros x Lx; eapply sup_mv; eauto).
  assert (LK : forall x, length (mv K x) = nu) by (intros x; destruct SK as (RK' & _); unfold mv; rewrite map_length; exact RK').
  destruct (local_decay M nx (fun x y => exists u, ctrl x u /\ F x u y) sg SM AT Psg) as (m & c & rho & Hm & Pc & Pr & H).
  - intros x y Lx Sx (u & Cu & Hy). apply (LF x u y Lx); [rewrite (CT x u Lx Sx Cu); apply LK|exact Hy].
  - intros eps He. destruct (DF (eps / (1 + ka)) ltac:(apply Rdiv_lt_0_compat; lra)) as (dl & Pdl & HD). exists (Rmin (dl / (1 + ka)) sg). split; [apply Rmin_glb_lt; [apply Rdiv_lt_0_compat; lra|exact Psg]|]. intros x y Lx Sx' (u & Cu & Hy).
    assert (Sx : sup x <= dl / (1 + ka)) by (eapply Rle_trans; [exact Sx'|apply Rmin_l]). rewrite (CT x u Lx ltac:(eapply Rle_trans; [exact Sx'|apply Rmin_r]) Cu) in Hy.
    assert (EM : mv M x = linear_step A B x (mv K x)). { unfold M, linear_step. rewrite (mv_madd _ _ nx nx) by eauto with shp. f_equal. rewrite (mv_mm B K nu nx); eauto. }
    rewrite EM. pose proof (sup_nonneg x) as S0. pose proof (KX x Lx) as S1. assert (SD : (1 + ka) * sup x <= dl). { apply (Rmult_le_compat_l (1 + ka)) in Sx; [|lra]. replace ((1 + ka) * (dl / (1 + ka))) with dl in Sx by (field; lra). exact Sx. }
    eapply Rle_trans; [apply (HD x (mv K x) y Lx (LK x)); [nra|nra|exact Hy]|]. replace (eps * sup x) with (eps / (1 + ka) * ((1 + ka) * sup x)) by (field; lra). apply Rmult_le_compat_l; [apply Rlt_le, Rdiv_lt_0_compat; lra|lra].
  - exists m, c, rho. split; [exact Hm|]. split; [exact Pc|]. split; [exact Pr|]. intros z T L0 S0 HF t Ht. destruct (H z T L0 S0 HF t Ht) as (LT & ST & BT). split; [exact ST|]. split; assumption.
Qed.
Lemma lqr_attractive np S Q Rm nx nu P K : exact_np np -> shape (lA S) nx nx -> shape (lB S) nx nu -> shape Q nx nx -> shape Rm nu nu -> Spec.pd Q nx -> Spec.pd Rm nu -> lqr_pair np S Q Rm P K nx nu -> shape K nu nx /\ attractive (madd (lA S) (mm (lB S) K)) nx.
Proof.
  intros Hnp SA SB SQ SR PQ PR (Hn & FC & RIC & PSD & ED). destruct (lqr_spectral np S Q Rm nx nu P K Hnp SA SB SQ SR Hn PQ PR FC RIC PSD ED) as ((r & SPR & R1) & _).
  assert (SK : shape K nu nx). { destruct (solve_dare_ok np S Q Rm nx nu Hnp SA SB SQ SR Hn FC PR RIC PSD) as (_ & _ & OK). apply (OK P K ED). }
  split; [exact SK|]. apply (proj2 (attractive_iff (A_closed S K) nx r ltac:(unfold A_closed; eauto with shp) SPR)), R1.
Qed.
(*@ Theorem C95_local : Let the plant x+ = F(x, u) be differentiable at the origin, with the derivative A, B of the linear system S. The gain K that solve_dare computes for S stabilizes the plant locally: there are a radius rho > 0 and constants c, m with |x(t)| <= c (3/4)^(t / m) |x(0)| for all t and all runs of x+ = F(x, K x) with |x(0)| <= rho *)
Lemma lqr_local np S Q Rm nx nu P K (F : vec -> vec -> vec -> Prop) : lqr_problem np S Q Rm nx nu -> fst (solve_dare np S Q Rm) = Ok (P, K) -> (forall x u y, length x = nx -> length u = nu -> F x u y -> length y = nx) -> linearizes F (lA S) (lB S) nx nu ->
  exists m c rho, (0 < m)%nat /\ 0 <= c /\ 0 < rho /\ forall z : nat -> vec, length (z 0%nat) = nx -> sup (z 0%nat) <= rho -> (forall t, F (z t) (mv K (z t)) (z (Datatypes.S t))) ->
  forall t, sup (z t) <= c * (3 / 4) ^ (t / m) * sup (z 0%nat).
Proof.
  intros (Hnp & SA & SB & SQ & SR & Hn & PQ & PR & FC & ST & RIC & PSD & _) ED LF DF.
  destruct (lqr_attractive np S Q Rm nx nu P K Hnp SA SB SQ SR PQ PR (conj Hn (conj FC (conj RIC (conj PSD ED))))) as (SK & AT).
  destruct (local_law (lA S) (lB S) K nx nu F (fun x u => u = mv K x) 1 SA SB SK AT ltac:(lra) LF DF ltac:(intros x u _ _ E; exact E)) as (m & c & rho & Hm & Pc & Pr & H).
  exists m, c, rho. split; [exact Hm|]. split; [exact Pc|]. split; [exact Pr|]. intros z L0 S0 HF t. apply (H z t L0 S0); [|lia]. intros s _. exists (mv K (z s)). split; [reflexivity|apply HF].
Qed.
(** the explicit Euler step of the nonlinear cart-pole of the script *)
Definition cart_plant (mc mp l d k g h : R) (x u y : vec) : Prop := exists f, cart_flow mc mp l d k g x u = Ok f /\ y = vadd x (vscale h f).
Lemma mapM_value env es f : map (value env) es = map Some f -> mapM (fun e => match value env e with Some v => Ok v | None => Err ValueError end) es = Ok f.
Proof. revert f. induction es as [|e es IH]; intros [|a f] H; try discriminate; [reflexivity|]. cbn in H |- *. injection H as -> H. cbn. rewrite (IH f H). reflexivity. Qed.
Lemma cart_mode_free mp l d k g x u : 0 < l -> Rabs (tip l (nth 0 (x ++ u) 0) (nth 1 (x ++ u) 0)) <= d -> cart_mode mp l d k g x u = U1 mp l g.
Proof.
  intros Hl H. unfold cart_mode. assert (E : value (cart_env x u) (nth 0 (pp l) (SNum 0)) = Some (tip l (nth 0 (x ++ u) 0) (nth 1 (x ++ u) 0))) by (cbn; unfold tip, cart_env; f_equal; ring).
  rewrite E. apply rabs_inv in H. destruct (Rlt_dec _ _); [lra|]. destruct (Rle_dec _ _); [reflexivity|lra].
Qed.
(*@ Theorem C95_total : The vector field of the script has a value at every state and input, in all three modes (no division by zero), for all positive masses and lengths *)
Lemma cart_flow_ok mc mp l d k g x u : 0 < mc -> 0 < mp -> 0 < l -> exists f, cart_flow mc mp l d k g x u = Ok f /\ length f = 4%nat.
Proof.
  intros Hmc Hmp Hl. assert (G : exists U k' e, cart_mode mp l d k g x u = U /\ In (U, k', e) (springs mp l d k g)).
  { unfold cart_mode. destruct (value _ _); [|exists (U1 mp l g), 0, 0; split; [reflexivity|right; left; reflexivity]]. destruct (Rlt_dec _ _); [exists (U0 mp l d k g), k, (- d); split; [reflexivity|left; reflexivity]|]. destruct (Rle_dec _ _); [exists (U1 mp l g), 0, 0; split; [reflexivity|right; left; reflexivity]|exists (U2 mp l d k g), k, d; split; [reflexivity|right; right; left; reflexivity]]. }
  destruct G as (U & k' & e & EU & HU). destruct (springs_ok _ _ _ _ _ _ _ _ HU) as (SM & UV). unfold cart_flow. rewrite EU. eexists. split; [apply (mapM_value _ _ _ (proj1 (script_values mc mp l g Hmc Hmp Hl k' e U SM UV (cart_env x u))))|reflexivity].
Qed.
Lemma cart_linearizes mc mp l d k g h : 0 < mc -> 0 < mp -> 0 < l -> 0 < d -> 0 < h -> linearizes (cart_plant mc mp l d k g h) (lA (cart_S2 mc mp l g h)) (lB (cart_S2 mc mp l g h)) 4 1.
Proof.
  intros Hmc Hmp Hl Hd Hh eps He. pose proof (script_notebook mc mp l d k g Hmc Hmp Hl) as NB. unfold cart_script in NB. destruct (linearize mc mp l (U0 mp l d k g)) as [S0|]; [|discriminate]. cbn [bind] in NB. destruct (linearize mc mp l (U1 mp l g)) as [[[A B] c]|] eqn:E1; [|discriminate]. cbn [bind] in NB. destruct (linearize mc mp l (U2 mp l d k g)) as [S2|]; [|discriminate]. cbn [bind] in NB. injection NB as _ -> -> -> _.
  destruct (script_error mc mp l d k g (U1 mp l g) 0 0 _ _ _ Hmc Hmp Hl ltac:(right; left; reflexivity) E1) as (K & PK & HE).
  assert (PHK : 0 <= h * K) by (apply Rmult_le_pos; lra).
  set (dl := Rmin (/ 2) (Rmin (eps / (2 * (h * K + 1))) (d / (1 + l)))). assert (D1 : dl <= / 2) by apply Rmin_l. assert (D2 : dl <= eps / (2 * (h * K + 1))) by (eapply Rle_trans; [apply Rmin_r|apply Rmin_l]). assert (D3 : dl <= d / (1 + l)) by (eapply Rle_trans; [apply Rmin_r|apply Rmin_r]).
  exists dl. split; [unfold dl; repeat apply Rmin_glb_lt; [lra|apply Rdiv_lt_0_compat; lra|apply Rdiv_lt_0_compat; lra]|].
  intros x u y Lx Lu Sx Su (f & EF & ->). pose proof (sup_nonneg x) as Nx. pose proof (sup_nonneg u) as Nu. set (r := sup x + sup u).
  destruct (HE x u r Lx Lu ltac:(unfold r; lra) ltac:(unfold r; lra) ltac:(unfold r; lra)) as (f' & EF' & Lf & BD).
  assert (TIP : Rabs (tip l (nth 0 (x ++ u) 0) (nth 1 (x ++ u) 0)) <= d).
  { rewrite !app_nth1 by lia. unfold tip. pose proof (nth_sup x 0) as X0. pose proof (nth_sup x 1) as X1. pose proof (sin_abs (nth 1 x 0)) as X2. eapply Rle_trans; [apply abs_sub; [exact X0|apply abs_mul; [rewrite Rabs_pos_eq; [apply Rle_refl|lra]|eapply Rle_trans; [exact X2|exact X1]]]|].
    apply (Rmult_le_compat_l (1 + l)) in D3; [|lra]. replace ((1 + l) * (d / (1 + l))) with d in D3 by (field; lra). nra. }
  unfold cart_flow in EF. rewrite (cart_mode_free mp l d k g x u Hl TIP), (mapM_value _ _ _ EF') in EF. injection EF as <-.
  assert (EV : vsub (vadd x (vscale h f')) (linear_step (lA (cart_S2 mc mp l g h)) (lB (cart_S2 mc mp l g h)) x u) = vscale h (vsub f' (affine_step (cart_A_free mc mp l g) (cart_B mc l) (zeros 4) x u))).
  { destruct x as [|x1 [|x2 [|x3 [|x4 [|? ?]]]]]; try discriminate. destruct u as [|u1 [|? ?]]; try discriminate. destruct f' as [|f1 [|f2 [|f3 [|f4 [|? ?]]]]]; try discriminate. unfold linear_step, affine_step, cart_S2, cart_A_free, cart_B. cbn. repeat (f_equal; [field; lra|]). f_equal; field; lra. }
  rewrite EV. assert (SV : sup (vscale h (vsub f' (affine_step (cart_A_free mc mp l g) (cart_B mc l) (zeros 4) x u))) <= h * (K * (r * r))).
  { apply sup_le; [apply Rmult_le_pos; [lra|apply Rmult_le_pos; [lra|apply Rle_0_sqr]]|]. intros i _. rewrite nth_vscale, Rabs_mult, (Rabs_pos_eq h) by lra. apply Rmult_le_compat_l; [lra|]. eapply Rle_trans; [apply nth_sup|exact BD]. }
  eapply Rle_trans; [exact SV|]. replace (h * (K * (r * r))) with (h * K * r * r) by ring. apply Rmult_le_compat_r; [unfold r; lra|]. apply (Rmult_le_compat_l (2 * (h * K + 1))) in D2; [|lra]. replace (2 * (h * K + 1) * (eps / (2 * (h * K + 1)))) with eps in D2 by (field; lra). unfold r. nra.
Qed.
(*@ Theorem C95_stabilized : The LQR gain that the notebook computes for its linearized cart-pole between the walls stabilizes the nonlinear cart-pole of the script locally: for all positive masses, lengths, gaps and steps there are rho > 0, c and m such that every run of the explicit Euler discretization of the nonlinear three-mode dynamics with u = K x and |x(0)| <= rho satisfies |x(t)| <= c (3/4)^(t / m) |x(0)| *)
Lemma cart_stabilized np mc mp l d k g h S1 S2 S3 Q Rm P K : 0 < mc -> 0 < mp -> 0 < l -> 0 < d -> 0 < h -> cart_systems np mc mp l d k g h = Ok (S1, S2, S3) -> lqr_problem np S2 Q Rm 4 1 -> fst (solve_dare np S2 Q Rm) = Ok (P, K) ->
  exists m c rho, (0 < m)%nat /\ 0 <= c /\ 0 < rho /\ forall z : nat -> vec, length (z 0%nat) = 4%nat -> sup (z 0%nat) <= rho ->
  (forall t, exists f, cart_flow mc mp l d k g (z t) (mv K (z t)) = Ok f /\ z (S t) = vadd (z t) (vscale h f)) ->
  forall t, sup (z t) <= c * (3 / 4) ^ (t / m) * sup (z 0%nat).
Proof.
  intros Hmc Hmp Hl Hd Hh ES LQ ED. rewrite (cart_systems_eq np) in ES by lra. injection ES as <- <- <-.
  apply (lqr_local np _ Q Rm 4 1 P K (cart_plant mc mp l d k g h) LQ ED).
  - intros x u y Lx Lu (f & EF & ->). destruct (cart_flow_ok mc mp l d k g x u Hmc Hmp Hl) as (f' & EF' & Lf). rewrite EF in EF'. injection EF' as <-. len.
  - apply cart_linearizes; assumption.
Qed.
(*@ Example C95_stabilized_example : The numbers of the notebook and of the script (Q and R identities): there are exact libraries for which the hypotheses of C95_stabilized hold, and from every state there is a run of the closed loop *)
Lemma cart_stabilized_example : exists np S1 S2 S3 P K, cart_systems np 1 1 1 1 100 10 (/ 20) = Ok (S1, S2, S3) /\ lqr_problem np S2 (eye 4) (eye 1) 4 1 /\ fst (solve_dare np S2 (eye 4) (eye 1)) = Ok (P, K) /\
  forall x0, length x0 = 4%nat -> exists z, z 0%nat = x0 /\ forall t, exists f, cart_flow 1 1 1 1 100 10 (z t) (mv K (z t)) = Ok f /\ z (S t) = vadd (z t) (vscale (/ 20) f).
Proof.
  destruct cart_loop_example as (np0 & S1 & S2 & S3 & _ & _ & _ & ES & _ & _ & S4 & S1' & P4 & P1). rewrite (cart_systems_eq np0) in ES by lra. injection ES as <- <- <-. set (S2 := cart_S2 1 1 1 10 (/ 20)).
  assert (SA : shape (lA S2) 4 4) by (repeat split; repeat constructor). assert (SB : shape (lB S2) 4 1) by (repeat split; repeat constructor).
  assert (ST : steerable (lA S2) (lB S2) 4 1 4).
  { apply (proj2 (walls_controllable np0 1 1 10 100 1 (/ 20) 1 1 ltac:(lra) ltac:(lra) ltac:(lra) ltac:(lra) ltac:(lra)) ltac:(lra) (cart_S1 1 1 1 1 100 10 (/ 20)) S2 (cart_S3 1 1 1 1 100 10 (/ 20))). apply cart_systems_eq. lra. }
  destruct (libraries S2 (eye 4) (eye 1) 4 1 SA SB S4 S1' ltac:(lia) P4 P1 eq_refl ST) as (np & LQ & _). pose proof LQ as (Hnp & _ & _ & SQ & SR & Hn & PQ & PR & FC & _ & RIC & PSD & _).
  destruct (proj1 (solve_dare_ok np S2 (eye 4) (eye 1) 4 1 Hnp SA SB SQ SR Hn FC PR RIC PSD) ST) as (P & K & ED).
  exists np, (cart_S1 1 1 1 1 100 10 (/ 20)), S2, (cart_S3 1 1 1 1 100 10 (/ 20)), P, K. split; [apply cart_systems_eq; lra|]. split; [exact LQ|]. split; [exact ED|].
  intros x0 Lx. set (nxt := fun x => match cart_flow 1 1 1 1 100 10 x (mv K x) with Ok f => vadd x (vscale (/ 20) f) | Err _ => x end).
  exists (fun t => Nat.iter t nxt x0). split; [reflexivity|]. intros t. change (Nat.iter (S t) nxt x0) with (nxt (Nat.iter t nxt x0)). set (y := Nat.iter t nxt x0).
  destruct (cart_flow_ok 1 1 1 1 100 10 y (mv K y) ltac:(lra) ltac:(lra) ltac:(lra)) as (f & EF & _). exists f. split; [exact EF|]. unfold nxt. rewrite EF. reflexivity.
Qed.
