(** * PlantThms: model predictive control of a nonlinear plant (C96), proofs *)
From Coq Require Import Lra Lia Classical.
From Verif Require Import Arr ArrFacts Spec SpecMpc SpecProg SpecDyn SpecEig SpecSym SpecRound SpecCart Numpy QpFacts Polyhedron PolyThms Dynamics DynThms CondenseThms LqrThms McaisThms Mpqp Controllers CtrlThms Gurobi Programs Hybrid HybridThms HybridOptThms HybridLoopThms Symbolic SymThms SpectralThms RoundThms RoundSimThms RoundPwaThms Notebooks NoteThms Walls WallThms CartDyn CartDynThms LocalThms.

(** ** Linear controller *)
(*@ Theorem C96_feedback : In a terminal set that is admissible and invariant under the gain K of solve_dare (with P as terminal cost), feedback returns exactly K x *)
Lemma mpc_feedback_lqr np S N Q Rm P D X_N K nx nu C x : exact_np np -> mpc_data S N Q Rm P D X_N nx nu -> ModelPredictiveController np S N Q Rm P D X_N = Ok C ->
  lqr_pair np S Q Rm P K nx nu -> terminal_invariant (lA S) (lB S) K (in_poly D) (in_poly X_N) -> length x = nx -> in_poly X_N x -> feedback np C x = Ok (Some (mv K x)).
Proof.
  intros Hnp HD E HL TI Lx HX. destruct (mpc_lqr np S N Q Rm P D X_N K nx nu C x Hnp HD E HL Lx) as (_ & G & F). destruct (F TI HX) as (us & xs & HA & HK). apply (G us xs HA HK).
Qed.
(*@ Theorem C96_mpc : A model predictive controller built for the linearization A, B of a nonlinear plant x+ = F(x, u) (terminal cost and gain of solve_dare, invariant terminal set with the origin inside) stabilizes the plant: there are a radius rho > 0 and constants c, m such that from all x(0) with |x(0)| <= rho feedback returns an input at all times, and |x(t)| <= c (3/4)^(t / m) |x(0)| *)
Lemma mpc_plant np S N Q Rm P D X_N K nx nu C sg (F : vec -> vec -> vec -> Prop) : exact_np np -> mpc_data S N Q Rm P D X_N nx nu -> ModelPredictiveController np S N Q Rm P D X_N = Ok C ->
  lqr_pair np S Q Rm P K nx nu -> Spec.pd Q nx -> terminal_invariant (lA S) (lB S) K (in_poly D) (in_poly X_N) -> 0 < sg -> (forall x, length x = nx -> sup x <= sg -> in_poly X_N x) ->
  (forall x u y, length x = nx -> length u = nu -> F x u y -> length y = nx) -> linearizes F (lA S) (lB S) nx nu ->
  exists m c rho, (0 < m)%nat /\ 0 <= c /\ 0 < rho /\ forall z : nat -> vec, length (z 0%nat) = nx -> sup (z 0%nat) <= rho -> (forall t u, feedback np C (z t) = Ok (Some u) -> F (z t) u (z (Datatypes.S t))) ->
  forall t, feedback np C (z t) = Ok (Some (mv K (z t))) /\ in_poly D (z t ++ mv K (z t)) /\ sup (z t) <= c * (3 / 4) ^ (t / m) * sup (z 0%nat).
Proof.
  intros Hnp HD E HL PQ TI Psg BALL LF DF. pose proof HD as ((SA & SB & HN & SQ & SP & SR & _) & _ & _ & _ & PP & PR).
  destruct (lqr_attractive np S Q Rm nx nu P K Hnp SA SB SQ SR PQ PR HL) as (SK & AT).
  assert (FB : forall x, length x = nx -> sup x <= sg -> feedback np C x = Ok (Some (mv K x))) by (intros x Lx Sx; apply (mpc_feedback_lqr np S N Q Rm P D X_N K nx nu C x Hnp HD E HL TI Lx), BALL; assumption).
  destruct (local_law (lA S) (lB S) K nx nu F (fun x u => feedback np C x = Ok (Some u)) sg SA SB SK AT Psg LF DF) as (m & c & rho & Hm & Pc & Pr & H).
  { intros x u Lx Sx Eu. rewrite (FB x Lx Sx) in Eu. injection Eu as <-. reflexivity. }
  exists m, c, rho. split; [exact Hm|]. split; [exact Pc|]. split; [exact Pr|]. intros z L0 S0 HF.
  assert (RUN : forall T t, (t < T)%nat -> exists u, feedback np C (z t) = Ok (Some u) /\ F (z t) u (z (Datatypes.S t))).
  { induction T as [|T IH]; intros t Ht; [lia|]. destruct (H z T L0 S0 IH t ltac:(lia)) as (St & Lt & _). exists (mv K (z t)). split; [apply FB; assumption|]. apply HF, FB; assumption. }
  intros t. destruct (H z t L0 S0 (RUN t) t ltac:(lia)) as (St & Lt & Bt). split; [apply FB; assumption|]. split; [apply TI, BALL; assumption|exact Bt].
Qed.

(** ** Hybrid controller *)
(** the gain K from a state of its invariant set: an admissible run of cost 1/2 x'P x *)
Lemma lqr_run A B K nx nu N D XN x : shape K nu nx -> terminal_invariant A B K D XN -> XN x ->
  exists us xs, mpc_admissible A B nu N D XN x us xs /\ forall t, (t < N)%nat -> nth t us [] = mv K (nth t xs []).
Proof.
  intros SK TI HX. set (Y := fix Y t := match t with O => x | Datatypes.S t' => linear_step A B (Y t') (mv K (Y t')) end).
  assert (YX : forall t, XN (Y t)) by (induction t as [|t IH]; [exact HX|exact (proj2 (TI _ IH))]).
  exists (map (fun t => mv K (Y t)) (seq 0 N)), (map Y (seq 0 (Datatypes.S N))).
  assert (nU : forall t, (t < N)%nat -> nth t (map (fun t => mv K (Y t)) (seq 0 N)) [] = mv K (Y t)) by (intros t Ht; apply (nth_map_seq (fun t => mv K (Y t))); exact Ht).
  assert (nX : forall t, (t < Datatypes.S N)%nat -> nth t (map Y (seq 0 (Datatypes.S N))) [] = Y t) by (intros t Ht; apply (nth_map_seq Y); exact Ht).
  assert (LU : length (map (fun t => mv K (Y t)) (seq 0 N)) = N) by (rewrite map_length, seq_length; reflexivity).
  split; [|intros t Ht; rewrite nU, nX by lia; reflexivity].
  split; [exact LU|]. split; [apply Forall_forall; intros v Hv; apply in_map_iff in Hv; destruct Hv as (t & <- & _); rewrite mv_length; apply SK|]. split.
  - split; [rewrite LU, map_length, seq_length; reflexivity|]. split; [rewrite nX by lia; reflexivity|]. rewrite LU. intros t Ht. rewrite !nX, nU by lia. reflexivity.
  - split; rewrite LU; [intros t Ht; rewrite nX, nU by lia; apply TI, YX|rewrite nX by lia; apply YX].
Qed.
(** mode i is the linear system S on D *)
Definition linear_mode (W : pwa) (i : nat) (S : lsys) (D : poly) (nx : nat) : Prop := (i < length (w_sys W))%nat /\ nth i (w_sys W) asys0 = ASys (lA S) (lB S) (zeros nx) /\ nth i (w_dom W) poly0 = D.
(** .. and the other domains stay away from the origin *)
Definition origin_mode (W : pwa) (i : nat) (S : lsys) (D : poly) (nx : nat) (dl : R) : Prop :=
  linear_mode W i S D nx /\ 0 < dl /\ forall j xu, (j < length (w_sys W))%nat -> j <> i -> in_poly (nth j (w_dom W) poly0) xu -> dl <= sup xu.
Lemma one_mode W i S D nx nu X_N N x us modes xs : hyb_data W nx nu -> shape (lA S) nx nx -> shape (lB S) nx nu -> linear_mode W i S D nx -> length modes = N -> (forall t, (t < N)%nat -> nth t modes 0%nat = i) ->
  pwa_run_from W X_N nu N x us modes xs <-> mpc_admissible (lA S) (lB S) nu N (in_poly D) (in_poly X_N) x us xs.
Proof.
  intros HW SA SB (Hi & ES & ED) Lm MI. pose proof HW as (_ & _ & _ & LD & _).
  assert (ST : forall a b, affine_step (nth i (map aA (w_sys W)) (Mat 0 [])) (nth i (map aB (w_sys W)) (Mat 0 [])) (nth i (map ac (w_sys W)) []) a b = linear_step (lA S) (lB S) a b).
  { intros a b. rewrite !(nth_map_lt _ (w_sys W) i asys0) by exact Hi. rewrite ES. cbn [aA aB ac]. unfold affine_step. apply vadd_zeros_r. apply (step_length _ _ nx nu); assumption. }
  assert (DO : forall xu, nth i (map in_poly (w_dom W)) (fun _ => False) xu <-> in_poly D xu) by (intros xu; rewrite (nth_map_lt _ (w_dom W) i poly0) by lia; rewrite ED; reflexivity).
  unfold pwa_run_from, pwa_admissible, mpc_admissible, is_switched_trajectory, is_trajectory, stage_constraints. split.
  - intros (Lu & Fu & _ & _ & (Lx & H0 & HT) & HD & HX). rewrite Lu in *. split; [reflexivity|]. split; [exact Fu|]. split.
    + split; [exact Lx|]. split; [exact H0|]. intros t Ht. specialize (HT t Ht). cbv zeta in HT. rewrite MI, ST in HT by exact Ht. exact HT.
    + split; [|exact HX]. intros t Ht. specialize (HD t Ht). cbv beta in HD. rewrite MI in HD by exact Ht. apply DO, HD.
  - intros (Lu & Fu & (Lx & H0 & HT) & HD & HX). rewrite Lu in *. split; [reflexivity|]. split; [exact Fu|]. split; [exact Lm|]. split.
    + intros k Hk. apply (In_nth _ _ 0%nat) in Hk. destruct Hk as (t & Ht & <-). rewrite MI by lia. rewrite map_length. exact Hi.
    + split; [|split; [|exact HX]].
      * split; [exact Lx|]. split; [exact H0|]. intros t Ht. cbv zeta. rewrite MI, ST by exact Ht. apply HT, Ht.
      * intros t Ht. rewrite MI by exact Ht. apply DO, HD, Ht.
Qed.
Lemma sum_upto_ge f n i : (i < n)%nat -> (forall i, (i < n)%nat -> 0 <= f i) -> f i <= sum_upto f n.
Proof.
  induction n as [|n IH]; intros Hi H; [lia|]. cbn [sum_upto]. destruct (Nat.eq_dec i n) as [->|].
  - assert (0 <= sum_upto f n) by (apply sum_upto_nonneg; intros; apply H; lia). lra.
  - specialize (IH ltac:(lia) ltac:(intros; apply H; lia)). pose proof (H n ltac:(lia)). lra.
Qed.
Lemma dot_sup a b : dot a b <= INR (length a) * (sup a * sup b).
Proof.
  revert b. induction a as [|p a IH]; intros [|q b]; try (cbn; lra).
  change (dot (p :: a) (q :: b)) with (p * q + dot a b). rewrite (S_INR (length a) : INR (length (p :: a)) = _). pose proof (IH b) as G. cbn [sup fold_right]. fold (sup a) (sup b).
  pose proof (sup_nonneg a). pose proof (sup_nonneg b). pose proof (Rmax_l (Rabs p) (sup a)). pose proof (Rmax_r (Rabs p) (sup a)). pose proof (Rmax_l (Rabs q) (sup b)). pose proof (Rmax_r (Rabs q) (sup b)).
  set (A := Rmax (Rabs p) (sup a)) in *. set (B := Rmax (Rabs q) (sup b)) in *. pose proof (Rabs_pos p). pose proof (Rabs_pos q).
  assert (sup a * sup b <= A * B) by (apply Rmult_le_compat; lra). assert (p * q <= A * B) by (eapply Rle_trans; [apply Rle_abs|rewrite Rabs_mult; apply Rmult_le_compat; lra]).
  pose proof (pos_INR (length a)). assert (INR (length a) * (sup a * sup b) <= INR (length a) * (A * B)) by (apply Rmult_le_compat_l; lra). lra.
Qed.
Lemma sup_dot x : sup x * sup x <= dot x x.
Proof.
  induction x as [|a x IH]; [cbn; lra|]. change (dot (a :: x) (a :: x)) with (a * a + dot x x). cbn [sup fold_right]. fold (sup x). pose proof (dot_self_nonneg x). unfold Rmax. destruct (Rle_dec (Rabs a) (sup x)); [nra|].
  rewrite <- Rabs_mult. rewrite Rabs_right; nra.
Qed.
(** a controller for the system W with its program *)
Definition hyb_controller np W N Q Rm P X_N nx nu mN meN C : Prop :=
  exact_np np /\ hyb_data W nx nu /\ (0 < N)%nat /\ hyb_domains W /\ wf X_N mN meN nx /\ no_eqs W X_N /\ hyb_costs Q Rm P nx nu /\ HybridModelPredictiveController np W N Q Rm P X_N = Ok C.
Lemma origin_shapes W i S D nx nu : hyb_data W nx nu -> linear_mode W i S D nx -> shape (lA S) nx nx /\ shape (lB S) nx nu.
Proof. intros (_ & _ & HC & _) (Hi & ES & _). pose proof (proj2 HC _ (nth_In _ asys0 Hi)) as ((SA & SB) & _). rewrite ES in SA, SB. split; assumption. Qed.
Lemma all_nth_repeat (l : list nat) N i : length l = N -> (forall t, (t < N)%nat -> nth t l 0%nat = i) -> l = repeat i N.
Proof. intros L H. apply (nth_ext _ _ 0%nat 0%nat); [rewrite repeat_length; exact L|]. intros t Ht. rewrite H by lia. rewrite (nth_indep _ 0%nat i) by (rewrite repeat_length; lia). symmetry. apply nth_repeat. Qed.
(*@ Theorem C96_level : The hybrid controller is the LQR gain on a whole region: let one mode be the linear system S (no offset) with terminal cost and gain of solve_dare for S, and let the terminal set be admissible and invariant under K for this mode. Whenever Gurobi solves the program at a state x of the terminal set with x'P x less than the stage cost (without the factor 1/2) at all points of the other domains, feedback returns K x, and feedforward returns this mode at all steps and the value 1/2 x'P x *)
Lemma hybrid_level np W N Q Rm P X_N nx nu mN meN C i S D K e : hyb_controller np W N Q Rm P X_N nx nu mN meN C -> linear_mode W i S D nx ->
  lqr_pair np S Q Rm P K nx nu -> terminal_invariant (lA S) (lB S) K (in_poly D) (in_poly X_N) ->
  (forall j x u, (j < length (w_sys W))%nat -> j <> i -> length x = nx -> length u = nu -> in_poly (nth j (w_dom W) poly0) (x ++ u) -> e <= dot x (mv Q x) + dot u (mv Rm u)) ->
  forall grb x, length x = nx -> in_poly X_N x -> dot x (mv P x) < e -> gurobi_solves grb (k_mpmiqp C) x ->
    hybrid_feedback grb C x = Ok (Some (mv K x)) /\ exists us xs, hybrid_feedforward grb C x = Ok (Some (us, xs, repeat i N, / 2 * dot x (mv P x))).
Proof.
  intros (Hnp & HW & HN & HDm & WX & NE & HC & EC) OM HL TI STAGE grb x Lx HX SMALL GS. destruct (origin_shapes W i S D nx nu HW OM) as (SA & SB). pose proof HC as (SQ & SP & SR & PQ' & PP & PR & _). pose proof HL as (Pnx & _).
  pose proof HW as (_ & _ & _ & LD & _). destruct (lqr_identity np S Q Rm P K nx nu Hnp SA SB SQ SR PR HL) as (SK & _ & _ & M & PM & HI).
  (* the run of the gain *)
  destruct (lqr_run (lA S) (lB S) K nx nu N (in_poly D) (in_poly X_N) x SK TI HX) as (us0 & xs0 & A0 & K0). pose proof A0 as (L0 & F0 & T0 & _).
  assert (V0 : trajectory_cost Q Rm P us0 xs0 = / 2 * dot x (mv P x)).
  { rewrite (lqr_telescope (lA S) (lB S) Q Rm P K M nx nu us0 x xs0 SA SB Lx F0 T0 HI). rewrite (sum_upto_ext _ (fun _ => 0)).
    - assert (Z : forall n, sum_upto (fun _ => 0) n = 0) by (induction n as [|n IH]; cbn [sum_upto]; lra). rewrite Z. ring.
    - intros t Ht. rewrite K0 by lia. rewrite vsub_self. rewrite dot_zeros_l. ring. }
  assert (R0 : pwa_run_from W X_N nu N x us0 (repeat i N) xs0).
  { apply (one_mode W i S D nx nu X_N N x us0 (repeat i N) xs0 HW SA SB OM (repeat_length i N)); [|exact A0]. intros t Ht. rewrite (nth_indep _ 0%nat i) by (rewrite repeat_length; lia). apply nth_repeat. }
  destruct (hybrid_optimal np grb W N Q Rm P X_N nx nu mN meN C Hnp HW Pnx HN HDm SQ SP SR WX NE EC x Lx GS) as [(us & xs & modes & EF & (HA & HO) & EB)|(_ & _ & _ & NR)]; [|elim (NR HC _ _ _ R0)].
  fold (pwa_run_from W X_N nu N x us modes xs) in HA. pose proof (HO _ _ _ R0) as LE. rewrite V0 in LE. destruct (run_cost_nonneg W X_N Q Rm P nx nu N x us modes xs HW HC Lx HA) as (_ & Lxs). pose proof HA as (Lu & Fu & Lm & HM & _ & HD & _). rewrite map_length in HM. rewrite Lu in HD.
  assert (MI : forall t, (t < N)%nat -> nth t modes 0%nat = i).
  { intros t Ht. destruct (Nat.eq_dec (nth t modes 0%nat) i) as [|NEQ]; [assumption|exfalso]. assert (Hk : (nth t modes 0 < length (w_sys W))%nat) by (apply HM, nth_In; lia).
    specialize (HD t Ht). cbv beta in HD. rewrite (nth_map_lt _ (w_dom W) _ poly0) in HD by lia.
    assert (NN : forall t, (t < N)%nat -> 0 <= / 2 * (dot (nth t xs []) (mv Q (nth t xs [])) + dot (nth t us []) (mv Rm (nth t us [])))).
    { intros s Hs. pose proof (proj2 PQ' _ (Lxs s ltac:(lia))). assert (Lt : length (nth s us []) = nu) by (apply Forall_len_nth; [exact Fu|lia]). pose proof (proj2 (pd_psd _ _ PR) _ Lt). lra. }
    pose proof (sum_upto_ge _ N t Ht NN) as G. cbv beta in G. pose proof (STAGE _ _ _ Hk NEQ (Lxs t ltac:(lia)) ltac:(apply (Forall_len_nth us nu t Fu); lia) HD) as G2. pose proof (proj2 PP _ (Lxs N (le_n N))) as G3. unfold trajectory_cost in LE. rewrite Lu in LE. lra. }
  pose proof (proj1 (one_mode W i S D nx nu X_N N x us modes xs HW SA SB OM Lm MI) HA) as HA'. pose proof HA' as (_ & _ & TR & _). pose proof (lqr_telescope (lA S) (lB S) Q Rm P K M nx nu us x xs SA SB Lx Fu TR HI) as TE. rewrite Lu in TE.
  assert (NN : forall t, (t < N)%nat -> 0 <= / 2 * dot (vsub (nth t us []) (mv K (nth t xs []))) (mv M (vsub (nth t us []) (mv K (nth t xs []))))).
  { intros t Ht. assert (LDu : length (vsub (nth t us []) (mv K (nth t xs []))) = nu) by (rewrite vsub_length, mv_length, (proj1 SK), (Forall_len_nth us nu) by (auto; lia); lia). pose proof (proj2 (pd_psd _ _ PM) _ LDu). lra. }
  pose proof (sum_upto_ge _ N 0%nat HN NN) as G0. cbv beta in G0. pose proof (NN 0%nat HN) as N0. pose proof (sum_upto_nonneg _ N NN) as SN.
  assert (LU0 : length (nth 0 us []) = nu) by (apply Forall_len_nth; [exact Fu|lia]). assert (LK : length (mv K x) = nu) by (rewrite mv_length; apply SK). pose proof (proj1 (proj2 TR)) as X0. rewrite X0 in *.
  assert (U0 : nth 0 us [] = mv K x).
  { apply (vsub_zero_eq _ _ nu LU0 LK). destruct (classic (vsub (nth 0 us []) (mv K x) = zeros nu)) as [|NZ]; [assumption|exfalso]. assert (LDu : length (vsub (nth 0 us []) (mv K x)) = nu) by (rewrite vsub_length; lia). pose proof (proj2 PM _ LDu NZ). lra. }
  split; [rewrite EB, U0; reflexivity|]. exists us, xs. rewrite EF. rewrite (all_nth_repeat modes N i Lm MI). do 3 f_equal. lra.
Qed.
(*@ Theorem C96_hybrid_feedback : Near the origin the hybrid controller is the LQR gain: let the origin be in the interior of one domain (whose dynamics S has no offset) and away from the others, with terminal cost and gain of solve_dare for S and a terminal set, admissible and invariant under K, with the origin inside. There is a radius rho > 0 such that at all x with |x| <= rho, whenever Gurobi solves the program, feedback returns K x, and feedforward returns the modes of the origin only and the value 1/2 x'P x *)
Lemma hybrid_lqr np W N Q Rm P X_N nx nu mN meN C i S D K dl sg : hyb_controller np W N Q Rm P X_N nx nu mN meN C -> origin_mode W i S D nx dl ->
  lqr_pair np S Q Rm P K nx nu -> Spec.pd Q nx -> terminal_invariant (lA S) (lB S) K (in_poly D) (in_poly X_N) -> 0 < sg -> (forall x, length x = nx -> sup x <= sg -> in_poly X_N x) ->
  exists rho, 0 < rho /\ rho <= sg /\ forall grb x, length x = nx -> sup x <= rho -> gurobi_solves grb (k_mpmiqp C) x ->
    hybrid_feedback grb C x = Ok (Some (mv K x)) /\ exists us xs, hybrid_feedforward grb C x = Ok (Some (us, xs, repeat i N, / 2 * dot x (mv P x))).
Proof.
  intros HB OM HL PQ TI Psg BALL. pose proof HB as (Hnp & HW & HN & HDm & WX & NE & HC & EC). pose proof OM as (LM & Pdl & FAR). destruct (origin_shapes W i S D nx nu HW LM) as (SA & SB). pose proof HC as (SQ & SP & SR & PQ' & PP & PR & _). pose proof HL as (Pnx & _).
  pose proof HW as (_ & _ & _ & LD & _).
  destruct (form_domination np Hnp (eye nx) Q nx (shape_eye nx) SQ PQ) as (cq & Pcq & Hcq). destruct (form_domination np Hnp (eye nu) Rm nu (shape_eye nu) SR PR) as (cr & Pcr & Hcr).
  destruct (row_sums P nx nx SP) as (pa & Ppa & RP).
  assert (UP : forall x, length x = nx -> dot x (mv P x) <= INR nx * pa * (sup x * sup x)).
  { intros x Lx. eapply Rle_trans; [apply dot_sup|]. rewrite Lx. rewrite Rmult_assoc. apply Rmult_le_compat_l; [apply pos_INR|]. pose proof (sup_mv P nx nx pa x SP Ppa RP Lx). pose proof (sup_nonneg x). nra. }
  set (c := cq + cr + 1). assert (Pc : 1 <= c) by (unfold c; lra). set (e := INR nx * pa + 1). assert (Pe : 1 <= e) by (unfold e; pose proof (pos_INR nx); nra).
  (* a run that visits another mode costs more *)
  assert (STAGE : forall x u, length x = nx -> length u = nu -> dl <= sup (x ++ u) -> dl * dl / c <= dot x (mv Q x) + dot u (mv Rm u)).
  { intros x u Lx Lu H. pose proof (Hcq x Lx) as H1. pose proof (Hcr u Lu) as H2. rewrite (mv_eye nx) in H1 by exact Lx. rewrite (mv_eye nu) in H2 by exact Lu. pose proof (sup_dot x) as H3. pose proof (sup_dot u) as H4.
    pose proof (proj2 PQ' x Lx) as Q0. pose proof (proj2 (pd_psd _ _ PR) u Lu) as R0. set (a := dot x (mv Q x)) in *. set (b := dot u (mv Rm u)) in *. apply Rmult_le_reg_r with c; [lra|]. replace (dl * dl / c * c) with (dl * dl) by (field; lra).
    assert (X : cq * a <= c * a) by (apply Rmult_le_compat_r; unfold c; lra). assert (Y : cr * b <= c * b) by (apply Rmult_le_compat_r; unfold c; lra). pose proof (Rmult_le_pos c a ltac:(lra) Q0). pose proof (Rmult_le_pos c b ltac:(lra) R0).
    rewrite sup_app in H. apply Rmax_case_strong with (P := fun m => dl <= m -> dl * dl <= (a + b) * c) in H; [exact H|intros _ G; assert (dl * dl <= sup x * sup x) by (apply Rmult_le_compat; lra); lra|intros _ G; assert (dl * dl <= sup u * sup u) by (apply Rmult_le_compat; lra); lra]. }
  set (rho := Rmin sg (Rmin 1 (dl * dl / c / e / 2))). exists rho.
  assert (Pq : 0 < dl * dl / c / e) by (repeat apply Rdiv_lt_0_compat; try lra; apply Rmult_lt_0_compat; lra).
  assert (Prho : 0 < rho) by (unfold rho; repeat apply Rmin_glb_lt; lra).
  split; [exact Prho|]. split; [apply Rmin_l|]. intros grb x Lx Sx GS. assert (Ssg : sup x <= sg) by (eapply Rle_trans; [exact Sx|apply Rmin_l]).
  assert (SMALL : dot x (mv P x) < dl * dl / c).
  { assert (S1 : sup x <= 1) by (eapply Rle_trans; [exact Sx|unfold rho; eapply Rle_trans; [apply Rmin_r|apply Rmin_l]]). assert (S2 : sup x <= dl * dl / c / e / 2) by (eapply Rle_trans; [exact Sx|unfold rho; eapply Rle_trans; [apply Rmin_r|apply Rmin_r]]).
    pose proof (sup_nonneg x) as S0. pose proof (UP x Lx) as U1. assert (U2 : sup x * sup x <= sup x) by nra. assert (U3 : INR nx * pa * (sup x * sup x) <= e * sup x) by (apply Rmult_le_compat; [apply Rmult_le_pos; [apply pos_INR|lra]|nra|unfold e; lra|lra]).
    assert (U4 : e * sup x <= e * (dl * dl / c / e / 2)) by (apply Rmult_le_compat_l; lra). replace (e * (dl * dl / c / e / 2)) with (dl * dl / c / 2) in U4 by (field; lra). assert (0 < dl * dl / c) by (apply Rdiv_lt_0_compat; [apply Rmult_lt_0_compat; lra|lra]). lra. }
  apply (hybrid_level np W N Q Rm P X_N nx nu mN meN C i S D K (dl * dl / c) HB LM HL TI); [|exact Lx|apply BALL; assumption|exact SMALL|exact GS].
  intros j y v Hj NJ Ly Lv HI. apply STAGE; [exact Ly|exact Lv|]. apply (FAR j); assumption.
Qed.
(*@ Theorem C96_hybrid_loop : A hybrid controller as in C96_hybrid_feedback, built from a piecewise affine model, on a nonlinear plant x+ = F(x, u) whose linearization at the origin is the mode of the origin: there are a radius rho > 0 and constants c, m such that on all runs with |x(0)| <= rho, as long as Gurobi solves its programs, feedback returns K x and |x(t)| <= c (3/4)^(t / m) |x(0)| *)
Lemma hybrid_plant np W N Q Rm P X_N nx nu mN meN C i S D K dl sg (F : vec -> vec -> vec -> Prop) : hyb_controller np W N Q Rm P X_N nx nu mN meN C -> origin_mode W i S D nx dl ->
  lqr_pair np S Q Rm P K nx nu -> Spec.pd Q nx -> terminal_invariant (lA S) (lB S) K (in_poly D) (in_poly X_N) -> 0 < sg -> (forall x, length x = nx -> sup x <= sg -> in_poly X_N x) ->
  (forall x u y, length x = nx -> length u = nu -> F x u y -> length y = nx) -> linearizes F (lA S) (lB S) nx nu ->
  exists m c rho, (0 < m)%nat /\ 0 <= c /\ 0 < rho /\ forall grb (z : nat -> vec) T, length (z 0%nat) = nx -> sup (z 0%nat) <= rho ->
  (forall t, (t <= T)%nat -> gurobi_solves grb (k_mpmiqp C) (z t)) -> (forall t u, (t <= T)%nat -> hybrid_feedback grb C (z t) = Ok (Some u) -> F (z t) u (z (Datatypes.S t))) ->
  forall t, (t <= T)%nat -> hybrid_feedback grb C (z t) = Ok (Some (mv K (z t))) /\ in_poly D (z t ++ mv K (z t)) /\ sup (z (Datatypes.S t)) <= c * (3 / 4) ^ (Datatypes.S t / m) * sup (z 0%nat).
Proof.
  intros HB OM HL PQ TI Psg BALL LF DF. destruct (hybrid_lqr np W N Q Rm P X_N nx nu mN meN C i S D K dl sg HB OM HL PQ TI Psg BALL) as (r & Pr0 & Rsg & FB).
  pose proof HB as (Hnp & HW & _ & _ & _ & _ & (SQ & SP & SR & _ & _ & PR & _) & _). destruct (origin_shapes W i S D nx nu HW (proj1 OM)) as (SA & SB).
  destruct (lqr_attractive np S Q Rm nx nu P K Hnp SA SB SQ SR PQ PR HL) as (SK & AT).
  destruct (local_law (lA S) (lB S) K nx nu F (fun x u => u = mv K x) r SA SB SK AT Pr0 LF DF ltac:(intros x u _ _ E; exact E)) as (m & c & rho & Hm & Pc & Pr & H).
  exists m, c, rho. split; [exact Hm|]. split; [exact Pc|]. split; [exact Pr|]. intros grb z T L0 S0 GS HF.
  assert (RUN : forall T', (T' <= Datatypes.S T)%nat -> forall t, (t < T')%nat -> exists u, u = mv K (z t) /\ F (z t) u (z (Datatypes.S t))).
  { induction T' as [|T' IH]; intros HT t Ht; [lia|]. specialize (IH ltac:(lia)). destruct (H z T' L0 S0 IH t ltac:(lia)) as (St & Lt & _). exists (mv K (z t)). split; [reflexivity|]. apply HF; [lia|]. apply (FB grb (z t) Lt St), GS. lia. }
  intros t Ht. pose proof (RUN (Datatypes.S T) (le_n _)) as HR. destruct (H z (Datatypes.S T) L0 S0 HR t ltac:(lia)) as (St & Lt & _). destruct (H z (Datatypes.S T) L0 S0 HR (Datatypes.S t) ltac:(lia)) as (_ & _ & Bt).
  split; [apply (FB grb (z t) Lt St), GS, Ht|]. split; [apply TI, BALL; [exact Lt|lra]|exact Bt].
Qed.
(** ** The notebooks *)
Lemma sup_of_norm x : sup x <= norm x.
Proof. apply sup_le; [apply sqrt_pos|]. intros i Hi. unfold norm. pose proof (sup_dot x). pose proof (nth_sup x i) as H1. pose proof (sup_nonneg x). rewrite <- (sqrt_square (Rabs (nth i x 0))) by apply Rabs_pos. apply sqrt_le_1_alt. pose proof (Rabs_pos (nth i x 0)). nra. Qed.
Lemma norm_of_sup x : norm x <= (INR (length x) + 1) * sup x.
Proof.
  unfold norm. pose proof (sup_nonneg x). pose proof (pos_INR (length x)). rewrite <- (sqrt_square ((INR (length x) + 1) * sup x)) by nra. apply sqrt_le_1_alt. eapply Rle_trans; [apply dot_sup|].
  assert (0 <= sup x * sup x) by nra. replace ((INR (length x) + 1) * sup x * ((INR (length x) + 1) * sup x)) with ((INR (length x) + 1) * (INR (length x) + 1) * (sup x * sup x)) by ring. apply Rmult_le_compat_r; nra.
Qed.
Lemma sup_ball p m n : wf p m 0 n -> (forall i, (i < m)%nat -> 0 < nth i (pb p) 0) -> exists d, 0 < d /\ forall x, length x = n -> sup x <= d -> in_poly p x.
Proof.
  intros W H. destruct (ball_inside p m n W H) as (d & Pd & HB). pose proof (pos_INR n). exists (d / (INR n + 1)). split; [apply Rdiv_lt_0_compat; lra|]. intros x Lx Sx. apply HB; [exact Lx|]. eapply Rle_trans; [apply norm_of_sup|]. rewrite Lx.
  apply (Rmult_le_compat_l (INR n + 1)) in Sx; [|lra]. replace ((INR n + 1) * (d / (INR n + 1))) with d in Sx by (field; lra). exact Sx.
Qed.
(*@ Theorem C96_notebook : The design of the notebooks on hybrid MPC (C76_design), on a nonlinear plant x+ = F(x, u) that is differentiable at the origin with the derivative A, B of the mode of the origin, when the other domains stay away from the origin: if the terminal set is invariant (see C76_design), there are a radius rho > 0 and constants c, m such that on all runs of the plant with |x(0)| <= rho, as long as Gurobi solves its programs, feedback returns K x and |x(t)| <= c (3/4)^(t / m) |x(0)| *)
Lemma design_plant np S_list D_list i S1 D1 N Q Rm nx nu dl (F : vec -> vec -> vec -> Prop) : hybrid_problem np S_list D_list i S1 D1 N Q Rm nx nu -> 0 < dl ->
  (forall j D xu, j <> i -> nth_error D_list j = Some D -> in_poly D xu -> dl <= sup xu) -> (forall x u y, length x = nx -> length u = nu -> F x u y -> length y = nx) -> linearizes F (lA S1) (lB S1) nx nu ->
  exists fuel0 Y, (forall fuel, (fuel0 <= fuel)%nat -> hybrid_mpc_design np fuel S_list D_list S1 D1 N Q Rm = Ok Y) /\
    (terminal_invariant (lA S1) (lB S1) (y_K Y) (in_poly D1) (in_poly (y_XN Y)) ->
     exists m c rho, (0 < m)%nat /\ 0 <= c /\ 0 < rho /\ forall grb (z : nat -> vec) T, length (z 0%nat) = nx -> sup (z 0%nat) <= rho ->
     (forall t, (t <= T)%nat -> gurobi_solves grb (k_mpmiqp (y_C Y)) (z t)) -> (forall t u, (t <= T)%nat -> hybrid_feedback grb (y_C Y) (z t) = Ok (Some u) -> F (z t) u (z (S t))) ->
     forall t, (t <= T)%nat -> hybrid_feedback grb (y_C Y) (z t) = Ok (Some (mv (y_K Y) (z t))) /\ in_poly D1 (z t ++ mv (y_K Y) (z t)) /\ sup (z (S t)) <= c * (3 / 4) ^ (S t / m) * sup (z 0%nat)).
Proof.
  intros HP Pdl FAR LF DF. destruct (hybrid_design np S_list D_list i S1 D1 N Q Rm nx nu HP) as (fuel0 & Y & mN & O1 & mO & EY & EW & WN & _ & _ & IN & _ & HSU). exists fuel0, Y. split; [exact EY|]. intros TI. specialize (HSU TI).
  pose proof HP as (LQ & HN & LSD & HS & HD & ES1 & ED1 & PB1). pose proof LQ as (Hnp & SA & SB & SQ & SR & Hn & PQ & PR & FC & ST & RIC & PSD & _).
  assert (HL : lqr_pair np S1 Q Rm (y_P Y) (y_K Y) nx nu).
  { split; [exact Hn|]. split; [exact FC|]. split; [exact RIC|]. split; [exact PSD|]. specialize (EY fuel0 (le_n _)). unfold hybrid_mpc_design in EY. destruct (PieceWiseAffineSystem S_list D_list) as [W|]; [|discriminate]. cbn [bind] in EY. destruct (solve_dare np S1 Q Rm) as [[(P & K)|] S'] eqn:E; [|discriminate]. cbn [bind fst snd] in EY.
    destruct (lin_mcais _ _ _ _ _) as [XN|]; [|discriminate]. cbn [bind] in EY. destruct (HybridModelPredictiveController _ _ _ _ _ _ _); [|discriminate]. cbn [bind] in EY. injection EY as <-. reflexivity. }
  destruct (lqr_attractive np S1 Q Rm nx nu _ _ Hnp SA SB SQ SR PQ PR HL) as (SK & AT). set (K := y_K Y) in *. set (M := madd (lA S1) (mm (lB S1) K)) in *. assert (SM : shape M nx nx) by (unfold M; eauto with shp).
  destruct (HD D1 (nth_error_In _ _ ED1)) as (md & WD & Hmd & _ & _). assert (PBp : forall j, (j < md)%nat -> 0 < nth j (pb D1) 0) by (intros j Hj; rewrite Forall_forall in PB1; apply PB1, nth_In; rewrite (proj1 (proj2 WD)); exact Hj).
  destruct (sup_ball D1 md (nx + nu) WD PBp) as (r & Pr & HB). destruct (row_sums K nu nx SK) as (ka & Pka & RK).
  (* the terminal set contains a ball *)
  assert (BALL : exists sg, 0 < sg /\ forall x, length x = nx -> sup x <= sg -> in_poly (y_XN Y) x).
  { destruct (local_decay M nx (fun x y => y = mv M x) (r / (1 + ka)) SM AT ltac:(apply Rdiv_lt_0_compat; lra)) as (m & c & rho & _ & _ & Prho & H).
    - intros x y Lx _ ->. rewrite mv_length. apply SM.
    - intros eps He. exists 1. split; [lra|]. intros x y Lx _ ->. rewrite vsub_self, sup_zeros. apply Rmult_le_pos; [lra|apply sup_nonneg].
    - exists rho. split; [exact Prho|]. intros x Lx Sx. apply IN; [exact Lx|]. intros t y. unfold y. clear y. destruct (H (fun t => flow (A_closed S1 K) t x) t Lx Sx ltac:(intros s _; reflexivity) t (le_n t)) as (Ly & Sy & _). set (y := flow (A_closed S1 K) t x) in *.
      assert (SKy : sup (mv K y) <= ka * sup y) by (eapply sup_mv; eauto). pose proof (sup_nonneg y). apply (Rmult_le_compat_l (1 + ka)) in Sy; [|lra]. replace ((1 + ka) * (r / (1 + ka))) with r in Sy by (field; lra).
      apply HB; [rewrite app_length, mv_length, (proj1 SK); lia|]. rewrite sup_app. apply Rmax_lub; nra. }
  destruct BALL as (sg & Psg & BALL). destruct HSU as (_ & HW & _ & _ & HDm & WX & NE & HC & EC & _).
  assert (Hi : (i < length S_list)%nat) by (apply nth_error_Some; rewrite ES1; discriminate).
  assert (OM : origin_mode (y_S Y) i S1 D1 nx dl).
  { rewrite EW. unfold origin_mode, linear_mode. cbn [w_sys w_dom]. rewrite map_length. split; [split; [exact Hi|]; split; [rewrite (nth_map_lt _ _ _ (Lin S1)) by exact Hi; rewrite (nth_error_nth _ _ _ ES1); reflexivity|apply (nth_error_nth _ _ _ ED1)]|]. split; [exact Pdl|].
    intros j xu Hj NJ. apply FAR with (j := j); [exact NJ|]. apply nth_error_nth'. lia. }
  exact (hybrid_plant np (y_S Y) N Q Rm (y_P Y) (y_XN Y) nx nu mN 0 (y_C Y) i S1 D1 K dl sg F (conj Hnp (conj HW (conj HN (conj HDm (conj WX (conj NE (conj HC EC))))))) OM HL PQ TI Psg BALL LF DF).
Qed.
(*@ Theorem C96_cart : The hybrid controller of hybrid_mpc_2.ipynb on the nonlinear cart-pole of cart_pole_dynamics.m (all three modes, explicit Euler steps), for all positive parameters: the controller is built, and if its terminal set is invariant (see C76_design), there are rho > 0, c and m such that on all runs with |x(0)| <= rho, as long as Gurobi solves its programs, feedback returns K x, the constraints of the mode between the walls hold, and |x(t)| <= c (3/4)^(t / m) |x(0)| *)
Lemma cart_mpc_plant np mc mp l d k g h th v w u N Q Rm S1 S2 S3 D1 D2 D3 : 0 < mc -> 0 < mp -> 0 < l -> 0 < d -> 0 < k -> 0 < g -> 0 < h -> 0 < th -> 0 < v -> 0 < w -> 0 < u -> (0 < N)%nat ->
  shape Q 4 4 -> shape Rm 1 1 -> Spec.pd Q 4 -> Spec.pd Rm 1 ->
  cart_systems np mc mp l d k g h = Ok (S1, S2, S3) -> cart_domains np l d th v w u = Ok (D1, D2, D3) -> lqr_libraries np S2 Q Rm 4 1 ->
  exists fuel0 Y, (forall fuel, (fuel0 <= fuel)%nat -> hybrid_mpc_design np fuel [Aff S1; Lin S2; Aff S3] [D1; D2; D3] S2 D2 N Q Rm = Ok Y) /\
    (terminal_invariant (lA S2) (lB S2) (y_K Y) (in_poly D2) (in_poly (y_XN Y)) ->
     exists m c rho, (0 < m)%nat /\ 0 <= c /\ 0 < rho /\ forall grb (z : nat -> vec) T, length (z 0%nat) = 4%nat -> sup (z 0%nat) <= rho ->
     (forall t, (t <= T)%nat -> gurobi_solves grb (k_mpmiqp (y_C Y)) (z t)) ->
     (forall t ut, (t <= T)%nat -> hybrid_feedback grb (y_C Y) (z t) = Ok (Some ut) -> exists f, cart_flow mc mp l d k g (z t) ut = Ok f /\ z (S t) = vadd (z t) (vscale h f)) ->
     forall t, (t <= T)%nat -> hybrid_feedback grb (y_C Y) (z t) = Ok (Some (mv (y_K Y) (z t))) /\ in_poly D2 (z t ++ mv (y_K Y) (z t)) /\ sup (z (S t)) <= c * (3 / 4) ^ (S t / m) * sup (z 0%nat)).
Proof.
  intros Hmc Hmp Hl Hd Hk Hg Hh Hth Hv Hw Hu HN SQ SR PQ PR ES ED LIB. pose proof LIB as (Hnp & _). rewrite cart_systems_eq in ES by lra. injection ES as <- <- <-. rewrite cart_domains_eq in ED by exact Hnp. injection ED as <- <- <-.
  assert (Hg' : g <> 0) by lra. pose proof (cart_problem np mc mp l d k g h th v w u N Q Rm Hmc Hmp Hl Hd Hg' Hh Hth Hv Hw Hu HN SQ SR PQ PR LIB) as HP.
  apply (design_plant np _ _ 1 _ _ N Q Rm 4 1 (d / (1 + l)) (cart_plant mc mp l d k g h) HP ltac:(apply Rdiv_lt_0_compat; lra)).
  - assert (G : forall a b c e f, d <= Rabs (a - l * b) -> d / (1 + l) <= sup [a; b; c; e; f]).
    { intros a b c e f H. pose proof (nth_sup [a; b; c; e; f] 0) as H0. pose proof (nth_sup [a; b; c; e; f] 1) as H1. cbn [nth] in H0, H1. set (s := sup _) in *. apply Rmult_le_reg_l with (1 + l); [lra|]. replace ((1 + l) * (d / (1 + l))) with d by (field; lra).
      eapply Rle_trans; [exact H|]. eapply Rle_trans; [apply abs_sub; [exact H0|apply abs_mul; [rewrite Rabs_pos_eq; [apply Rle_refl|lra]|exact H1]]|]. lra. }
    intros [|[|[|j]]] D xu NJ E HI; [| |cbn in E|cbn in E; destruct j; discriminate E]; [|congruence|]; cbn in E; injection E as <-.
    + apply cart_D1_in in HI. destruct HI as (a & b & c & e & f & -> & _ & _ & _ & _ & _ & HI). apply G. rewrite <- Rabs_Ropp. eapply Rle_trans; [|apply Rle_abs]. lra.
    + apply cart_D3_in in HI. destruct HI as (a & b & c & e & f & -> & _ & _ & _ & _ & _ & HI). apply G. eapply Rle_trans; [|apply Rle_abs]. lra.
  - intros x ut y Lx Lu (f & EF & ->). destruct (cart_flow_ok mc mp l d k g x ut Hmc Hmp Hl) as (f' & EF' & Lf). rewrite EF in EF'. injection EF' as <-. len.
  - apply cart_linearizes; assumption.
Qed.
(** ** Examples *)
(** a scalar nonlinear plant *)
Definition quadratic_plant (x u y : vec) : Prop := exists a b, x = [a] /\ u = [b] /\ y = [a + b + a * a].
Lemma quadratic_linearizes : linearizes quadratic_plant (lA S_1) (lB S_1) 1 1.
Proof.
  intros eps He. exists eps. split; [exact He|]. intros x u y Lx Lu Sx Su (a & b & -> & -> & ->). cbn in *. rewrite Rmax_left in * by apply Rabs_pos.
  replace (a + b + a * a - (1 * a + 0 + (1 * b + 0))) with (a * a) by ring. rewrite Rabs_mult, Rmax_left by (pose proof (Rabs_pos a); nra). pose proof (Rabs_pos a). pose proof (Rabs_pos b). try (rewrite Rmax_left in * by apply Rabs_pos).
  eapply Rle_trans; [apply Rmult_le_compat_r; [apply Rabs_pos|exact Sx]|]. apply Rmult_le_compat_l; [lra|]. first [apply Rmax_l|lra].
Qed.
(*@ Example C96_example : x+ = x + u + x^2, with the controller of C44_example for its linearization x + u (Q = 1, R = 2, K = -1/2, horizon 1, terminal set [-1, 1]): all hypotheses of C96_mpc hold, and one step from 1/4 leads with u = -1/8 to 3/16 *)
Lemma mpc_plant_example : let np := np_dare_const (Mat 1 [[2]]) in exists C,
  exact_np np /\ mpc_data S_1 1 (Mat 1 [[1]]) (Mat 1 [[2]]) (Mat 1 [[2]]) D_box X_int 1 1 /\ ModelPredictiveController np S_1 1 (Mat 1 [[1]]) (Mat 1 [[2]]) (Mat 1 [[2]]) D_box X_int = Ok C /\
  lqr_pair np S_1 (Mat 1 [[1]]) (Mat 1 [[2]]) (Mat 1 [[2]]) (Mat 1 [[- (1 / 2)]]) 1 1 /\ Spec.pd (Mat 1 [[1]]) 1 /\ terminal_invariant (lA S_1) (lB S_1) (Mat 1 [[- (1 / 2)]]) (in_poly D_box) (in_poly X_int) /\
  (forall x, length x = 1%nat -> sup x <= 1 -> in_poly X_int x) /\ (forall x u y, length x = 1%nat -> length u = 1%nat -> quadratic_plant x u y -> length y = 1%nat) /\ linearizes quadratic_plant (lA S_1) (lB S_1) 1 1 /\
  feedback np C [/ 4] = Ok (Some [- / 8]) /\ quadratic_plant [/ 4] [- / 8] [3 / 16].
Proof.
  intros np. destruct closed_loop_example as (C & (Hnp & HD & EC & SK & TI) & HL & PQ & _). exists C. split; [exact Hnp|]. split; [exact HD|]. split; [exact EC|]. split; [exact HL|]. split; [exact PQ|]. split; [exact TI|].
  assert (B : forall x, length x = 1%nat -> sup x <= 1 -> in_poly X_int x).
  { intros [|a [|]] L H; try discriminate L. apply in_X_int. cbn in H. rewrite Rmax_left in H by apply Rabs_pos. apply rabs_inv in H. lra. }
  split; [exact B|]. split; [intros x u y _ _ (a & b & _ & _ & ->); reflexivity|]. split; [exact quadratic_linearizes|]. split.
  - rewrite (mpc_feedback_lqr np _ _ _ _ _ _ _ _ 1 1 C [/ 4] Hnp HD EC HL TI eq_refl); [|apply in_X_int; lra]. do 2 f_equal. cbn. f_equal. lra.
  - exists (/ 4), (- / 8). split; [reflexivity|]. split; [reflexivity|]. f_equal. lra.
Qed.
Definition W_near : pwa := PWA 1 1 [ASys (Mat 1 [[1]]) (Mat 1 [[1]]) [0]; ASys (Mat 1 [[1]]) (Mat 1 [[1]]) [-1]] [D_box; D_far].
Lemma in_far w : in_poly D_far w <-> exists a u, w = [a; u] /\ 2 <= a <= 3 /\ -1 <= u <= 1.
Proof.
  unfold D_far. rewrite box_in_X. cbn [ncols]. unfold ineq_holds. cbn [rows]. split.
  - intros (L & H). destruct w as [|a [|u [|]]]; try discriminate L. exists a, u. split; [reflexivity|]. repeat match goal with H : Forall2 _ (_ :: _) (_ :: _) |- _ => inversion H; clear H; subst end. cbn in *. lra.
  - intros (a & u & -> & H). split; [reflexivity|]. repeat (apply Forall2_cons; [cbn; lra|]). apply Forall2_nil.
Qed.
Lemma in_box w : in_poly D_box w <-> exists a u, w = [a; u] /\ -1 <= a <= 1 /\ -1 <= u <= 1.
Proof.
  split.
  - intros H. pose proof (proj1 H) as L. destruct w as [|a [|u [|]]]; try discriminate L. exists a, u. split; [reflexivity|]. apply in_D_box, H.
  - intros (a & u & -> & H). apply in_D_box, H.
Qed.
Lemma wf_far : wf D_far 4 0 2.
Proof. split; [split; [reflexivity|split; [reflexivity|repeat constructor]]|split; [reflexivity|split; [split; [reflexivity|split; [reflexivity|constructor]]|reflexivity]]]. Qed.
Lemma lp_box np a b : exact_np np -> lp_min np [a; b] D_box = Ok (- Rabs a - Rabs b).
Proof.
  intros Hnp. assert (LE : least (in_poly D_box) (dot [a; b]) (- Rabs a - Rabs b)).
  { split.
    - exists [if Rcase_abs a then 1 else -1; if Rcase_abs b then 1 else -1]. split.
      + apply in_box. eexists _, _. split; [reflexivity|]. destruct (Rcase_abs a), (Rcase_abs b); lra.
      + cbn. cases; lra.
    - intros xu H. apply in_box in H. destruct H as (x & u & -> & H). cbn. cases; nra. }
  destruct (lp_min_exact np 2 Hnp [a; b] D_box 4 0 wf_D_box eq_refl) as (v & E & LV).
  - exists [0; 0]. apply in_box. exists 0, 0. split; [reflexivity|lra].
  - eexists. apply LE.
  - rewrite E. f_equal. exact (least_unique _ _ _ _ LV LE).
Qed.
Lemma lp_far np a b : exact_np np -> lp_min np [a; b] D_far = Ok (2 * a + Rmin 0 a - Rabs b).
Proof.
  intros Hnp. assert (LE : least (in_poly D_far) (dot [a; b]) (2 * a + Rmin 0 a - Rabs b)).
  { split.
    - exists [if Rle_dec 0 a then 2 else 3; if Rcase_abs b then 1 else -1]. split.
      + apply in_far. eexists _, _. split; [reflexivity|]. destruct (Rle_dec 0 a), (Rcase_abs b); lra.
      + cbn. cases; lra.
    - intros xu H. apply in_far in H. destruct H as (x & u & -> & H). cbn. cases; nra. }
  destruct (lp_min_exact np 2 Hnp [a; b] D_far 4 0 wf_far eq_refl) as (v & E & LV).
  - exists [2; 0]. apply in_far. exists 2, 0. split; [reflexivity|lra].
  - eexists. apply LE.
  - rewrite E. f_equal. exact (least_unique _ _ _ _ LV LE).
Qed.
Lemma near_constants np : exact_np np -> get_bigM_dynamics np W_near = Ok ([[[-2]; [1]]; [[-3]; [0]]], [[[2]; [4]]; [[1]; [3]]]) /\
  get_bigM_domains np W_near = Ok [[[0; 0; 0; 0]; [2; -3; 0; 0]]; [[-2; 3; 0; 0]; [0; 0; 0; 0]]].
Proof.
  intros Hnp. split.
  - unfold get_bigM_dynamics, bigM_dynamics_ij, row. cbn -[lp_min]. rewrite !lp_box, !lp_far by exact Hnp. cbn -[lp_min]. rewrite ?lp_box, ?lp_far by exact Hnp. cbn -[lp_min]. entries.
  - unfold get_bigM_domains, bigM_domains_ij, row. cbn -[lp_min]. rewrite !lp_box, !lp_far by exact Hnp. cbn -[lp_min]. entries.
Qed.
(*@ Example C96_hybrid_example : The system of C76_example (x+ = x + u for |x| <= 1, x+ = x + u - 1 for 2 <= x <= 3, |u| <= 1), Q = 1, R = P = 2, N = 1: all hypotheses of C96_level and C96_hybrid_loop hold with e = 4 and dl = 2, there is a Gurobi that solves the program at x = 1, and there feedback returns K x = -1/2 and feedforward the first mode and the value 1 *)
Lemma hybrid_level_example : let np := np_dare_const (Mat 1 [[2]]) in exists C, hyb_controller np W_near 1 I_1 R_2 R_2 X_int 1 1 2 0 C /\ origin_mode W_near 0 S_1 D_box 1 2 /\
  lqr_pair np S_1 I_1 R_2 R_2 (Mat 1 [[- (1 / 2)]]) 1 1 /\ Spec.pd I_1 1 /\ terminal_invariant (lA S_1) (lB S_1) (Mat 1 [[- (1 / 2)]]) (in_poly D_box) (in_poly X_int) /\
  (forall x, length x = 1%nat -> sup x <= 1 -> in_poly X_int x) /\
  (forall j x u, (j < 2)%nat -> j <> 0%nat -> length x = 1%nat -> length u = 1%nat -> in_poly (nth j (w_dom W_near) poly0) (x ++ u) -> 4 <= dot x (mv I_1 x) + dot u (mv R_2 u)) /\
  exists grb, gurobi_solves grb (k_mpmiqp C) [1] /\ hybrid_feedback grb C [1] = Ok (Some [- (1 / 2)]) /\ exists us xs, hybrid_feedforward grb C [1] = Ok (Some (us, xs, [0%nat], 1)).
Proof.
  intros np. destruct mpc_plant_example as (C0 & Hnp & _ & _ & HL & PI & TI & BALL & _). fold np in Hnp, HL. change (Mat 1 [[1]]) with I_1 in HL, PI. change (Mat 1 [[2]]) with R_2 in HL.
  assert (SR2 : shape R_2 1 1) by (unfold shape; cbn; repeat split; repeat constructor).
  assert (PS : forall v : vec, length v = 1%nat -> exists a, v = [a] /\ dot v (mv I_1 v) = a * a /\ dot v (mv R_2 v) = 2 * (a * a)) by (intros [|a [|]] L; try discriminate; exists a; split; [reflexivity|split; cbn; ring]).
  assert (HC : hyb_costs I_1 R_2 R_2 1 1).
  { unfold hyb_costs. repeat match goal with |- _ /\ _ => split end; try exact shape_I_1; try exact SR2; try reflexivity.
    - split; [reflexivity|]. intros v Lv. destruct (PS v Lv) as (a & _ & -> & _). nra.
    - split; [reflexivity|]. intros v Lv. destruct (PS v Lv) as (a & _ & _ & ->). nra.
    - split; [reflexivity|]. intros v Lv NZ. destruct (PS v Lv) as (a & -> & _ & ->). assert (a <> 0) by (intros ->; apply NZ; reflexivity). nra. }
  assert (OM : origin_mode W_near 0 S_1 D_box 1 2).
  { split; [split; [cbn; lia|split; reflexivity]|]. split; [lra|]. intros [|[|j]] xu Hj NJ H; [congruence| |cbn in Hj; lia]. cbn [nth w_dom W_near] in H. apply in_far in H. destruct H as (a & u & -> & H & _). cbn. rewrite (Rabs_right a) by lra. apply Rle_trans with a; [lra|apply Rmax_l]. }
  assert (GAP : forall j x u, (j < 2)%nat -> j <> 0%nat -> length x = 1%nat -> length u = 1%nat -> in_poly (nth j (w_dom W_near) poly0) (x ++ u) -> 4 <= dot x (mv I_1 x) + dot u (mv R_2 u)).
  { intros [|[|j]] x u Hj NJ Lx Lu H; [congruence| |lia]. cbn [nth w_dom W_near] in H. destruct (PS x Lx) as (a & -> & -> & _). destruct (PS u Lu) as (v & -> & _ & ->). apply in_far in H. destruct H as (a' & v' & E & H & _). injection E as <- _. nra. }
  assert (HW : hyb_data W_near 1 1 /\ hyb_domains W_near).
  { split.
    - split; [reflexivity|]. split; [reflexivity|]. split; [split; [cbn; congruence|]|]. 
      + intros s [<-|[<-|[]]]; (split; [split; apply scalar_shape|reflexivity]).
      + split; [reflexivity|]. intros D [<-|[<-|[]]]; exists 4%nat, 0%nat; [exact wf_D_box|exact wf_far].
    - assert (NB : forall a u, Rabs a <= 3 -> Rabs u <= 3 -> norm [a; u] <= 6).
      { intros a u Ha Hu. unfold norm. rewrite <- (sqrt_square 6) by lra. apply sqrt_le_1_alt. cbn. apply rabs_inv in Ha, Hu. nra. }
      intros D [<-|[<-|[]]]; (split; [|split; [exists 6; intros w Hw|discriminate]]).
      + exists [0; 0]. apply in_box. exists 0, 0. split; [reflexivity|lra].
      + apply in_box in Hw. destruct Hw as (a & u & -> & H). apply NB; apply Rabs_le; lra.
      + exists [2; 0]. apply in_far. exists 2, 0. split; [reflexivity|lra].
      + apply in_far in Hw. destruct Hw as (a & u & -> & H). apply NB; apply Rabs_le; lra. }
  destruct HW as (HW & HD). assert (HE : no_eqs W_near X_int) by (split; [intros D [<-|[<-|[]]]; reflexivity|reflexivity]).
  destruct (near_constants np Hnp) as (E1 & E2).
  assert (EQ : exists q, hybrid_condense_program W_near 1 I_1 R_2 R_2 X_int [[[-2]; [1]]; [[-3]; [0]]] [[[2]; [4]]; [[1]; [3]]] [[[0; 0; 0; 0]; [2; -3; 0; 0]]; [[-2; 3; 0; 0]; [0; 0; 0; 0]]] = Ok q /\
    sharp_data (Some (hyb_H q)) (hyb_f q [1]) (hyb_A q) (hyb_b q [1]) (Mat (ncols (hyb_A q)) []) []).
  { destruct (hybrid_condense_program W_near 1 I_1 R_2 R_2 X_int _ _ _) as [q|e] eqn:Eq; [|exfalso; cbn in Eq; discriminate]. exists q. split; [reflexivity|].
    vm_compute in Eq. injection Eq as <-. unfold sharp_data. repeat match goal with |- _ /\ _ => split end.
    - intros r Hr. vm_compute in Hr. repeat (destruct Hr as [<-|Hr]; [sharp_row|]). destruct Hr.
    - unfold hyb_f. cbn. sharp_row.
    - intros r Hr. vm_compute in Hr. repeat (destruct Hr as [<-|Hr]; [sharp_row|]). destruct Hr.
    - unfold hyb_b. cbn; apply sharp_quarter; repeat (apply Forall_cons; [first [left; lra|right; left; lra|right; right; lra]|]); apply Forall_nil.
    - intros r [].
    - intros b []. }
  destruct EQ as (q & Eq & SH).
  assert (EC : HybridModelPredictiveController np W_near 1 I_1 R_2 R_2 X_int = Ok (HMPC W_near 1 I_1 R_2 R_2 X_int [[[-2]; [1]]; [[-3]; [0]]] [[[2]; [4]]; [[1]; [3]]] [[[0; 0; 0; 0]; [2; -3; 0; 0]]; [[-2; 3; 0; 0]; [0; 0; 0; 0]]] q)).
  { unfold HybridModelPredictiveController. rewrite E1. cbn [bind]. rewrite E2. cbn [bind]. rewrite Eq. reflexivity. }
  match type of EC with _ = Ok ?c => exists c; assert (HB : hyb_controller np W_near 1 I_1 R_2 R_2 X_int 1 1 2 0 c) end.
  { split; [exact Hnp|]. split; [exact HW|]. split; [lia|]. split; [exact HD|]. split; [exact wf_X_int|]. split; [exact HE|]. split; [exact HC|exact EC]. }
  split; [exact HB|]. split; [exact OM|]. split; [exact HL|]. split; [exact PI|]. split; [exact TI|]. split; [exact BALL|]. split; [exact GAP|].
  destruct (gurobi_for match build_model (Some (hyb_H q)) (hyb_f q [1]) (hyb_A q) (hyb_b q [1]) None None with Ok M => [set_binary (ncols (h_Au q) + ncols (h_Az q)) M] | Err _ => [] end) as (grb & HG).
  assert (G : gurobi_solves grb q [1]) by (split; [exact SH|]; intros M0 EM; cbv zeta; apply HG; rewrite EM; left; reflexivity).
  exists grb. split; [exact G|]. destruct (hybrid_level _ _ _ _ _ _ _ _ _ _ _ _ _ _ _ _ 4 HB (proj1 OM) HL TI GAP grb [1] eq_refl) as (F1 & us & xs & F2); [apply in_X_int; lra|cbn; lra|exact G|].
  split; [rewrite F1; do 2 f_equal; cbn; f_equal; lra|]. exists us, xs. rewrite F2. cbn [repeat]. do 3 f_equal. cbn. lra.
Qed.
