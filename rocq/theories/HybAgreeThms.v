(** * HybAgreeThms: the hybrid controller (Gurobi) and the hybrid controller of the examples (drake) agree (C105), proofs *)
From Coq Require Import ZArith String Classical.
From Verif Require Import Arr ArrFacts Spec SpecMpc SpecProg SpecLoop SpecHyb Numpy Pnnls PnnlsFacts QpFacts GeomUtils Polyhedron PolyThms Oracle SolverThms NullFacts PolySolveThms PolyMore SpecDyn Dynamics DynThms CondenseThms LqrThms McaisThms Mpqp MpqpThms Controllers CtrlThms Gurobi Programs ProgThms Hybrid HybridThms HybridOptThms HybridLoopThms VertThms ContThms LawThms EquivThms HybLinThms HybEquivThms ExampleCtrl ExThms ExLoopThms.

(** the data both controllers are given *)
Definition pwa_problem W N Q Rm P X_N nx nu : Prop :=
  hyb_data W nx nu /\ (0 < nx)%nat /\ (0 < N)%nat /\ hyb_domains W /\ (exists mN meN, wf X_N mN meN nx) /\ no_eqs W X_N /\ hyb_costs Q Rm P nx nu.
Definition opt_run W N Q Rm P X_N nu x us modes xs : Prop :=
  pwa_optimal (map aA (w_sys W)) (map aB (w_sys W)) (map ac (w_sys W)) (map in_poly (w_dom W)) (in_poly X_N) Q Rm P nu N x us modes xs.

Lemma form_mid (M : mat) n a b : shape M n n -> length a = n -> length b = n ->
  dot (vscale (/ 2) (vadd a b)) (mv M (vscale (/ 2) (vadd a b))) = / 2 * dot a (mv M a) + / 2 * dot b (mv M b) - / 4 * dot (vsub a b) (mv M (vsub a b)).
Proof.
  intros SM La Lb. assert (L : forall v, length (mv M v) = n) by (intros; rewrite mv_length; apply SM).
  rewrite mv_vscale, (mv_vadd M n n), (mv_vsub M n n) by (auto; lia). rewrite dot_vscale_l, dot_vscale_r, dot_vadd_l, !dot_vadd_r, dot_vsub_l, !dot_vsub_r by (rewrite ?vadd_length, ?vsub_length, ?L; lia). lra.
Qed.
(** for one sequence of modes the cheapest run is unique *)
Lemma one_per_modes np W N Q Rm P X_N nx nu x us us' modes xs xs' : exact_np np -> pwa_problem W N Q Rm P X_N nx nu -> length x = nx ->
  opt_run W N Q Rm P X_N nu x us modes xs -> opt_run W N Q Rm P X_N nu x us' modes xs' -> us = us' /\ xs = xs'.
Proof.
  intros Hnp (HW & _ & HN & _ & (mN & meN & WX) & NE & HC) Lx (A1 & O1) (A2 & O2). pose proof A1 as (Lu1 & Fu1 & Lm & HM & T1 & _). pose proof A2 as (Lu2 & Fu2 & _ & _ & T2 & _). rewrite map_length in HM.
  destruct (runs_of_modes np W Q Rm P X_N N nx nu mN meN modes Hnp HW WX HC NE HN Lm HM) as (q & m & _ & Hq & HR). destruct (HR x Lx) as (TO & FROM). pose proof HW as (_ & EU & _). unfold admissible in TO, FROM. rewrite EU in TO, FROM.
  destruct (TO us xs A1) as (G1 & C1). destruct (TO us' xs' A2) as (G2 & C2). set (v := List.concat us) in *. set (v' := List.concat us') in *.
  pose proof Hq as (SH & PD & _ & _ & _ & _ & SAu & _). assert (L1 : length v = (nu * N)%nat) by (rewrite (proj1 G1); apply SAu). assert (L2 : length v' = (nu * N)%nat) by (rewrite (proj1 G2); apply SAu).
  destruct (MpqpThms.free_minimizer q (nu * N) nx m x Hq) as (v0 & L0 & E0). set (w := vscale (/ 2) (vadd v v')). assert (Lw : length w = (nu * N)%nat) by (unfold w; rewrite vscale_length, vadd_length; lia).
  assert (FW : q_feasible q x w). { split; [rewrite Lw; symmetry; apply SAu|]. intros i Hi. pose proof (proj2 G1 i Hi) as B1. pose proof (proj2 G2 i Hi) as B2. unfold w. rewrite dot_vscale_r, dot_vadd_r by lia. lra. }
  destruct (FROM w FW) as (us2 & xs2 & Ew & A3). destruct (TO us2 xs2 A3) as (_ & C3). rewrite <- Ew in C3. pose proof (O1 _ _ _ A3) as B1. pose proof (O1 _ _ _ A2) as B2. pose proof (O2 _ _ _ A1) as B3.
  rewrite <- C1, <- C2, <- ?C3 in *. rewrite (square_completion q (nu * N) nx m x v v0), (square_completion q (nu * N) nx m x v' v0) in * by assumption. rewrite (square_completion q (nu * N) nx m x w v0) in B1 by assumption.
  assert (EW : vsub w v0 = vscale (/ 2) (vadd (vsub v v0) (vsub v' v0))). { apply vec_ext; [unfold w; rewrite ?vscale_length, ?vadd_length, ?vsub_length, ?vscale_length, ?vadd_length, ?vsub_length; lia|]. intros i Hi. rewrite vsub_length, Lw, L0, Nat.min_id in Hi. unfold w. rewrite nth_vsub by (rewrite ?vscale_length, ?vadd_length; lia). rewrite !nth_vscale, !nth_vadd by (rewrite ?vsub_length; lia). rewrite !nth_vsub by lia. lra. }
  rewrite EW, (form_mid (q_Huu q) (nu * N)) in B1 by (auto; rewrite vsub_length; lia).
  assert (ED : vsub (vsub v v0) (vsub v' v0) = vsub v v'). { apply vec_ext; [rewrite !vsub_length; lia|]. intros i Hi. rewrite !vsub_length in Hi. rewrite !nth_vsub by (rewrite ?vsub_length; lia). lra. }
  rewrite ED in B1. assert (Ld : length (vsub v v') = (nu * N)%nat) by (rewrite vsub_length; lia).
  assert (EV : v = v'). { apply (vsub_zero_eq _ _ (nu * N)); [exact L1|exact L2|]. apply NNPP. intros NZ. pose proof (proj2 PD _ Ld NZ). lra. }
  assert (EUS : us = us') by (rewrite <- (split_concat nu us Fu1), <- (split_concat nu us' Fu2), Lu1, Lu2; fold v v'; rewrite EV; reflexivity). split; [exact EUS|]. subst us'.
  destruct T1 as (X1 & X2 & X3). destruct T2 as (Y1 & Y2 & Y3). apply nth_ext with (d := []) (d' := []); [lia|]. intros t Ht. assert (t <= length us)%nat as Ht' by lia. clear Ht. induction t as [|t IH]; [rewrite X2, Y2; reflexivity|]. rewrite (X3 t), (Y3 t) by lia. cbv zeta. rewrite IH by lia. reflexivity.
Qed.
(*@ Theorem C105_one_per_modes : Two optimal runs of a piecewise affine system (Q, P positive semidefinite, R positive definite) with the same sequence of modes have the same inputs and states: the modes are the only freedom that the solvers of the hybrid controllers have *)
Lemma one_run_per_modes np W N Q Rm P X_N nx nu x us us' modes xs xs' : exact_np np -> pwa_problem W N Q Rm P X_N nx nu -> length x = nx ->
  pwa_optimal (map aA (w_sys W)) (map aB (w_sys W)) (map ac (w_sys W)) (map in_poly (w_dom W)) (in_poly X_N) Q Rm P nu N x us modes xs ->
  pwa_optimal (map aA (w_sys W)) (map aB (w_sys W)) (map ac (w_sys W)) (map in_poly (w_dom W)) (in_poly X_N) Q Rm P nu N x us' modes xs' -> us = us' /\ xs = xs'.
Proof. exact (one_per_modes np W N Q Rm P X_N nx nu x us us' modes xs xs'). Qed.

Lemma right_agree np W N Q Rm P X_N nx nu x a a' : exact_np np -> pwa_problem W N Q Rm P X_N nx nu -> length x = nx -> right_answer W N Q Rm P X_N nu x a -> right_answer W N Q Rm P X_N nu x a' ->
  (a = Ok None /\ a' = Ok None) \/ exists us xs modes us' xs' modes' V, a = Ok (Some (us, xs, modes, V)) /\ a' = Ok (Some (us', xs', modes', V)) /\ (modes = modes' -> us = us' /\ xs = xs').
Proof.
  intros Hnp HP Lx [(us & xs & ms & E & O)|(E & NR)] [(us' & xs' & ms' & E' & O')|(E' & NR')].
  - right. exists us, xs, ms, us', xs', ms', (trajectory_cost Q Rm P us xs). split; [exact E|]. pose proof (proj2 O _ _ _ (proj1 O')) as B1. pose proof (proj2 O' _ _ _ (proj1 O)) as B2. split; [rewrite E'; do 3 f_equal; lra|].
    intros <-. exact (one_per_modes np W N Q Rm P X_N nx nu x us us' ms xs xs' Hnp HP Lx O O').
  - exfalso. exact (NR' _ _ _ (proj1 O)).
  - exfalso. exact (NR _ _ _ (proj1 O')).
  - left. auto.
Qed.
Lemma hybrid_right np grb W N Q Rm P X_N nx nu C x : exact_np np -> pwa_problem W N Q Rm P X_N nx nu -> HybridModelPredictiveController np W N Q Rm P X_N = Ok C -> length x = nx -> gurobi_solves grb (k_mpmiqp C) x ->
  right_answer W N Q Rm P X_N nu x (hybrid_feedforward grb C x) /\ (hybrid_feedforward grb C x = Ok None -> hybrid_feedback grb C x = Ok None) /\ forall us xs modes V, hybrid_feedforward grb C x = Ok (Some (us, xs, modes, V)) -> hybrid_feedback grb C x = Ok (Some (nth 0 us [])).
Proof.
  intros Hnp (HW & Hnx & HN & HD & HX & NE & HC) EC Lx GS. assert (H1 : hyb_controller np W N Q Rm P X_N nx nu C) by (unfold hyb_controller; tauto).
  destruct (controller_answers np grb W N Q Rm P X_N nx nu C x H1 Lx GS) as [(us & xs & ms & E1 & E2 & R1 & O1)|(E1 & E2 & NR)].
  - split; [left; exists us, xs, ms; split; [exact E1|split; [exact R1|exact O1]]|]. split; [intros E; rewrite E in E1; discriminate E1|]. intros us' xs' ms' V E. rewrite E in E1. injection E1 as -> _ _ _. exact E2.
  - split; [right; split; [exact E1|exact NR]|]. split; [intros _; exact E2|]. intros us' xs' ms' V E. rewrite E in E1. discriminate E1.
Qed.
Lemma drake_right np drake W N Q Rm P X_N nx nu C x : exact_np np -> pwa_problem W N Q Rm P X_N nx nu -> (2 <= length (w_sys W))%nat -> sharp_gaps W nx -> ExampleController np W N Q Rm P X_N = Ok C -> length x = nx -> drake_solves drake C x ->
  right_answer W N Q Rm P X_N nu x (example_feedforward drake C x) /\ (example_feedforward drake C x = Ok None -> example_feedback drake C x = Ok None) /\ forall us xs modes V, example_feedforward drake C x = Ok (Some (us, xs, modes, V)) -> example_feedback drake C x = Ok (Some (nth 0 us [])).
Proof.
  intros Hnp (HW & Hnx & HN & HD & (mN & meN & HX) & NE & HC) H2 SG EC Lx DS. pose proof HC as (SQ & SP & SR & _).
  destruct (example_optimal np drake W N Q Rm P X_N nx nu mN meN Hnp HW HN HD H2 SG SQ SP SR HX NE) as (C' & EC' & HO). rewrite EC in EC'. injection EC' as <-. destruct (HO x Lx) as (prog & Ep & HO').
  destruct (HO' (DS prog Ep)) as [(us & xs & ms & E1 & E2 & E3)|(E1 & E2 & _ & E4)].
  - split; [left; exists us, xs, ms; auto|]. split; [intros E; rewrite E in E1; discriminate E1|]. intros us' xs' ms' V E. rewrite E in E1. injection E1 as -> _ _ _. exact E3.
  - split; [right; split; [exact E1|exact (E4 HC)]|]. split; [intros _; exact E2|]. intros us' xs' ms' V E. rewrite E in E1. discriminate E1.
Qed.
(*@ Theorem C105_agree : HybridModelPredictiveController (big-M constants for domains and dynamics, states eliminated, Gurobi) and the controller of the examples (big-M constants for the graphs, states kept, drake), built from the same system, horizon, weights and terminal set: at every state whose programs the solvers solve, both return None, or both return the same cost; when they also select the same modes, inputs, states and feedback are the same *)
Lemma controllers_agree np np' grb drake W N Q Rm P X_N nx nu C C' x : exact_np np -> exact_np np' -> pwa_problem W N Q Rm P X_N nx nu -> (2 <= length (w_sys W))%nat -> sharp_gaps W nx ->
  HybridModelPredictiveController np W N Q Rm P X_N = Ok C -> ExampleController np' W N Q Rm P X_N = Ok C' -> length x = nx -> gurobi_solves grb (k_mpmiqp C) x -> drake_solves drake C' x ->
  (hybrid_feedforward grb C x = Ok None /\ example_feedforward drake C' x = Ok None /\ hybrid_feedback grb C x = Ok None /\ example_feedback drake C' x = Ok None) \/
  exists us xs modes us' xs' modes' V, hybrid_feedforward grb C x = Ok (Some (us, xs, modes, V)) /\ example_feedforward drake C' x = Ok (Some (us', xs', modes', V)) /\
    hybrid_feedback grb C x = Ok (Some (nth 0 us [])) /\ example_feedback drake C' x = Ok (Some (nth 0 us' [])) /\ (modes = modes' -> us = us' /\ xs = xs').
Proof.
  intros Hnp Hnp' HP H2 SG EC EC' Lx GS DS. destruct (hybrid_right np grb W N Q Rm P X_N nx nu C x Hnp HP EC Lx GS) as (R1 & N1 & F1). destruct (drake_right np' drake W N Q Rm P X_N nx nu C' x Hnp' HP H2 SG EC' Lx DS) as (R2 & N2 & F2).
  destruct (right_agree np W N Q Rm P X_N nx nu x _ _ Hnp HP Lx R1 R2) as [(E1 & E2)|(us & xs & ms & us' & xs' & ms' & V & E1 & E2 & U)]; [left; auto|]. right. exists us, xs, ms, us', xs', ms', V. split; [exact E1|]. split; [exact E2|]. split; [exact (F1 _ _ _ _ E1)|]. split; [exact (F2 _ _ _ _ E2)|exact U].
Qed.
(*@ Theorem C105_solvers : The same for two Gurobis (and two exact numerical libraries), and for two drakes: the answers of a hybrid controller depend on its solver only through the selected modes *)
Lemma solvers_agree np np' W N Q Rm P X_N nx nu x : exact_np np -> exact_np np' -> pwa_problem W N Q Rm P X_N nx nu -> length x = nx ->
  (forall grb grb' C C', HybridModelPredictiveController np W N Q Rm P X_N = Ok C -> HybridModelPredictiveController np' W N Q Rm P X_N = Ok C' -> gurobi_solves grb (k_mpmiqp C) x -> gurobi_solves grb' (k_mpmiqp C') x ->
    (hybrid_feedforward grb C x = Ok None /\ hybrid_feedforward grb' C' x = Ok None) \/
    exists us xs modes us' xs' modes' V, hybrid_feedforward grb C x = Ok (Some (us, xs, modes, V)) /\ hybrid_feedforward grb' C' x = Ok (Some (us', xs', modes', V)) /\ (modes = modes' -> us = us' /\ xs = xs' /\ hybrid_feedback grb C x = hybrid_feedback grb' C' x)) /\
  ((2 <= length (w_sys W))%nat -> sharp_gaps W nx -> forall drake drake' C C', ExampleController np W N Q Rm P X_N = Ok C -> ExampleController np' W N Q Rm P X_N = Ok C' -> drake_solves drake C x -> drake_solves drake' C' x ->
    (example_feedforward drake C x = Ok None /\ example_feedforward drake' C' x = Ok None) \/
    exists us xs modes us' xs' modes' V, example_feedforward drake C x = Ok (Some (us, xs, modes, V)) /\ example_feedforward drake' C' x = Ok (Some (us', xs', modes', V)) /\ (modes = modes' -> us = us' /\ xs = xs' /\ example_feedback drake C x = example_feedback drake' C' x)).
Proof.
  intros Hnp Hnp' HP Lx. split.
  - intros grb grb' C C' EC EC' G1 G2. destruct (hybrid_right np grb W N Q Rm P X_N nx nu C x Hnp HP EC Lx G1) as (R1 & N1 & F1). destruct (hybrid_right np' grb' W N Q Rm P X_N nx nu C' x Hnp' HP EC' Lx G2) as (R2 & N2 & F2).
    destruct (right_agree np W N Q Rm P X_N nx nu x _ _ Hnp HP Lx R1 R2) as [(E1 & E2)|(us & xs & ms & us' & xs' & ms' & V & E1 & E2 & U)]; [left; auto|]. right. exists us, xs, ms, us', xs', ms', V. split; [exact E1|]. split; [exact E2|]. intros EM. destruct (U EM) as (<- & <-). split; [reflexivity|]. split; [reflexivity|]. rewrite (F1 _ _ _ _ E1), (F2 _ _ _ _ E2). reflexivity.
  - intros H2 SG drake drake' C C' EC EC' G1 G2. destruct (drake_right np drake W N Q Rm P X_N nx nu C x Hnp HP H2 SG EC Lx G1) as (R1 & N1 & F1). destruct (drake_right np' drake' W N Q Rm P X_N nx nu C' x Hnp' HP H2 SG EC' Lx G2) as (R2 & N2 & F2).
    destruct (right_agree np W N Q Rm P X_N nx nu x _ _ Hnp HP Lx R1 R2) as [(E1 & E2)|(us & xs & ms & us' & xs' & ms' & V & E1 & E2 & U)]; [left; auto|]. right. exists us, xs, ms, us', xs', ms', V. split; [exact E1|]. split; [exact E2|]. intros EM. destruct (U EM) as (<- & <-). split; [reflexivity|]. split; [reflexivity|]. rewrite (F1 _ _ _ _ E1), (F2 _ _ _ _ E2). reflexivity.
Qed.
(*@ Theorem C105_loop : Hence the loops closed with the two controllers from the same state are the same as long as both answer with the same modes: same states, inputs and costs *)
Lemma loops_agree np np' grb drake W N Q Rm P X_N nx nu C C' X U M X' U' M' T : exact_np np -> exact_np np' -> pwa_problem W N Q Rm P X_N nx nu -> (2 <= length (w_sys W))%nat -> sharp_gaps W nx ->
  HybridModelPredictiveController np W N Q Rm P X_N = Ok C -> ExampleController np' W N Q Rm P X_N = Ok C' -> length (X 0%nat) = nx -> X' 0%nat = X 0%nat -> hybrid_loop grb C W X U M -> answer_loop (example_feedforward drake C') W X' U' M' ->
  (forall t, (t < T)%nat -> gurobi_solves grb (k_mpmiqp C) (X t) /\ drake_solves drake C' (X' t)) ->
  (forall t, (t < T)%nat -> exists us xs modes V, hybrid_feedforward grb C (X t) = Ok (Some (us, xs, modes, V)) /\ forall us' xs' modes' V', example_feedforward drake C' (X' t) = Ok (Some (us', xs', modes', V')) -> modes' = modes) ->
  forall t, (t <= T)%nat -> X' t = X t /\ ((t < T)%nat -> U' t = U t /\ M' t = M t /\ example_feedforward drake C' (X' t) = hybrid_feedforward grb C (X t)).
Proof.
  intros Hnp Hnp' HP H2 SG EC EC' L0 X0 HL HL' HS HM.
  assert (STEP : forall t, (t < T)%nat -> length (X t) = nx -> X' t = X t -> U' t = U t /\ M' t = M t /\ example_feedforward drake C' (X' t) = hybrid_feedforward grb C (X t) /\ X' (Datatypes.S t) = X (Datatypes.S t) /\ length (X (Datatypes.S t)) = nx).
  { intros t Ht Lx EX. destruct (HS t Ht) as (GS & DS). destruct (HM t Ht) as (us0 & xs0 & ms0 & V0 & E0 & HM0). rewrite EX in *.
    destruct (controllers_agree np np' grb drake W N Q Rm P X_N nx nu C C' (X t) Hnp Hnp' HP H2 SG EC EC' Lx GS DS) as [(E & _)|(us & xs & ms & us' & xs' & ms' & V & E1 & E2 & _ & _ & UN)]; rewrite E0 in *; [discriminate E|]. injection E1 as <- <- <- <-.
    pose proof (HM0 _ _ _ _ E2) as EM. destruct (UN (eq_sym EM)) as (<- & <-). subst ms'. destruct (HL t _ _ _ _ E0) as (U1 & M1 & S1). rewrite <- EX in E2. destruct (HL' t _ _ _ _ E2) as (U2 & M2 & S2). rewrite EX in E2, S2.
    split; [congruence|]. split; [congruence|]. split; [exact E2|]. split; [rewrite S1, S2, M1, M2, U1, U2; reflexivity|]. rewrite S1. apply (mode_step_length W nx nu); [apply HP|].
    destruct (hybrid_right np grb W N Q Rm P X_N nx nu C (X t) Hnp HP EC Lx GS) as ([(us1 & xs1 & ms1 & E3 & O3)|(E3 & _)] & _); rewrite E0 in E3; [|discriminate E3]. injection E3 as <- <- <- ->.
    destruct O3 as ((_ & _ & Lm & HMl & _) & _). rewrite map_length in HMl. rewrite M1. apply HMl, nth_In. destruct HP as (_ & _ & HN & _). lia. }
  assert (INV : forall t, (t <= T)%nat -> length (X t) = nx /\ X' t = X t). { induction t as [|t IH]; intros Ht; [auto|]. destruct (IH ltac:(lia)) as (A & B). destruct (STEP t ltac:(lia) A B) as (_ & _ & _ & S1 & S2). auto. }
  intros t Ht. destruct (INV t Ht) as (A & B). split; [exact B|]. intros Ht'. destruct (STEP t Ht' A B) as (S1 & S2 & S3 & _). auto.
Qed.
(** ** Example *)
(*@ Example C105_example : x+ = x + u for x <= 0, x+ = -x + u for x >= 0, Q = 1, R = P = 2, N = 1: all hypotheses of C105_agree (hence of C105_one_per_modes and C105_solvers) hold at x = -1 with suitable Gurobi and drake, both controllers return 1/2 with the modes [0] and the cost 1; and the hypotheses of C105_loop hold for one step *)
Lemma agree_example np : exact_np np -> pwa_problem W2 1 I_1 R_2 R_2 X_int 1 1 /\ (2 <= length (w_sys W2))%nat /\ sharp_gaps W2 1 /\ exists C C' grb drake X U M X' U' M',
  HybridModelPredictiveController np W2 1 I_1 R_2 R_2 X_int = Ok C /\ ExampleController np W2 1 I_1 R_2 R_2 X_int = Ok C' /\ gurobi_solves grb (k_mpmiqp C) [-1] /\ drake_solves drake C' [-1] /\
  hybrid_feedforward grb C [-1] = Ok (Some ([[/ 2]], [[-1]; [- / 2]], [0%nat], 1)) /\ example_feedforward drake C' [-1] = Ok (Some ([[/ 2]], [[-1]; [- / 2]], [0%nat], 1)) /\
  X 0%nat = [-1] /\ X' 0%nat = [-1] /\ hybrid_loop grb C W2 X U M /\ answer_loop (example_feedforward drake C') W2 X' U' M'.
Proof.
  intros Hnp. destruct (hybrid_loop_example np Hnp) as (C & HS & grb & X & U & M & HL & X0 & _ & _ & GS & _ & _ & _ & EF). specialize (GS 0%nat ltac:(lia)). rewrite X0 in GS. pose proof HS as (_ & HW & _ & _ & HD & HX & HE & HC & EC & _).
  destruct (example_loop_example np Hnp) as ((_ & (_ & _ & _ & H2 & SG & _) & _) & _ & C' & X' & U' & M' & EC' & HL' & EX' & DS & _ & EF').
  split; [split; [exact HW|]; split; [lia|]; split; [lia|]; split; [exact HD|]; split; [exists 2%nat, 0%nat; exact HX|]; split; [exact HE|exact HC]|]. split; [exact H2|]. split; [exact SG|].
  exists C, C', grb, half_drake, X, U, M, X', U', M'. split; [exact EC|]. split; [exact EC'|]. split; [exact GS|]. specialize (DS 0%nat). rewrite EX' in DS. cbn [pow] in DS. replace (- 1) with (-1) in DS by lra. split; [exact DS|]. split; [exact EF|]. split; [exact EF'|]. split; [exact X0|]. split; [rewrite EX'; cbn [pow]; f_equal; lra|]. split; [exact HL|exact HL'].
Qed.
