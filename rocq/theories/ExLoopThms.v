(** * ExLoopThms: closed loop of the hybrid controller of the examples (C85), proofs *)
From Coq Require Import ZArith Classical.
From Verif Require Import Arr ArrFacts Spec SpecMpc SpecProg SpecLoop Numpy Pnnls PnnlsFacts QpFacts GeomUtils Polyhedron PolyThms Oracle SolverThms NullFacts PolySolveThms PolyMore SpecDyn Dynamics DynThms CondenseThms LqrThms McaisThms Mpqp MpqpThms Controllers CtrlThms Gurobi Programs ProgThms Hybrid HybridThms HybridOptThms HybridLoopThms ExampleCtrl ExThms.

(** ** Any controller that returns an optimal run, or None where there is no run *)
Definition answer := option (list vec * list vec * list nat * R).
Definition right_answer W N Q Rm P X_N nu (x : vec) (a : res answer) : Prop :=
  (exists us xs modes, a = Ok (Some (us, xs, modes, trajectory_cost Q Rm P us xs)) /\
     pwa_optimal (map aA (w_sys W)) (map aB (w_sys W)) (map ac (w_sys W)) (map in_poly (w_dom W)) (in_poly X_N) Q Rm P nu N x us modes xs) \/
  (a = Ok None /\ forall us modes xs, ~ pwa_run_from W X_N nu N x us modes xs).
(** the loop closed with the first input and the first mode of the answers *)
Definition answer_loop (F : vec -> res answer) W (X U : nat -> vec) (M : nat -> nat) : Prop :=
  forall t us xs modes V, F (X t) = Ok (Some (us, xs, modes, V)) ->
    U t = nth 0 us [] /\ M t = nth 0 modes 0%nat /\ X (Datatypes.S t) = mode_step W (M t) (X t) (U t).
Section Loop.
Variables (F : vec -> res answer) (W : pwa) (N : nat) (Q Rm P : mat) (X_N : poly) (nx nu : nat).
Hypothesis HW : hyb_data W nx nu.
Hypothesis HN : (0 < N)%nat.
Hypothesis HC : hyb_costs Q Rm P nx nu.
Hypothesis TI : pwa_terminal (map aA (w_sys W)) (map aB (w_sys W)) (map ac (w_sys W)) (map in_poly (w_dom W)) (in_poly X_N) Q Rm P nu.
Lemma answer_decrease x us xs modes V : length x = nx -> right_answer W N Q Rm P X_N nu x (F x) -> F x = Ok (Some (us, xs, modes, V)) ->
  let u := nth 0 us [] in let m := nth 0 modes 0%nat in let x' := mode_step W m x u in
  let stage := / 2 * (dot x (mv Q x) + dot u (mv Rm u)) in
  (m < length (w_sys W))%nat /\ in_poly (nth m (w_dom W) poly0) (x ++ u) /\ nth 1 xs [] = x' /\ length u = nu /\ length x' = nx /\ 0 <= stage /\ 0 <= V /\
  (exists us' modes' xs', pwa_run_from W X_N nu N x' us' modes' xs') /\
  (right_answer W N Q Rm P X_N nu x' (F x') -> exists us' xs' modes' V', F x' = Ok (Some (us', xs', modes', V')) /\ V' <= V - stage).
Proof.
  intros Lx GS EF. cbv zeta. pose proof HC as (SQ & SP & SR & PQ & PP & PR & _). pose proof HW as (Wnx & Wnu & HSys & LD & _).
  destruct GS as [(us1 & xs1 & modes1 & EF1 & (HA & HO))|(EN & _)]; [|rewrite EN in EF; discriminate EF].
  rewrite EF in EF1. injection EF1 as <- <- <- ->. fold (pwa_run_from W X_N nu N x us modes xs) in HA.
  destruct (run_cost_nonneg W X_N Q Rm P nx nu N x us modes xs HW HC Lx HA) as (V0 & Lxs). pose proof HA as (Lu & Fu & Lm & HM & (_ & H0 & HT) & HD & _).
  assert (Hm : (nth 0 modes 0 < length (w_sys W))%nat) by (rewrite <- (map_length aA); apply HM, nth_In; lia).
  assert (E1 : nth 1 xs [] = mode_step W (nth 0 modes 0%nat) x (nth 0 us [])) by (specialize (HT 0%nat ltac:(lia)); cbv zeta in HT; rewrite H0 in HT; exact HT).
  assert (Lu0 : length (nth 0 us []) = nu) by (apply Forall_len_nth; [exact Fu|lia]).
  pose proof (mode_step_length W nx nu (nth 0 modes 0%nat) x (nth 0 us []) HW Hm) as Lx'.
  destruct (pwa_shift _ _ _ _ _ Q Rm P nu N x us modes xs HN TI HA) as (us' & modes' & xs' & HA' & HC'). rewrite E1 in HA'. unfold stage_cost in HC'.
  split; [exact Hm|]. split.
  { specialize (HD 0%nat ltac:(lia)). cbv beta in HD. rewrite H0 in HD. rewrite (nth_map_lt _ (w_dom W) _ poly0) in HD by lia. exact HD. }
  split; [exact E1|]. split; [exact Lu0|]. split; [exact Lx'|]. split; [pose proof (proj2 PQ x Lx); pose proof (proj2 (pd_psd _ _ PR) _ Lu0); lra|]. split; [exact V0|]. split; [eauto|].
  intros [(us2 & xs2 & modes2 & EF2 & (_ & HO2))|(_ & NR)].
  - eexists us2, xs2, modes2, _. split; [exact EF2|]. specialize (HO2 _ _ _ HA'). lra.
  - elim (NR _ _ _ HA').
Qed.
Variables (X U : nat -> vec) (M : nat -> nat).
Hypothesis Lx : length (X 0%nat) = nx.
Hypothesis HL : answer_loop F W X U M.
Hypothesis A0 : exists us modes xs, pwa_run_from W X_N nu N (X 0%nat) us modes xs.
Lemma answer_closed_loop T : (forall t, (t <= T)%nat -> right_answer W N Q Rm P X_N nu (X t) (F (X t))) ->
  exists V0, (exists us xs modes, F (X 0%nat) = Ok (Some (us, xs, modes, V0))) /\ forall t, (t <= T)%nat ->
    length (X t) = nx /\ length (U t) = nu /\ (M t < length (w_sys W))%nat /\ in_poly (nth (M t) (w_dom W) poly0) (X t ++ U t) /\
    X (Datatypes.S t) = mode_step W (M t) (X t) (U t) /\ 0 <= / 2 * (dot (X t) (mv Q (X t)) + dot (U t) (mv Rm (U t))) /\
    exists us xs modes V, F (X t) = Ok (Some (us, xs, modes, V)) /\ 0 <= V /\
      V + sum_upto (fun t => / 2 * (dot (X t) (mv Q (X t)) + dot (U t) (mv Rm (U t)))) t <= V0.
Proof.
  intros GS. destruct A0 as (us0 & modes0 & xs0 & A0'). pose proof HC as (SQ & SP & SR & PQ & PP & PR & _).
  assert (F0 : exists us xs modes V0, F (X 0%nat) = Ok (Some (us, xs, modes, V0))).
  { destruct (GS 0%nat ltac:(lia)) as [(us2 & xs2 & modes2 & EF2 & _)|(_ & NR)]; [eauto|elim (NR _ _ _ A0')]. }
  destruct F0 as (us & xs & modes & V0 & EF0). exists V0. split; [eauto|].
  assert (K : forall t us xs modes V, (t <= T)%nat -> length (X t) = nx -> F (X t) = Ok (Some (us, xs, modes, V)) ->
    length (U t) = nu /\ (M t < length (w_sys W))%nat /\ in_poly (nth (M t) (w_dom W) poly0) (X t ++ U t) /\ X (Datatypes.S t) = mode_step W (M t) (X t) (U t) /\ length (X (Datatypes.S t)) = nx /\
    0 <= / 2 * (dot (X t) (mv Q (X t)) + dot (U t) (mv Rm (U t))) /\ 0 <= V /\
    ((Datatypes.S t <= T)%nat -> exists us' xs' modes' V', F (X (Datatypes.S t)) = Ok (Some (us', xs', modes', V')) /\ V' <= V - / 2 * (dot (X t) (mv Q (X t)) + dot (U t) (mv Rm (U t))))).
  { intros t us1 xs1 modes1 V1 Ht Lt E1. destruct (answer_decrease (X t) us1 xs1 modes1 V1 Lt (GS t Ht) E1) as (D2 & D3 & _ & D5 & D6 & D7 & D8 & _ & D11).
    destruct (HL t _ _ _ _ E1) as (EU & EM & EX). rewrite <- EU, <- EM, <- EX in D11. rewrite <- EU, <- EM, <- EX in D6. rewrite <- EU in D3, D5, D7. rewrite <- EM in D2, D3. repeat match goal with |- _ /\ _ => split; [assumption|] end. intros Hs. apply D11, GS, Hs. }
  induction t as [|t IH]; intros Ht.
  - destruct (K 0%nat us xs modes V0 Ht Lx EF0) as (K1 & K3 & K4 & K5 & K6 & K7 & K8 & _). repeat match goal with |- _ /\ _ => split; [assumption|] end. exists us, xs, modes, V0. cbn [sum_upto]. split; [exact EF0|]. split; [exact K8|]. lra.
  - destruct (IH ltac:(lia)) as (Lt & _ & _ & _ & _ & _ & us1 & xs1 & modes1 & V1 & E1 & P1 & S1). destruct (K t us1 xs1 modes1 V1 ltac:(lia) Lt E1) as (_ & _ & _ & _ & Lt' & _ & _ & K9). destruct (K9 Ht) as (us2 & xs2 & modes2 & V2 & E2 & D2).
    destruct (K (Datatypes.S t) us2 xs2 modes2 V2 Ht Lt' E2) as (K1 & K3 & K4 & K5 & K6 & K7 & K8 & _). repeat match goal with |- _ /\ _ => split; [assumption|] end. exists us2, xs2, modes2, V2. cbn [sum_upto]. split; [exact E2|]. split; [exact K8|]. lra.
Qed.
Lemma answer_convergence np : exact_np np -> (forall t, right_answer W N Q Rm P X_N nu (X t) (F (X t))) -> Spec.pd Q nx ->
  forall eps, 0 < eps -> exists T, forall t, (T <= t)%nat -> norm (X t) < eps.
Proof.
  intros Hnp GS PQ eps He. pose proof HC as (SQ & _ & _ & _ & _ & PR & _).
  set (f := fun t => / 2 * (dot (X t) (mv Q (X t)) + dot (U t) (mv Rm (U t)))).
  destruct (answer_closed_loop 0 ltac:(auto)) as (V0 & (us0 & xs0 & modes0 & E0) & _).
  assert (G : forall t, length (X t) = nx /\ length (U t) = nu /\ 0 <= f t /\ sum_upto f t <= V0).
  { intros t. destruct (answer_closed_loop t ltac:(auto)) as (V1 & (us1 & xs1 & modes1 & E1) & H). rewrite E0 in E1. injection E1 as _ _ _ <-.
    destruct (H t ltac:(lia)) as (H1 & H2 & _ & _ & _ & H7 & us & xs & modes & V & _ & HV & HV0). fold f in HV0. split; [exact H1|]. split; [exact H2|]. split; [exact H7|]. lra. }
  destruct (form_domination np Hnp (eye nx) Q nx (shape_eye nx) SQ PQ) as (c & Hc & HcQ).
  destruct (summable_terms f V0 ltac:(intros t; apply G) ltac:(intros t; apply G) (eps * eps / (2 * (c + 1)))) as (T & HT). { apply Rdiv_lt_0_compat; nra. }
  exists T. intros t Ht. specialize (HT t Ht). destruct (G t) as (LT & LU & _ & _). pose proof (HcQ (X t) LT) as GQ. rewrite (mv_eye nx) in GQ by exact LT. pose proof (proj2 (pd_psd _ _ PR) (U t) LU) as GU. unfold f in HT.
  assert (GD : dot (X t) (X t) < eps * eps).
  { assert (Q1 : dot (X t) (mv Q (X t)) < eps * eps / (c + 1)). { replace (eps * eps / (c + 1)) with (2 * (eps * eps / (2 * (c + 1)))) by (field; lra). lra. }
    pose proof (proj2 (pd_psd _ _ PQ) (X t) LT) as Q0. assert (Q2 : (c + 1) * (eps * eps / (c + 1)) = eps * eps) by (field; lra). nra. }
  unfold norm. rewrite <- (sqrt_square eps) by lra. apply sqrt_lt_1_alt. split; [apply dot_self_nonneg|exact GD].
Qed.
End Loop.

(** ** C85 *)
(** data for which the controller of the examples is built and meets its specification (C57), with terminal set and cost as in SpecLoop *)
Definition ex_loop_setup (np : numpy) W N Q Rm P X_N nx nu mN meN : Prop :=
  exact_np np /\ example_data W N Q Rm P X_N nx nu mN meN /\ (0 < N)%nat /\ hyb_costs Q Rm P nx nu /\
  pwa_terminal (map aA (w_sys W)) (map aB (w_sys W)) (map ac (w_sys W)) (map in_poly (w_dom W)) (in_poly X_N) Q Rm P nu.
(** drake solves the program of state x exactly *)
Definition drake_solves (drake : dprog -> option (dvar -> R)) (C : ectrl) (x : vec) : Prop :=
  forall prog, set_initial_condition C x = Ok prog -> drake_ok prog (drake prog).
Lemma example_right np drake W N Q Rm P X_N nx nu mN meN C x : ex_loop_setup np W N Q Rm P X_N nx nu mN meN -> ExampleController np W N Q Rm P X_N = Ok C -> length x = nx -> drake_solves drake C x ->
  right_answer W N Q Rm P X_N nu x (example_feedforward drake C x) /\ forall us xs modes V, example_feedforward drake C x = Ok (Some (us, xs, modes, V)) -> example_feedback drake C x = Ok (Some (nth 0 us [])).
Proof.
  intros (Hnp & (HW & HD & HE & H2 & SG & SQ & SP & SR & WX) & HN & HC & TI) EC Lx DS.
  destruct (example_optimal np drake W N Q Rm P X_N nx nu mN meN Hnp HW HN HD H2 SG SQ SP SR WX HE) as (C' & EC' & HO). rewrite EC in EC'. injection EC' as <-. destruct (HO x Lx) as (prog & Ep & HO').
  destruct (HO' (DS prog Ep)) as [(us & xs & modes & E1 & E2 & E3)|(E1 & E2 & E3 & E4)].
  - split; [left; exists us, xs, modes; auto|]. intros us' xs' modes' V' E'. rewrite E1 in E'. injection E' as <- <- <- <-. exact E3.
  - split; [right; split; [exact E1|exact (E4 HC)]|]. intros us' xs' modes' V' E'. rewrite E1 in E'. discriminate.
Qed.
(*@ Theorem C85_closed_loop : The hybrid controller of the examples (drake version), with a terminal set and terminal cost as in SpecLoop, is built; started in a state with an admissible run, the loop closed with it never fails as long as drake solves its programs: feedback always returns an input, the pairs (x(t), u(t)) are in the domains of the selected modes, and the values decrease by at least the stage costs. *)
Lemma example_closed_loop np drake W N Q Rm P X_N nx nu mN meN : ex_loop_setup np W N Q Rm P X_N nx nu mN meN ->
  exists C, ExampleController np W N Q Rm P X_N = Ok C /\ forall X U M T, length (X 0%nat) = nx -> answer_loop (example_feedforward drake C) W X U M ->
  (exists us modes xs, pwa_run_from W X_N nu N (X 0%nat) us modes xs) -> (forall t, (t <= T)%nat -> drake_solves drake C (X t)) ->
  exists V0, (exists us xs modes, example_feedforward drake C (X 0%nat) = Ok (Some (us, xs, modes, V0))) /\ forall t, (t <= T)%nat ->
    length (X t) = nx /\ length (U t) = nu /\ example_feedback drake C (X t) = Ok (Some (U t)) /\ (M t < length (w_sys W))%nat /\ in_poly (nth (M t) (w_dom W) poly0) (X t ++ U t) /\
    X (Datatypes.S t) = mode_step W (M t) (X t) (U t) /\ 0 <= / 2 * (dot (X t) (mv Q (X t)) + dot (U t) (mv Rm (U t))) /\
    exists us xs modes V, example_feedforward drake C (X t) = Ok (Some (us, xs, modes, V)) /\ 0 <= V /\
      V + sum_upto (fun t => / 2 * (dot (X t) (mv Q (X t)) + dot (U t) (mv Rm (U t)))) t <= V0.
Proof.
  intros HS. pose proof HS as (Hnp & (HW & HD & HE & H2 & SG & SQ & SP & SR & WX) & HN & HC & TI).
  destruct (example_optimal np drake W N Q Rm P X_N nx nu mN meN Hnp HW HN HD H2 SG SQ SP SR WX HE) as (C & EC & _). exists C. split; [exact EC|]. intros X U M T Lx HL A0 DS.
  assert (RA : forall t, (t <= T)%nat -> length (X t) = nx -> right_answer W N Q Rm P X_N nu (X t) (example_feedforward drake C (X t))) by (intros t Ht Lt; apply (example_right np drake W N Q Rm P X_N nx nu mN meN C (X t) HS EC Lt (DS t Ht))).
  assert (LX : forall t, (t <= T)%nat -> length (X t) = nx).
  { intros t. induction t as [|t IH]; intros Ht; [exact Lx|].
    assert (RA' : forall t0, (t0 <= t)%nat -> right_answer W N Q Rm P X_N nu (X t0) (example_feedforward drake C (X t0))).
    { clear - RA Lx Ht HL HW HN HC TI A0 DS. intros t0 Ht0. assert (G : forall k, (k <= t)%nat -> (forall j, (j <= k)%nat -> right_answer W N Q Rm P X_N nu (X j) (example_feedforward drake C (X j))) /\ length (X (Datatypes.S k)) = nx).
      { induction k as [|k IHk]; intros Hk.
        - assert (R0 : forall j, (j <= 0)%nat -> right_answer W N Q Rm P X_N nu (X j) (example_feedforward drake C (X j))) by (intros j Hj; replace j with 0%nat by lia; apply RA; [lia|exact Lx]). split; [exact R0|].
          destruct (answer_closed_loop _ W N Q Rm P X_N nx nu HW HN HC TI X U M Lx HL A0 0 R0) as (V0 & _ & H). destruct (H 0%nat ltac:(lia)) as (_ & _ & H3 & _ & H5 & _). rewrite H5. apply (mode_step_length W nx nu); assumption.
        - destruct (IHk ltac:(lia)) as (R1 & L1). assert (R0 : forall j, (j <= Datatypes.S k)%nat -> right_answer W N Q Rm P X_N nu (X j) (example_feedforward drake C (X j))) by (intros j Hj; destruct (Nat.eq_dec j (Datatypes.S k)) as [->|]; [apply RA; [lia|exact L1]|apply R1; lia]). split; [exact R0|].
          destruct (answer_closed_loop _ W N Q Rm P X_N nx nu HW HN HC TI X U M Lx HL A0 (Datatypes.S k) R0) as (V0 & _ & H). destruct (H (Datatypes.S k) ltac:(lia)) as (_ & _ & H3 & _ & H5 & _). rewrite H5. apply (mode_step_length W nx nu); assumption. }
      apply (G t (Nat.le_refl _)); exact Ht0. }
    destruct (answer_closed_loop _ W N Q Rm P X_N nx nu HW HN HC TI X U M Lx HL A0 t RA') as (V0 & _ & H). destruct (H t ltac:(lia)) as (_ & _ & H3 & _ & H5 & _). rewrite H5. apply (mode_step_length W nx nu); assumption. }
  destruct (answer_closed_loop _ W N Q Rm P X_N nx nu HW HN HC TI X U M Lx HL A0 T (fun t Ht => RA t Ht (LX t Ht))) as (V0 & H0 & H). exists V0. split; [exact H0|]. intros t Ht. destruct (H t Ht) as (H1 & H2' & H3 & H4 & H5 & H6 & us & xs & modes & V & E & HV).
  split; [exact H1|]. split; [exact H2'|]. split; [|split; [exact H3|split; [exact H4|split; [exact H5|split; [exact H6|eauto 6]]]]].
  destruct (HL t _ _ _ _ E) as (EU & _). rewrite EU. apply (proj2 (example_right np drake W N Q Rm P X_N nx nu mN meN C (X t) HS EC H1 (DS t Ht)) _ _ _ _ E).
Qed.
(*@ Theorem C85_convergence : If moreover Q is positive definite and drake solves the program at every state of the loop, the state converges to the origin. *)
Lemma example_convergence np drake W N Q Rm P X_N nx nu mN meN C X U M : ex_loop_setup np W N Q Rm P X_N nx nu mN meN -> ExampleController np W N Q Rm P X_N = Ok C -> length (X 0%nat) = nx -> answer_loop (example_feedforward drake C) W X U M ->
  (exists us modes xs, pwa_run_from W X_N nu N (X 0%nat) us modes xs) -> (forall t, drake_solves drake C (X t)) -> Spec.pd Q nx ->
  forall eps, 0 < eps -> exists T, forall t, (T <= t)%nat -> norm (X t) < eps.
Proof.
  intros HS EC Lx HL A0 DS PQ. pose proof HS as (Hnp & (HW & HD & HE & H2 & SG & SQ & SP & SR & WX) & HN & HC & TI).
  destruct (example_closed_loop np drake W N Q Rm P X_N nx nu mN meN HS) as (C' & EC' & H). rewrite EC in EC'. injection EC' as <-.
  apply (answer_convergence (example_feedforward drake C) W N Q Rm P X_N nx nu HW HN HC TI X U M Lx HL A0 np Hnp); [|exact PQ].
  intros t. destruct (H X U M t Lx HL A0 ltac:(auto)) as (V0 & _ & G). apply (example_right np drake W N Q Rm P X_N nx nu mN meN C (X t) HS EC (proj1 (G t ltac:(lia))) (DS t)).
Qed.
(** ** An example: the system W2 with two modes, and a solver of its programs *)
Definition half_mode (b : R) : nat := if Rle_dec b 0 then 0%nat else 1%nat.
Definition half_input (b : R) : R := if Rle_dec b 0 then - b / 2 else b / 2.
Definition half_next (b : R) : R := if Rle_dec b 0 then b / 2 else - b / 2.
(** reads the initial state in the first constraint of the program *)
Definition half_drake (p : dprog) : option (dvar -> R) :=
  match d_con p with
  | DEq _ b :: _ => Some (assign [[half_input b]] [half_mode b] [[b]; [half_next b]])
  | _ => None
  end.
Lemma half_run b : -1 <= b <= 1 -> run_of W2 X_int 1 1 [b] [[half_input b]] [half_mode b] [[b]; [half_next b]].
Proof.
  intros Hb. unfold half_input, half_mode, half_next. destruct (Rle_dec b 0) as [L|L].
  - split; [reflexivity|]. split; [repeat constructor|]. split; [reflexivity|]. split; [intros m [<-|[]]; cbn; lia|]. split; [split; [reflexivity|split; [reflexivity|]]; intros [|t] Ht; [|cbn in Ht; lia]; unfold affine_step; cbn; f_equal; lra|].
    split; [intros [|t] Ht; [|cbn in Ht; lia]; cbn [nth map w_dom W2]; apply in_D_L; eexists _, _; (split; [reflexivity|lra])|cbn [length nth]; apply in_X_int; lra].
  - split; [reflexivity|]. split; [repeat constructor|]. split; [reflexivity|]. split; [intros m [<-|[]]; cbn; lia|]. split; [split; [reflexivity|split; [reflexivity|]]; intros [|t] Ht; [|cbn in Ht; lia]; unfold affine_step; cbn; f_equal; lra|].
    split; [intros [|t] Ht; [|cbn in Ht; lia]; cbn [nth map w_dom W2]; apply in_D_R; eexists _, _; (split; [reflexivity|lra])|cbn [length nth]; apply in_X_int; lra].
Qed.
Lemma half_best b us modes xs : run_of W2 X_int 1 1 [b] us modes xs -> b * b <= trajectory_cost I_1 R_2 R_2 us xs.
Proof.
  intros (A1 & A2 & A3 & A4 & (A5 & A6 & A7) & (A8 & _)). destruct us as [|u [|]]; try discriminate. destruct u as [|u [|]]; try (inversion A2; discriminate). destruct modes as [|k [|]]; try discriminate. specialize (A4 k (or_introl eq_refl)). cbn in A4.
  destruct xs as [|x0 [|x1 [|]]]; try discriminate. cbn [nth] in A6. subst x0. specialize (A7 0%nat ltac:(cbn; lia)). cbn [nth] in A7. unfold affine_step in A7.
  assert (exists s, s * s = 1 /\ x1 = [s * b + u]) as (s & Hs & ->). { destruct k as [|[|]]; [exists 1|exists (-1)|lia]; (split; [lra|]); cbn in A7; subst x1; f_equal; ring. }
  assert (Es : (s * b) * (s * b) = b * b) by (replace ((s * b) * (s * b)) with (s * s * (b * b)) by ring; rewrite Hs; ring). unfold trajectory_cost. cbn. set (y := s * b) in *. pose proof (Rle_0_sqr (2 * u + y)) as SQ. unfold Rsqr in SQ. lra.
Qed.
Lemma half_solves np prog b : exact_np np -> ExampleController np W2 1 I_1 R_2 R_2 X_int = Ok (ECtrl W2 1 prog) -> -1 <= b <= 1 -> drake_solves half_drake (ECtrl W2 1 prog) [b].
Proof.
  intros Hnp EC Hb p Ep. destruct W2_data as (HW & HD). assert (SR2 : shape R_2 1 1) by (unfold shape; cbn; repeat split; repeat constructor).
  destruct (built np W2 1 I_1 R_2 R_2 X_int 1 1 2 0 Hnp) as (prog' & EC' & HB). { unfold example_data. split; [exact HW|]. split; [exact HD|]. split; [exact W2_eqs|]. split; [cbn; lia|]. split; [exact W2_gaps|]. split; [exact shape_I_1|]. split; [exact SR2|]. split; [exact SR2|exact wf_X_int]. }
  rewrite EC in EC'. injection EC' as <-. destruct (HB [b] eq_refl) as (p' & Ep' & HF). rewrite Ep in Ep'. injection Ep' as <-.
  assert (E : half_drake p = Some (assign [[half_input b]] [half_mode b] [[b]; [half_next b]])) by (unfold set_initial_condition in Ep; cbn in Ep; injection Ep as <-; reflexivity). rewrite E. cbn [drake_ok].
  destruct (run_to W2 X_int 1 1 1 [b] _ _ _ HW eq_refl (half_run b Hb)) as (R1 & R2 & R3 & R4 & R5). split.
  - apply HF. auto.
  - intros a' Fa'. apply HF in Fa'. destruct Fa' as (F1 & F2 & F3). rewrite (proj2 (HF _)), (proj2 (HF a')), !cost_run, R4, R5. pose proof (proj1 (run_from W2 X_int 1 1 1 a' HW F2 F3)) as RN. rewrite F1 in RN.
    refine (Rle_trans _ _ _ _ (half_best _ _ _ _ RN)). unfold trajectory_cost, half_input, half_next. destruct (Rle_dec b 0); cbn; lra.
Qed.
(*@ Example C85_example : x+ = x + u for -1 <= x <= 0, x+ = -x + u for 0 <= x <= 1, |u| <= 1, with Q = 1, R = 2, P = 2, horizon 1 and terminal set |x| <= 1: the hypotheses hold, with a solver that solves the programs of all the states of the loop from -1; these are -1, -1/2, -1/4, ... *)
Lemma example_loop_example np : exact_np np -> ex_loop_setup np W2 1 I_1 R_2 R_2 X_int 1 1 2 0 /\ Spec.pd I_1 1 /\
  exists C X U M, ExampleController np W2 1 I_1 R_2 R_2 X_int = Ok C /\ answer_loop (example_feedforward half_drake C) W2 X U M /\ (forall t, X t = [- (/ 2) ^ t]) /\ (forall t, drake_solves half_drake C (X t)) /\
    (exists us modes xs, pwa_run_from W2 X_int 1 1 (X 0%nat) us modes xs) /\ example_feedforward half_drake C [-1] = Ok (Some ([[/ 2]], [[-1]; [- / 2]], [0%nat], 1)).
Proof.
  intros Hnp. destruct W2_data as (HW & HD). assert (SR2 : shape R_2 1 1) by (unfold shape; cbn; repeat split; repeat constructor).
  destruct (hybrid_loop_example np Hnp) as (CH & (_ & _ & _ & _ & _ & _ & _ & HC & _ & TI) & _ & _ & _ & _ & _ & _ & _ & _ & _ & _ & PI & _).
  assert (HE : example_data W2 1 I_1 R_2 R_2 X_int 1 1 2 0). { unfold example_data. split; [exact HW|]. split; [exact HD|]. split; [exact W2_eqs|]. split; [cbn; lia|]. split; [exact W2_gaps|]. split; [exact shape_I_1|]. split; [exact SR2|]. split; [exact SR2|exact wf_X_int]. }
  split. { unfold ex_loop_setup. split; [exact Hnp|]. split; [exact HE|]. split; [lia|]. split; [exact HC|exact TI]. } split; [exact PI|].
  destruct (built np W2 1 I_1 R_2 R_2 X_int 1 1 2 0 Hnp HE) as (prog & EC & HB).
  assert (FF : forall b, -1 <= b <= 1 -> example_feedforward half_drake (ECtrl W2 1 prog) [b] = Ok (Some ([[half_input b]], [[b]; [half_next b]], [half_mode b], b * b))).
  { intros b Hb. destruct (HB [b] eq_refl) as (p & Ep & HF). destruct (run_to W2 X_int 1 1 1 [b] _ _ _ HW eq_refl (half_run b Hb)) as (R1 & R2 & R3 & R4 & R5).
    unfold example_feedforward. rewrite Ep. cbn [bind]. assert (E : half_drake p = Some (assign [[half_input b]] [half_mode b] [[b]; [half_next b]])) by (unfold set_initial_condition in Ep; cbn in Ep; injection Ep as <-; reflexivity). rewrite E, (proj2 (HF _)), cost_run, R4, R5. clear.
    assert (EJ : trajectory_cost I_1 R_2 R_2 [[half_input b]] [[b]; [half_next b]] = b * b) by (unfold trajectory_cost, half_input, half_next; destruct (Rle_dec b 0); cbn; lra). rewrite EJ. unfold half_mode. destruct (Rle_dec b 0).
    - cbn. unfold Rltb. destruct (Rlt_dec 1 0); [lra|]. reflexivity.
    - cbn. unfold Rltb. destruct (Rlt_dec 0 1); [|lra]. reflexivity. }
  assert (BP : forall t, 0 < (/ 2) ^ t <= 1). { induction t as [|t IH]; cbn [pow]; lra. }
  exists (ECtrl W2 1 prog), (fun t => [- (/ 2) ^ t]), (fun t => [(/ 2) ^ t / 2]), (fun _ => 0%nat).
  split; [exact EC|]. split.
  { intros t us xs modes V E. specialize (BP t). rewrite FF in E by lra. injection E as <- <- <- <-. unfold half_input, half_mode, half_next. destruct (Rle_dec (- (/ 2) ^ t) 0); [|lra]. cbn [nth]. split; [f_equal; lra|]. split; [reflexivity|]. unfold mode_step, affine_step. cbn. f_equal. lra. }
  split; [reflexivity|]. split; [intros t; specialize (BP t); apply (half_solves np prog _ Hnp EC); lra|]. split; [eexists _, _, _; apply (half_run (- (/ 2) ^ 0)); cbn; lra|].
  rewrite FF by lra. unfold half_input, half_mode, half_next. destruct (Rle_dec (-1) 0); [|lra]. repeat f_equal; lra.
Qed.
