(** * HybridLoopThms: closed loop of the hybrid controller (C69), proofs *)
From Coq Require Import ZArith Classical.
From Verif Require Import Arr ArrFacts Spec SpecMpc SpecProg SpecLoop Numpy Pnnls PnnlsFacts QpFacts GeomUtils Polyhedron PolyThms Oracle SolverThms NullFacts PolySolveThms PolyMore SpecDyn Dynamics DynThms CondenseThms LqrThms McaisThms Mpqp MpqpThms Controllers CtrlThms Gurobi Programs ProgThms Hybrid HybridThms HybridOptThms.

Lemma pwa_shift As Bs cs doms XN Q Rm P nu N x us modes xs : (0 < N)%nat -> pwa_terminal As Bs cs doms XN Q Rm P nu ->
  pwa_admissible As Bs cs doms XN nu N x us modes xs ->
  exists us' modes' xs', pwa_admissible As Bs cs doms XN nu N (nth 1 xs []) us' modes' xs' /\
    trajectory_cost Q Rm P us' xs' <= trajectory_cost Q Rm P us xs - stage_cost Q Rm x (nth 0 us []).
Proof.
  intros HN TI (Lu & Fu & Lm & HM & (Lxs & H0 & HT) & HD & HX). destruct N as [|n]; [lia|]. clear HN.
  destruct us as [|u0 us]; [discriminate|]. destruct xs as [|x0 xs]; [discriminate|]. destruct modes as [|m0 modes]; [discriminate|]. cbn [nth] in H0. subst x0. cbn [length] in *. assert (Ln : length us = n) by lia. assert (Lmo : length modes = n) by lia. assert (Lm' : length xs = Datatypes.S n) by lia.
  rewrite Ln in *. cbn [nth] in HX. set (xN := nth n xs []) in *. destruct (TI xN HX) as (mN & uN & HmN & LuN & T1 & T2 & T3). cbv zeta in T2, T3. set (xp := affine_step _ _ _ xN uN) in *.
  assert (A1 : forall t d, (t <= n)%nat -> nth t (xs ++ [xp]) d = nth t xs d) by (intros; apply app_nth1; lia).
  assert (A2 : forall d, nth (Datatypes.S n) (xs ++ [xp]) d = xp) by (intros; rewrite app_nth2 by lia; rewrite Lm', Nat.sub_diag; reflexivity).
  assert (B1 : forall t d, (t < n)%nat -> nth t (us ++ [uN]) d = nth t us d) by (intros; apply app_nth1; lia).
  assert (B2 : forall d, nth n (us ++ [uN]) d = uN) by (intros; rewrite app_nth2 by lia; rewrite Ln, Nat.sub_diag; reflexivity).
  assert (M1 : forall t d, (t < n)%nat -> nth t (modes ++ [mN]) d = nth t modes d) by (intros; apply app_nth1; lia).
  assert (M2 : forall d, nth n (modes ++ [mN]) d = mN) by (intros; rewrite app_nth2 by lia; rewrite Lmo, Nat.sub_diag; reflexivity).
  assert (Lp : length (us ++ [uN]) = Datatypes.S n) by (rewrite app_length; cbn; lia).
  exists (us ++ [uN]), (modes ++ [mN]), (xs ++ [xp]). split.
  - split; [exact Lp|]. split; [apply Forall_app; split; [exact (Forall_inv_tail Fu)|constructor; [exact LuN|constructor]]|]. split; [rewrite app_length; cbn; lia|].
    split; [intros m Hm; apply in_app_or in Hm; destruct Hm as [Hm|[<-|[]]]; [apply HM; right; exact Hm|exact HmN]|]. split.
    + split; [rewrite Lp, app_length, Lm'; cbn; lia|]. split; [cbn [nth]; rewrite A1 by lia; reflexivity|].
      rewrite Lp. intros t Ht. cbv zeta. destruct (Nat.eq_dec t n) as [->|Nt].
      * rewrite A2, B2, M2, A1 by lia. reflexivity.
      * rewrite !A1, B1, M1 by lia. exact (HT (Datatypes.S t) ltac:(lia)).
    + unfold stage_constraints. rewrite Lp, A2. split; [|exact T2]. intros t Ht. rewrite A1 by lia. destruct (Nat.eq_dec t n) as [->|Nt].
      * rewrite B2, M2. exact T1.
      * rewrite B1, M1 by lia. exact (HD (Datatypes.S t) ltac:(lia)).
  - unfold trajectory_cost. rewrite Lp, A2. cbn [length]. rewrite Ln. rewrite (sum_upto_first (fun t => / 2 * (dot (nth t (x :: xs) []) (mv Q (nth t (x :: xs) [])) + dot (nth t (u0 :: us) []) (mv Rm (nth t (u0 :: us) [])))) n). cbn [sum_upto nth]. rewrite A1, B2 by lia. fold xN. unfold stage_cost.
    rewrite (sum_upto_ext _ (fun t => / 2 * (dot (nth t xs []) (mv Q (nth t xs [])) + dot (nth t us []) (mv Rm (nth t us []))))) by (intros t Ht; rewrite A1, B1 by lia; reflexivity). lra.
Qed.

Definition pwa_run_from W X_N nu N x := pwa_admissible (map aA (w_sys W)) (map aB (w_sys W)) (map ac (w_sys W)) (map in_poly (w_dom W)) (in_poly X_N) nu N x.
Definition mode_step (W : pwa) (m : nat) (x u : vec) : vec := affine_step (nth m (map aA (w_sys W)) (Mat 0 [])) (nth m (map aB (w_sys W)) (Mat 0 [])) (nth m (map ac (w_sys W)) []) x u.
(** a hybrid controller as in C48, with a terminal set and a terminal cost as above *)
Definition hyb_loop_setup np W N Q Rm P X_N nx nu mN meN C : Prop :=
  exact_np np /\ hyb_data W nx nu /\ (0 < nx)%nat /\ (0 < N)%nat /\ hyb_domains W /\ wf X_N mN meN nx /\ no_eqs W X_N /\ hyb_costs Q Rm P nx nu /\
  HybridModelPredictiveController np W N Q Rm P X_N = Ok C /\
  pwa_terminal (map aA (w_sys W)) (map aB (w_sys W)) (map ac (w_sys W)) (map in_poly (w_dom W)) (in_poly X_N) Q Rm P nu.

Lemma nth_map_lt {A B} (f : A -> B) l m d0 d : (m < length l)%nat -> nth m (map f l) d = f (nth m l d0).
Proof. intros H. rewrite (nth_indep _ d (f d0)) by (rewrite map_length; exact H). apply map_nth. Qed.
(** lengths of the states of a run *)
Lemma mode_step_length W nx nu m x u : hyb_data W nx nu -> (m < length (w_sys W))%nat -> length (mode_step W m x u) = nx.
Proof.
  intros (_ & _ & HC & _) Hm. unfold mode_step, affine_step. rewrite !(nth_map_lt _ (w_sys W) m asys0) by exact Hm. destruct (proj2 HC _ (nth_In _ asys0 Hm)) as ((SA & SB) & Lc). rewrite !vadd_length, !mv_length, (proj1 SA), (proj1 SB), Lc. lia.
Qed.
(** every trajectory cost is nonnegative *)
Lemma run_cost_nonneg W X_N Q Rm P nx nu N x us modes xs : hyb_data W nx nu -> hyb_costs Q Rm P nx nu -> length x = nx -> pwa_run_from W X_N nu N x us modes xs ->
  0 <= trajectory_cost Q Rm P us xs /\ forall t, (t <= N)%nat -> length (nth t xs []) = nx.
Proof.
  intros HW (SQ & SP & SR & PQ & PP & PR & _) Lx (Lu & Fu & Lm & HM & (Lxs & H0 & HT) & _).
  assert (G : forall t, (t <= N)%nat -> length (nth t xs []) = nx).
  { intros [|t] Ht; [rewrite H0; exact Lx|]. rewrite HT by lia. apply (mode_step_length W nx nu (nth t modes 0%nat)); [exact HW|]. rewrite <- (map_length aA). apply HM, nth_In. lia. }
  split; [|exact G]. unfold trajectory_cost. rewrite Lu. pose proof (proj2 PP _ (G N (Nat.le_refl _))).
  assert (0 <= sum_upto (fun t => / 2 * (dot (nth t xs []) (mv Q (nth t xs [])) + dot (nth t us []) (mv Rm (nth t us [])))) N); [|lra].
  apply sum_upto_nonneg. intros t Ht. pose proof (proj2 PQ _ (G t ltac:(lia))). assert (Lt : length (nth t us []) = nu) by (apply Forall_len_nth; [exact Fu|lia]). pose proof (proj2 (pd_psd _ _ PR) _ Lt). lra.
Qed.

(*@ Theorem C69_decrease : With a terminal set and terminal cost as in SpecLoop, if Gurobi solves the program at x and feedforward returns a run, then: feedback returns its first input u, (x, u) is in the domain of its first mode, the next state x' under that mode (the one PieceWiseAffineSystem.simulate computes if get_mode selects that mode) has an admissible run, and if Gurobi solves the program at x' too, feedforward returns at x' a value of at most the value at x minus the stage cost. *)
Lemma hybrid_decrease np grb W N Q Rm P X_N nx nu mN meN C x us xs modes V : hyb_loop_setup np W N Q Rm P X_N nx nu mN meN C -> length x = nx ->
  gurobi_solves grb (k_mpmiqp C) x -> hybrid_feedforward grb C x = Ok (Some (us, xs, modes, V)) ->
  let u := nth 0 us [] in let m := nth 0 modes 0%nat in let x' := mode_step W m x u in
  let stage := / 2 * (dot x (mv Q x) + dot u (mv Rm u)) in
  hybrid_feedback grb C x = Ok (Some u) /\ (m < length (w_sys W))%nat /\ in_poly (nth m (w_dom W) poly0) (x ++ u) /\ nth 1 xs [] = x' /\ length u = nu /\ length x' = nx /\ 0 <= stage /\ 0 <= V /\
  (get_mode W x u = Ok (Some m) -> pwa_simulate W x [u] = Ok ([x; x'], [m])) /\
  (exists us' modes' xs', pwa_run_from W X_N nu N x' us' modes' xs') /\
  (gurobi_solves grb (k_mpmiqp C) x' -> exists us' xs' modes' V', hybrid_feedforward grb C x' = Ok (Some (us', xs', modes', V')) /\ V' <= V - stage).
Proof.
  intros (Hnp & HW & Pnx & HN & HDm & WX & NE & HC & EC & TI) Lx GS EF. cbv zeta. pose proof HC as (SQ & SP & SR & PQ & PP & PR & _). pose proof HW as (Wnx & Wnu & HSys & LD & _).
  destruct (hybrid_optimal np grb W N Q Rm P X_N nx nu mN meN C Hnp HW Pnx HN HDm SQ SP SR WX NE EC x Lx GS) as [(us1 & xs1 & modes1 & EF1 & (HA & HO) & EB)|(EN & _)]; [|rewrite EN in EF; discriminate EF].
  rewrite EF in EF1. injection EF1 as <- <- <- ->. fold (pwa_run_from W X_N nu N x us modes xs) in HA.
  destruct (run_cost_nonneg W X_N Q Rm P nx nu N x us modes xs HW HC Lx HA) as (V0 & Lxs). pose proof HA as (Lu & Fu & Lm & HM & (_ & H0 & HT) & HD & _).
  assert (Hm : (nth 0 modes 0 < length (w_sys W))%nat) by (rewrite <- (map_length aA); apply HM, nth_In; lia).
  assert (E1 : nth 1 xs [] = mode_step W (nth 0 modes 0%nat) x (nth 0 us [])) by (specialize (HT 0%nat ltac:(lia)); cbv zeta in HT; rewrite H0 in HT; exact HT).
  assert (Lu0 : length (nth 0 us []) = nu) by (apply Forall_len_nth; [exact Fu|lia]).
  pose proof (mode_step_length W nx nu (nth 0 modes 0%nat) x (nth 0 us []) HW Hm) as Lx'.
  destruct (pwa_shift _ _ _ _ _ Q Rm P nu N x us modes xs HN TI HA) as (us' & modes' & xs' & HA' & HC'). rewrite E1 in HA'. unfold stage_cost in HC'.
  split; [exact EB|]. split; [exact Hm|]. split.
  { specialize (HD 0%nat ltac:(lia)). cbv beta in HD. rewrite H0 in HD. rewrite (nth_map_lt _ (w_dom W) _ poly0) in HD by lia. exact HD. }
  split; [exact E1|]. split; [exact Lu0|]. split; [exact Lx'|]. split; [pose proof (proj2 PQ x Lx); pose proof (proj2 (pd_psd _ _ PR) _ Lu0); lra|]. split; [exact V0|]. split; [|split; [eauto|]].
  - intros EM. cbn [pwa_simulate]. rewrite EM. cbn [bind]. rewrite (nth_error_nth' _ asys0 Hm). destruct (proj2 HSys _ (nth_In _ asys0 Hm)) as ((SA & SB) & Lc).
    unfold np_mv. rewrite (proj1 (proj2 SA)), (proj1 (proj2 SB)), Lx, Lu0, !Nat.eqb_refl. cbn [bind]. unfold mode_step, affine_step. rewrite !(nth_map_lt _ (w_sys W) _ asys0) by exact Hm. reflexivity.
  - intros GS'. destruct (hybrid_optimal np grb W N Q Rm P X_N nx nu mN meN C Hnp HW Pnx HN HDm SQ SP SR WX NE EC _ Lx' GS') as [(us2 & xs2 & modes2 & EF2 & (_ & HO2) & _)|(_ & _ & _ & NR)].
    + eexists us2, xs2, modes2, _. split; [exact EF2|]. specialize (HO2 _ _ _ HA'). lra.
    + elim (NR HC _ _ _ HA').
Qed.

(** X, U, M: states, inputs and modes of the loop closed with the first input and the first mode of feedforward *)
Definition hybrid_loop grb C W (X U : nat -> vec) (M : nat -> nat) : Prop :=
  forall t us xs modes V, hybrid_feedforward grb C (X t) = Ok (Some (us, xs, modes, V)) ->
    U t = nth 0 us [] /\ M t = nth 0 modes 0%nat /\ X (S t) = mode_step W (M t) (X t) (U t).

(*@ Theorem C69_closed_loop : Started in a state with an admissible run, the closed loop never fails as long as Gurobi solves its programs: feedback always returns an input, the pairs (x(t), u(t)) are in the domains of the selected modes, and the values decrease by at least the stage costs. *)
Lemma hybrid_closed_loop np grb W N Q Rm P X_N nx nu mN meN C X U M T : hyb_loop_setup np W N Q Rm P X_N nx nu mN meN C -> length (X 0%nat) = nx -> hybrid_loop grb C W X U M ->
  (exists us modes xs, pwa_run_from W X_N nu N (X 0%nat) us modes xs) -> (forall t, (t <= T)%nat -> gurobi_solves grb (k_mpmiqp C) (X t)) ->
  exists V0, (exists us xs modes, hybrid_feedforward grb C (X 0%nat) = Ok (Some (us, xs, modes, V0))) /\ forall t, (t <= T)%nat ->
    length (X t) = nx /\ length (U t) = nu /\ hybrid_feedback grb C (X t) = Ok (Some (U t)) /\ (M t < length (w_sys W))%nat /\ in_poly (nth (M t) (w_dom W) poly0) (X t ++ U t) /\
    X (S t) = mode_step W (M t) (X t) (U t) /\ 0 <= / 2 * (dot (X t) (mv Q (X t)) + dot (U t) (mv Rm (U t))) /\
    exists us xs modes V, hybrid_feedforward grb C (X t) = Ok (Some (us, xs, modes, V)) /\ 0 <= V /\
      V + sum_upto (fun t => / 2 * (dot (X t) (mv Q (X t)) + dot (U t) (mv Rm (U t)))) t <= V0.
Proof.
  intros HS Lx HL (us0 & modes0 & xs0 & A0) GS. pose proof HS as (Hnp & HW & Pnx & HN & HDm & WX & NE & HC & EC & TI). pose proof HC as (SQ & SP & SR & PQ & PP & PR & _).
  assert (F0 : exists us xs modes V0, hybrid_feedforward grb C (X 0%nat) = Ok (Some (us, xs, modes, V0))).
  { destruct (hybrid_optimal np grb W N Q Rm P X_N nx nu mN meN C Hnp HW Pnx HN HDm SQ SP SR WX NE EC _ Lx (GS 0%nat ltac:(lia))) as [(us2 & xs2 & modes2 & EF2 & _)|(_ & _ & _ & NR)]; [eauto|elim (NR HC _ _ _ A0)]. }
  destruct F0 as (us & xs & modes & V0 & EF0). exists V0. split; [eauto|].
  assert (K : forall t us xs modes V, (t <= T)%nat -> length (X t) = nx -> hybrid_feedforward grb C (X t) = Ok (Some (us, xs, modes, V)) ->
    length (U t) = nu /\ hybrid_feedback grb C (X t) = Ok (Some (U t)) /\ (M t < length (w_sys W))%nat /\ in_poly (nth (M t) (w_dom W) poly0) (X t ++ U t) /\ X (S t) = mode_step W (M t) (X t) (U t) /\ length (X (S t)) = nx /\
    0 <= / 2 * (dot (X t) (mv Q (X t)) + dot (U t) (mv Rm (U t))) /\ 0 <= V /\
    ((S t <= T)%nat -> exists us' xs' modes' V', hybrid_feedforward grb C (X (S t)) = Ok (Some (us', xs', modes', V')) /\ V' <= V - / 2 * (dot (X t) (mv Q (X t)) + dot (U t) (mv Rm (U t))))).
  { intros t us1 xs1 modes1 V1 Ht Lt E1. destruct (hybrid_decrease np grb W N Q Rm P X_N nx nu mN meN C (X t) us1 xs1 modes1 V1 HS Lt (GS t Ht) E1) as (D1 & D2 & D3 & _ & D5 & D6 & D7 & D8 & _ & _ & D11).
    destruct (HL t _ _ _ _ E1) as (EU & EM & EX). rewrite <- EU, <- EM, <- EX in D11. rewrite <- EU, <- EM, <- EX in D6. rewrite <- EU in D1, D3, D5, D7. rewrite <- EM in D2, D3. repeat match goal with |- _ /\ _ => split; [assumption|] end. intros Hs. apply D11, GS, Hs. }
  induction t as [|t IH]; intros Ht.
  - destruct (K 0%nat us xs modes V0 Ht Lx EF0) as (K1 & K2 & K3 & K4 & K5 & K6 & K7 & K8 & _). repeat match goal with |- _ /\ _ => split; [assumption|] end. exists us, xs, modes, V0. cbn [sum_upto]. split; [exact EF0|]. split; [exact K8|]. lra.
  - destruct (IH ltac:(lia)) as (Lt & _ & _ & _ & _ & _ & _ & us1 & xs1 & modes1 & V1 & E1 & P1 & S1). destruct (K t us1 xs1 modes1 V1 ltac:(lia) Lt E1) as (_ & _ & _ & _ & _ & Lt' & _ & _ & K9). destruct (K9 Ht) as (us2 & xs2 & modes2 & V2 & E2 & D2).
    destruct (K (S t) us2 xs2 modes2 V2 Ht Lt' E2) as (K1 & K2 & K3 & K4 & K5 & K6 & K7 & K8 & _). repeat match goal with |- _ /\ _ => split; [assumption|] end. exists us2, xs2, modes2, V2. cbn [sum_upto]. split; [exact E2|]. split; [exact K8|]. lra.
Qed.

(*@ Theorem C69_convergence : If Gurobi solves the program at every state of the closed loop and Q is positive definite, the state converges to the origin. *)
Lemma hybrid_convergence np grb W N Q Rm P X_N nx nu mN meN C X U M : hyb_loop_setup np W N Q Rm P X_N nx nu mN meN C -> length (X 0%nat) = nx -> hybrid_loop grb C W X U M ->
  (exists us modes xs, pwa_run_from W X_N nu N (X 0%nat) us modes xs) -> (forall t, gurobi_solves grb (k_mpmiqp C) (X t)) -> Spec.pd Q nx ->
  forall eps, 0 < eps -> exists T, forall t, (T <= t)%nat -> norm (X t) < eps.
Proof.
  intros HS Lx HL A0 GS PQ eps He. pose proof HS as (Hnp & _ & _ & _ & _ & _ & _ & HC & _). pose proof HC as (SQ & _ & _ & _ & _ & PR & _).
  set (f := fun t => / 2 * (dot (X t) (mv Q (X t)) + dot (U t) (mv Rm (U t)))).
  destruct (hybrid_closed_loop np grb W N Q Rm P X_N nx nu mN meN C X U M 0 HS Lx HL A0 ltac:(auto)) as (V0 & (us0 & xs0 & modes0 & E0) & _).
  assert (G : forall t, length (X t) = nx /\ length (U t) = nu /\ 0 <= f t /\ sum_upto f t <= V0).
  { intros t. destruct (hybrid_closed_loop np grb W N Q Rm P X_N nx nu mN meN C X U M t HS Lx HL A0 ltac:(auto)) as (V1 & (us1 & xs1 & modes1 & E1) & H). rewrite E0 in E1. injection E1 as _ _ _ <-.
    destruct (H t ltac:(lia)) as (H1 & H2 & _ & _ & _ & _ & H7 & us & xs & modes & V & _ & HV & HV0). fold f in HV0. split; [exact H1|]. split; [exact H2|]. split; [exact H7|]. lra. }
  destruct (form_domination np Hnp (eye nx) Q nx (shape_eye nx) SQ PQ) as (c & Hc & HcQ).
  destruct (summable_terms f V0 ltac:(intros t; apply G) ltac:(intros t; apply G) (eps * eps / (2 * (c + 1)))) as (T & HT). { apply Rdiv_lt_0_compat; nra. }
  exists T. intros t Ht. specialize (HT t Ht). destruct (G t) as (LT & LU & _ & _). pose proof (HcQ (X t) LT) as GQ. rewrite (mv_eye nx) in GQ by exact LT. pose proof (proj2 (pd_psd _ _ PR) (U t) LU) as GU. unfold f in HT.
  assert (GD : dot (X t) (X t) < eps * eps).
  { assert (Q1 : dot (X t) (mv Q (X t)) < eps * eps / (c + 1)). { replace (eps * eps / (c + 1)) with (2 * (eps * eps / (2 * (c + 1)))) by (field; lra). lra. }
    pose proof (proj2 (pd_psd _ _ PQ) (X t) LT) as Q0. assert (Q2 : (c + 1) * (eps * eps / (c + 1)) = eps * eps) by (field; lra). nra. }
  unfold norm. rewrite <- (sqrt_square eps) by lra. apply sqrt_lt_1_alt. split; [apply dot_self_nonneg|exact GD].
Qed.

(*@ Theorem C69_practical : Gurobi drops entries below 10^-9, so it cannot be required to solve the programs near the origin. If it solves them as long as the loop has stayed at a distance of at least eps from the origin, the loop enters the ball of radius eps. *)
Lemma hybrid_practical np grb W N Q Rm P X_N nx nu mN meN C X U M eps : hyb_loop_setup np W N Q Rm P X_N nx nu mN meN C -> length (X 0%nat) = nx -> hybrid_loop grb C W X U M ->
  (exists us modes xs, pwa_run_from W X_N nu N (X 0%nat) us modes xs) -> Spec.pd Q nx -> 0 < eps ->
  (forall t, (forall s, (s <= t)%nat -> eps <= norm (X s)) -> gurobi_solves grb (k_mpmiqp C) (X t)) ->
  exists T, norm (X T) < eps.
Proof.
  intros HS Lx HL A0 PQ He GS. destruct (classic (exists T, norm (X T) < eps)) as [H|NH]; [exact H|exfalso].
  assert (B : forall t, eps <= norm (X t)) by (intros t; destruct (Rle_dec eps (norm (X t))); [assumption|exfalso; apply NH; exists t; lra]).
  destruct (hybrid_convergence np grb W N Q Rm P X_N nx nu mN meN C X U M HS Lx HL A0 ltac:(auto) PQ eps He) as (T & HT). specialize (HT T ltac:(lia)). specialize (B T). lra.
Qed.

Lemma le_eq_dec (a b : linexpr) : {a = b} + {a <> b}.
Proof. decide equality; [apply Req_EM_T|]. apply list_eq_dec. decide equality; apply Nat.eq_dec || apply Req_EM_T. Qed.
Lemma gmodel_eq_dec (a b : gmodel) : {a = b} + {a <> b}.
Proof.
  decide equality.
  - apply le_eq_dec.
  - apply list_eq_dec. intros [[i c] j] [[i' c'] j']. destruct (Nat.eq_dec i i'), (Req_EM_T c c'), (Nat.eq_dec j j'); subst; auto; right; congruence.
  - apply list_eq_dec, le_eq_dec.
  - apply list_eq_dec, le_eq_dec.
  - apply list_eq_dec, Bool.bool_dec.
  - apply list_eq_dec. decide equality. apply Req_EM_T.
Qed.
Lemma gurobi_for Ms : exists grb, forall M, In M Ms -> gsol_ok M (grb M).
Proof.
  induction Ms as [|M Ms (grb & H)]; [exists (fun _ => GSol false 0 [] [] [] []); intros M []|].
  assert (S : exists g, gsol_ok M g).
  { destruct (classic (exists x, g_feasible M x /\ forall y, g_feasible M y -> g_objective M x <= g_objective M y)) as [(x & F & O)|NO].
    - exists (GSol true (g_objective M x) x [] [] []). unfold gsol_ok. cbn. auto.
    - exists (GSol false 0 [] [] [] []). unfold gsol_ok. cbn. exact NO. }
  destruct S as (g & Hg). exists (fun m => if gmodel_eq_dec m M then g else grb m). intros M' HM. destruct (gmodel_eq_dec M' M) as [->|N]; [exact Hg|]. destruct HM as [->|HM]; [contradiction|apply H, HM].
Qed.
Lemma loop_exists grb C W x : exists X U M, X 0%nat = x /\ hybrid_loop grb C W X U M.
Proof.
  set (nxt := fun y => match hybrid_feedforward grb C y with Ok (Some (us, xs, modes, V)) => (nth 0 us [], nth 0 modes 0%nat, mode_step W (nth 0 modes 0%nat) y (nth 0 us [])) | _ => ([], 0%nat, y) end).
  set (X := fix X t := match t with O => x | S t' => snd (nxt (X t')) end). exists X, (fun t => fst (fst (nxt (X t)))), (fun t => snd (fst (nxt (X t)))). split; [reflexivity|].
  intros t us xs modes V E. change (X (S t)) with (snd (nxt (X t))). unfold nxt. rewrite E. auto.
Qed.
Lemma sharp_quarter (v : vec) : Forall (fun a => a = 0 \/ / 4 <= a \/ a <= - / 4) v -> sharp v.
Proof. intros F a Ha. rewrite Forall_forall in F. assert (T : / 10 ^ 9 < / 4) by lra. destruct (F a Ha) as [->|[H|H]]; [auto|right; rewrite Rabs_right; lra|right; rewrite Rabs_left; lra]. Qed.
Definition R_2 : mat := Mat 1 [[2]].
Lemma W2_feedforward np grb C a : hyb_loop_setup np W2 1 I_1 R_2 R_2 X_int 1 1 2 0 C -> (-1 <= a < 0) -> gurobi_solves grb (k_mpmiqp C) [a] ->
  hybrid_feedforward grb C [a] = Ok (Some ([[- a / 2]], [[a]; [a / 2]], [0%nat], a * a)).
Proof.
  intros (Hnp & HW & _ & _ & HD & _ & HE & HC & EC & _) Ha GS. pose proof HC as (SQ & SR2 & _).
  assert (RUN : pwa_admissible (map aA (w_sys W2)) (map aB (w_sys W2)) (map ac (w_sys W2)) (map in_poly (w_dom W2)) (in_poly X_int) 1 1 [a] [[- a / 2]] [0%nat] [[a]; [a / 2]]).
  { unfold pwa_admissible. split; [reflexivity|]. split; [repeat constructor|]. split; [reflexivity|]. split; [intros m [<-|[]]; cbn; lia|]. split.
    - split; [reflexivity|]. split; [reflexivity|]. intros [|t] Ht; [|cbn in Ht; lia]. unfold affine_step. cbn. f_equal. lra.
    - split.
      + intros [|t] Ht; [|cbn in Ht; lia]. cbn [nth map w_dom W2]. apply in_D_L. eexists _, _. split; [reflexivity|]. lra.
      + cbn [length nth]. apply in_X_int. lra. }
  destruct (hybrid_optimal np grb W2 1 I_1 R_2 R_2 X_int 1 1 2 0 _ Hnp HW ltac:(lia) ltac:(lia) HD shape_I_1 SR2 SR2 wf_X_int HE EC [a] eq_refl GS) as [(us & xs & modes & EF & (A & M) & _)|(_ & _ & _ & NR)].
  - rewrite EF. specialize (M _ _ _ RUN). destruct A as (A1 & A2 & A3 & A4 & (A5 & A6 & A7) & (A8 & _)). destruct us as [|u [|]]; try discriminate. destruct u as [|u [|]]; try (inversion A2; discriminate). destruct modes as [|k [|]]; try discriminate. specialize (A4 k (or_introl eq_refl)). cbn in A4.
    destruct xs as [|x0 [|x1 [|]]]; try discriminate. cbn [nth] in A6. subst x0. specialize (A8 0%nat ltac:(cbn; lia)). specialize (A7 0%nat ltac:(cbn; lia)). cbn [nth] in A7, A8.
    assert (k = 0%nat). { destruct k as [|[|]]; [reflexivity| |lia]. exfalso. cbn [nth map w_dom W2] in A8. apply in_D_R in A8. destruct A8 as (x & v & E & B). injection E as E _. lra. } subst k.
    unfold affine_step in A7. cbn in A7. subst x1. unfold trajectory_cost in *. cbn in M |- *. assert ((2 * u + a) * (2 * u + a) <= 0) by nra. assert (u = - a / 2) by nra. subst u. entries.
  - exfalso. exact (NR HC _ _ _ RUN).
Qed.
(*@ Example C69_example : x+ = x + u for -1 <= x <= 0, x+ = -x + u for 0 <= x <= 1, |u| <= 1, with Q = 1, R = 2, P = 2, horizon 1 and terminal set |x| <= 1: the hypotheses hold. For a Gurobi that solves the programs at -1 and -1/2 the closed loop from -1 goes to -1/2 and -1/4, and the hypotheses of C69_closed_loop hold up to T = 1, those of C69_practical for eps = 1/3. *)
Lemma hybrid_loop_example np : exact_np np -> exists C, hyb_loop_setup np W2 1 I_1 R_2 R_2 X_int 1 1 2 0 C /\
  exists grb X U M, hybrid_loop grb C W2 X U M /\ X 0%nat = [-1] /\ X 1%nat = [- / 2] /\ X 2%nat = [- / 4] /\ (forall t, (t <= 1)%nat -> gurobi_solves grb (k_mpmiqp C) (X t)) /\
    (exists us modes xs, pwa_run_from W2 X_int 1 1 (X 0%nat) us modes xs) /\ Spec.pd I_1 1 /\
    (forall t, (forall s, (s <= t)%nat -> / 3 <= norm (X s)) -> gurobi_solves grb (k_mpmiqp C) (X t)) /\
    hybrid_feedforward grb C [-1] = Ok (Some ([[/ 2]], [[-1]; [- / 2]], [0%nat], 1)).
Proof.
  intros Hnp. destruct W2_data as (HW & HD). assert (HE : no_eqs W2 X_int) by (split; [intros D [<-|[<-|[]]]; reflexivity|reflexivity]).
  assert (SR2 : shape R_2 1 1) by (unfold shape; cbn; repeat split; repeat constructor).
  assert (PS : forall v : vec, length v = 1%nat -> exists a, v = [a] /\ dot v (mv I_1 v) = a * a /\ dot v (mv R_2 v) = 2 * (a * a)) by (intros [|a [|]] L; try discriminate; exists a; split; [reflexivity|split; cbn; ring]).
  assert (HC : hyb_costs I_1 R_2 R_2 1 1).
  { unfold hyb_costs. repeat match goal with |- _ /\ _ => split end; try exact shape_I_1; try exact SR2; try reflexivity.
    - split; [reflexivity|]. intros v Lv. destruct (PS v Lv) as (a & _ & -> & _). nra.
    - split; [reflexivity|]. intros v Lv. destruct (PS v Lv) as (a & _ & _ & ->). nra.
    - split; [reflexivity|]. intros v Lv NZ. destruct (PS v Lv) as (a & -> & _ & ->). assert (a <> 0) by (intros ->; apply NZ; reflexivity). nra. }
  assert (PI : Spec.pd I_1 1). { split; [reflexivity|]. intros v Lv NZ. destruct (PS v Lv) as (a & -> & -> & _). assert (a <> 0) by (intros ->; apply NZ; reflexivity). nra. }
  assert (TI : pwa_terminal (map aA (w_sys W2)) (map aB (w_sys W2)) (map ac (w_sys W2)) (map in_poly (w_dom W2)) (in_poly X_int) I_1 R_2 R_2 1).
  { intros x Hx. assert (Lx : length x = 1%nat) by apply Hx. destruct x as [|a [|]]; try discriminate Lx. apply in_X_int in Hx. destruct (Rle_dec a 0) as [L|G].
    - exists 0%nat, [- a / 2]. split; [cbn; lia|]. split; [reflexivity|]. split; [cbn [map w_dom W2 nth app]; apply in_D_L; eexists _, _; split; [reflexivity|lra]|]. cbv zeta. split.
      + unfold affine_step. cbn. apply in_X_int. lra.
      + unfold affine_step. cbn. nra.
    - exists 1%nat, [a / 2]. split; [cbn; lia|]. split; [reflexivity|]. split; [cbn [map w_dom W2 nth app]; apply in_D_R; eexists _, _; split; [reflexivity|lra]|]. cbv zeta. split.
      + unfold affine_step. cbn. apply in_X_int. lra.
      + unfold affine_step. cbn. nra. }
  destruct (W2_constants np Hnp) as (E1 & E2).
  assert (EQ : exists q, hybrid_condense_program W2 1 I_1 R_2 R_2 X_int [[[-2]; [-1]]; [[-1]; [-2]]] [[[1]; [2]]; [[2]; [1]]] [[[0; 0; 0; 0]; [1; -1; 0; 0]]; [[-1; 1; 0; 0]; [0; 0; 0; 0]]] = Ok q /\
    forall a, a = -1 \/ a = - / 2 -> sharp_data (Some (hyb_H q)) (hyb_f q [a]) (hyb_A q) (hyb_b q [a]) (Mat (ncols (hyb_A q)) []) []).
  { destruct (hybrid_condense_program W2 1 I_1 R_2 R_2 X_int _ _ _) as [q|e] eqn:Eq; [|exfalso; cbn in Eq; discriminate]. exists q. split; [reflexivity|]. intros a Ha.
    vm_compute in Eq. injection Eq as <-. unfold sharp_data. repeat match goal with |- _ /\ _ => split end.
    - intros r Hr. vm_compute in Hr. repeat (destruct Hr as [<-|Hr]; [sharp_row|]). destruct Hr.
    - unfold hyb_f. cbn. sharp_row.
    - intros r Hr. vm_compute in Hr. repeat (destruct Hr as [<-|Hr]; [sharp_row|]). destruct Hr.
    - unfold hyb_b. destruct Ha as [->| ->]; cbn; apply sharp_quarter; repeat (apply Forall_cons; [first [left; lra|right; left; lra|right; right; lra]|]); apply Forall_nil.
    - intros r [].
    - intros b []. }
  destruct EQ as (q & Eq & SH).
  assert (EC : HybridModelPredictiveController np W2 1 I_1 R_2 R_2 X_int = Ok (HMPC W2 1 I_1 R_2 R_2 X_int [[[-2]; [-1]]; [[-1]; [-2]]] [[[1]; [2]]; [[2]; [1]]] [[[0; 0; 0; 0]; [1; -1; 0; 0]]; [[-1; 1; 0; 0]; [0; 0; 0; 0]]] q)).
  { unfold HybridModelPredictiveController. rewrite E1. cbn [bind]. rewrite E2. cbn [bind]. rewrite Eq. reflexivity. }
  eexists. assert (HS : hyb_loop_setup np W2 1 I_1 R_2 R_2 X_int 1 1 2 0 (HMPC W2 1 I_1 R_2 R_2 X_int [[[-2]; [-1]]; [[-1]; [-2]]] [[[1]; [2]]; [[2]; [1]]] [[[0; 0; 0; 0]; [1; -1; 0; 0]]; [[-1; 1; 0; 0]; [0; 0; 0; 0]]] q)).
  { unfold hyb_loop_setup. split; [exact Hnp|]. split; [exact HW|]. split; [lia|]. split; [lia|]. split; [exact HD|]. split; [exact wf_X_int|]. split; [exact HE|]. split; [exact HC|]. split; [exact EC|exact TI]. }
  split; [exact HS|].
  set (mods := fun a => match build_model (Some (hyb_H q)) (hyb_f q [a]) (hyb_A q) (hyb_b q [a]) None None with Ok M => [set_binary (ncols (h_Au q) + ncols (h_Az q)) M] | Err _ => [] end).
  destruct (gurobi_for (mods (-1) ++ mods (- / 2))) as (grb & HG).
  assert (G : forall a, a = -1 \/ a = - / 2 -> gurobi_solves grb q [a]).
  { intros a Ha. split; [apply SH, Ha|]. intros M0 EM. cbv zeta. apply HG, in_or_app. destruct Ha as [->| ->]; [left|right]; unfold mods; rewrite EM; left; reflexivity. }
  match type of HS with hyb_loop_setup _ _ _ _ _ _ _ _ _ _ _ ?c => destruct (loop_exists grb c W2 [-1]) as (X & U & M & X0 & HL) end. exists grb, X, U, M. cbn [k_mpmiqp].
  pose proof (W2_feedforward np grb _ (-1) HS ltac:(lra) (G _ (or_introl eq_refl))) as F0. pose proof (W2_feedforward np grb _ (- / 2) HS ltac:(lra) (G _ (or_intror eq_refl))) as F1.
  assert (X1 : X 1%nat = [- / 2]). { pose proof (HL 0%nat) as H. rewrite X0 in H. specialize (H _ _ _ _ F0). destruct H as (-> & -> & ->). unfold mode_step. cbn. f_equal. lra. }
  assert (X2 : X 2%nat = [- / 4]). { pose proof (HL 1%nat) as H. rewrite X1 in H. specialize (H _ _ _ _ F1). destruct H as (-> & -> & ->). unfold mode_step. cbn. f_equal. lra. }
  assert (GX : forall t, (t <= 1)%nat -> gurobi_solves grb q (X t)). { intros [|[|t]] Ht; [rewrite X0; apply G; auto|rewrite X1; apply G; auto|lia]. }
  split; [exact HL|]. split; [exact X0|]. split; [exact X1|]. split; [exact X2|]. split; [exact GX|]. split.
  { rewrite X0. destruct (hybrid_optimal np grb W2 1 I_1 R_2 R_2 X_int 1 1 2 0 _ Hnp HW ltac:(lia) ltac:(lia) HD shape_I_1 SR2 SR2 wf_X_int HE EC [-1] eq_refl (G _ (or_introl eq_refl))) as [(us & xs & modes & EF & (A & _) & _)|(EF & _)]; [exists us, modes, xs; exact A|rewrite EF in F0; discriminate]. }
  split; [exact PI|]. split.
  - intros [|[|t]] H; [apply GX; lia|apply GX; lia|]. exfalso. specialize (H 2%nat ltac:(lia)). rewrite X2 in H. assert (norm [- / 4] = / 4). { unfold norm. replace (dot [- / 4] [- / 4]) with (/ 4 * / 4) by (cbn; lra). apply sqrt_square. lra. } lra.
  - rewrite F0. entries.
Qed.
