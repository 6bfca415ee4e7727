(** * HybLinThms: hybrid MPC of a system whose modes share one linear dynamics, against linear MPC (C84), proofs *)
From Coq Require Import ZArith String Classical.
From Verif Require Import Arr ArrFacts Spec SpecMpc SpecProg Numpy Pnnls PnnlsFacts QpFacts GeomUtils Polyhedron PolyThms Oracle SolverThms NullFacts PolySolveThms PolyMore SpecDyn Dynamics DynThms CondenseThms LqrThms McaisThms Mpqp MpqpThms Controllers CtrlThms Gurobi Programs ProgThms Hybrid HybridThms HybridOptThms VertThms ContThms LawThms EquivThms.

(** all modes of W have the dynamics x+ = A x + B u of S, and their domains together are D *)
Definition splits (W : pwa) (S : lsys) (D : poly) (nx nu : nat) : Prop :=
  (forall a, In a (w_sys W) -> aA a = lA S /\ aB a = lB S /\ ac a = zeros nx) /\
  forall z, length z = (nx + nu)%nat -> (in_poly D z <-> exists D', In D' (w_dom W) /\ in_poly D' z).
Lemma finite_choice (R : nat -> nat -> Prop) N : (forall t, (t < N)%nat -> exists m, R t m) -> exists l, length l = N /\ forall t, (t < N)%nat -> R t (nth t l 0%nat).
Proof.
  induction N as [|N IH]; intros H; [exists []; split; [reflexivity|lia]|]. destruct IH as (l & L & Hl); [intros t Ht; apply H; lia|]. destruct (H N ltac:(lia)) as (m & Hm). exists (l ++ [m]). split; [rewrite app_length; cbn; lia|].
  intros t Ht. destruct (Nat.eq_dec t N) as [->|Ne]; [rewrite app_nth2 by lia; rewrite L, Nat.sub_diag; exact Hm|rewrite app_nth1 by lia; apply Hl; lia].
Qed.
Lemma split_step W S D nx nu m x u : splits W S D nx nu -> shape (lA S) nx nx -> shape (lB S) nx nu -> (m < length (w_sys W))%nat -> 
  affine_step (nth m (map aA (w_sys W)) (Mat 0 [])) (nth m (map aB (w_sys W)) (Mat 0 [])) (nth m (map ac (w_sys W)) []) x u = linear_step (lA S) (lB S) x u.
Proof.
  intros (H & _) SA SB Hm. set (a0 := ASys (Mat 0 []) (Mat 0 []) []). rewrite (nth_indep (map aA _) _ (aA a0)), (nth_indep (map aB _) _ (aB a0)), (nth_indep (map ac _) _ (ac a0)) by (rewrite map_length; exact Hm).
  rewrite !map_nth. destruct (H (nth m (w_sys W) a0) (nth_In _ _ Hm)) as (-> & -> & ->). unfold affine_step, linear_step.
  assert (L1 : length (mv (lA S) x) = nx) by (rewrite mv_length; apply SA). assert (L2 : length (mv (lB S) u) = nx) by (rewrite mv_length; apply SB). apply vadd_zeros_r. len.
Qed.
Lemma split_admissible W S D (XN : vec -> Prop) nx nu N x us xs : splits W S D nx nu -> shape (lA S) nx nx -> shape (lB S) nx nu -> length (w_dom W) = length (w_sys W) -> length x = nx ->
  ((exists modes, pwa_admissible (map aA (w_sys W)) (map aB (w_sys W)) (map ac (w_sys W)) (map in_poly (w_dom W)) XN nu N x us modes xs) <-> mpc_admissible (lA S) (lB S) nu N (in_poly D) XN x us xs).
Proof.
  intros HS SA SB LD Lx. pose proof (proj2 HS) as HU. split.
  - intros (modes & Lu & Fu & Lm & Hm & (L & E0 & ES) & S1 & S2). rewrite map_length in Hm. assert (HM : forall t, (t < length us)%nat -> (nth t modes 0 < length (w_sys W))%nat) by (intros t Ht; apply Hm, nth_In; lia).
    assert (Tr : is_trajectory (linear_step (lA S) (lB S)) x us xs).
    { split; [exact L|]. split; [exact E0|]. intros t Ht. rewrite (ES t Ht). apply (split_step W S D nx nu); auto. }
    pose proof (trajectory_lengths (lA S) (lB S) nx nu x us xs SA SB Lx Tr) as Fx. rewrite Forall_nth in Fx. split; [exact Lu|]. split; [exact Fu|]. split; [exact Tr|]. split; [|exact S2].
    intros t Ht. rewrite Forall_nth in Fu. apply HU; [rewrite app_length; f_equal; [apply Fx; lia|apply Fu, Ht]|]. specialize (S1 t Ht). pose proof (HM t Ht) as G.
    rewrite (nth_indep _ _ (in_poly (Poly (Mat 0 []) [] (Mat 0 []) [] None None None None None))) in S1 by (rewrite map_length; lia). rewrite map_nth in S1. eexists. split; [|exact S1]. apply nth_In. lia.
  - intros (Lu & Fu & Tr & S1 & S2). pose proof (trajectory_lengths (lA S) (lB S) nx nu x us xs SA SB Lx Tr) as Fx. rewrite Forall_nth in Fx. pose proof Tr as (L & E0 & ES).
    destruct (finite_choice (fun t m => (m < length (w_sys W))%nat /\ nth m (map in_poly (w_dom W)) (fun _ => False) (nth t xs [] ++ nth t us [])) N) as (modes & Lm & Hm).
    { intros t Ht. specialize (S1 t ltac:(lia)). rewrite Forall_nth in Fu. apply HU in S1; [|rewrite app_length; f_equal; [apply Fx; lia|apply Fu; lia]]. destruct S1 as (D' & I' & H'). destruct (In_nth _ _ D' I') as (m & Hm & Em).
      exists m. split; [lia|]. rewrite (nth_indep _ _ (in_poly D')) by (rewrite map_length; exact Hm). rewrite map_nth, Em. exact H'. }
    exists modes. split; [exact Lu|]. split; [exact Fu|]. split; [exact Lm|]. split; [|split].
    + intros m Im. rewrite map_length. destruct (In_nth _ _ 0%nat Im) as (t & Ht & <-). apply Hm. lia.
    + split; [exact L|]. split; [exact E0|]. intros t Ht. cbv zeta. rewrite (split_step W S D nx nu) by (auto; apply Hm; lia). apply ES, Ht.
    + split; [|exact S2]. intros t Ht. apply Hm. lia.
Qed.
Lemma app_inj_len {A} (a b c d : list A) : length a = length b -> a ++ c = b ++ d -> a = b /\ c = d.
Proof. revert b. induction a as [|x a IH]; intros [|y b] L E; try discriminate L; [auto|]. cbn in *. injection E as -> E. destruct (IH b ltac:(lia) E) as (-> & ->). auto. Qed.
(** where the problem is feasible there is an optimal sequence *)
Lemma optimal_exists np S N Q Rm P D X_N nx nu x us xs : exact_np np -> mpc_data S N Q Rm P D X_N nx nu -> length x = nx -> mpc_admissible (lA S) (lB S) nu N (in_poly D) (in_poly X_N) x us xs ->
  exists ws zs, mpc_optimal (lA S) (lB S) Q Rm P nu N (in_poly D) (in_poly X_N) x ws zs.
Proof.
  intros Hnp HD Lx HA. destruct (mpc_program np S N Q Rm P D X_N nx nu Hnp HD) as (q & m & _ & Hq & HC). pose proof HD as ((SA & SB & _) & _). pose proof Hq as (_ & _ & _ & _ & _ & _ & S4 & _).
  destruct (HC x us xs Lx (proj1 HA) (proj1 (proj2 HA)) (proj1 (proj2 (proj2 HA)))) as (_ & F1). destruct (minimizer_kkt np q (nu * N) nx m x (List.concat us) Hnp Hq Lx (proj2 F1 HA)) as (u & _ & (Fu & Mu) & _).
  assert (Lu : length u = (nu * N)%nat) by (rewrite (proj1 Fu); apply S4). destruct (chunks nu N u ltac:(lia)) as (ws & Lw & Fw & Ew). destruct (trajectory_exists (lA S) (lB S) nx nu x ws SA SB Lx) as (zs & Tz).
  destruct (HC x ws zs Lx Lw Fw Tz) as (C2 & F2). rewrite Ew in C2, F2. exists ws, zs. split; [apply F2, Fu|]. intros vs ys HV. pose proof HV as (Lv & Fv & Tv & _). destruct (HC x vs ys Lx Lv Fv Tv) as (C3 & F3).
  destruct (Mu _ (proj2 F3 HV)) as (M1 & M2). unfold q_cost in C2, C3. rewrite C2, C3 in M1, M2. split; [exact M1|]. intros Ec. specialize (M2 Ec). rewrite <- Ew in M2. clear - M2 Lv Lw Fv Fw. revert ws Lw Fw M2. revert N Lv. induction Fv as [|v vs Hv Fv IH]; intros N Lv ws Lw Fw M2.
  - cbn in Lv. subst N. destruct ws; [reflexivity|discriminate Lw].
  - destruct ws as [|w ws]; [cbn in *; lia|]. cbn in M2. assert (Lvw : length v = length w) by (rewrite Hv, (Forall_inv Fw); reflexivity). destruct (app_inj_len v w (List.concat vs) (List.concat ws) Lvw M2) as (-> & E2). f_equal. apply (IH (pred N)); [cbn in Lv; lia|cbn in *; lia|apply (Forall_inv_tail Fw)|exact E2].
Qed.
(*@ Theorem C84_one_dynamics : If all modes of a PWA system have the same linear dynamics and their domains together are D, the hybrid controller answers as the linear one for D: where the linear one returns inputs, the hybrid one returns the same inputs, the same cost and the same feedback; where the hybrid one returns None, so does the linear one; and where only the linear one returns None, the cost exceeds that of the unconstrained optimum by 5e13. *)
Lemma hybrid_one_dynamics np np' grb W S N Q Rm P D X_N nx nu C C' x : exact_np np -> exact_np np' -> mpc_data S N Q Rm P D X_N nx nu -> hyb_data W nx nu -> (0 < nx)%nat -> hyb_domains W -> no_eqs W X_N -> splits W S D nx nu ->
  ModelPredictiveController np S N Q Rm P D X_N = Ok C -> HybridModelPredictiveController np' W N Q Rm P X_N = Ok C' -> length x = nx -> gurobi_solves grb (k_mpmiqp C') x ->
  (forall us V, feedforward np C x = Ok (Some us, Some V) -> (exists xs modes, is_trajectory (linear_step (lA S) (lB S)) x us xs /\ hybrid_feedforward grb C' x = Ok (Some (us, xs, modes, V))) /\ hybrid_feedback grb C' x = feedback np C x) /\
  (hybrid_feedforward grb C' x = Ok None -> feedforward np C x = Ok (None, None)) /\
  (feedforward np C x = Ok (None, None) -> hybrid_feedforward grb C' x = Ok None \/
     exists us xs modes V us0 xs0, hybrid_feedforward grb C' x = Ok (Some (us, xs, modes, V)) /\ mpc_optimal (lA S) (lB S) Q Rm P nu N (in_poly D) (in_poly X_N) x us xs /\
       mpc_optimal (lA S) (lB S) Q Rm P nu N (fun _ => True) (fun _ => True) x us0 xs0 /\ trajectory_cost Q Rm P us0 xs0 + (10 ^ 14 - 1) / 2 <= V).
Proof.
  intros Hnp Hnp' HD HW Hx HDm HE HS E E' Lx GS. pose proof HD as ((SA & SB & HN & SQ & SP & SR & _ & (mN & meN & WN)) & _ & _ & PQ & PP & PR). pose proof HW as (_ & _ & _ & LD & _).
  assert (HC : hyb_costs Q Rm P nx nu) by (pose proof (proj1 PQ); pose proof (proj1 PP); unfold hyb_costs; tauto).
  pose proof (fun us xs => split_admissible W S D (in_poly X_N) nx nu N x us xs HS SA SB LD Lx) as SPL.
  pose proof (hybrid_optimal np' grb W N Q Rm P X_N nx nu mN meN C' Hnp' HW Hx HN HDm SQ SP SR WN HE E' x Lx GS) as HH. cbv zeta in HH.
  destruct (mpc_none np S N Q Rm P D X_N nx nu C x Hnp HD E Lx) as (us0 & xs0 & H0 & H1).
  assert (UNI : forall us modes xs vs ys, pwa_optimal (map aA (w_sys W)) (map aB (w_sys W)) (map ac (w_sys W)) (map in_poly (w_dom W)) (in_poly X_N) Q Rm P nu N x us modes xs ->
     mpc_optimal (lA S) (lB S) Q Rm P nu N (in_poly D) (in_poly X_N) x vs ys -> us = vs /\ xs = ys).
  { intros us modes xs vs ys (A1 & O1) (A2 & O2). assert (A1' : mpc_admissible (lA S) (lB S) nu N (in_poly D) (in_poly X_N) x us xs) by (apply SPL; exists modes; exact A1).
    destruct (proj2 (SPL vs ys) A2) as (m2 & A2'). specialize (O1 _ _ _ A2'). destruct (O2 _ _ A1') as (O3 & O4). assert (us = vs) by (apply O4; lra). subst vs. split; [reflexivity|]. apply (trajectory_unique (lA S) (lB S) x us); [apply A1'|apply A2]. }
  assert (EX : forall us xs, mpc_admissible (lA S) (lB S) nu N (in_poly D) (in_poly X_N) x us xs -> exists ws zs, mpc_optimal (lA S) (lB S) Q Rm P nu N (in_poly D) (in_poly X_N) x ws zs).
  { intros us xs HA. exact (optimal_exists np S N Q Rm P D X_N nx nu x us xs Hnp HD Lx HA). }
  split; [|split].
  - intros us V F. destruct H1 as [(F1 & _)|(us1 & xs1 & F1 & F2 & F3 & _)]; rewrite F in F1; [discriminate|]. injection F1 as -> ->. destruct (proj2 (SPL us1 xs1) (proj1 F3)) as (m1 & A1).
    destruct HH as [(us & xs & modes & G1 & G2 & G3)|(_ & _ & _ & NR)]; [|exfalso; exact (NR HC _ _ _ A1)]. destruct (UNI _ _ _ _ _ G2 F3) as (-> & ->). split; [|rewrite G3, F2; reflexivity]. exists xs1, modes. split; [apply F3|exact G1].
  - intros G. destruct HH as [(us & xs & modes & G1 & _)|(_ & _ & _ & NR)]; [rewrite G in G1; discriminate|]. destruct H1 as [(F1 & _)|(us1 & xs1 & _ & _ & F3 & _)]; [exact F1|]. exfalso. destruct (proj2 (SPL us1 xs1) (proj1 F3)) as (m1 & A1). exact (NR HC _ _ _ A1).
  - intros F. destruct H1 as [(_ & _ & F3)|(us1 & xs1 & F1 & _)]; [|rewrite F in F1; discriminate]. destruct HH as [(us & xs & modes & G1 & G2 & _)|(G1 & _)]; [right|left; exact G1].
    assert (A1 : mpc_admissible (lA S) (lB S) nu N (in_poly D) (in_poly X_N) x us xs) by (apply SPL; exists modes; apply G2). destruct (EX _ _ A1) as (ws & zs & HO). destruct (UNI _ _ _ _ _ G2 HO) as (-> & ->).
    exists ws, zs, modes, (trajectory_cost Q Rm P ws zs), us0, xs0. split; [exact G1|]. split; [exact HO|]. split; [exact H0|]. apply F3, A1.
Qed.
Definition W_split : pwa := PWA 1 1 [Sys1 1; Sys1 1] [D_L; D_R].
Lemma split_constants np : exact_np np -> get_bigM_dynamics np W_split = Ok ([[[-2]; [-1]]; [[-2]; [-1]]], [[[1]; [2]]; [[1]; [2]]]) /\
  get_bigM_domains np W_split = Ok [[[0; 0; 0; 0]; [1; -1; 0; 0]]; [[-1; 1; 0; 0]; [0; 0; 0; 0]]].
Proof.
  intros Hnp. split.
  - unfold get_bigM_dynamics, bigM_dynamics_ij, row. cbn -[lp_min]. rewrite !lp_L, !lp_R by exact Hnp. cbn -[lp_min]. rewrite ?lp_L, ?lp_R by exact Hnp. cbn -[lp_min]. entries.
  - unfold get_bigM_domains, bigM_domains_ij, row. cbn -[lp_min]. rewrite !lp_L, !lp_R by exact Hnp. cbn -[lp_min]. entries.
Qed.
(*@ Example C84_example : x+ = x + u on |x| <= 1, |u| <= 1, split at x = 0 into two modes, Q = R = P = 1, N = 1: the hypotheses of C84_one_dynamics hold at x = 1 for a suitable Gurobi, and both controllers return u = -1/2 and the cost 3/4. *)
Lemma split_example np : exact_np np -> mpc_data S_1 1 I_1 I_1 I_1 D_box X_int 1 1 /\ hyb_data W_split 1 1 /\ hyb_domains W_split /\ no_eqs W_split X_int /\ splits W_split S_1 D_box 1 1 /\
  exists C C' grb, ModelPredictiveController np S_1 1 I_1 I_1 I_1 D_box X_int = Ok C /\ HybridModelPredictiveController np W_split 1 I_1 I_1 I_1 X_int = Ok C' /\ gurobi_solves grb (k_mpmiqp C') [1] /\
    feedforward np C [1] = Ok (Some [[- (1 / 2)]], Some (3 / 4)) /\ exists xs modes, hybrid_feedforward grb C' [1] = Ok (Some ([[- (1 / 2)]], xs, modes, 3 / 4)).
Proof.
  intros Hnp. destruct (mpc_example np Hnp) as (HD & C & EC & EF & _). destruct W2_data as ((_ & _ & _ & _ & HWd) & HWD).
  assert (HW : hyb_data W_split 1 1). { split; [reflexivity|]. split; [reflexivity|]. split; [|split; [reflexivity|exact HWd]]. split; [discriminate|]. intros s [<-|[<-|[]]]; unfold system_shape, shape; cbn; repeat split; repeat constructor. }
  assert (HE : no_eqs W_split X_int) by (split; [intros D [<-|[<-|[]]]; reflexivity|reflexivity]).
  assert (HS : splits W_split S_1 D_box 1 1).
  { split; [intros a [<-|[<-|[]]]; auto|]. intros z Lz. destruct (len2 z Lz) as (a & b & ->). rewrite in_D_box. split.
    - intros Hab. destruct (Rle_dec a 0); [exists D_L; split; [left; reflexivity|]; apply in_D_L; exists a, b; split; [reflexivity|lra]|exists D_R; split; [right; left; reflexivity|]; apply in_D_R; exists a, b; split; [reflexivity|lra]].
    - intros (D' & [<-|[<-|[]]] & Hz); [apply in_D_L in Hz|apply in_D_R in Hz]; destruct Hz as (a' & b' & E & Hab); injection E as <- <-; lra. }
  split; [exact HD|]. split; [exact HW|]. split; [exact HWD|]. split; [exact HE|]. split; [exact HS|].
  destruct (split_constants np Hnp) as (E1 & E2). assert (EH : exists C', HybridModelPredictiveController np W_split 1 I_1 I_1 I_1 X_int = Ok C' /\ exists grb, gurobi_solves grb (k_mpmiqp C') [1]).
  { unfold HybridModelPredictiveController. rewrite E1. cbn [bind]. rewrite E2. cbn [bind].
    destruct (hybrid_condense_program W_split 1 I_1 I_1 I_1 X_int _ _ _) as [q|e] eqn:Eq; [|exfalso; cbn in Eq; discriminate].
    cbn [bind]. eexists. split; [reflexivity|]. cbn [k_mpmiqp].
    destruct (exact_gurobi_exists (hyb_H q) (hyb_f q [1]) (hyb_A q) (hyb_b q [1]) (ncols (h_Au q) + ncols (h_Az q))) as (grb & GE). exists grb.
    split; [|exact GE]. clear GE grb. vm_compute in Eq. injection Eq as <-. unfold sharp_data. repeat match goal with |- _ /\ _ => split end.
    - intros r Hr. vm_compute in Hr. repeat (destruct Hr as [<-|Hr]; [sharp_row|]). destruct Hr.
    - unfold hyb_f. cbn. sharp_row.
    - intros r Hr. vm_compute in Hr. repeat (destruct Hr as [<-|Hr]; [sharp_row|]). destruct Hr.
    - unfold hyb_b. cbn. sharp_row.
    - intros r [].
    - intros a []. }
  destruct EH as (C' & EC' & grb & GS). exists C, C', grb. split; [exact EC|]. split; [exact EC'|]. split; [exact GS|]. split; [exact EF|].
  destruct (hybrid_one_dynamics np np grb W_split S_1 1 I_1 I_1 I_1 D_box X_int 1 1 C C' [1] Hnp Hnp HD HW ltac:(lia) HWD HE HS EC EC' eq_refl GS) as (G & _). destruct (G _ _ EF) as ((xs & modes & _ & G1) & _). exists xs, modes. exact G1.
Qed.
