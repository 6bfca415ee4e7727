(** * HorizonThms: the cost of the MPC as an infinite-horizon cost, and what a longer horizon changes (C80), proofs *)
From Coq Require Import ZArith Classical.
From Verif Require Import Arr ArrFacts Spec SpecMpc Numpy Pnnls PnnlsFacts QpFacts GeomUtils Polyhedron PolyThms Oracle SolverThms NullFacts PolySolveThms PolyMore SpecDyn Dynamics DynThms CondenseThms LqrThms Mpqp MpqpThms Controllers CtrlThms.

(** an input signal for x+ = A x + B u that keeps all pairs (x(t), u(t)) in D forever *)
Definition runs_in (A B : mat) (nu : nat) (D : vec -> Prop) (x : vec) (u : nat -> vec) : Prop :=
  (forall t, length (u t) = nu) /\ forall t, D (state A B x u t ++ u t).
(** V is the least infinite-horizon cost over the signals in U: it is the cost of one of them, and no other has smaller cost *)
Definition least_cost (A B Q Rm : mat) (x : vec) (U : (nat -> vec) -> Prop) (V : R) : Prop :=
  (exists u, U u /\ Un_cv (lq_cost A B Q Rm x u) V) /\
  forall u W, U u -> (forall T, lq_cost A B Q Rm x u T <= W) -> V <= W.

(** ** Signals *)
Section Signals.
Variables (A B Q Rm : mat).
Lemma state_split x u M T : state A B x u (M + T) = state A B (state A B x u M) (fun t => u (M + t)%nat) T.
Proof. induction T as [|T IH]; [rewrite Nat.add_0_r; reflexivity|]. rewrite Nat.add_succ_r. cbn [state]. rewrite IH. reflexivity. Qed.
Lemma cost_split x u M T : lq_cost A B Q Rm x u (M + T) = lq_cost A B Q Rm x u M + lq_cost A B Q Rm (state A B x u M) (fun t => u (M + t)%nat) T.
Proof. induction T as [|T IH]; [rewrite Nat.add_0_r; cbn; ring|]. rewrite Nat.add_succ_r. cbn [lq_cost]. rewrite IH, state_split. ring. Qed.
Lemma state_ext x u w M : (forall t, (t < M)%nat -> u t = w t) -> state A B x u M = state A B x w M.
Proof. induction M as [|M IH]; intros H; [reflexivity|]. cbn [state]. rewrite IH by (intros; apply H; lia). rewrite H by lia. reflexivity. Qed.
Lemma cost_ext x u w M : (forall t, (t < M)%nat -> u t = w t) -> lq_cost A B Q Rm x u M = lq_cost A B Q Rm x w M.
Proof.
  induction M as [|M IH]; intros H; [reflexivity|]. cbn [lq_cost]. rewrite IH by (intros; apply H; lia). rewrite (state_ext x u w M) by (intros; apply H; lia). rewrite H by lia. reflexivity.
Qed.
Lemma cost_sum x u T : lq_cost A B Q Rm x u T = sum_upto (fun t => / 2 * (dot (state A B x u t) (mv Q (state A B x u t)) + dot (u t) (mv Rm (u t)))) T.
Proof. induction T as [|T IH]; [reflexivity|]. cbn [lq_cost sum_upto]. rewrite IH. reflexivity. Qed.

(** the first N steps as lists *)
Definition cut_u (u : nat -> vec) N := map u (seq 0 N).
Definition cut_x x (u : nat -> vec) N := map (state A B x u) (seq 0 (S N)).
Lemma nth_seq_map (f : nat -> vec) N t : (t < N)%nat -> nth t (map f (seq 0 N)) [] = f t.
Proof. intros H. rewrite (nth_indep _ [] (f 0%nat)) by (rewrite map_length, seq_length; exact H). rewrite map_nth, seq_nth by exact H. reflexivity. Qed.
Lemma cut_traj x u N : is_trajectory (linear_step A B) x (cut_u u N) (cut_x x u N).
Proof.
  unfold cut_u, cut_x. split; [|split].
  - rewrite !map_length, !seq_length. reflexivity.
  - rewrite nth_seq_map by lia. reflexivity.
  - rewrite map_length, seq_length. intros t Ht. rewrite !nth_seq_map by lia. reflexivity.
Qed.
Lemma cut_cost P x u N : trajectory_cost Q Rm P (cut_u u N) (cut_x x u N) = lq_cost A B Q Rm x u N + / 2 * dot (state A B x u N) (mv P (state A B x u N)).
Proof.
  unfold trajectory_cost. replace (length (cut_u u N)) with N by (unfold cut_u; rewrite map_length, seq_length; reflexivity). unfold cut_u, cut_x. rewrite (nth_seq_map _ (S N) N) by lia.
  rewrite cost_sum. f_equal. apply sum_upto_ext. intros t Ht. rewrite !nth_seq_map by lia. reflexivity.
Qed.
Lemma cut_admissible nu (D XN : vec -> Prop) x u N : (forall t, length (u t) = nu) -> (forall t, (t < N)%nat -> D (state A B x u t ++ u t)) -> XN (state A B x u N) ->
  mpc_admissible A B nu N D XN x (cut_u u N) (cut_x x u N).
Proof.
  intros Lu HD HX. assert (L : length (cut_u u N) = N) by (unfold cut_u; rewrite map_length, seq_length; reflexivity).
  split; [exact L|]. split; [apply Forall_forall; intros v Hv; apply in_map_iff in Hv; destruct Hv as (t & <- & _); apply Lu|]. split; [apply cut_traj|].
  unfold stage_constraints. rewrite L. unfold cut_u, cut_x. split; [|rewrite nth_seq_map by lia; exact HX]. intros t Ht. rewrite !nth_seq_map by lia. apply HD, Ht.
Qed.

(** ** Following u for M steps and u = K x afterwards *)
Variable K : mat.
Fixpoint sp_state (u : nat -> vec) (M : nat) (x : vec) (t : nat) : vec :=
  match t with O => x | S t' => linear_step A B (sp_state u M x t') (if (t' <? M)%nat then u t' else mv K (sp_state u M x t')) end.
Definition splice (u : nat -> vec) (M : nat) (x : vec) (t : nat) : vec := if (t <? M)%nat then u t else mv K (sp_state u M x t).
Lemma sp_state_eq u M x t : state A B x (splice u M x) t = sp_state u M x t.
Proof. induction t as [|t IH]; [reflexivity|]. cbn [state sp_state]. rewrite IH. reflexivity. Qed.
Lemma splice_lo u M x t : (t < M)%nat -> splice u M x t = u t.
Proof. intros H. unfold splice. destruct (Nat.ltb_spec t M); [reflexivity|lia]. Qed.
Lemma splice_hi u M x t : (M <= t)%nat -> splice u M x t = mv K (state A B x (splice u M x) t).
Proof. intros H. rewrite sp_state_eq. unfold splice. destruct (Nat.ltb_spec t M); [lia|reflexivity]. Qed.
Lemma splice_state u M x t : (t <= M)%nat -> state A B x (splice u M x) t = state A B x u t.
Proof. intros H. apply state_ext. intros s Hs. apply splice_lo. lia. Qed.
Lemma splice_stays (D XN : vec -> Prop) u M x : terminal_invariant A B K D XN -> (forall t, (t < M)%nat -> D (state A B x u t ++ u t)) -> XN (state A B x u M) ->
  (forall t, D (state A B x (splice u M x) t ++ splice u M x t)) /\ (forall t, (M <= t)%nat -> XN (state A B x (splice u M x) t)).
Proof.
  intros TI HD HX. assert (G : forall d, XN (state A B x (splice u M x) (M + d))).
  { induction d as [|d IH]; [rewrite Nat.add_0_r, splice_state by lia; exact HX|]. rewrite Nat.add_succ_r. cbn [state]. rewrite splice_hi by lia. apply TI, IH. }
  assert (G' : forall t, (M <= t)%nat -> XN (state A B x (splice u M x) t)) by (intros t Ht; replace t with (M + (t - M))%nat by lia; apply G).
  split; [|exact G']. intros t. destruct (Nat.lt_ge_cases t M) as [Ht|Ht].
  - rewrite splice_state, splice_lo by lia. apply HD, Ht.
  - rewrite splice_hi by lia. apply TI, G', Ht.
Qed.
End Signals.

Lemma INR_above r : exists n, r < INR n.
Proof.
  exists (Z.to_nat (up r)). destruct (archimed r) as (H & _). destruct (Z_le_gt_dec 0 (up r)) as [G|G].
  - rewrite INR_IZR_INZ, Z2Nat.id by exact G. lra.
  - replace (Z.to_nat (up r)) with 0%nat by lia. cbn. assert (IZR (up r) <= 0) by (apply IZR_le; lia). lra.
Qed.
(** ** The cost of a signal under the solution of the Riccati equation *)
Section Cost.
Variables (np : numpy) (S : lsys) (Q Rm P K : mat) (nx nu : nat).
Let A := lA S.
Let B := lB S.
Hypothesis Hnp : exact_np np.
Hypothesis SA : shape A nx nx.
Hypothesis SB : shape B nx nu.
Hypothesis SQ : shape Q nx nx.
Hypothesis SR : shape Rm nu nu.
Hypothesis PR : Spec.pd Rm nu.
Hypothesis PQ : psd Q nx.
Hypothesis HL : lqr_pair np S Q Rm P K nx nu.
Notation J := (lq_cost A B Q Rm).
Notation X := (state A B).
Notation Vf x := (/ 2 * dot x (mv P x)).

Lemma K_sh : shape K nu nx.
Proof. destruct (lqr_identity np S Q Rm P K nx nu Hnp SA SB SQ SR PR HL) as (H & _). exact H. Qed.
Lemma X_len x u t : length x = nx -> length (X x u t) = nx.
Proof. intros L. apply (state_length A B nx nu); auto. Qed.
Lemma splice_len u M x t : (forall t, length (u t) = nu) -> length (splice A B K u M x t) = nu.
Proof. intros Lu. unfold splice. destruct (t <? M)%nat; [apply Lu|]. rewrite mv_length. apply K_sh. Qed.
Lemma Vf_nonneg x : length x = nx -> 0 <= Vf x.
Proof. intros L. destruct (lqr_identity np S Q Rm P K nx nu Hnp SA SB SQ SR PR HL) as (_ & PP & _). pose proof (proj2 PP x L). lra. Qed.
Lemma J_mono x u T : length x = nx -> (forall t, length (u t) = nu) -> J x u T <= J x u (Datatypes.S T).
Proof. intros L Lu. cbn [lq_cost]. pose proof (proj2 PQ (X x u T) (X_len x u T L)). pose proof (proj2 (pd_psd _ _ PR) (u T) (Lu T)). lra. Qed.
Lemma J_mono' x u T d : length x = nx -> (forall t, length (u t) = nu) -> J x u T <= J x u (T + d).
Proof. intros L Lu. induction d as [|d IH]; [rewrite Nat.add_0_r; lra|]. rewrite Nat.add_succ_r. eapply Rle_trans; [exact IH|]. apply J_mono; assumption. Qed.
(** under u = K x the cost to go is 1/2 x'P x *)
Lemma J_feedback x u T : length x = nx -> (forall t, length (u t) = nu) -> (forall t, u t = mv K (X x u t)) -> J x u T + Vf (X x u T) = Vf x.
Proof.
  intros L Lu HK. destruct (lqr_identity np S Q Rm P K nx nu Hnp SA SB SQ SR PR HL) as (SK & _ & SP & M & PM & HI).
  induction T as [|T IH]; [cbn [lq_cost state]; lra|]. specialize (HI (X x u T) (u T) (X_len x u T L) (Lu T)). unfold stage_cost in HI.
  assert (Z : dot (vsub (u T) (mv K (X x u T))) (mv M (vsub (u T) (mv K (X x u T)))) = 0).
  { assert (EZ : vsub (u T) (mv K (X x u T)) = zeros nu) by (rewrite <- HK, vsub_self, Lu; reflexivity).
    rewrite EZ. autorewrite with dotx. reflexivity. }
  rewrite Z in HI. cbn [lq_cost state]. unfold linear_step in HI. fold A B in HI. lra.
Qed.
Lemma J_splice u M x T : length x = nx -> (forall t, length (u t) = nu) -> (M <= T)%nat ->
  J x (splice A B K u M x) T + Vf (X x (splice A B K u M x) T) = J x u M + Vf (X x u M).
Proof.
  intros L Lu HT. set (w := splice A B K u M x). assert (Lw : forall t, length (w t) = nu) by (intros; apply splice_len; exact Lu).
  replace T with (M + (T - M))%nat by lia. rewrite cost_split, state_split.
  assert (E1 : X x w M = X x u M) by (apply splice_state; lia). assert (E2 : J x w M = J x u M) by (apply cost_ext; intros; apply splice_lo; lia). rewrite E1, E2.
  rewrite Rplus_assoc. f_equal. apply J_feedback; [apply X_len, L|intros; apply Lw|]. intros t. rewrite <- E1 at 1. rewrite <- state_split. apply splice_hi. lia.
Qed.
(** no continuation is cheaper *)
Lemma J_tail u M x W : Spec.pd Q nx -> length x = nx -> (forall t, length (u t) = nu) -> (forall T, J x u T <= W) -> J x u M + Vf (X x u M) <= W.
Proof.
  intros PD L Lu HW. destruct HL as (Hn & FC & RP & PP & E).
  destruct (dare_optimal np S Q Rm nx nu P K Hnp SA SB SQ SR Hn FC PR PD RP PP E) as (_ & LO).
  specialize (LO (X x u M) (fun t => u (M + t)%nat) (W - J x u M) (X_len x u M L) (fun t => Lu _)). cut (Vf (X x u M) <= W - J x u M); [lra|]. apply LO.
  intros T. specialize (HW (M + T)%nat). rewrite cost_split in HW. fold A B. lra.
Qed.
(** the cost of the spliced signal converges to J + Vf at the splice *)
Lemma J_splice_cv u M x : Spec.pd Q nx -> length x = nx -> (forall t, length (u t) = nu) -> Un_cv (J x (splice A B K u M x)) (J x u M + Vf (X x u M)).
Proof.
  intros PD L Lu. set (w := splice A B K u M x). assert (Lw : forall t, length (w t) = nu) by (intros; apply splice_len; exact Lu).
  assert (UB : forall T, J x w T <= J x u M + Vf (X x u M)).
  { intros T. eapply Rle_trans; [apply (J_mono' x w T M L Lw)|]. pose proof (J_splice u M x (T + M) L Lu ltac:(lia)) as G. fold w in G. pose proof (Vf_nonneg (X x w (T + M)) (X_len x w _ L)). lra. }
  destruct (growing_cv (J x w)) as (l & Hl); [intros T; apply J_mono; assumption|exists (J x u M + Vf (X x u M)); intros y (T & ->); apply UB|].
  assert (LB : forall T, J x w T <= l) by (intros T; apply (growing_ineq (J x w) l); [intros T'; apply J_mono; assumption|exact Hl]).
  pose proof (J_tail w M x l PD L Lw LB) as G1. 
  assert (E1 : X x w M = X x u M) by (apply splice_state; lia). assert (E2 : J x w M = J x u M) by (apply cost_ext; intros; apply splice_lo; lia). rewrite E1, E2 in G1.
  assert (G2 : l <= J x u M + Vf (X x u M)). { apply (Rle_cv_lim (Vn := fun _ => J x u M + Vf (X x u M)) (Un := J x w)); [exact UB|exact Hl|]. intros e He. exists 0%nat. intros n _. unfold R_dist. rewrite Rminus_diag_eq, Rabs_R0 by reflexivity. exact He. }
  replace (J x u M + Vf (X x u M)) with l by lra. exact Hl.
Qed.
(** a signal of bounded cost comes close to the origin within a number of steps that depends only on the bound *)
Lemma J_enters W r : Spec.pd Q nx -> 0 < r -> exists N0, forall x u, length x = nx -> (forall t, length (u t) = nu) -> (forall T, J x u T <= W) ->
  exists M, (M <= N0)%nat /\ norm (X x u M) < r.
Proof.
  intros PD Hr. destruct (form_domination np Hnp (eye nx) Q nx (shape_eye nx) SQ PD) as (c & Hc & HcQ).
  set (s := r * r / (2 * (c + 1))). assert (Hs : 0 < s) by (unfold s; apply Rdiv_lt_0_compat; nra).
  destruct (INR_above (W / s)) as (N0 & HN0). exists N0. intros x u L Lu HW.
  apply NNPP. intros HN. assert (FAR : forall t, (t <= N0)%nat -> r <= norm (X x u t)).
  { intros t Ht. destruct (Rle_lt_dec r (norm (X x u t))) as [|G]; [assumption|]. exfalso. apply HN. exists t. auto. }
  assert (Gr : forall T, (T <= N0)%nat -> INR T * s <= J x u T).
  { induction T as [|T IH]; intros HT; [cbn; lra|]. rewrite S_INR. cbn [lq_cost]. specialize (IH ltac:(lia)). specialize (FAR T ltac:(lia)).
    pose proof (proj2 (pd_psd _ _ PR) (u T) (Lu T)) as GU. pose proof (HcQ (X x u T) (X_len x u T L)) as G. rewrite (mv_eye nx) in G by (apply X_len, L).
    assert (NN : norm (X x u T) * norm (X x u T) = dot (X x u T) (X x u T)) by (unfold norm; apply sqrt_sqrt, dot_self_nonneg).
    pose proof (proj2 PQ (X x u T) (X_len x u T L)) as Q0. set (q := dot (X x u T) (mv Q (X x u T))) in *.
    assert (s <= / 2 * q); [|lra]. unfold s. apply Rmult_le_reg_r with (2 * (c + 1)); [lra|]. replace (r * r / (2 * (c + 1)) * (2 * (c + 1))) with (r * r) by (field; lra). nra. }
  specialize (Gr N0 ltac:(lia)). specialize (HW N0). assert (W < INR N0 * s); [|lra].
  apply Rmult_lt_reg_r with (/ s); [apply Rinv_0_lt_compat, Hs|]. replace (INR N0 * s * / s) with (INR N0) by (field; lra). exact HN0.
Qed.
End Cost.

(** ** Lists and signals *)
Definition sig_of (nu : nat) (us : list vec) (t : nat) : vec := if (t <? length us)%nat then nth t us [] else zeros nu.
Lemma sig_len nu us t : Forall (fun v => length v = nu) us -> length (sig_of nu us t) = nu.
Proof. intros F. unfold sig_of. destruct (Nat.ltb_spec t (length us)); [apply Forall_len_nth; assumption|apply zeros_length]. Qed.
Lemma sig_nth nu us t : (t < length us)%nat -> sig_of nu us t = nth t us [].
Proof. intros H. unfold sig_of. destruct (Nat.ltb_spec t (length us)); [reflexivity|lia]. Qed.
Lemma sig_state A B nu x us xs : is_trajectory (linear_step A B) x us xs -> forall t, (t <= length us)%nat -> state A B x (sig_of nu us) t = nth t xs [].
Proof.
  intros (_ & H0 & HT). induction t as [|t IH]; intros Ht; [rewrite H0; reflexivity|]. cbn [state]. rewrite IH by lia. rewrite sig_nth by lia. rewrite HT by lia. reflexivity.
Qed.
Lemma sig_cost A B Q Rm P nu x us xs : is_trajectory (linear_step A B) x us xs ->
  trajectory_cost Q Rm P us xs = lq_cost A B Q Rm x (sig_of nu us) (length us) + / 2 * dot (state A B x (sig_of nu us) (length us)) (mv P (state A B x (sig_of nu us) (length us))).
Proof.
  intros T. unfold trajectory_cost. rewrite (sig_state A B nu x us xs T) by lia. f_equal. rewrite cost_sum. apply sum_upto_ext. intros t Ht. rewrite (sig_state A B nu x us xs T) by lia. rewrite sig_nth by exact Ht. reflexivity.
Qed.

(** ** The controller *)
Lemma mpc_data_horizon S N N' Q Rm P D X_N nx nu : (0 < N')%nat -> mpc_data S N Q Rm P D X_N nx nu -> mpc_data S N' Q Rm P D X_N nx nu.
Proof. intros HN ((SA & SB & _ & H) & G). split; [|exact G]. split; [exact SA|]. split; [exact SB|]. split; [exact HN|exact H]. Qed.
Lemma lqr_unconstrained np S N Q Rm P K nx nu x us0 xs0 : exact_np np -> shape (lA S) nx nx -> shape (lB S) nx nu -> shape Q nx nx -> shape Rm nu nu -> Spec.pd Rm nu ->
  lqr_pair np S Q Rm P K nx nu -> length x = nx -> mpc_optimal (lA S) (lB S) Q Rm P nu N (fun _ => True) (fun _ => True) x us0 xs0 -> trajectory_cost Q Rm P us0 xs0 = / 2 * dot x (mv P x).
Proof.
  intros Hnp SA SB SQ SR PR HL Lx ((Lu & Fu & T & _) & HO). apply Rle_antisym.
  - set (w := splice (lA S) (lB S) K (fun _ => zeros nu) 0 x). assert (Lz : forall t : nat, length ((fun _ => zeros nu) t) = nu) by (intros; apply zeros_length).
    assert (Lw : forall t, length (w t) = nu) by (intros; apply (splice_len np S Q Rm P K nx nu); assumption).
    destruct (HO _ _ (cut_admissible (lA S) (lB S) nu (fun _ => True) (fun _ => True) x w N Lw (fun _ _ => I) I)) as (G & _). rewrite cut_cost in G. eapply Rle_trans; [exact G|]. right. unfold w.
    rewrite (J_splice np S Q Rm P K nx nu Hnp SA SB SQ SR PR HL (fun _ => zeros nu) 0 x N Lx Lz ltac:(lia)). cbn [lq_cost state]. ring.
  - destruct (lqr_identity np S Q Rm P K nx nu Hnp SA SB SQ SR PR HL) as (SK & _ & _ & M & PM & HI).
    rewrite (lqr_telescope (lA S) (lB S) Q Rm P K M nx nu us0 x xs0 SA SB Lx Fu T HI).
    assert (0 <= sum_upto (fun t => / 2 * dot (vsub (nth t us0 []) (mv K (nth t xs0 []))) (mv M (vsub (nth t us0 []) (mv K (nth t xs0 []))))) (length us0)); [|lra].
    apply sum_upto_nonneg. intros t Ht. assert (LD : length (vsub (nth t us0 []) (mv K (nth t xs0 []))) = nu) by (rewrite vsub_length, mv_length, (proj1 SK), (Forall_len_nth us0 nu) by auto; lia).
    pose proof (proj2 (pd_psd _ _ PM) _ LD). lra.
Qed.
(** with the P of the Riccati equation, feedforward answers exactly if the optimal cost is below 1/2 x'P x + far *)
Lemma ff_answers np S N Q Rm P K D X_N nx nu C x : exact_np np -> mpc_data S N Q Rm P D X_N nx nu -> ModelPredictiveController np S N Q Rm P D X_N = Ok C -> lqr_pair np S Q Rm P K nx nu -> length x = nx ->
  (forall us V, feedforward np C x = Ok (Some us, Some V) -> V < / 2 * dot x (mv P x) + far /\ feedback np C x = Ok (Some (nth 0 us [])) /\
     exists xs, mpc_admissible (lA S) (lB S) nu N (in_poly D) (in_poly X_N) x us xs /\ V = trajectory_cost Q Rm P us xs) /\
  (forall us' xs', mpc_admissible (lA S) (lB S) nu N (in_poly D) (in_poly X_N) x us' xs' ->
     (forall us V, feedforward np C x = Ok (Some us, Some V) -> V <= trajectory_cost Q Rm P us' xs') /\
     (trajectory_cost Q Rm P us' xs' < / 2 * dot x (mv P x) + far -> exists us V, feedforward np C x = Ok (Some us, Some V))).
Proof.
  intros Hnp HD E HL Lx. pose proof HD as ((SA & SB & HN & SQ & SP & SR & _) & _ & _ & PQ & PP & PR).
  destruct (mpc_none np S N Q Rm P D X_N nx nu C x Hnp HD E Lx) as (us0 & xs0 & HO0 & [(E1 & E2 & H)|(us & xs & E1 & E2 & HO & H)]);
    rewrite (lqr_unconstrained np S N Q Rm P K nx nu x us0 xs0) in H by assumption.
  - split; [intros us V E3; rewrite E1 in E3; discriminate|]. intros us' xs' HA. split; [intros us V E3; rewrite E1 in E3; discriminate|]. intros G. specialize (H us' xs' HA). lra.
  - split.
    + intros us2 V E3. rewrite E1 in E3. injection E3 as <- <-. split; [exact H|]. split; [exact E2|]. exists xs. split; [apply HO|reflexivity].
    + intros us' xs' HA. split; [|intros _; eauto]. intros us2 V E3. rewrite E1 in E3. injection E3 as <- <-. apply HO, HA.
Qed.

(*@ Theorem C80_infinite_horizon : With P, K of solve_dare, Q positive definite and a terminal set invariant under u = K x, a value V returned by feedforward is an infinite-horizon cost although only N steps are optimized: following the returned inputs and then u = K x keeps all pairs in D forever, ends in the terminal set, and costs exactly V in the limit; and V is the least such cost over all signals that keep D forever and are in X_N at some time M <= N. *)
Lemma infinite_horizon np S N Q Rm P D X_N K nx nu C x us V : mpc_setup np S N Q Rm P D X_N K nx nu C -> lqr_pair np S Q Rm P K nx nu -> Spec.pd Q nx -> length x = nx ->
  feedforward np C x = Ok (Some us, Some V) ->
  (exists u, (forall t, (t < N)%nat -> u t = nth t us []) /\ (forall t, (N <= t)%nat -> u t = mv K (state (lA S) (lB S) x u t) /\ in_poly X_N (state (lA S) (lB S) x u t)) /\
     runs_in (lA S) (lB S) nu (in_poly D) x u /\ Un_cv (lq_cost (lA S) (lB S) Q Rm x u) V) /\
  least_cost (lA S) (lB S) Q Rm x (fun u => runs_in (lA S) (lB S) nu (in_poly D) x u /\ exists M, (M <= N)%nat /\ in_poly X_N (state (lA S) (lB S) x u M)) V.
Proof.
  intros (Hnp & HD & E & SK & TI) HL PD Lx EF. pose proof HD as ((SA & SB & HN & SQ & SP & SR & _) & _ & _ & PQ & PP & PR).
  destruct (ff_answers np S N Q Rm P K D X_N nx nu C x Hnp HD E HL Lx) as (H1 & H2). destruct (H1 us V EF) as (_ & _ & xs & (Lu & Fu & T & HDs & HX) & EV).
  set (s := sig_of nu us). assert (Ls : forall t, length (s t) = nu) by (intros; apply sig_len; exact Fu).
  assert (St : forall t, (t <= N)%nat -> state (lA S) (lB S) x s t = nth t xs []) by (intros t Ht; apply sig_state; [exact T|lia]).
  set (u := splice (lA S) (lB S) K s N x). assert (Lw : forall t, length (u t) = nu) by (intros; apply (splice_len np S Q Rm P K nx nu); assumption).
  destruct (splice_stays (lA S) (lB S) K (in_poly D) (in_poly X_N) s N x TI) as (G1 & G2).
  { intros t Ht. rewrite St by lia. unfold s. rewrite sig_nth by lia. apply HDs. lia. }
  { rewrite St by lia. rewrite <- Lu at 1. exact HX. }
  fold u in G1, G2.
  assert (CV : Un_cv (lq_cost (lA S) (lB S) Q Rm x u) V).
  { rewrite EV, (sig_cost (lA S) (lB S) Q Rm P nu x us xs T), Lu. apply (J_splice_cv np S Q Rm P K nx nu); assumption. }
  assert (RI : runs_in (lA S) (lB S) nu (in_poly D) x u) by (split; assumption).
  split; [|split].
  - exists u. split; [intros t Ht; unfold u; rewrite splice_lo by exact Ht; apply sig_nth; lia|]. split; [|split; assumption]. intros t Ht. split; [apply splice_hi; exact Ht|apply G2, Ht].
  - exists u. split; [|exact CV]. split; [exact RI|]. exists N. split; [lia|apply G2; lia].
  - intros v W ((Lv & Dv) & M & HM & XM) HW. set (w := splice (lA S) (lB S) K v M x). assert (Lww : forall t, length (w t) = nu) by (intros; apply (splice_len np S Q Rm P K nx nu); assumption).
    destruct (splice_stays (lA S) (lB S) K (in_poly D) (in_poly X_N) v M x TI (fun t _ => Dv t) XM) as (W1 & W2). fold w in W1, W2.
    destruct (H2 _ _ (cut_admissible (lA S) (lB S) nu (in_poly D) (in_poly X_N) x w N Lww (fun t _ => W1 t) (W2 N HM))) as (G & _). specialize (G us V EF). rewrite cut_cost in G.
    unfold w in G. rewrite (J_splice np S Q Rm P K nx nu Hnp SA SB SQ SR PR HL v M x N Lx Lv HM) in G.
    pose proof (J_tail np S Q Rm P K nx nu Hnp SA SB SQ SR PR HL v M x W PD Lx Lv HW). lra.
Qed.
(*@ Theorem C80_longer_horizon : Let the terminal set be invariant under some u = K x. Every state that can be steered to it admissibly in N steps can be in N' >= N steps; and with P, K of solve_dare, wherever the controller with horizon N returns inputs of cost V the one with horizon N' returns inputs too, of cost at most V. *)
Lemma longer_horizon np S N N' Q Rm P D X_N K nx nu C C' x : mpc_setup np S N Q Rm P D X_N K nx nu C -> (N <= N')%nat -> ModelPredictiveController np S N' Q Rm P D X_N = Ok C' -> length x = nx ->
  ((exists us xs, mpc_admissible (lA S) (lB S) nu N (in_poly D) (in_poly X_N) x us xs) -> exists us xs, mpc_admissible (lA S) (lB S) nu N' (in_poly D) (in_poly X_N) x us xs) /\
  (lqr_pair np S Q Rm P K nx nu -> forall us V, feedforward np C x = Ok (Some us, Some V) -> exists us' V', feedforward np C' x = Ok (Some us', Some V') /\ V' <= V).
Proof.
  intros (Hnp & HD & E & SK & TI) HN' E' Lx. pose proof HD as ((SA & SB & HN & SQ & SP & SR & _) & _ & _ & PQ & PP & PR).
  assert (EXT : forall us xs, mpc_admissible (lA S) (lB S) nu N (in_poly D) (in_poly X_N) x us xs -> let w := splice (lA S) (lB S) K (sig_of nu us) N x in
    mpc_admissible (lA S) (lB S) nu N' (in_poly D) (in_poly X_N) x (cut_u w N') (cut_x (lA S) (lB S) x w N')).
  { intros us xs (Lu & Fu & T & HDs & HX) w. set (s := sig_of nu us) in *. assert (Ls : forall t, length (s t) = nu) by (intros; apply sig_len; exact Fu).
    assert (St : forall t, (t <= N)%nat -> state (lA S) (lB S) x s t = nth t xs []) by (intros t Ht; apply sig_state; [exact T|lia]).
    destruct (splice_stays (lA S) (lB S) K (in_poly D) (in_poly X_N) s N x TI) as (G1 & G2).
    { intros t Ht. rewrite St by lia. unfold s. rewrite sig_nth by lia. apply HDs. lia. }
    { rewrite St by lia. rewrite <- Lu at 1. exact HX. }
    apply cut_admissible; [|intros t _; apply G1|apply G2; lia]. intros t. unfold w, splice. destruct (t <? N)%nat; [apply Ls|]. rewrite mv_length. apply SK. }
  split; [intros (us & xs & HA); eexists; eexists; exact (EXT us xs HA)|]. intros HL us V EF.
  assert (HD' : mpc_data S N' Q Rm P D X_N nx nu) by (apply (mpc_data_horizon S N); [lia|exact HD]).
  destruct (ff_answers np S N Q Rm P K D X_N nx nu C x Hnp HD E HL Lx) as (H1 & _). destruct (H1 us V EF) as (HF & _ & xs & HA & EV).
  destruct (ff_answers np S N' Q Rm P K D X_N nx nu C' x Hnp HD' E' HL Lx) as (_ & H2). destruct (H2 _ _ (EXT us xs HA)) as (H3 & H4).
  pose proof HA as (Lu & Fu & T & _).
  rewrite cut_cost, (J_splice np S Q Rm P K nx nu Hnp SA SB SQ SR PR HL _ N x N' Lx (fun t => sig_len nu us t Fu) HN') in H3, H4.
  rewrite (sig_cost (lA S) (lB S) Q Rm P nu x us xs T), Lu in EV. rewrite <- EV in H3, H4. destruct (H4 HF) as (us' & V' & EF'). exists us', V'. split; [exact EF'|exact (H3 us' V' EF')].
Qed.
Lemma least_cost_unique A B Q Rm x U V V' : least_cost A B Q Rm x U V -> least_cost A B Q Rm x U V' -> (forall u, U u -> Un_growing (lq_cost A B Q Rm x u)) -> V = V'.
Proof.
  intros ((u & Uu & Cu) & H) ((u' & Uu' & Cu') & H') HG. apply Rle_antisym.
  - apply (H u'); [exact Uu'|]. intros T. apply (growing_ineq (lq_cost A B Q Rm x u')); [apply HG, Uu'|exact Cu'].
  - apply (H' u); [exact Uu|]. intros T. apply (growing_ineq (lq_cost A B Q Rm x u)); [apply HG, Uu|exact Cu].
Qed.
(*@ Theorem C80_exact_horizon : If moreover the terminal set contains a neighbourhood of the origin and x has some input signal that keeps D forever at a finite cost W (below 1/2 x'P x + 5e13), then there is a least infinite-horizon cost V, and a horizon N0 from which on every controller returns exactly V at x: its optimum is the constrained infinite-horizon optimum, and its feedback is the first input of an optimal signal. *)
Lemma exact_horizon np S Q Rm P D X_N K nx nu x r w W : exact_np np -> mpc_data S 1 Q Rm P D X_N nx nu -> terminal_invariant (lA S) (lB S) K (in_poly D) (in_poly X_N) ->
  lqr_pair np S Q Rm P K nx nu -> Spec.pd Q nx -> length x = nx -> 0 < r -> (forall y, length y = nx -> norm y < r -> in_poly X_N y) ->
  runs_in (lA S) (lB S) nu (in_poly D) x w -> (forall T, lq_cost (lA S) (lB S) Q Rm x w T <= W) -> W < / 2 * dot x (mv P x) + far ->
  exists N0 V, least_cost (lA S) (lB S) Q Rm x (runs_in (lA S) (lB S) nu (in_poly D) x) V /\
    forall N C, (N0 <= N)%nat -> (0 < N)%nat -> ModelPredictiveController np S N Q Rm P D X_N = Ok C ->
      exists us u, feedforward np C x = Ok (Some us, Some V) /\ feedback np C x = Ok (Some (u 0%nat)) /\ runs_in (lA S) (lB S) nu (in_poly D) x u /\ Un_cv (lq_cost (lA S) (lB S) Q Rm x u) V.
Proof.
  intros Hnp HD TI HL PD Lx Hr HB (Lw & Dw) HW WF. pose proof HD as ((SA & SB & _ & SQ & SP & SR & _) & _ & _ & PQ & PP & PR).
  pose proof (K_sh np S Q Rm P K nx nu Hnp SA SB SQ SR PR HL) as SK.
  destruct (J_enters np S Q Rm nx nu Hnp SA SB SQ PR PQ W r PD Hr) as (N0 & HN0).
  assert (G : forall N C, (N0 <= N)%nat -> (0 < N)%nat -> ModelPredictiveController np S N Q Rm P D X_N = Ok C -> exists us u V,
    feedforward np C x = Ok (Some us, Some V) /\ feedback np C x = Ok (Some (u 0%nat)) /\ runs_in (lA S) (lB S) nu (in_poly D) x u /\ Un_cv (lq_cost (lA S) (lB S) Q Rm x u) V /\
    least_cost (lA S) (lB S) Q Rm x (runs_in (lA S) (lB S) nu (in_poly D) x) V).
  { intros N C HN HN1 E. pose proof (mpc_data_horizon S 1 N Q Rm P D X_N nx nu HN1 HD) as HDN.
    destruct (HN0 x w Lx Lw HW) as (M & HM & NM). assert (XM : in_poly X_N (state (lA S) (lB S) x w M)) by (apply HB; [apply (state_length (lA S) (lB S) nx nu); auto|exact NM]).
    destruct (ff_answers np S N Q Rm P K D X_N nx nu C x Hnp HDN E HL Lx) as (H1 & H2).
    destruct (splice_stays (lA S) (lB S) K (in_poly D) (in_poly X_N) w M x TI (fun t _ => Dw t) XM) as (W1 & W2).
    assert (Lww : forall t, length (splice (lA S) (lB S) K w M x t) = nu) by (intros; apply (splice_len np S Q Rm P K nx nu); assumption).
    destruct (H2 _ _ (cut_admissible (lA S) (lB S) nu (in_poly D) (in_poly X_N) x _ N Lww (fun t _ => W1 t) (W2 N ltac:(lia)))) as (_ & G).
    rewrite cut_cost, (J_splice np S Q Rm P K nx nu Hnp SA SB SQ SR PR HL w M x N Lx Lw ltac:(lia)) in G.
    pose proof (J_tail np S Q Rm P K nx nu Hnp SA SB SQ SR PR HL w M x W PD Lx Lw HW) as GT. destruct (G ltac:(lra)) as (us & V & EF).
    destruct (infinite_horizon np S N Q Rm P D X_N K nx nu C x us V (conj Hnp (conj HDN (conj E (conj SK TI)))) HL PD Lx EF) as ((u & U1 & U2 & U3 & U4) & (_ & LC)).
    destruct (H1 us V EF) as (_ & EB & _). exists us, u, V. split; [exact EF|]. split; [rewrite U1 by lia; exact EB|]. split; [exact U3|]. split; [exact U4|].
    split; [exists u; split; assumption|].
    assert (VW : V <= W) by (apply (LC w W); [split; [split; assumption|exists M; split; [lia|exact XM]]|exact HW]).
    intros v W' (Lv & Dv) HW'. destruct (Rle_lt_dec W W') as [G3|G3]; [lra|].
    destruct (HN0 x v Lx Lv) as (M' & HM' & NM'); [intros T; specialize (HW' T); lra|]. apply (LC v W'); [|exact HW'].
    split; [split; assumption|]. exists M'. split; [lia|]. apply HB; [apply (state_length (lA S) (lB S) nx nu); auto|exact NM']. }
  set (N1 := Datatypes.S N0). destruct (mpc_program np S N1 Q Rm P D X_N nx nu Hnp (mpc_data_horizon S 1 N1 Q Rm P D X_N nx nu ltac:(unfold N1; lia) HD)) as (q & m & E1 & _).
  destruct (G N1 _ ltac:(unfold N1; lia) ltac:(unfold N1; lia) E1) as (us1 & u1 & V & _ & _ & _ & _ & LC). exists N0, V. split; [exact LC|].
  intros N C HN HN1 E. destruct (G N C HN HN1 E) as (us & u & V' & EF & EB & RI & CV & LC').
  assert (EV : V' = V). { apply (least_cost_unique _ _ _ _ _ _ _ _ LC' LC). intros v (Lv & _) T. apply (J_mono S Q Rm nx nu); assumption. }
  subst V'. exists us, u. auto.
Qed.

(** ** Examples *)
Definition X_small : poly := Poly (Mat 1 [[1]; [-1]]) [1 / 4; 1 / 4] (Mat 1 []) [] None None None None None.
Lemma wf_X_small : wf X_small 2 0 1. Proof. unfold wf; simpl; repeat split; repeat constructor. Qed.
Lemma in_X_small a : in_poly X_small [a] <-> - (1 / 4) <= a <= 1 / 4.
Proof.
  split.
  - intros (_ & H' & _). unfold ineq_holds in H'. cbn in H'. inv2 H'. lra.
  - intros H'. split; [reflexivity|]. split; [|constructor]. unfold ineq_holds. cbn [pA pb X_small rows]. rows_ok.
Qed.
Notation K_half := (Mat 1 [[- (1 / 2)]]).
Lemma invariant_box X c : 0 <= c <= 1 -> (forall x, in_poly X x -> length x = 1%nat) -> (forall a, in_poly X [a] <-> - c <= a <= c) -> terminal_invariant (lA S_1) (lB S_1) K_half (in_poly D_box) (in_poly X).
Proof.
  intros Hc HL HX x Hx. pose proof (HL x Hx) as Lx. destruct x as [|a [|]]; try discriminate Lx. apply HX in Hx. split.
  - cbn. apply in_D_box. lra.
  - cbn. apply HX. lra.
Qed.
Lemma invariant_small : terminal_invariant (lA S_1) (lB S_1) K_half (in_poly D_box) (in_poly X_small).
Proof. apply (invariant_box X_small (1 / 4)); [lra|intros x (H & _); exact H|exact in_X_small]. Qed.
Lemma invariant_int : terminal_invariant (lA S_1) (lB S_1) K_half (in_poly D_box) (in_poly X_int).
Proof. apply (invariant_box X_int 1); [lra|intros x (H & _); exact H|exact in_X_int]. Qed.
Lemma small_data N : (0 < N)%nat -> mpc_data S_1 N (Mat 1 [[1]]) (Mat 1 [[2]]) (Mat 1 [[2]]) D_box X_small 1 1.
Proof. intros HN. apply (mpc_data_horizon S_1 1); [exact HN|]. apply mpc_data_1; [exact wf_D_box|exact wf_X_small|lra|lra|lra]. Qed.
Lemma small_pair : lqr_pair (np_dare_const (Mat 1 [[2]])) S_1 (Mat 1 [[1]]) (Mat 1 [[2]]) (Mat 1 [[2]]) K_half 1 1.
Proof. destruct dare_example as (Hnp & RP & PP & PQ & PR & ST & ED). split; [lia|]. split; [reflexivity|]. split; [exact RP|]. split; [exact PP|exact ED]. Qed.
Definition half_signal := splice (lA S_1) (lB S_1) K_half (fun _ => [0]) 0 [1].
Lemma half_runs : runs_in (lA S_1) (lB S_1) 1 (in_poly D_box) [1] half_signal /\ Un_cv (lq_cost (lA S_1) (lB S_1) (Mat 1 [[1]]) (Mat 1 [[2]]) [1] half_signal) 1 /\
  (forall T, lq_cost (lA S_1) (lB S_1) (Mat 1 [[1]]) (Mat 1 [[2]]) [1] half_signal T <= 1) /\
  forall u W, (forall t, length (u t) = 1%nat) -> (forall T, lq_cost (lA S_1) (lB S_1) (Mat 1 [[1]]) (Mat 1 [[2]]) [1] u T <= W) -> 1 <= W.
Proof.
  destruct dare_example as (Hnp & RP & PP & PQ & PR & ST & ED). pose proof (small_data 1 ltac:(lia)) as ((SA & SB & _ & SQ & SP & SR & _) & _). pose proof small_pair as HL.
  assert (L0 : forall t : nat, length ((fun _ => [0]) t) = 1%nat) by reflexivity.
  assert (L1 : forall t : nat, length (half_signal t) = 1%nat) by (intros; apply (splice_len _ S_1 (Mat 1 [[1]]) (Mat 1 [[2]]) (Mat 1 [[2]]) K_half 1 1 Hnp SA SB SQ SR PR HL); exact L0).
  assert (CV : Un_cv (lq_cost (lA S_1) (lB S_1) (Mat 1 [[1]]) (Mat 1 [[2]]) [1] half_signal) 1).
  { pose proof (J_splice_cv _ S_1 _ _ _ _ 1 1 Hnp SA SB SQ SR PR (pd_psd _ _ PQ) HL (fun _ => [0]) 0 [1] PQ eq_refl L0) as G. cbn [lq_cost state] in G. assert (EQ : 0 + / 2 * dot [1] (mv (Mat 1 [[2]]) [1]) = 1) by (cbn; lra). rewrite EQ in G. exact G. }
  destruct (splice_stays (lA S_1) (lB S_1) K_half (in_poly D_box) (in_poly X_int) (fun _ => [0]) 0 [1] invariant_int ltac:(intros; lia) ltac:(cbn; apply in_X_int; lra)) as (G & _).
  split; [split; [exact L1|exact G]|]. split; [exact CV|]. split.
  - intros T. apply (growing_ineq (lq_cost (lA S_1) (lB S_1) (Mat 1 [[1]]) (Mat 1 [[2]]) [1] half_signal)); [|exact CV]. intros T'. apply (J_mono S_1 _ _ 1 1); auto using pd_psd.
  - intros u W Lu HW. pose proof (J_tail _ S_1 _ _ _ _ 1 1 Hnp SA SB SQ SR PR HL u 0 [1] W PQ eq_refl Lu HW) as H. cbn [lq_cost state] in H. cbn in H. lra.
Qed.
(*@ Example C80_example : x+ = x + u, Q = 1, R = 2, |x| <= 1, |u| <= 1 and terminal set |x| <= 1/4, a neighbourhood of the origin: from x = 1 the signal u = - x / 2 satisfies the hypotheses of the theorem about exact horizons with W = 1. *)
Lemma horizon_example : let np := np_dare_const (Mat 1 [[2]]) in
  exact_np np /\ mpc_data S_1 1 (Mat 1 [[1]]) (Mat 1 [[2]]) (Mat 1 [[2]]) D_box X_small 1 1 /\ terminal_invariant (lA S_1) (lB S_1) (Mat 1 [[- (1 / 2)]]) (in_poly D_box) (in_poly X_small) /\
  lqr_pair np S_1 (Mat 1 [[1]]) (Mat 1 [[2]]) (Mat 1 [[2]]) (Mat 1 [[- (1 / 2)]]) 1 1 /\ Spec.pd (Mat 1 [[1]]) 1 /\
  (forall y, length y = 1%nat -> norm y < 1 / 4 -> in_poly X_small y) /\
  exists w, runs_in (lA S_1) (lB S_1) 1 (in_poly D_box) [1] w /\ (forall T, lq_cost (lA S_1) (lB S_1) (Mat 1 [[1]]) (Mat 1 [[2]]) [1] w T <= 1) /\ 1 < / 2 * dot [1] (mv (Mat 1 [[2]]) [1]) + far.
Proof.
  intros np. destruct dare_example as (Hnp & RP & PP & PQ & PR & ST & ED). destruct half_runs as (H1 & H2 & H3 & _).
  split; [exact Hnp|]. split; [apply small_data; lia|]. split; [exact invariant_small|]. split; [exact small_pair|]. split; [exact PQ|]. split.
  - intros [|a [|]] L H; try discriminate L. rewrite norm1 in H. apply Rabs_def2 in H. apply in_X_small. lra.
  - exists half_signal. split; [exact H1|]. split; [exact H3|]. unfold far. cbn. lra.
Qed.
(*@ Theorem C80_short_horizon_refuted : A short horizon is not enough: in this example the controller with N = 1 returns the input -3/4 with V = 9/8, although the least infinite-horizon cost is 1. *)
Lemma short_horizon : exists np S Q Rm P D X_N K nx nu C x us V V', mpc_setup np S 1 Q Rm P D X_N K nx nu C /\ lqr_pair np S Q Rm P K nx nu /\ Spec.pd Q nx /\ length x = nx /\
  feedforward np C x = Ok (Some us, Some V) /\ least_cost (lA S) (lB S) Q Rm x (runs_in (lA S) (lB S) nu (in_poly D) x) V' /\ V' < V.
Proof.
  set (np := np_dare_const (Mat 1 [[2]])). destruct dare_example as (Hnp & RP & PP & PQ & PR & ST & ED). destruct half_runs as (H1 & H2 & H3 & H4). pose proof (small_data 1 ltac:(lia)) as HD.
  destruct (mpc_program np _ _ _ _ _ _ _ _ _ Hnp HD) as (q & m & E & _).
  exists np, S_1, (Mat 1 [[1]]), (Mat 1 [[2]]), (Mat 1 [[2]]), D_box, X_small, K_half, 1%nat, 1%nat, (MPC S_1 1 q), [1], [[- (3 / 4)]], (9 / 8), 1.
  split; [split; [exact Hnp|]; split; [exact HD|]; split; [exact E|]; split; [apply scalar_shape|exact invariant_small]|]. split; [exact small_pair|]. split; [exact PQ|]. split; [reflexivity|].
  assert (AD : mpc_admissible (lA S_1) (lB S_1) 1 1 (in_poly D_box) (in_poly X_small) [1] [[- (3 / 4)]] [[1]; [1 + - (3 / 4)]]).
  { apply one_step_admissible. eexists. split; [reflexivity|]. split; [reflexivity|]. split; [apply in_D_box; lra|apply in_X_small; lra]. }
  assert (CO : forall u, trajectory_cost (Mat 1 [[1]]) (Mat 1 [[2]]) (Mat 1 [[2]]) [[u]] [[1]; [1 + u]] = / 2 * (1 + 2 * (u * u)) + (1 + u) * (1 + u)) by (intros; unfold trajectory_cost; cbn [length nth sum_upto rows mv map dot]; field).
  split; [|split; [|lra]].
  - destruct (ff_answers np S_1 1 _ _ _ _ _ _ _ _ _ [1] Hnp HD E small_pair eq_refl) as (G1 & G2). destruct (G2 _ _ AD) as (G3 & G4).
    destruct G4 as (us & V & EF); [rewrite CO; unfold far; cbn; lra|]. specialize (G3 us V EF). rewrite CO in G3. destruct (G1 us V EF) as (_ & _ & xs & HA & EV).
    apply one_step_admissible in HA. destruct HA as (u & -> & -> & Hu1 & Hu2). apply in_D_box in Hu1. apply in_X_small in Hu2. rewrite CO in EV.
    assert (u = - (3 / 4)) by nra. subst u. rewrite EF. do 3 f_equal. lra.
  - split; [exists half_signal; split; assumption|]. intros u W (Lu & _) HW. exact (H4 u W Lu HW).
Qed.
