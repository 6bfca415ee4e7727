(** * HybEquivThms: hybrid controllers of systems that follow each other (C104), proofs *)
From Coq Require Import ZArith String Classical Permutation.
From Verif Require Import Arr ArrFacts Spec SpecMpc SpecProg SpecLoop SpecHyb Numpy Pnnls PnnlsFacts QpFacts GeomUtils Polyhedron PolyThms Oracle SolverThms NullFacts PolySolveThms PolyMore SpecDyn Dynamics DynThms CondenseThms LqrThms McaisThms Mpqp MpqpThms Controllers CtrlThms Gurobi Programs ProgThms Hybrid HybridThms HybridOptThms HybridLoopThms VertThms ContThms LawThms EquivThms HybLinThms.

(** the hypotheses of C48_feedforward_partial on one controller *)
Definition hyb_controller np W N Q Rm P X_N nx nu C : Prop :=
  exact_np np /\ hyb_data W nx nu /\ (0 < nx)%nat /\ (0 < N)%nat /\ hyb_domains W /\ (exists mN meN, wf X_N mN meN nx) /\ no_eqs W X_N /\ hyb_costs Q Rm P nx nu /\
  HybridModelPredictiveController np W N Q Rm P X_N = Ok C.
Definition hyb_follows W Q Rm P X_N nx nu W' Q' Rm' P' X_N' nx' nu' T G c : Prop :=
  follows (map aA (w_sys W)) (map aB (w_sys W)) (map ac (w_sys W)) (map in_poly (w_dom W)) (in_poly X_N) Q Rm P nx nu
          (map aA (w_sys W')) (map aB (w_sys W')) (map ac (w_sys W')) (map in_poly (w_dom W')) (in_poly X_N') Q' Rm' P' nx' nu' T G c.

Lemma run_lengths W X_N nx nu N x us modes xs : hyb_data W nx nu -> length x = nx -> pwa_run_from W X_N nu N x us modes xs ->
  length us = N /\ length modes = N /\ length xs = Datatypes.S N /\ (forall t, (t <= N)%nat -> length (nth t xs []) = nx) /\ (forall t, (t < N)%nat -> length (nth t us []) = nu /\ (nth t modes 0 < length (w_sys W))%nat).
Proof.
  intros HW Lx (Lu & Fu & Lm & HM & (Lxs & H0 & HT) & _ & _). rewrite map_length in HM. split; [exact Lu|]. split; [exact Lm|]. split; [lia|].
  assert (R : forall t, (t < N)%nat -> length (nth t us []) = nu /\ (nth t modes 0 < length (w_sys W))%nat). { intros t Ht. rewrite Forall_nth in Fu. split; [apply Fu; lia|apply HM, nth_In; lia]. }
  split; [|exact R]. intros [|t] Ht; [rewrite H0; exact Lx|]. rewrite (HT t ltac:(lia)). apply (mode_step_length W nx nu); [exact HW|apply R; lia].
Qed.
Lemma sum_scale f g c N : (forall t, (t < N)%nat -> f t <= c * g t) -> sum_upto f N <= c * sum_upto g N.
Proof. induction N as [|N IH]; intros H; cbn; [lra|]. pose proof (H N ltac:(lia)) as HN. assert (sum_upto f N <= c * sum_upto g N) by (apply IH; intros t Ht; apply H; lia). lra. Qed.
Lemma nth_map_any {A B} (f : A -> B) l t d d' : (t < length l)%nat -> nth t (map f l) d' = f (nth t l d).
Proof. intros H. rewrite (nth_indep _ d' (f d)) by (rewrite map_length; exact H). apply map_nth. Qed.
Lemma followed_run W Q Rm P X_N nx nu W' Q' Rm' P' X_N' nx' nu' T G c N x us modes xs :
  hyb_data W nx nu -> hyb_follows W Q Rm P X_N nx nu W' Q' Rm' P' X_N' nx' nu' T G c -> length x = nx -> pwa_run_from W X_N nu N x us modes xs ->
  exists modes', pwa_run_from W' X_N' nu' N (T x) (map G us) modes' (map T xs) /\ trajectory_cost Q' Rm' P' (map G us) (map T xs) <= c * trajectory_cost Q Rm P us xs.
Proof.
  intros HW (FT & FG & FS & FX & FQ & FP) Lx HR. destruct (run_lengths W X_N nx nu N x us modes xs HW Lx HR) as (Lu & Lm & Lxs & Hx & Hu). destruct HR as (_ & Fu & _ & HM & (_ & H0 & HT) & HD & HX). rewrite Lu in *. rewrite map_length in FS.
  destruct (finite_choice (fun t m => (m < length (w_sys W'))%nat /\ nth m (map in_poly (w_dom W')) (fun _ => False) (T (nth t xs []) ++ G (nth t us [])) /\
      affine_step (nth m (map aA (w_sys W')) (Mat 0 [])) (nth m (map aB (w_sys W')) (Mat 0 [])) (nth m (map ac (w_sys W')) []) (T (nth t xs [])) (G (nth t us [])) = T (nth (Datatypes.S t) xs [])) N) as (ms & Lms & Hms).
  { intros t Ht. destruct (Hu t Ht) as (L1 & L2). destruct (FS (nth t modes 0%nat) (nth t xs []) (nth t us []) L2 (Hx t ltac:(lia)) L1 (HD t Ht)) as (j & Hj & Dj & Ej). exists j. rewrite map_length in Hj. split; [exact Hj|]. split; [exact Dj|]. rewrite (HT t Ht). exact Ej. }
  assert (MX : forall t, (t <= N)%nat -> nth t (map T xs) [] = T (nth t xs [])) by (intros t Ht; apply nth_map_any; lia). assert (MU : forall t, (t < N)%nat -> nth t (map G us) [] = G (nth t us [])) by (intros t Ht; apply nth_map_any; lia).
  exists ms. split.
  - split; [rewrite map_length; exact Lu|]. split; [apply Forall_forall; intros v Iv; apply in_map_iff in Iv; destruct Iv as (v0 & <- & I0); rewrite Forall_forall in Fu; apply FG, Fu, I0|]. split; [exact Lms|]. split; [|split; [|split]].
    + intros m Im. rewrite map_length. destruct (In_nth _ _ 0%nat Im) as (t & Ht & <-). apply Hms. lia.
    + split; [rewrite !map_length; lia|]. split; [rewrite MX by lia; rewrite H0; reflexivity|]. rewrite map_length, Lu. intros t Ht. cbv zeta. rewrite !MX, MU by lia. symmetry. apply Hms. exact Ht.
    + rewrite map_length, Lu. intros t Ht. rewrite MX, MU by lia. apply Hms. exact Ht.
    + rewrite map_length, Lu, MX by lia. apply FX; [apply Hx; lia|exact HX].
  - unfold trajectory_cost. rewrite map_length, Lu, MX by lia.
    assert (S1 : sum_upto (fun t => / 2 * (dot (nth t (map T xs) []) (mv Q' (nth t (map T xs) [])) + dot (nth t (map G us) []) (mv Rm' (nth t (map G us) [])))) N <= c * sum_upto (fun t => / 2 * (dot (nth t xs []) (mv Q (nth t xs [])) + dot (nth t us []) (mv Rm (nth t us [])))) N).
    { apply sum_scale. intros t Ht. rewrite MX, MU by lia. pose proof (FQ (nth t xs []) (nth t us []) (Hx t ltac:(lia)) (proj1 (Hu t Ht))) as B. lra. }
    pose proof (FP (nth N xs []) (Hx N (le_n N))) as B. lra.
Qed.
Lemma controller_answers np grb W N Q Rm P X_N nx nu C x : hyb_controller np W N Q Rm P X_N nx nu C -> length x = nx -> gurobi_solves grb (k_mpmiqp C) x ->
  (exists us xs modes, hybrid_feedforward grb C x = Ok (Some (us, xs, modes, trajectory_cost Q Rm P us xs)) /\ hybrid_feedback grb C x = Ok (Some (nth 0 us [])) /\
     pwa_run_from W X_N nu N x us modes xs /\ forall us' modes' xs', pwa_run_from W X_N nu N x us' modes' xs' -> trajectory_cost Q Rm P us xs <= trajectory_cost Q Rm P us' xs') \/
  (hybrid_feedforward grb C x = Ok None /\ hybrid_feedback grb C x = Ok None /\ forall us modes xs, ~ pwa_run_from W X_N nu N x us modes xs).
Proof.
  intros (Hnp & HW & Hnx & HN & HD & (mN & meN & HX) & NE & HC & EC) Lx HG. pose proof HC as (SQ & SP & SR & _). destruct (hybrid_optimal np grb W N Q Rm P X_N nx nu mN meN C Hnp HW Hnx HN HD SQ SP SR HX NE EC x Lx HG) as [(us & xs & modes & E1 & (O1 & O2) & E2)|(E1 & E2 & _ & NR)].
  - left. exists us, xs, modes. split; [exact E1|]. split; [exact E2|]. split; [exact O1|exact O2].
  - right. split; [exact E1|]. split; [exact E2|]. exact (NR HC).
Qed.
(*@ Theorem C104_simulation : If a second piecewise affine system can follow every step of a first one (possibly in other coordinates x' = T x, u' = G u, with other modes, more or larger domains, a larger terminal set, other weights), with costs at most c times as large, then at every state x at which the hybrid controller of the first returns the cost V, that of the second returns at T x a cost of at most c V *)
Lemma hybrid_simulation np np' grb grb' W N Q Rm P X_N nx nu C W' Q' Rm' P' X_N' nx' nu' C' T G c x us xs modes V :
  hyb_controller np W N Q Rm P X_N nx nu C -> hyb_controller np' W' N Q' Rm' P' X_N' nx' nu' C' -> hyb_follows W Q Rm P X_N nx nu W' Q' Rm' P' X_N' nx' nu' T G c ->
  length x = nx -> gurobi_solves grb (k_mpmiqp C) x -> gurobi_solves grb' (k_mpmiqp C') (T x) -> hybrid_feedforward grb C x = Ok (Some (us, xs, modes, V)) ->
  exists us' xs' modes' V', hybrid_feedforward grb' C' (T x) = Ok (Some (us', xs', modes', V')) /\ V' <= c * V.
Proof.
  intros H1 H2 HF Lx G1 G2 E. destruct (controller_answers np grb W N Q Rm P X_N nx nu C x H1 Lx G1) as [(us0 & xs0 & ms0 & E1 & _ & R1 & _)|(E1 & _)]; rewrite E in E1; [|discriminate E1]. injection E1 as <- <- <- ->.
  destruct (followed_run W Q Rm P X_N nx nu W' Q' Rm' P' X_N' nx' nu' T G c N x us modes xs (proj1 (proj2 H1)) HF Lx R1) as (ms' & R' & B).
  destruct (controller_answers np' grb' W' N Q' Rm' P' X_N' nx' nu' C' (T x) H2 (proj1 HF x Lx) G2) as [(us' & xs' & modes' & E2 & _ & _ & O2)|(_ & _ & NR)]; [|exfalso; exact (NR _ _ _ R')].
  exists us', xs', modes', (trajectory_cost Q' Rm' P' us' xs'). split; [exact E2|]. eapply Rle_trans; [exact (O2 _ _ _ R')|exact B].
Qed.
(*@ Theorem C104_equivalent : If two systems follow each other, T, G and T', G' being inverse changes of coordinates and c, 1/c the factors of the costs, their hybrid controllers give equivalent answers: None at the same states, costs V' = c V, and each answer, written in the coordinates of the other system, is an optimal run of the other system; if the optimal inputs are unique, the inputs and the feedback correspond *)
Lemma hybrid_equivalent np np' grb grb' W N Q Rm P X_N nx nu C W' Q' Rm' P' X_N' nx' nu' C' T G T' G' c x :
  hyb_controller np W N Q Rm P X_N nx nu C -> hyb_controller np' W' N Q' Rm' P' X_N' nx' nu' C' -> 0 < c ->
  hyb_follows W Q Rm P X_N nx nu W' Q' Rm' P' X_N' nx' nu' T G c -> hyb_follows W' Q' Rm' P' X_N' nx' nu' W Q Rm P X_N nx nu T' G' (/ c) ->
  (forall y, length y = nx -> T' (T y) = y) ->
  length x = nx -> gurobi_solves grb (k_mpmiqp C) x -> gurobi_solves grb' (k_mpmiqp C') (T x) ->
  (hybrid_feedforward grb C x = Ok None /\ hybrid_feedforward grb' C' (T x) = Ok None /\ hybrid_feedback grb C x = Ok None /\ hybrid_feedback grb' C' (T x) = Ok None) \/
  exists us xs modes V us' xs' modes', hybrid_feedforward grb C x = Ok (Some (us, xs, modes, V)) /\ hybrid_feedforward grb' C' (T x) = Ok (Some (us', xs', modes', c * V)) /\
    hybrid_feedback grb C x = Ok (Some (nth 0 us [])) /\ hybrid_feedback grb' C' (T x) = Ok (Some (nth 0 us' [])) /\
    (exists ms, pwa_run_from W' X_N' nu' N (T x) (map G us) ms (map T xs) /\ trajectory_cost Q' Rm' P' (map G us) (map T xs) = c * V) /\
    (exists ms, pwa_run_from W X_N nu N x (map G' us') ms (map T' xs') /\ trajectory_cost Q Rm P (map G' us') (map T' xs') = V) /\
    ((forall us1 ms1 xs1, pwa_run_from W X_N nu N x us1 ms1 xs1 -> trajectory_cost Q Rm P us1 xs1 = V -> us1 = us) -> us = map G' us' /\ nth 0 us [] = G' (nth 0 us' [])).
Proof.
  intros H1 H2 Pc F1 F2 TT Lx G1 G2. pose proof (proj1 F1 x Lx) as LT. pose proof (proj1 (proj2 H1)) as HW. pose proof (proj1 (proj2 H2)) as HW'.
  destruct (controller_answers np grb W N Q Rm P X_N nx nu C x H1 Lx G1) as [(us & xs & ms & E1 & B1 & R1 & O1)|(E1 & B1 & NR1)]; destruct (controller_answers np' grb' W' N Q' Rm' P' X_N' nx' nu' C' (T x) H2 LT G2) as [(us' & xs' & ms' & E2 & B2 & R2 & O2)|(E2 & B2 & NR2)].
  - right. destruct (followed_run _ _ _ _ _ _ _ _ _ _ _ _ _ _ _ _ _ N x us ms xs HW F1 Lx R1) as (m1 & S1 & C1). destruct (followed_run _ _ _ _ _ _ _ _ _ _ _ _ _ _ _ _ _ N (T x) us' ms' xs' HW' F2 LT R2) as (m2 & S2 & C2). rewrite (TT x Lx) in S2.
    pose proof (O1 _ _ _ S2) as D1. pose proof (O2 _ _ _ S1) as D2. set (V := trajectory_cost Q Rm P us xs) in *. set (V' := trajectory_cost Q' Rm' P' us' xs') in *.
    assert (EV : V' = c * V). { assert (X : c * V <= c * (/ c * V')) by (apply Rmult_le_compat_l; lra). rewrite <- Rmult_assoc, Rinv_r, Rmult_1_l in X by lra. lra. }
    assert (EQ : / c * V' = V) by (rewrite EV, <- Rmult_assoc, Rinv_l, Rmult_1_l by lra; reflexivity). rewrite EQ in C2.
    exists us, xs, ms, V, us', xs', ms'. split; [exact E1|]. split; [rewrite <- EV; exact E2|]. split; [exact B1|]. split; [exact B2|]. split; [exists m1; split; [exact S1|lra]|]. split; [exists m2; split; [exact S2|lra]|].
    intros UN. assert (U : map G' us' = us) by (apply (UN _ _ _ S2); lra). split; [symmetry; exact U|]. destruct (run_lengths W' X_N' nx' nu' N (T x) us' ms' xs' HW' LT R2) as (Lu' & _). destruct H1 as (_ & _ & _ & HN & _). rewrite <- U. apply nth_map_any. lia.
  - exfalso. destruct (followed_run _ _ _ _ _ _ _ _ _ _ _ _ _ _ _ _ _ N x us ms xs HW F1 Lx R1) as (m1 & S1 & _). exact (NR2 _ _ _ S1).
  - exfalso. destruct (followed_run _ _ _ _ _ _ _ _ _ _ _ _ _ _ _ _ _ N (T x) us' ms' xs' HW' F2 LT R2) as (m2 & S2 & _). rewrite (TT x Lx) in S2. exact (NR1 _ _ _ S2).
  - left. auto.
Qed.
(** ** The same modes in another order, other descriptions of the sets *)
Lemma same_modes_follow W W' Q Rm P X_N X_N' nx nu : hyb_data W nx nu -> hyb_data W' nx nu ->
  (forall a D, In (a, D) (combine (w_sys W) (w_dom W)) -> exists D', In (a, D') (combine (w_sys W') (w_dom W')) /\ forall z, in_poly D z -> in_poly D' z) -> (forall x, in_poly X_N x -> in_poly X_N' x) ->
  hyb_follows W Q Rm P X_N nx nu W' Q Rm P X_N' nx nu (fun x => x) (fun u => u) 1.
Proof.
  intros (_ & _ & _ & LW & _) (_ & _ & _ & LW' & _) HS HX. split; [auto|]. split; [auto|]. split; [|split; [auto|split; intros; lra]].
  intros i x u Hi Lx Lu Di. rewrite map_length in Hi. set (a0 := ASys (Mat 0 []) (Mat 0 []) []). rewrite (nth_map_any in_poly _ i poly0) in Di by lia.
  assert (I : In (nth i (w_sys W) a0, nth i (w_dom W) poly0) (combine (w_sys W) (w_dom W))) by (rewrite <- combine_nth by lia; apply nth_In; rewrite combine_length; lia).
  destruct (HS _ _ I) as (D' & I' & HD). destruct (In_nth _ _ (a0, poly0) I') as (j & Hj & Ej). rewrite combine_length in Hj. rewrite combine_nth in Ej by lia. injection Ej as Ea ED.
  exists j. rewrite map_length. split; [lia|]. split; [rewrite (nth_map_any in_poly _ j poly0) by lia; rewrite ED; apply HD, Di|].
  rewrite !(nth_map_any aA _ _ a0), !(nth_map_any aB _ _ a0), !(nth_map_any ac _ _ a0) by lia. rewrite Ea. reflexivity.
Qed.
(*@ Theorem C104_modes : Two hybrid controllers built from the same modes in any order, also with repetitions, and domains and terminal sets with the same points, by whatever exact libraries, give equivalent answers: None at the same states and the same cost; if the optimal inputs are unique, the same inputs and the same feedback *)
Lemma hybrid_same_modes np np' grb grb' W W' N Q Rm P X_N X_N' nx nu C C' x :
  hyb_controller np W N Q Rm P X_N nx nu C -> hyb_controller np' W' N Q Rm P X_N' nx nu C' ->
  (forall a D, In (a, D) (combine (w_sys W) (w_dom W)) -> exists D', In (a, D') (combine (w_sys W') (w_dom W')) /\ forall z, in_poly D z -> in_poly D' z) ->
  (forall a D', In (a, D') (combine (w_sys W') (w_dom W')) -> exists D, In (a, D) (combine (w_sys W) (w_dom W)) /\ forall z, in_poly D' z -> in_poly D z) ->
  (forall z, in_poly X_N z <-> in_poly X_N' z) -> length x = nx -> gurobi_solves grb (k_mpmiqp C) x -> gurobi_solves grb' (k_mpmiqp C') x ->
  (hybrid_feedforward grb C x = Ok None /\ hybrid_feedforward grb' C' x = Ok None /\ hybrid_feedback grb C x = Ok None /\ hybrid_feedback grb' C' x = Ok None) \/
  exists us xs modes V us' xs' modes', hybrid_feedforward grb C x = Ok (Some (us, xs, modes, V)) /\ hybrid_feedforward grb' C' x = Ok (Some (us', xs', modes', V)) /\
    hybrid_feedback grb C x = Ok (Some (nth 0 us [])) /\ hybrid_feedback grb' C' x = Ok (Some (nth 0 us' [])) /\
    ((forall us1 ms1 xs1, pwa_run_from W X_N nu N x us1 ms1 xs1 -> trajectory_cost Q Rm P us1 xs1 = V -> us1 = us) -> us = us').
Proof.
  intros H1 H2 S1 S2 HX Lx G1 G2. pose proof (same_modes_follow W W' Q Rm P X_N X_N' nx nu (proj1 (proj2 H1)) (proj1 (proj2 H2)) S1 (fun z => proj1 (HX z))) as F1. pose proof (same_modes_follow W' W Q Rm P X_N' X_N nx nu (proj1 (proj2 H2)) (proj1 (proj2 H1)) S2 (fun z => proj2 (HX z))) as F2.
  rewrite <- Rinv_1 in F2. destruct (hybrid_equivalent np np' grb grb' W N Q Rm P X_N nx nu C W' Q Rm P X_N' nx nu C' _ _ _ _ 1 x H1 H2 ltac:(lra) F1 F2 ltac:(auto) Lx G1 G2) as [L|(us & xs & ms & V & us' & xs' & ms' & E1 & E2 & B1 & B2 & _ & _ & U)]; [left; exact L|].
  right. exists us, xs, ms, V, us', xs', ms'. rewrite Rmult_1_l in E2. split; [exact E1|]. split; [exact E2|]. split; [exact B1|]. split; [exact B2|]. intros UN. destruct (U UN) as (-> & _). rewrite map_id. reflexivity.
Qed.
(*@ Theorem C104_weights : Multiplying Q, R and P of the hybrid controller by the same factor c > 0 multiplies the cost by c, keeps the states at which None is returned, and the inputs if the optimal ones are unique (the linear controller: C83, where None depends on c) *)
Lemma hybrid_weights np grb grb' W N Q Rm P X_N nx nu C C' c x :
  hyb_controller np W N Q Rm P X_N nx nu C -> hyb_controller np W N (mscale c Q) (mscale c Rm) (mscale c P) X_N nx nu C' -> 0 < c -> length x = nx ->
  gurobi_solves grb (k_mpmiqp C) x -> gurobi_solves grb' (k_mpmiqp C') x ->
  (hybrid_feedforward grb C x = Ok None /\ hybrid_feedforward grb' C' x = Ok None /\ hybrid_feedback grb C x = Ok None /\ hybrid_feedback grb' C' x = Ok None) \/
  exists us xs modes V us' xs' modes', hybrid_feedforward grb C x = Ok (Some (us, xs, modes, V)) /\ hybrid_feedforward grb' C' x = Ok (Some (us', xs', modes', c * V)) /\
    hybrid_feedback grb C x = Ok (Some (nth 0 us [])) /\ hybrid_feedback grb' C' x = Ok (Some (nth 0 us' [])) /\
    ((forall us1 ms1 xs1, pwa_run_from W X_N nu N x us1 ms1 xs1 -> trajectory_cost Q Rm P us1 xs1 = V -> us1 = us) -> us = us').
Proof.
  intros H1 H2 Pc Lx G1 G2.
  assert (QS : forall M (v : vec), dot v (mv (mscale c M) v) = c * dot v (mv M v)) by (intros M v; rewrite mv_mscale, dot_vscale_r; reflexivity).
  assert (F : forall Q1 R1 P1 Q2 R2 P2 d, (forall v : vec, dot v (mv Q2 v) = d * dot v (mv Q1 v)) -> (forall v : vec, dot v (mv R2 v) = d * dot v (mv R1 v)) -> (forall v : vec, dot v (mv P2 v) = d * dot v (mv P1 v)) -> hyb_follows W Q1 R1 P1 X_N nx nu W Q2 R2 P2 X_N nx nu (fun x => x) (fun u => u) d).
  { intros Q1 R1 P1 Q2 R2 P2 d K1 K2 K3. split; [auto|]. split; [auto|]. split; [|split; [auto|split; intros; rewrite ?K1, ?K2, ?K3; lra]]. intros i z u Hi Lz Lu Di. exists i. auto. }
  assert (F1 := F Q Rm P (mscale c Q) (mscale c Rm) (mscale c P) c (QS Q) (QS Rm) (QS P)). assert (QI : forall M (v : vec), dot v (mv M v) = / c * dot v (mv (mscale c M) v)) by (intros M v; rewrite QS; field; lra). assert (F2 := F _ _ _ Q Rm P (/ c) (QI Q) (QI Rm) (QI P)).
  destruct (hybrid_equivalent np np grb grb' W N Q Rm P X_N nx nu C W _ _ _ X_N nx nu C' _ _ _ _ c x H1 H2 Pc F1 F2 ltac:(auto) Lx G1 G2) as [L|(us & xs & ms & V & us' & xs' & ms' & E1 & E2 & B1 & B2 & _ & _ & U)]; [left; exact L|].
  right. exists us, xs, ms, V, us', xs', ms'. split; [exact E1|]. split; [exact E2|]. split; [exact B1|]. split; [exact B2|]. intros UN. destruct (U UN) as (-> & _). rewrite map_id. reflexivity.
Qed.
(** ** Longer horizons *)
Lemma pwa_extend As Bs cs doms XN Q Rm P nu N x us modes xs : pwa_terminal As Bs cs doms XN Q Rm P nu -> pwa_admissible As Bs cs doms XN nu N x us modes xs ->
  exists us' modes' xs', pwa_admissible As Bs cs doms XN nu (Datatypes.S N) x us' modes' xs' /\ trajectory_cost Q Rm P us' xs' <= trajectory_cost Q Rm P us xs.
Proof.
  intros TI (Lu & Fu & Lm & HM & (Lxs & H0 & HT) & HD & HX). rewrite Lu in *. set (xN := nth N xs []) in *. destruct (TI xN HX) as (mN & uN & HmN & LuN & T1 & T2 & T3). cbv zeta in T2, T3. set (xp := affine_step _ _ _ xN uN) in *.
  assert (A1 : forall t d, (t <= N)%nat -> nth t (xs ++ [xp]) d = nth t xs d) by (intros; apply app_nth1; lia). assert (A2 : forall d, nth (Datatypes.S N) (xs ++ [xp]) d = xp) by (intros; rewrite app_nth2 by lia; rewrite Lxs, Nat.sub_diag; reflexivity).
  assert (B1 : forall t d, (t < N)%nat -> nth t (us ++ [uN]) d = nth t us d) by (intros; apply app_nth1; lia). assert (B2 : forall d, nth N (us ++ [uN]) d = uN) by (intros; rewrite app_nth2 by lia; rewrite Lu, Nat.sub_diag; reflexivity).
  assert (M1 : forall t d, (t < N)%nat -> nth t (modes ++ [mN]) d = nth t modes d) by (intros; apply app_nth1; lia). assert (M2 : forall d, nth N (modes ++ [mN]) d = mN) by (intros; rewrite app_nth2 by lia; rewrite Lm, Nat.sub_diag; reflexivity).
  assert (Lp : length (us ++ [uN]) = Datatypes.S N) by (rewrite app_length; cbn; lia). exists (us ++ [uN]), (modes ++ [mN]), (xs ++ [xp]). split.
  - split; [exact Lp|]. split; [apply Forall_app; split; [exact Fu|constructor; [exact LuN|constructor]]|]. split; [rewrite app_length; cbn; lia|].
    split; [intros m Hm; apply in_app_or in Hm; destruct Hm as [Hm|[<-|[]]]; [apply HM, Hm|exact HmN]|]. split.
    + split; [rewrite Lp, app_length, Lxs; cbn; lia|]. split; [rewrite A1 by lia; exact H0|]. rewrite Lp. intros t Ht. cbv zeta. destruct (Nat.eq_dec t N) as [->|Nt]; [rewrite A2, B2, M2, A1 by lia; reflexivity|rewrite !A1, B1, M1 by lia; exact (HT t ltac:(lia))].
    + unfold stage_constraints. rewrite Lp, A2. split; [|exact T2]. intros t Ht. rewrite A1 by lia. destruct (Nat.eq_dec t N) as [->|Nt]; [rewrite B2, M2; exact T1|rewrite B1, M1 by lia; exact (HD t ltac:(lia))].
  - unfold trajectory_cost. rewrite Lp, A2, Lu. cbn [sum_upto]. rewrite A1, B2 by lia. fold xN.
    rewrite (sum_upto_ext _ (fun t => / 2 * (dot (nth t xs []) (mv Q (nth t xs [])) + dot (nth t us []) (mv Rm (nth t us []))))) by (intros t Ht; rewrite A1, B1 by lia; reflexivity). lra.
Qed.
(*@ Theorem C104_longer_horizon : With a terminal set and terminal cost as in SpecLoop, wherever the hybrid controller with horizon N returns the cost V, that with a longer horizon N' returns a cost V' of at most V *)
Lemma hybrid_longer np np' grb grb' W N N' Q Rm P X_N nx nu C C' x us xs modes V :
  hyb_controller np W N Q Rm P X_N nx nu C -> hyb_controller np' W N' Q Rm P X_N nx nu C' -> (N <= N')%nat ->
  pwa_terminal (map aA (w_sys W)) (map aB (w_sys W)) (map ac (w_sys W)) (map in_poly (w_dom W)) (in_poly X_N) Q Rm P nu ->
  length x = nx -> gurobi_solves grb (k_mpmiqp C) x -> gurobi_solves grb' (k_mpmiqp C') x -> hybrid_feedforward grb C x = Ok (Some (us, xs, modes, V)) ->
  exists us' xs' modes' V', hybrid_feedforward grb' C' x = Ok (Some (us', xs', modes', V')) /\ V' <= V.
Proof.
  intros H1 H2 HN TI Lx G1 G2 E. destruct (controller_answers np grb W N Q Rm P X_N nx nu C x H1 Lx G1) as [(us0 & xs0 & ms0 & E1 & _ & R1 & _)|(E1 & _)]; rewrite E in E1; [|discriminate E1]. injection E1 as <- <- <- ->.
  assert (X : exists us' modes' xs', pwa_run_from W X_N nu N' x us' modes' xs' /\ trajectory_cost Q Rm P us' xs' <= trajectory_cost Q Rm P us xs).
  { clear H2 G2. induction HN as [|K HK (ua & ma & xa & RA & CA)]; [exists us, modes, xs; split; [exact R1|lra]|]. destruct (pwa_extend _ _ _ _ _ Q Rm P nu K x ua ma xa TI RA) as (ub & mb & xb & RB & CB). exists ub, mb, xb. split; [exact RB|lra]. }
  destruct X as (ua & ma & xa & RA & CA). destruct (controller_answers np' grb' W N' Q Rm P X_N nx nu C' x H2 Lx G2) as [(us' & xs' & modes' & E2 & _ & _ & O2)|(_ & _ & NR)]; [|exfalso; exact (NR _ _ _ RA)].
  exists us', xs', modes', (trajectory_cost Q Rm P us' xs'). split; [exact E2|]. eapply Rle_trans; [exact (O2 _ _ _ RA)|exact CA].
Qed.
(** ** Example: the system W2 seen in a mirror *)
Definition W2m : pwa := PWA 1 1 [Sys1 1; Sys1 (-1)] [D_R; D_L].
Lemma mirror_constants np : exact_np np -> get_bigM_dynamics np W2m = Ok ([[[-1]; [-2]]; [[-2]; [-1]]], [[[2]; [1]]; [[1]; [2]]]) /\
  get_bigM_domains np W2m = Ok [[[0; 0; 0; 0]; [-1; 1; 0; 0]]; [[1; -1; 0; 0]; [0; 0; 0; 0]]].
Proof.
  intros Hnp. split.
  - unfold get_bigM_dynamics, bigM_dynamics_ij, row. cbn -[lp_min]. rewrite !lp_L, !lp_R by exact Hnp. cbn -[lp_min]. rewrite ?lp_L, ?lp_R by exact Hnp. cbn -[lp_min]. entries.
  - unfold get_bigM_domains, bigM_domains_ij, row. cbn -[lp_min]. rewrite !lp_L, !lp_R by exact Hnp. cbn -[lp_min]. entries.
Qed.
Lemma mirror_follow W W' : (W = W2 /\ W' = W2m) \/ (W = W2m /\ W' = W2) -> hyb_follows W I_1 R_2 R_2 X_int 1 1 W' I_1 R_2 R_2 X_int 1 1 vneg vneg 1.
Proof.
  intros HW. assert (NI : forall v : vec, length v = 1%nat -> exists a, v = [a] /\ vneg v = [- a]) by (intros [|a [|]] L; try discriminate L; exists a; split; [reflexivity|unfold vneg; cbn; f_equal; lra]).
  split; [intros; len|]. split; [intros; len|]. split; [|split; [|split]].
  - intros i x u Hi Lx Lu Di. destruct (NI x Lx) as (a & -> & ->). destruct (NI u Lu) as (b & -> & ->). exists i.
    destruct HW as [(-> & ->)|(-> & ->)]; (split; [exact Hi|]); (destruct i as [|[|i]]; [| |cbn in Hi; lia]); cbn [map w_dom W2 W2m nth app] in Di |- *; (apply in_D_L in Di || apply in_D_R in Di); destruct Di as (p & q & E & B); injection E as <- <-;
      (split; [(apply in_D_L || apply in_D_R); eexists _, _; split; [reflexivity|lra]|]); unfold affine_step, vneg; cbn; f_equal; lra.
  - intros x Lx Hx. destruct (NI x Lx) as (a & -> & ->). apply in_X_int in Hx. apply in_X_int. lra.
  - intros x u Lx Lu. destruct (NI x Lx) as (a & -> & ->). destruct (NI u Lu) as (b & -> & ->). cbn. lra.
  - intros x Lx. destruct (NI x Lx) as (a & -> & ->). cbn. lra.
Qed.
(*@ Example C104_example : x+ = x + u for x <= 0, x+ = -x + u for x >= 0 and its mirror image (x+ = x + u for x >= 0, x+ = -x + u for x <= 0), Q = 1, R = P = 2, N = 1: all hypotheses of C104_equivalent hold at x = -1 with T x = -x, G u = -u and suitable Gurobis, the controllers return 1/2 and -1/2 and both the cost 1 *)
Lemma hybrid_equivalent_example np : exact_np np -> exists C C' grb grb', hyb_controller np W2 1 I_1 R_2 R_2 X_int 1 1 C /\ hyb_controller np W2m 1 I_1 R_2 R_2 X_int 1 1 C' /\
  hyb_follows W2 I_1 R_2 R_2 X_int 1 1 W2m I_1 R_2 R_2 X_int 1 1 vneg vneg 1 /\ hyb_follows W2m I_1 R_2 R_2 X_int 1 1 W2 I_1 R_2 R_2 X_int 1 1 vneg vneg (/ 1) /\
  (forall y, length y = 1%nat -> vneg (vneg y) = y) /\ gurobi_solves grb (k_mpmiqp C) [-1] /\ gurobi_solves grb' (k_mpmiqp C') (vneg [-1]) /\
  hybrid_feedback grb C [-1] = Ok (Some [/ 2]) /\ hybrid_feedback grb' C' [1] = Ok (Some [- / 2]) /\ exists us xs modes, hybrid_feedforward grb' C' [1] = Ok (Some (us, xs, modes, 1)).
Proof.
  intros Hnp. destruct (hybrid_loop_example np Hnp) as (C & HS & grb & X & U & M & HL & X0 & _ & _ & GS & _ & _ & _ & EF). specialize (GS 0%nat ltac:(lia)). rewrite X0 in GS. pose proof HS as (_ & HW & _ & _ & HD & HX & HE & HC & EC & _).
  assert (H1 : hyb_controller np W2 1 I_1 R_2 R_2 X_int 1 1 C) by (unfold hyb_controller; split; [exact Hnp|]; split; [exact HW|]; split; [lia|]; split; [lia|]; split; [exact HD|]; split; [exists 2%nat, 0%nat; exact HX|]; split; [exact HE|]; split; [exact HC|exact EC]).
  assert (EH : exists C', HybridModelPredictiveController np W2m 1 I_1 R_2 R_2 X_int = Ok C' /\ exists grb', gurobi_solves grb' (k_mpmiqp C') (vneg [-1])).
  { replace (vneg [-1]) with [1] by (unfold vneg; cbn; f_equal; lra). destruct (mirror_constants np Hnp) as (E1 & E2). unfold HybridModelPredictiveController. rewrite E1. cbn [bind]. rewrite E2. cbn [bind].
    destruct (hybrid_condense_program W2m 1 I_1 R_2 R_2 X_int _ _ _) as [q|e] eqn:Eq; [|exfalso; cbn in Eq; discriminate].
    cbn [bind]. eexists. split; [reflexivity|]. cbn [k_mpmiqp].
    destruct (exact_gurobi_exists (hyb_H q) (hyb_f q [1]) (hyb_A q) (hyb_b q [1]) (ncols (h_Au q) + ncols (h_Az q))) as (grb' & GE). exists grb'.
    split; [|exact GE]. clear GE grb'. vm_compute in Eq. injection Eq as <-. unfold sharp_data. repeat match goal with |- _ /\ _ => split end.
    - intros r Hr. vm_compute in Hr. repeat (destruct Hr as [<-|Hr]; [sharp_row|]). destruct Hr.
    - unfold hyb_f. cbn. sharp_row.
    - intros r Hr. vm_compute in Hr. repeat (destruct Hr as [<-|Hr]; [sharp_row|]). destruct Hr.
    - unfold hyb_b. cbn. sharp_row.
    - intros r [].
    - intros b []. }
  destruct EH as (C' & EC' & grb' & GS').
  assert (H2 : hyb_controller np W2m 1 I_1 R_2 R_2 X_int 1 1 C').
  { destruct HW as (_ & _ & _ & _ & HWd). assert (PD : forall D, In D (w_dom W2m) -> In D (w_dom W2)) by (intros D [<-|[<-|[]]]; cbn; auto).
    split; [exact Hnp|]. split; [split; [reflexivity|]; split; [reflexivity|]; split; [split; [discriminate|]; intros s [<-|[<-|[]]]; unfold system_shape, shape; cbn; repeat split; repeat constructor|]; split; [reflexivity|]; intros D I; apply HWd, PD, I|].
    split; [lia|]. split; [lia|]. split; [intros D I; apply HD, PD, I|]. split; [exists 2%nat, 0%nat; exact HX|]. split; [split; [intros D I; apply HE, PD, I|reflexivity]|]. split; [exact HC|exact EC']. }
  assert (F1 := mirror_follow W2 W2m (or_introl (conj eq_refl eq_refl))). assert (F2 := mirror_follow W2m W2 (or_intror (conj eq_refl eq_refl))). rewrite <- Rinv_1 in F2.
  assert (NN : forall y : vec, length y = 1%nat -> vneg (vneg y) = y) by (intros [|a [|]] L; try discriminate L; unfold vneg; cbn; f_equal; lra).
  exists C, C', grb, grb'. split; [exact H1|]. split; [exact H2|]. split; [exact F1|]. split; [exact F2|]. split; [exact NN|]. split; [exact GS|]. split; [exact GS'|].
  destruct (hybrid_equivalent np np grb grb' W2 1 I_1 R_2 R_2 X_int 1 1 C W2m I_1 R_2 R_2 X_int 1 1 C' vneg vneg vneg vneg 1 [-1] H1 H2 ltac:(lra) F1 F2 NN eq_refl GS GS') as [(E & _)|(us & xs & ms & V & us' & xs' & ms' & E1 & E2 & B1 & B2 & _ & (m2 & S2 & C2) & _)]; rewrite EF in *; [discriminate E|]. injection E1 as <- <- <- <-.
  replace (vneg [-1]) with [1] in * by (unfold vneg; cbn; f_equal; lra). rewrite Rmult_1_l in E2. split; [exact B1|]. split; [|exists us', xs', ms'; exact E2]. rewrite B2. f_equal. f_equal.
  destruct S2 as (A1 & A2 & A3 & A4 & (A5 & A6 & A7) & (A8 & _)). destruct us' as [|u [|]]; cbn in A1; try discriminate A1. destruct m2 as [|k [|]]; cbn in A3; try discriminate A3. specialize (A4 k (or_introl eq_refl)). cbn in A4. inversion A2 as [|? ? Lu _]; subst.
  destruct u as [|b [|]]; cbn in Lu; try discriminate Lu. destruct xs' as [|x0 [|x1 [|]]]; cbn in A5; try discriminate A5. cbn [map nth] in A6. specialize (A8 0%nat ltac:(cbn; lia)). specialize (A7 0%nat ltac:(cbn; lia)). cbn [map nth] in A7, A8. rewrite A6 in *.
  assert (k = 0%nat). { destruct k as [|[|]]; [reflexivity| |lia]. exfalso. cbn [nth map w_dom W2] in A8. apply in_D_R in A8. destruct A8 as (x & v & E & B). injection E as E _. lra. } subst k.
  unfold affine_step in A7. cbn in A7. unfold trajectory_cost in C2. cbn [map length sum_upto nth] in C2. rewrite A6, A7 in C2. cbn in C2. cbn [nth]. f_equal. nra.
Qed.
Definition W2p : pwa := PWA 1 1 [Sys1 (-1); Sys1 1] [D_R; D_L].
Lemma swapped_constants np : exact_np np -> get_bigM_dynamics np W2p = Ok ([[[-2]; [-1]]; [[-1]; [-2]]], [[[1]; [2]]; [[2]; [1]]]) /\
  get_bigM_domains np W2p = Ok [[[0; 0; 0; 0]; [-1; 1; 0; 0]]; [[1; -1; 0; 0]; [0; 0; 0; 0]]].
Proof.
  intros Hnp. split.
  - unfold get_bigM_dynamics, bigM_dynamics_ij, row. cbn -[lp_min]. rewrite !lp_L, !lp_R by exact Hnp. cbn -[lp_min]. rewrite ?lp_L, ?lp_R by exact Hnp. cbn -[lp_min]. entries.
  - unfold get_bigM_domains, bigM_domains_ij, row. cbn -[lp_min]. rewrite !lp_L, !lp_R by exact Hnp. cbn -[lp_min]. entries.
Qed.
Ltac solved_program W N Q Rm P X_N x E1 E2 :=
    unfold HybridModelPredictiveController; rewrite E1; cbn [bind]; rewrite E2; cbn [bind];
    let q := fresh "q" in let e := fresh "e" in let Eq := fresh "Eq" in let grb := fresh "grb" in let GE := fresh "GE" in let r := fresh "r" in let Hr := fresh "Hr" in
    destruct (hybrid_condense_program W N Q Rm P X_N _ _ _) as [q|e] eqn:Eq; [|exfalso; cbn in Eq; discriminate];
    cbn [bind]; eexists; split; [reflexivity|]; cbn [k_mpmiqp];
    destruct (exact_gurobi_exists (hyb_H q) (hyb_f q x) (hyb_A q) (hyb_b q x) (ncols (h_Au q) + ncols (h_Az q))) as (grb & GE); exists grb;
    split; [|exact GE]; clear GE grb; vm_compute in Eq; injection Eq as <-; unfold sharp_data; repeat match goal with |- _ /\ _ => split end;
    [intros r Hr; vm_compute in Hr; repeat (destruct Hr as [<-|Hr]; [sharp_row|]); destruct Hr
    |unfold hyb_f; cbn; sharp_row
    |intros r Hr; vm_compute in Hr; repeat (destruct Hr as [<-|Hr]; [sharp_row|]); destruct Hr
    |unfold hyb_b; cbn; sharp_row
    |intros r []
    |intros r []].
(*@ Example C104_more_example : The hypotheses of C104_modes, C104_weights and C104_longer_horizon hold for this system, at x = -1 with suitable Gurobis: its modes exchanged, its weights doubled, and horizon 2 instead of 1 *)
Lemma hybrid_more_example np : exact_np np -> exists C grb, hyb_controller np W2 1 I_1 R_2 R_2 X_int 1 1 C /\ gurobi_solves grb (k_mpmiqp C) [-1] /\ hybrid_feedforward grb C [-1] = Ok (Some ([[/ 2]], [[-1]; [- / 2]], [0%nat], 1)) /\
  (exists C' grb', hyb_controller np W2p 1 I_1 R_2 R_2 X_int 1 1 C' /\ gurobi_solves grb' (k_mpmiqp C') [-1] /\
     (forall a D, In (a, D) (combine (w_sys W2) (w_dom W2)) <-> In (a, D) (combine (w_sys W2p) (w_dom W2p)))) /\
  (exists C' grb', hyb_controller np W2 1 (mscale 2 I_1) (mscale 2 R_2) (mscale 2 R_2) X_int 1 1 C' /\ gurobi_solves grb' (k_mpmiqp C') [-1]) /\
  (exists C' grb', hyb_controller np W2 2 I_1 R_2 R_2 X_int 1 1 C' /\ gurobi_solves grb' (k_mpmiqp C') [-1]) /\
  pwa_terminal (map aA (w_sys W2)) (map aB (w_sys W2)) (map ac (w_sys W2)) (map in_poly (w_dom W2)) (in_poly X_int) I_1 R_2 R_2 1.
Proof.
  intros Hnp. destruct (hybrid_loop_example np Hnp) as (C & HS & grb & X & U & M & HL & X0 & _ & _ & GS & _ & _ & _ & EF). specialize (GS 0%nat ltac:(lia)). rewrite X0 in GS. pose proof HS as (_ & HW & _ & _ & HD & HX & HE & HC & EC & TI).
  assert (HC2 : hyb_costs (mscale 2 I_1) (mscale 2 R_2) (mscale 2 R_2) 1 1).
  { assert (SH : forall M, shape M 1 1 -> shape (mscale 2 M) 1 1) by (intros; eauto with shp). destruct HC as (S1 & S2 & S3 & P1 & P2 & P3 & T1 & T2).
    assert (QS : forall M (v : vec), dot v (mv (mscale 2 M) v) = 2 * dot v (mv M v)) by (intros K v; rewrite mv_mscale, dot_vscale_r; reflexivity).
    split; [auto|]. split; [auto|]. split; [auto|]. split; [split; [reflexivity|]; intros v Lv; rewrite QS; pose proof (proj2 P1 v Lv); lra|]. split; [split; [reflexivity|]; intros v Lv; rewrite QS; pose proof (proj2 P2 v Lv); lra|].
    split; [split; [reflexivity|]; intros v Lv NZ; rewrite QS; pose proof (proj2 P3 v Lv NZ); lra|]. split; reflexivity. }
  assert (CT : forall W N Q Rm P C', (0 < N)%nat -> hyb_data W 1 1 -> hyb_domains W -> no_eqs W X_int -> hyb_costs Q Rm P 1 1 -> HybridModelPredictiveController np W N Q Rm P X_int = Ok C' -> hyb_controller np W N Q Rm P X_int 1 1 C').
  { intros W N Q Rm P C' HN K1 K2 K3 K4 K5. unfold hyb_controller. split; [exact Hnp|]. split; [exact K1|]. split; [lia|]. split; [exact HN|]. split; [exact K2|]. split; [exists 2%nat, 0%nat; exact HX|]. auto. }
  exists C, grb. split; [apply CT; auto|]. split; [exact GS|]. split; [exact EF|]. split; [|split; [|split; [|exact TI]]].
  - assert (EH : exists C', HybridModelPredictiveController np W2p 1 I_1 R_2 R_2 X_int = Ok C' /\ exists grb', gurobi_solves grb' (k_mpmiqp C') [-1]) by (destruct (swapped_constants np Hnp) as (E1 & E2); solved_program W2p 1%nat I_1 R_2 R_2 X_int [-1] E1 E2).
    destruct EH as (C' & EC' & grb' & GS'). exists C', grb'. split; [|split; [exact GS'|]].
    + destruct HW as (_ & _ & _ & _ & HWd). assert (PD : forall D, In D (w_dom W2p) -> In D (w_dom W2)) by (intros D [<-|[<-|[]]]; cbn; auto).
      apply CT; [lia| | | |exact HC|exact EC']; [split; [reflexivity|]; split; [reflexivity|]; split; [split; [discriminate|]; intros s [<-|[<-|[]]]; unfold system_shape, shape; cbn; repeat split; repeat constructor|]; split; [reflexivity|]; intros D I; apply HWd, PD, I|intros D I; apply HD, PD, I|split; [intros D I; apply HE, PD, I|reflexivity]].
    + intros a D. cbn. tauto.
  - assert (EH : exists C', HybridModelPredictiveController np W2 1 (mscale 2 I_1) (mscale 2 R_2) (mscale 2 R_2) X_int = Ok C' /\ exists grb', gurobi_solves grb' (k_mpmiqp C') [-1]) by (destruct (W2_constants np Hnp) as (E1 & E2); solved_program W2 1%nat (mscale 2 I_1) (mscale 2 R_2) (mscale 2 R_2) X_int [-1] E1 E2).
    destruct EH as (C' & EC' & grb' & GS'). exists C', grb'. split; [apply CT; auto|exact GS'].
  - assert (EH : exists C', HybridModelPredictiveController np W2 2 I_1 R_2 R_2 X_int = Ok C' /\ exists grb', gurobi_solves grb' (k_mpmiqp C') [-1]) by (destruct (W2_constants np Hnp) as (E1 & E2); solved_program W2 2%nat I_1 R_2 R_2 X_int [-1] E1 E2).
    destruct EH as (C' & EC' & grb' & GS'). exists C', grb'. split; [apply CT; auto|exact GS'].
Qed.
