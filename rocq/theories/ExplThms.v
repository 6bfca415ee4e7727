(** * ExplThms: the explicit controller in the loop (C78), proofs *)
From Coq Require Import ZArith Classical.
From Verif Require Import Arr ArrFacts Spec SpecMpc Numpy Pnnls PnnlsFacts QpFacts GeomUtils Polyhedron PolyThms Oracle SolverThms NullFacts PolySolveThms PolyMore SpecDyn Dynamics DynThms CondenseThms LqrThms McaisThms Mpqp MpqpThms NeighThms TermThms Controllers CtrlThms.

(** the cost-to-go of the optimal sequence decreases by the stage cost *)
Lemma optimal_decrease np S N Q Rm P D X_N K nx nu C x us xs : mpc_setup np S N Q Rm P D X_N K nx nu C -> lqr_pair np S Q Rm P K nx nu -> length x = nx ->
  mpc_admissible (lA S) (lB S) nu N (in_poly D) (in_poly X_N) x us xs ->
  let u := nth 0 us [] in
  let x' := linear_step (lA S) (lB S) x u in
  length u = nu /\ length x' = nx /\ in_poly D (x ++ u) /\ 0 <= stage_cost Q Rm x u /\ 0 <= trajectory_cost Q Rm P us xs /\
  exists us' xs', mpc_admissible (lA S) (lB S) nu N (in_poly D) (in_poly X_N) x' us' xs' /\ trajectory_cost Q Rm P us' xs' = trajectory_cost Q Rm P us xs - stage_cost Q Rm x u.
Proof.
  intros (Hnp & HD & E & SK & TI) HL Lx HA u x'. pose proof HD as ((SA & SB & HN & SQ & SP & SR & _) & _ & _ & PQ & PP & PR).
  destruct (lqr_identity np S Q Rm P K nx nu Hnp SA SB SQ SR PR HL) as (_ & _ & _ & M & PM & HI).
  pose proof HA as (Lu & Fu & Tr & HS & _). assert (Lu0 : length u = nu) by (apply Forall_len_nth; [exact Fu|lia]).
  split; [exact Lu0|]. split; [apply (step_length _ _ nx nu); assumption|]. split. { destruct Tr as (_ & H0 & _). rewrite <- H0 at 1. apply HS. lia. }
  split. { unfold stage_cost. pose proof (proj2 PQ x Lx). pose proof (proj2 (pd_psd _ _ PR) u Lu0). lra. }
  split.
  { pose proof (trajectory_lengths _ _ nx nu _ _ _ SA SB Lx Tr) as Fy. assert (Lys : length xs = Datatypes.S (length us)) by apply Tr. unfold trajectory_cost.
    assert (0 <= sum_upto (fun t => / 2 * (dot (nth t xs []) (mv Q (nth t xs [])) + dot (nth t us []) (mv Rm (nth t us [])))) (length us)).
    { apply sum_upto_nonneg. intros t Ht. pose proof (proj2 PQ (nth t xs []) ltac:(apply Forall_len_nth; [exact Fy|lia])). pose proof (proj2 (pd_psd _ _ PR) (nth t us []) ltac:(apply Forall_len_nth; [exact Fu|lia])). lra. }
    pose proof (proj2 PP (nth (length us) xs []) ltac:(apply Forall_len_nth; [exact Fy|lia])). lra. }
  destruct (shift_admissible (lA S) (lB S) K nx nu N _ _ x us xs SA SB SK HN TI Lx HA) as (G & HC). fold u in G, HC. fold x' in G. set (xN := nth N xs []) in *.
  specialize (HC Q Rm P). assert (LN : length xN = nx) by (apply Forall_len_nth; [apply (trajectory_lengths _ _ nx nu _ _ _ SA SB Lx Tr)|rewrite (proj1 Tr), Lu; lia]).
  assert (LK : length (mv K xN) = nu) by (rewrite mv_length; apply SK).
  assert (Z : vsub (mv K xN) (mv K xN) = zeros nu). { apply (nth_ext _ _ 0 0); [rewrite vsub_length, zeros_length; lia|]. intros i Hi. rewrite nth_vsub by lia. rewrite nth_zeros. ring. }
  pose proof (HI xN (mv K xN) LN LK) as HI'. rewrite Z in HI'. rewrite dot_zeros_l in HI'.
  do 2 eexists. split; [exact G|]. rewrite HC. lra.
Qed.
(** a controller that applies the first input of the optimal sequence at every state with an admissible one *)
Section Loop.
Variables (np : numpy) (Sy : lsys) (N : nat) (Q Rm P : mat) (D X_N : poly) (K : mat) (nx nu : nat) (C : mpc) (fb : vec -> res (option vec)).
Hypothesis HS : mpc_setup np Sy N Q Rm P D X_N K nx nu C.
Hypothesis HL : lqr_pair np Sy Q Rm P K nx nu.
Hypothesis Hfb : forall y us xs, length y = nx -> mpc_admissible (lA Sy) (lB Sy) nu N (in_poly D) (in_poly X_N) y us xs ->
  exists us' xs', fb y = Ok (Some (nth 0 us' [])) /\ mpc_optimal (lA Sy) (lB Sy) Q Rm P nu N (in_poly D) (in_poly X_N) y us' xs'.
Fixpoint fb_state (x : vec) (t : nat) : vec :=
  match t with O => x | S t' => let y := fb_state x t' in match fb y with Ok (Some u) => linear_step (lA Sy) (lB Sy) y u | _ => y end end.
Definition fb_input (x : vec) : vec := match fb x with Ok (Some u) => u | _ => [] end.
Lemma optimal_loop x us xs : length x = nx -> mpc_optimal (lA Sy) (lB Sy) Q Rm P nu N (in_poly D) (in_poly X_N) x us xs ->
  exists X U : nat -> vec, X 0%nat = x /\
    (forall t, fb (X t) = Ok (Some (U t)) /\ X (S t) = linear_step (lA Sy) (lB Sy) (X t) (U t) /\ in_poly D (X t ++ U t)) /\
    (forall T, exists us' xs', mpc_optimal (lA Sy) (lB Sy) Q Rm P nu N (in_poly D) (in_poly X_N) (X T) us' xs' /\ U T = nth 0 us' [] /\ 0 <= trajectory_cost Q Rm P us' xs' /\
       trajectory_cost Q Rm P us' xs' + sum_upto (fun t => / 2 * (dot (X t) (mv Q (X t)) + dot (U t) (mv Rm (U t)))) T <= trajectory_cost Q Rm P us xs) /\
    (Spec.pd Q nx -> forall eps, 0 < eps -> exists T, forall t, (T <= t)%nat -> norm (X t) < eps).
Proof.
  intros Lx HO. pose proof HS as (Hnp & HD & _). pose proof HD as ((SA & SB & HN & SQ & _) & _ & _ & _ & _ & PR).
  set (X := fb_state x). set (U := fun t => fb_input (X t)). set (V := trajectory_cost Q Rm P us xs).
  set (f := fun t => / 2 * (dot (X t) (mv Q (X t)) + dot (U t) (mv Rm (U t)))).
  assert (UNI : forall y us1 xs1 us2 xs2, mpc_optimal (lA Sy) (lB Sy) Q Rm P nu N (in_poly D) (in_poly X_N) y us1 xs1 -> mpc_optimal (lA Sy) (lB Sy) Q Rm P nu N (in_poly D) (in_poly X_N) y us2 xs2 -> us2 = us1).
  { intros y us1 xs1 us2 xs2 (A1 & O1) (A2 & O2). destruct (O1 _ _ A2) as (L1 & E1). destruct (O2 _ _ A1) as (L2 & _). apply E1. lra. }
  assert (INV : forall T, length (X T) = nx /\ exists us' xs', mpc_optimal (lA Sy) (lB Sy) Q Rm P nu N (in_poly D) (in_poly X_N) (X T) us' xs' /\ fb (X T) = Ok (Some (U T)) /\ U T = nth 0 us' [] /\
     trajectory_cost Q Rm P us' xs' + sum_upto f T <= V).
  { assert (G : forall T us' xs', length (X T) = nx -> mpc_optimal (lA Sy) (lB Sy) Q Rm P nu N (in_poly D) (in_poly X_N) (X T) us' xs' -> fb (X T) = Ok (Some (U T)) /\ U T = nth 0 us' []).
    { intros T us' xs' LT OT. destruct (Hfb (X T) us' xs' LT (proj1 OT)) as (us2 & xs2 & E2 & O2). rewrite (UNI _ _ _ _ _ OT O2) in E2. unfold U, fb_input. rewrite E2. auto. }
    induction T as [|T (LT & us' & xs' & OT & E1 & E2 & HV)].
    - split; [exact Lx|]. exists us, xs. split; [exact HO|]. destruct (G 0%nat us xs Lx HO) as (G1 & G2). split; [exact G1|]. split; [exact G2|]. cbn [sum_upto]. fold V. lra.
    - destruct (optimal_decrease np Sy N Q Rm P D X_N K nx nu C (X T) us' xs' HS HL LT (proj1 OT)) as (_ & LT' & _ & _ & _ & us1 & xs1 & A1 & C1). rewrite <- E2 in LT', A1, C1.
      assert (EX : X (S T) = linear_step (lA Sy) (lB Sy) (X T) (U T)) by (unfold X at 1; cbn [fb_state]; fold X; change (fb_state x T) with (X T); rewrite E1; reflexivity).
      rewrite <- EX in LT', A1. split; [exact LT'|]. destruct (Hfb _ _ _ LT' A1) as (us2 & xs2 & _ & O2). destruct (G (S T) us2 xs2 LT' O2) as (G1 & G2).
      exists us2, xs2. split; [exact O2|]. split; [exact G1|]. split; [exact G2|]. cbn [sum_upto]. pose proof (proj1 (proj2 O2 _ _ A1)) as LE. unfold f at 2. unfold stage_cost in C1. lra. }
  assert (NN : forall t, 0 <= f t /\ in_poly D (X t ++ U t) /\ length (U t) = nu /\ forall us' xs', mpc_optimal (lA Sy) (lB Sy) Q Rm P nu N (in_poly D) (in_poly X_N) (X t) us' xs' -> 0 <= trajectory_cost Q Rm P us' xs').
  { intros t. destruct (INV t) as (LT & us' & xs' & OT & _ & E2 & _). destruct (optimal_decrease np Sy N Q Rm P D X_N K nx nu C (X t) us' xs' HS HL LT (proj1 OT)) as (H1 & _ & H2 & H3 & _). rewrite <- E2 in H1, H2, H3.
    split; [exact H3|]. split; [exact H2|]. split; [exact H1|]. intros us2 xs2 O2. apply (optimal_decrease np Sy N Q Rm P D X_N K nx nu C (X t) us2 xs2 HS HL LT (proj1 O2)). }
  exists X, U. split; [reflexivity|]. split; [|split].
  - intros t. destruct (INV t) as (LT & us' & xs' & OT & E1 & E2 & _). split; [exact E1|]. split; [|apply (NN t)]. unfold X at 1. cbn [fb_state]. change (fb_state x t) with (X t). rewrite E1. reflexivity.
  - intros T. destruct (INV T) as (LT & us' & xs' & OT & E1 & E2 & HV). exists us', xs'. split; [exact OT|]. split; [exact E2|]. split; [apply (proj2 (proj2 (proj2 (NN T))) _ _ OT)|exact HV].
  - intros PQ eps He. destruct (form_domination np Hnp (eye nx) Q nx (shape_eye nx) SQ PQ) as (c & Hc & HcQ).
    destruct (summable_terms f V (fun t => proj1 (NN t))) with (eps := eps * eps / (2 * (c + 1))) as (T & HT).
    { intros T. destruct (INV T) as (_ & us' & xs' & OT & _ & _ & HV). pose proof (proj2 (proj2 (proj2 (NN T))) _ _ OT). lra. }
    { apply Rdiv_lt_0_compat; nra. }
    exists T. intros t Ht. specialize (HT t Ht). destruct (INV t) as (LT & _). destruct (NN t) as (_ & _ & LU & _).
    pose proof (HcQ (X t) LT) as G. rewrite (mv_eye nx) in G by exact LT. pose proof (proj2 (pd_psd _ _ PR) (U t) LU) as GU. unfold f in HT.
    assert (GD : dot (X t) (X t) < eps * eps).
    { assert (Q1 : dot (X t) (mv Q (X t)) < eps * eps / (c + 1)). { replace (eps * eps / (c + 1)) with (2 * (eps * eps / (2 * (c + 1)))) by (field; lra). lra. }
      pose proof (proj2 (pd_psd _ _ PQ) (X t) LT) as Q0. assert (Q2 : (c + 1) * (eps * eps / (c + 1)) = eps * eps) by (field; lra). nra. }
    unfold norm. rewrite <- (sqrt_square eps) by lra. apply sqrt_lt_1_alt. split; [apply dot_self_nonneg|exact GD].
Qed.
End Loop.

(*@ Theorem C78_agreement : Where the region found by the lookup contains x, feedforward_explicit and feedback_explicit return exactly what feedforward and feedback return, unless the on-line solver gives up (None), which it does only for optimal costs at least 5e13 above the unconstrained optimum. *)
Lemma explicit_agreement np S N Q Rm P D X_N nx nu C fuel step crs cr x : exact_np np -> mpc_data S N Q Rm P D X_N nx nu -> ModelPredictiveController np S N Q Rm P D X_N = Ok C ->
  store_explicit_solution np fuel step C = Ok crs -> length x = nx -> get_critical_region crs x = Ok (Some cr) -> in_poly (cr_poly cr) x ->
  (feedforward_explicit C (Some crs) x = feedforward np C x /\ feedback_explicit C (Some crs) x = feedback np C x) \/
  (feedforward np C x = Ok (None, None) /\ exists us xs us0 xs0, feedforward_explicit C (Some crs) x = Ok (Some us, Some (trajectory_cost Q Rm P us xs)) /\
     mpc_optimal (lA S) (lB S) Q Rm P nu N (in_poly D) (in_poly X_N) x us xs /\ mpc_optimal (lA S) (lB S) Q Rm P nu N (fun _ => True) (fun _ => True) x us0 xs0 /\
     trajectory_cost Q Rm P us0 xs0 + (10 ^ 14 - 1) / 2 <= trajectory_cost Q Rm P us xs).
Proof.
  intros Hnp HD E ES Lx Hg Hx. destruct (explicit_mpc np S N Q Rm P D X_N nx nu C fuel step crs x Hnp HD E ES Lx) as (_ & _ & H & _). destruct (H cr Hg Hx) as (us & xs & E1 & E2 & HO).
  destruct (mpc_none np S N Q Rm P D X_N nx nu C x Hnp HD E Lx) as (us0 & xs0 & O0 & [(F1 & _ & HF)|(us2 & xs2 & F1 & F2 & O2 & _)]).
  - right. split; [exact F1|]. exists us, xs, us0, xs0. split; [exact E1|]. split; [exact HO|]. split; [exact O0|]. specialize (HF us xs (proj1 HO)). unfold far in HF. lra.
  - left. destruct (proj2 HO _ _ (proj1 O2)) as (L1 & U1). destruct (proj2 O2 _ _ (proj1 HO)) as (L2 & _). assert (EU : us2 = us) by (apply U1; lra). subst us2. rewrite F1, F2, E1, E2. replace (trajectory_cost Q Rm P us xs2) with (trajectory_cost Q Rm P us xs) by lra. split; reflexivity.
Qed.
(*@ Theorem C78_explicit_loop_partial : If the explicit solution found contains every state with an admissible input sequence, then with P, K of solve_dare and an invariant terminal set the loop u = feedback_explicit(x), x+ = A x + B u runs forever from every such state, without failing and without limit on the cost: all pairs are in D, each input is the first one of the optimal sequence, the optimal costs decrease by the stage costs, and, if Q is positive definite, x(t) converges to the origin.
   Missing: the regions found need not cover the feasible states (C43_cover_refuted) and the lookup has a tolerance (C78_outside_refuted). *)
Lemma explicit_loop_runs np S N Q Rm P D X_N K nx nu C fuel step crs x us xs : mpc_setup np S N Q Rm P D X_N K nx nu C -> lqr_pair np S Q Rm P K nx nu ->
  store_explicit_solution np fuel step C = Ok crs ->
  (forall y us xs, length y = nx -> mpc_admissible (lA S) (lB S) nu N (in_poly D) (in_poly X_N) y us xs -> exists cr, get_critical_region crs y = Ok (Some cr) /\ in_poly (cr_poly cr) y) ->
  length x = nx -> mpc_admissible (lA S) (lB S) nu N (in_poly D) (in_poly X_N) x us xs ->
  exists X U : nat -> vec, X 0%nat = x /\
    (forall t, feedback_explicit C (Some crs) (X t) = Ok (Some (U t)) /\ X (Datatypes.S t) = linear_step (lA S) (lB S) (X t) (U t) /\ in_poly D (X t ++ U t)) /\
    (forall T, exists us' xs', mpc_optimal (lA S) (lB S) Q Rm P nu N (in_poly D) (in_poly X_N) (X T) us' xs' /\ U T = nth 0 us' [] /\ 0 <= trajectory_cost Q Rm P us' xs' /\
       trajectory_cost Q Rm P us' xs' + sum_upto (fun t => / 2 * (dot (X t) (mv Q (X t)) + dot (U t) (mv Rm (U t)))) T <= trajectory_cost Q Rm P us xs) /\
    (Spec.pd Q nx -> forall eps, 0 < eps -> exists T, forall t, (T <= t)%nat -> norm (X t) < eps).
Proof.
  intros HS HL ES HC Lx HA. pose proof HS as (Hnp & HD & E & _).
  assert (FB : forall y us xs, length y = nx -> mpc_admissible (lA S) (lB S) nu N (in_poly D) (in_poly X_N) y us xs ->
    exists us' xs', feedback_explicit C (Some crs) y = Ok (Some (nth 0 us' [])) /\ mpc_optimal (lA S) (lB S) Q Rm P nu N (in_poly D) (in_poly X_N) y us' xs').
  { intros y vs ys Ly Ay. destruct (HC y vs ys Ly Ay) as (cr & Hg & Hy). destruct (explicit_mpc np S N Q Rm P D X_N nx nu C fuel step crs y Hnp HD E ES Ly) as (_ & _ & H & _). destruct (H cr Hg Hy) as (us' & xs' & _ & E2 & HO). eauto. }
  destruct (FB x us xs Lx HA) as (us1 & xs1 & _ & O1). pose proof (proj1 (proj2 O1 _ _ HA)) as LE.
  destruct (optimal_loop np S N Q Rm P D X_N K nx nu C (feedback_explicit C (Some crs)) HS HL FB x us1 xs1 Lx O1) as (X & U & H1 & H2 & H3 & H4).
  exists X, U. split; [exact H1|]. split; [exact H2|]. split; [|exact H4]. intros T. destruct (H3 T) as (us' & xs' & G1 & G2 & G3 & G4). exists us', xs'. repeat (split; [assumption|]). lra.
Qed.

(** ** x+ = x + u, horizon one: one region *)
Definition ec_q Hi := MPQP (Mat 1 [[4]]) (Mat 1 [[2]]) (Mat 1 [[3]]) [0] [0] 0 (Mat 1 [[0]; [0]; [1]; [-1]; [1]; [-1]]) (Mat 1 [[1]; [-1]; [0]; [0]; [1]; [-1]]) [1; 1; 1; 1; 1; 1] Hi.
Lemma ec_ctor np : ModelPredictiveController np S_1 1 (Mat 1 [[1]]) (Mat 1 [[2]]) (Mat 1 [[2]]) D_box X_int = bind (np_inv np (Mat 1 [[4]])) (fun Hi => Ok (MPC S_1 1 (ec_q Hi))).
Proof.
  unfold ec_q.
  transitivity (bind (MultiParametricQuadraticProgram np (Mat 1 [[4]]) (Mat 1 [[2]]) (Mat 1 [[3]]) [0] [0] 0 (Mat 1 [[0]; [0]; [1]; [-1]; [1]; [-1]]) (Mat 1 [[1]; [-1]; [0]; [0]; [1]; [-1]]) [1; 1; 1; 1; 1; 1]) (fun q => Ok (MPC S_1 1 q))).
  2:{ unfold MultiParametricQuadraticProgram. destruct (np_inv np (Mat 1 [[4]])); reflexivity. }
  unfold ModelPredictiveController. f_equal.
  cbv -[Rplus Rmult Ropp Rminus IZR Rinv np_inv MultiParametricQuadraticProgram].
  f_equal; repeat (first [reflexivity | f_equal | lra]).
  all: try lra.
Qed.
Lemma ec_data : mp_data (Mat 1 [[4]]) (Mat 1 [[2]]) (Mat 1 [[3]]) [0] [0] (Mat 1 [[0]; [0]; [1]; [-1]; [1]; [-1]]) (Mat 1 [[1]; [-1]; [0]; [0]; [1]; [-1]]) [1; 1; 1; 1; 1; 1] 1 1 6.
Proof. unfold mp_data. repeat match goal with |- _ /\ _ => split end; try (apply scalar_shape); try reflexivity; try (repeat constructor; fail). apply scalar_pd. lra. Qed.
Definition ec_row : vec := [1; -1; - / 2; / 2; / 2; - / 2].
(** the rows of the region of the empty active set, where u = -x/2; rows 2 to 5 may be scaled by 2 *)
Definition ec_rows (p : poly) : Prop := wf p 6 0 1 /\ forall i, (i < 6)%nat -> exists s, (s = 1 \/ (2 <= i)%nat /\ s = 2) /\ row (pA p) i = [s * nth i ec_row 0] /\ nth i (pb p) 0 = s.
Lemma ec_free np Hi : exact_np np -> MpqpThms.coherent (ec_q Hi) 1 1 6 -> exists cr, explicit_solve_given_active_set np (ec_q Hi) [] = Ok (Some cr) /\ cr_active cr = [] /\
  p_empty (cr_poly cr) = None /\ ec_rows (cr_poly cr) /\ forall x, cr_u cr [x] = [- / 2 * x].
Proof.
  intros Hnp Hq. destruct (active_set_ok np (ec_q Hi) 1 1 6 [] Hnp Hq ltac:(intros i [])) as [(_ & cr & Er & RO)|(NI & _)].
  2:{ exfalso. apply NI. intros y Ly _. destruct y; [reflexivity|discriminate]. }
  exists cr. pose proof RO as (_ & EA & W & PE & H).
  assert (U0 : forall x, cr_u cr [x] = [- / 2 * x]).
  { intros x. destruct (H [x] eq_refl) as (Lu & Lp & St & _ & Ze & _). destruct (cr_u cr [x]) as [|u [|]]; try discriminate Lu. specialize (St [1] eq_refl).
    assert (Z : forall i, nth i (cr_p cr [x]) 0 = 0) by (intros i; apply Ze; intros []). destruct (cr_p cr [x]) as [|l0 [|l1 [|l2 [|l3 [|l4 [|l5 [|]]]]]]]; try discriminate Lp.
    pose proof (Z 0%nat). pose proof (Z 1%nat). pose proof (Z 2%nat). pose proof (Z 3%nat). pose proof (Z 4%nat). pose proof (Z 5%nat). cbn [nth] in *. subst. cbn in St. f_equal. lra. }
  split; [exact Er|]. split; [exact EA|]. split; [exact PE|]. split; [|exact U0]. split; [exact W|]. intros i Hi'.
  destruct (region_rows np (ec_q Hi) 1 1 6 [] cr i Hnp Hq Er Hi') as (_ & _ & s & Ps & Hs & HR).
  assert (Lri : length (row (pA (cr_poly cr)) i) = 1%nat). { destruct W as ((L & _ & F) & _). rewrite Forall_forall in F. apply F, nth_In. lia. }
  destruct (row (pA (cr_poly cr)) i) as [|a [|]] eqn:Erow; try discriminate Lri. rewrite norm1 in Hs.
  assert (K : a = s * nth i ec_row 0 /\ nth i (pb (cr_poly cr)) 0 = s * 1).
  { apply row_coeff. intros x. specialize (HR [x] eq_refl). rewrite U0 in HR. do 6 (destruct i as [|i]; [cbn in HR |- *; lra|]). lia. }
  destruct K as (-> & KB). exists s. split; [|split; [reflexivity|lra]].
  destruct Hs as [->|Hs]; [left; reflexivity|]. do 6 (destruct i as [|i]; [cbn [nth ec_row] in Hs; unfold Rabs in Hs; destruct (Rcase_abs _) in Hs; first [left; lra | right; split; [lia|lra]]|]). lia.
Qed.
Lemma ec_bound p i x : ec_rows p -> (i < 6)%nat -> -1 <= x <= 1 -> dot (row (pA p) i) [x] <= nth i (pb p) 0.
Proof.
  intros (_ & H) Hi Hx. destruct (H i Hi) as (s & Hs & -> & ->). do 6 (destruct i as [|i]; [cbn; destruct Hs as [->|(_ & ->)]; lra|]). lia.
Qed.
Lemma ec_facets np p : exact_np np -> ec_rows p -> p_empty p = None -> exists p', minimal_facets np tol7 p = (Ok (Some [0%nat; 1%nat]), p').
Proof.
  intros Hnp HR PE. pose proof HR as (W & H).
  assert (EQ : forall x, eq_holds (pC p) (pd p) x). { intros x. destruct W as (_ & _ & (L & _) & L'). unfold eq_holds. destruct (rows (pC p)); [|discriminate L]. destruct (pd p); [constructor|discriminate L']. }
  assert (NC : ncols (pA p) = 1%nat) by apply W.
  destruct (minimal_facets_ok np p 6 0 1 tol7 Hnp W ltac:(unfold tol7; lra) (or_introl eq_refl) ltac:(rewrite PE; discriminate)) as (mf & p1 & E & _ & Hr & (kp & Hk) & Hw).
  { exists [0]. split; [|unfold near; cbn; unfold tol7; lra]. apply (sat_all p 6 0 1 [0] W). split; [cbn; lia|]. split; [apply EQ|]. intros j Hj. apply in_seq in Hj. apply ec_bound; [exact HR|lia|lra]. }
  assert (KEEP : forall S S', removal p tol7 S S' -> incl S (seq 0 6) -> forall k, (k < 2)%nat -> In k S -> In k S').
  { intros S S' R. induction R as [S|i S S' Hi Hs R IH]; intros HI k Hk' HS; [exact HS|]. apply IH; [|exact Hk'|].
    - intros j Hj. apply in_remove in Hj. apply HI, Hj.
    - apply in_in_remove; [|exact HS]. intros <-. set (z := nth k [3 / 2; - (3 / 2)] 0). specialize (Hs [z]).
      assert (SS : sat p (remove Nat.eq_dec k S) [z]).
      { split; [cbn; lia|]. split; [apply EQ|]. intros j Hj. apply in_remove in Hj. destruct Hj as (Hj & NE). apply HI, in_seq in Hj. destruct (H j ltac:(lia)) as (s & Hs' & -> & ->). unfold z.
        destruct k as [|[|]]; [| |lia]; do 6 (destruct j as [|j]; [try (exfalso; apply NE; reflexivity); cbn; destruct Hs' as [->|(_ & ->)]; lra|]); lia. }
      specialize (Hs SS). destruct (H k ltac:(lia)) as (s & [->|(L2 & _)] & E1 & E2); [|lia]. rewrite E1, E2 in Hs. unfold z in Hs. destruct k as [|[|]]; [| |lia]; cbn in Hs; unfold tol7 in Hs; lra. }
  specialize (KEEP _ _ Hr ltac:(intros j Hj; exact Hj)). pose proof (KEEP 0%nat ltac:(lia) ltac:(apply in_seq; lia)) as Z0. pose proof (KEEP 1%nat ltac:(lia) ltac:(apply in_seq; lia)) as Z1.
  assert (O : forall i, (2 <= i < 6)%nat -> ~ In i mf).
  { intros i Hi H1. destruct (Hw i H1) as (x & (Lx & _ & Hx) & V). rewrite NC in Lx. destruct x as [|x [|]]; try discriminate Lx.
    pose proof (Hx 0%nat ltac:(apply in_in_remove; [lia|exact Z0])) as X0. pose proof (Hx 1%nat ltac:(apply in_in_remove; [lia|exact Z1])) as X1.
    destruct (H 0%nat ltac:(lia)) as (s0 & [->|(L0 & _)] & E0 & B0); [|lia]. destruct (H 1%nat ltac:(lia)) as (s1 & [->|(L1 & _)] & E1 & B1); [|lia]. rewrite E0, B0 in X0. rewrite E1, B1 in X1. cbn in X0, X1.
    pose proof (ec_bound p i x HR ltac:(lia) ltac:(lra)). unfold tol7 in V. lra. }
  exists p1. rewrite E. do 3 f_equal. rewrite Hk in Z0, Z1, O |- *. apply filter_In in Z0. apply filter_In in Z1. cbn [seq filter]. rewrite (proj2 Z0), (proj2 Z1).
  assert (F : forall i, (2 <= i < 6)%nat -> kp i = false). { intros i Hi. destruct (kp i) eqn:Ek; [|reflexivity]. exfalso. apply (O i Hi), filter_In. split; [apply in_seq; lia|exact Ek]. }
  rewrite !F by lia. reflexivity.
Qed.
Lemma ec_outside np Hi x k : exact_np np -> MpqpThms.coherent (ec_q Hi) 1 1 6 -> (k < 2)%nat -> (x < -1 \/ 1 < x) -> explicit_solve_given_point np (ec_q Hi) [x] (Some [k]) = Ok None.
Proof.
  intros Hnp Hq Hk Hx. unfold explicit_solve_given_point.
  destruct (active_set_ok np (ec_q Hi) 1 1 6 [k] Hnp Hq ltac:(intros i [<-|[]]; lia)) as [(I & _)|(_ & ->)].
  - exfalso. specialize (I [1] eq_refl). assert (F : mv (tr (mtake (q_Au (ec_q Hi)) [k])) [1] = zeros 1) by (destruct k as [|[|]]; [| |lia]; cbn; f_equal; lra).
    cbn in I. first [specialize (I F) | idtac]. cbn in I. injection I as I. lra.
  - cbn [bind]. destruct (mpqp_solve_ok np (ec_q Hi) 1 1 6 [x] [- / 2 * x] Hnp Hq eq_refl eq_refl) as (s & Es & [(-> & _)|(_ & u & l & _ & _ & ((Lu & Fu) & _) & _)]); [cbn; f_equal; lra| |].
    + rewrite Es. reflexivity.
    + exfalso. destruct u as [|u [|]]; try discriminate Lu. pose proof (Fu 0%nat ltac:(cbn; lia)) as F0. pose proof (Fu 1%nat ltac:(cbn; lia)) as F1. cbn in F0, F1. lra.
Qed.
Lemma ec_contains c x : ec_rows (cr_poly c) -> exists r, cr_contains c [x] = Ok r /\ (-1 - tol7 <= x <= 1 + tol7 -> r = true) /\ (r = true -> -1 - tol7 <= x <= 1 + tol7).
Proof.
  intros HR. pose proof HR as (W & H). destruct (cr_contains_ok c 6 1 [x] W ltac:(lia) eq_refl) as (r & Ec & Hr). exists r. split; [exact Ec|]. assert (Lb : length (pb (cr_poly c)) = 6%nat) by apply W. split.
  - intros Hx. apply Hr. intros i Hi. rewrite Lb in Hi. destruct (H i Hi) as (s & Hs & -> & ->). unfold tol7 in *. do 6 (destruct i as [|i]; [cbn; destruct Hs as [->|(Hl & ->)]; [lra|first [lia|lra]]|]). lia.
  - intros E. pose proof (proj1 Hr E 0%nat ltac:(lia)) as C0. pose proof (proj1 Hr E 1%nat ltac:(lia)) as C1.
    destruct (H 0%nat ltac:(lia)) as (s0 & [->|(L0 & _)] & E0 & B0); [|lia]. destruct (H 1%nat ltac:(lia)) as (s1 & [->|(L1 & _)] & E1 & B1); [|lia]. rewrite E0, B0 in C0. rewrite E1, B1 in C1. cbn in C0, C1. lra.
Qed.
Lemma ec_explicit np Hi fuel : exact_np np -> MpqpThms.coherent (ec_q Hi) 1 1 6 -> exists c, explicit_solve np (4 + fuel) (/ 100000) (ec_q Hi) = Ok [c] /\ ec_rows (cr_poly c).
Proof.
  intros Hnp Hq. destruct (ec_free np Hi Hnp Hq) as (cr & Er & EA & PE & HR & _). destruct (ec_facets np (cr_poly cr) Hnp HR PE) as (p' & Em).
  pose proof (facets_fields np tol7 (cr_poly cr)) as F. rewrite Em in F. cbv zeta in F. cbn [snd] in F. destruct F as (F1 & F2 & F3 & F4).
  assert (HR' : ec_rows p'). { destruct HR as (W & H). split; [unfold wf; rewrite F1, F2, F3, F4; exact W|]. rewrite F1, F2. exact H. }
  set (c := CR (cr_active cr) (cr_ux cr) (cr_u0 cr) (cr_px cr) (cr_p0 cr) (cr_Vxx cr) (cr_Vx cr) (cr_V0 cr) p'). exists c. split; [|exact HR'].
  destruct (ec_contains cr 0 HR) as (r & C0 & Ct & _). rewrite Ct in C0 by (unfold tol7; lra).
  assert (NX : mapM (fun i => ctr <- facet_center np p' i ;; match ctr with None => Err TypeError | Some ctr => Ok (vadd ctr (vscale (/ 100000) (row (pA p') i)), flip (cr_active cr) i) end) [0%nat; 1%nat]
     = Ok [([1 + / 100000], [0%nat]); ([- (1 + / 100000)], [1%nat])]).
  { destruct HR' as (W & H). destruct (H 0%nat ltac:(lia)) as (s0 & [->|(L0 & _)] & E0 & B0); [|lia]. destruct (H 1%nat ltac:(lia)) as (s1 & [->|(L1 & _)] & E1 & B1); [|lia].
    cbn [mapM]. unfold facet_center. rewrite (proj1 (proj2 (proj1 W))). cbn [Nat.eqb bind]. rewrite E0, E1, B0, B1, EA. cbn. do 2 f_equal; [|f_equal]; do 2 f_equal; lra. }
  assert (UN : forall x, x = 1 + / 100000 \/ x = - (1 + / 100000) -> cr_contains c [x] = Ok false).
  { intros x Hx. destruct (ec_contains c x HR') as (r' & C' & _ & Cf). rewrite C'. destruct r'; [|reflexivity]. specialize (Cf eq_refl). unfold tol7 in Cf. lra. }
  assert (CV : forall x, x = 1 + / 100000 \/ x = - (1 + / 100000) -> covered [c] [x] = Ok false) by (intros x Hx; unfold covered; cbn [mapM]; rewrite UN by exact Hx; reflexivity).
  set (b1 := ([1 + / 100000], [0%nat])) in *. set (b2 := ([- (1 + / 100000)], [1%nat])) in *.
  assert (L4 : explicit_loop np (S fuel) (/ 100000) (ec_q Hi) [] [c] = Ok [c]) by reflexivity.
  assert (L3 : explicit_loop np (S (S fuel)) (/ 100000) (ec_q Hi) [b2] [c] = Ok [c]).
  { remember (S fuel) as f1. cbn [explicit_loop uncovered]. unfold b2. cbn [fst]. rewrite CV by auto. cbn [bind]. rewrite (ec_outside np Hi _ 1) by (auto; lra). cbn [bind]. exact L4. }
  assert (L2 : explicit_loop np (S (S (S fuel))) (/ 100000) (ec_q Hi) [b1; b2] [c] = Ok [c]).
  { remember (S (S fuel)) as f2. cbn [explicit_loop uncovered]. unfold b1 at 1, b2 at 1. cbn [fst]. rewrite !CV by auto. cbn [bind]. unfold b1. rewrite (ec_outside np Hi _ 0) by (auto; lra). cbn [bind]. exact L3. }
  unfold explicit_solve. change (zeros (length (q_fx (ec_q Hi)))) with [0]. change (4 + fuel)%nat with (S (S (S (S fuel)))). remember (S (S (S fuel))) as f3.
  cbn [explicit_loop uncovered fst covered mapM bind existsb]. unfold explicit_solve_given_point. rewrite Er. cbn [bind]. rewrite C0. cbn [bind]. rewrite Em, NX. cbn [bind app]. exact L2.
Qed.
(*@ Example C78_example : x+ = x + u with Q = 1, R = 2, P = 2 and K = -1/2 from solve_dare, |x| <= 1, |u| <= 1, terminal set |x| <= 1: explicit_solve returns one region, which contains every feasible state; at x = 1 both controllers return u = -1/2. *)
Lemma explicit_loop_example : let np := np_dare_const (Mat 1 [[2]]) in exists C c,
  mpc_setup np S_1 1 (Mat 1 [[1]]) (Mat 1 [[2]]) (Mat 1 [[2]]) D_box X_int (Mat 1 [[- (1 / 2)]]) 1 1 C /\
  lqr_pair np S_1 (Mat 1 [[1]]) (Mat 1 [[2]]) (Mat 1 [[2]]) (Mat 1 [[- (1 / 2)]]) 1 1 /\ Spec.pd (Mat 1 [[1]]) 1 /\
  store_explicit_solution np 4 (/ 100000) C = Ok [c] /\
  (forall y us xs, length y = 1%nat -> mpc_admissible (lA S_1) (lB S_1) 1 1 (in_poly D_box) (in_poly X_int) y us xs -> get_critical_region [c] y = Ok (Some c) /\ in_poly (cr_poly c) y) /\
  mpc_admissible (lA S_1) (lB S_1) 1 1 (in_poly D_box) (in_poly X_int) [1] [[- (1 / 2)]] [[1]; [1 + - (1 / 2)]] /\
  feedback_explicit C (Some [c]) [1] = Ok (Some [- (1 / 2)]).
Proof.
  intros np. destruct closed_loop_example as (C & HS & HL & PQ & FF & _). fold np in HS, HL, FF. pose proof HS as (Hnp & HD & E & _).
  pose proof E as EC. rewrite ec_ctor in EC. destruct (np_inv np (Mat 1 [[4]])) as [Hi|] eqn:EI; [|discriminate EC]. cbn [bind] in EC. injection EC as EC.
  assert (EM : MultiParametricQuadraticProgram np (Mat 1 [[4]]) (Mat 1 [[2]]) (Mat 1 [[3]]) [0] [0] 0 (Mat 1 [[0]; [0]; [1]; [-1]; [1]; [-1]]) (Mat 1 [[1]; [-1]; [0]; [0]; [1]; [-1]]) [1; 1; 1; 1; 1; 1] = Ok (ec_q Hi)) by (unfold MultiParametricQuadraticProgram; rewrite EI; reflexivity).
  destruct (constructed _ _ _ _ _ _ _ _ _ _ _ _ _ _ Hnp ec_data EM) as (Hq & _). destruct (ec_explicit np Hi 0 Hnp Hq) as (c & ES & HR). exists C, c.
  assert (ES' : store_explicit_solution np 4 (/ 100000) C = Ok [c]) by (unfold store_explicit_solution; rewrite <- EC; exact ES).
  assert (LOC : forall y us xs, length y = 1%nat -> mpc_admissible (lA S_1) (lB S_1) 1 1 (in_poly D_box) (in_poly X_int) y us xs -> get_critical_region [c] y = Ok (Some c) /\ in_poly (cr_poly c) y).
  { intros y us xs Ly Ay. destruct y as [|y [|]]; try discriminate Ly. apply one_step_admissible in Ay. destruct Ay as (u & _ & _ & B & _). apply in_D_box in B. split.
    - cbn [get_critical_region]. destruct (ec_contains c y HR) as (r & -> & Ct & _). rewrite Ct by (unfold tol7; lra). reflexivity.
    - pose proof HR as (W & _). apply (sat_all _ 6 0 1 [y] W). split; [rewrite (proj1 (proj2 (proj1 W))); reflexivity|]. split.
      + destruct W as (_ & _ & (L & _) & L'). unfold eq_holds. destruct (rows (pC (cr_poly c))); [|discriminate L]. destruct (pd (cr_poly c)); [constructor|discriminate L'].
      + intros j Hj. apply in_seq in Hj. apply ec_bound; [exact HR|lia|lra]. }
  assert (ADM : mpc_admissible (lA S_1) (lB S_1) 1 1 (in_poly D_box) (in_poly X_int) [1] [[- (1 / 2)]] [[1]; [1 + - (1 / 2)]]).
  { apply one_step_admissible. eexists. split; [reflexivity|]. split; [reflexivity|]. split; [apply in_D_box; lra|apply in_X_int; lra]. }
  repeat (split; [assumption|]). destruct (LOC [1] _ _ eq_refl ADM) as (G1 & G2).
  destruct (explicit_agreement np _ _ _ _ _ _ _ _ _ C 4 (/ 100000) [c] c [1] Hnp HD E ES' eq_refl G1 G2) as [(_ & A)|(A & _)]; [|rewrite FF in A; discriminate A].
  rewrite A. unfold feedback. rewrite FF. reflexivity.
Qed.
(*@ Theorem C78_outside_refuted : Without the region containing x the controllers disagree: for the system of the example and x = 1 + 5e-8 (infeasible: |x| <= 1 is violated) the lookup still finds the region, within its tolerance 1e-7, and feedback_explicit returns an input, while feedback returns None. *)
Lemma explicit_outside_refuted : exists S Q Rm P D X_N x, mpc_data S 1 Q Rm P D X_N 1 1 /\ (forall us xs, ~ mpc_admissible (lA S) (lB S) 1 1 (in_poly D) (in_poly X_N) x us xs) /\
  forall np fuel, exact_np np -> exists C crs u, ModelPredictiveController np S 1 Q Rm P D X_N = Ok C /\ store_explicit_solution np (4 + fuel) (/ 100000) C = Ok crs /\
    feedback_explicit C (Some crs) x = Ok (Some u) /\ feedback np C x = Ok None.
Proof.
  set (x := 1 + 5 / 100000000).
  assert (HD : mpc_data S_1 1 (Mat 1 [[1]]) (Mat 1 [[2]]) (Mat 1 [[2]]) D_box X_int 1 1) by (apply mpc_data_1; [exact wf_D_box|exact wf_X_int|lra|lra|lra]).
  assert (NA : forall us xs, ~ mpc_admissible (lA S_1) (lB S_1) 1 1 (in_poly D_box) (in_poly X_int) [x] us xs).
  { intros us xs HA. apply one_step_admissible in HA. destruct HA as (u & _ & _ & B & _). apply in_D_box in B. unfold x in B. lra. }
  exists S_1, (Mat 1 [[1]]), (Mat 1 [[2]]), (Mat 1 [[2]]), D_box, X_int, [x]. split; [exact HD|]. split; [exact NA|]. intros np fuel Hnp.
  destruct (mpc_program np _ _ _ _ _ _ _ _ _ Hnp HD) as (q & m & E & _). exists (MPC S_1 1 q).
  pose proof E as EC. rewrite ec_ctor in EC. destruct (np_inv np (Mat 1 [[4]])) as [Hi|] eqn:EI; [|discriminate EC]. cbn [bind] in EC. injection EC as EC.
  assert (EM : MultiParametricQuadraticProgram np (Mat 1 [[4]]) (Mat 1 [[2]]) (Mat 1 [[3]]) [0] [0] 0 (Mat 1 [[0]; [0]; [1]; [-1]; [1]; [-1]]) (Mat 1 [[1]; [-1]; [0]; [0]; [1]; [-1]]) [1; 1; 1; 1; 1; 1] = Ok (ec_q Hi)) by (unfold MultiParametricQuadraticProgram; rewrite EI; reflexivity).
  destruct (constructed _ _ _ _ _ _ _ _ _ _ _ _ _ _ Hnp ec_data EM) as (Hq & _). destruct (ec_explicit np Hi fuel Hnp Hq) as (c & ES & HR). exists [c].
  exists (slice 0 1 (cr_u c [x])). split; [exact E|]. split; [unfold store_explicit_solution; cbn [c_mpqp]; rewrite <- EC; exact ES|]. split.
  - unfold feedback_explicit, feedforward_explicit, es_u, es_V, es_eval. cbn [get_critical_region]. destruct (ec_contains c x HR) as (r & -> & Ct & _). rewrite Ct by (unfold x, tol7; lra). reflexivity.
  - destruct (mpc_none np _ _ _ _ _ _ _ _ _ _ [x] Hnp HD E eq_refl) as (us0 & xs0 & _ & [(F1 & F2 & _)|(us2 & xs2 & _ & _ & O2 & _)]); [exact F2|exfalso; exact (NA _ _ (proj1 O2))].
Qed.
