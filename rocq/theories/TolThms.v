(** * TolThms: what the tolerance of the lookup costs: the explicit solution near the borders of its regions (C42), proofs *)
From Coq Require Import ZArith Classical.
From Verif Require Import Arr ArrFacts Spec SpecMpc Numpy Pnnls PnnlsFacts QpFacts GeomUtils Polyhedron PolyThms Oracle SolverThms NullFacts PolySolveThms PolyMore GeomThms SpecDyn Dynamics DynThms CondenseThms LqrThms Mpqp MpqpThms NeighThms CtrlThms.

(** L bounds the variation of f per unit of distance *)
Definition lipschitz (n : nat) (L : R) (f : vec -> R) : Prop := forall y z, length y = n -> length z = n -> f y - f z <= L * norm (vsub y z).

Lemma lipschitz_neg n L f : lipschitz n L f -> lipschitz n L (fun y => - f y).
Proof.
  intros H y z Ly Lz. specialize (H z y Lz Ly). replace (vsub z y) with (vneg (vsub y z)) in H. { rewrite norm_vneg in H. lra. }
  apply vec_ext; [len|]. intros i Hi. rewrite nth_vneg. rewrite !nth_vsub by lia. ring.
Qed.
Lemma row_slope (a : vec) b s L (f : vec -> R) n : length a = n -> norm a = 1 -> 0 < s -> (forall x, length x = n -> dot a x - b = s * f x) -> lipschitz n L f -> 1 <= s * L.
Proof.
  intros La Na Hs E HL. specialize (HL a (zeros n) La (zeros_length n)). pose proof (E a La) as E1. pose proof (E (zeros n) (zeros_length n)) as E2. rewrite dot_zeros_r in E2.
  rewrite <- norm_sqr, Na in E1. assert (V : vsub a (zeros n) = a) by (apply vec_ext; [len|]; intros i Hi; rewrite nth_vsub by len; rewrite nth_zeros; ring). rewrite V, Na in HL. nra.
Qed.
Lemma row_bound (a : vec) b s L (f : vec -> R) n x : length a = n -> (s = 1 \/ norm a = 1) -> 0 < s -> (forall x, length x = n -> dot a x - b = s * f x) -> lipschitz n L f -> length x = n ->
  dot a x <= b + tol7 -> f x <= tol7 * Rmax 1 L.
Proof.
  intros La Na Hs E HL Lx Hx. specialize (E x Lx) as Ex. assert (T : 0 < tol7) by (unfold tol7; lra). pose proof (Rmax_l 1 L) as M1. pose proof (Rmax_r 1 L) as M2. destruct Na as [ -> |Na]; [nra|].
  pose proof (row_slope a b s L f n La Na Hs E HL) as K.
  apply Rmult_le_reg_l with s; [exact Hs|]. apply Rle_trans with tol7; [lra|]. assert (s * L <= s * Rmax 1 L) by (apply Rmult_le_compat_l; lra). replace (s * (tol7 * Rmax 1 L)) with (tol7 * (s * Rmax 1 L)) by ring. rewrite <- (Rmult_1_r tol7) at 1. apply Rmult_le_compat_l; lra.
Qed.

Lemma facet_onto act m c : (forall i, In i act -> (i < m)%nat) -> NoDup act -> (c < m)%nat -> exists i, (i < m)%nat /\ facet_constraint act m i = c.
Proof.
  intros Hact ND Hc. set (ina := filter (fun j => negb (existsb (Nat.eqb j) act)) (seq 0 m)).
  assert (Iina : forall j, In j ina <-> (j < m)%nat /\ ~ In j act).
  { intros j. unfold ina. rewrite filter_In, in_seq, Bool.negb_true_iff. rewrite <- existsb_In. split; intros (P1 & P2); split; try lia; destruct (existsb (Nat.eqb j) act); congruence. }
  assert (I : In c (act ++ ina)). { apply in_or_app. destruct (in_dec Nat.eq_dec c act); [left; assumption|right; apply Iina; auto]. }
  destruct (In_nth _ _ 0%nat I) as (i & Hi & E). exists i. split; [|exact E]. eapply Nat.lt_le_trans; [exact Hi|]. rewrite <- (seq_length m 0). apply NoDup_incl_length.
  - apply NoDup_app_disj; [exact ND|apply NoDup_filter, seq_NoDup|]. intros j Hj Hj'. apply Iina in Hj'. tauto.
  - intros j Hj. apply in_seq. apply in_app_or in Hj. destruct Hj as [Hj|Hj]; [apply Hact in Hj; lia|apply Iina in Hj; lia].
Qed.

Lemma dot_sum u v n : length u = n -> length v = n -> dot u v = sum_upto (fun i => nth i u 0 * nth i v 0) n.
Proof.
  revert v n. induction u as [|a u IH]; intros [|c v] n Lu Lv; cbn in Lu, Lv; subst n; try discriminate Lv; [reflexivity|].
  rewrite sum_upto_first. cbn [dot nth]. rewrite (IH v (length u) eq_refl ltac:(lia)). reflexivity.
Qed.

Lemma list_choice (P : nat -> R -> Prop) m : (forall i, (i < m)%nat -> exists L, P i L) -> exists l, forall i, (i < m)%nat -> P i (nth i l 0).
Proof.
  revert P. induction m as [|m IH]; intros P H; [exists []; intros; lia|]. destruct (H 0%nat ltac:(lia)) as (a & Ha). destruct (IH (fun i => P (S i))) as (l & Hl); [intros i Hi; apply H; lia|].
  exists (a :: l). intros [|i] Hi; [exact Ha|]. apply Hl. lia.
Qed.

(** the region of one active set *)
Lemma region_tolerance np q nu nx m act cr x : exact_np np -> coherent q nu nx m -> explicit_solve_given_active_set np q act = Ok (Some cr) -> length x = nx -> within tol7 (cr_poly cr) x ->
  (forall i, In i act -> (i < m)%nat) /\
  (forall i, In i act -> dot (row (q_Au q) i) (cr_u cr x) + dot (row (q_Ax q) i) x = nth i (q_b q) 0 /\
     forall L, lipschitz nx L (fun y => nth i (cr_p cr y) 0) -> - (tol7 * Rmax 1 L) <= nth i (cr_p cr x) 0) /\
  (forall i, (i < m)%nat -> ~ In i act -> nth i (cr_p cr x) 0 = 0 /\
     forall L, lipschitz nx L (fun y => dot (row (q_Au q) i) (cr_u cr y) + dot (row (q_Ax q) i) y - nth i (q_b q) 0) ->
       dot (row (q_Au q) i) (cr_u cr x) + dot (row (q_Ax q) i) x <= nth i (q_b q) 0 + tol7 * Rmax 1 L) /\
  length (cr_u cr x) = nu /\ length (cr_p cr x) = m /\ cr_V cr x = q_cost q x (cr_u cr x) /\
  forall Ls v, (forall i, In i act -> lipschitz nx (nth i Ls 0) (fun y => nth i (cr_p cr y) 0)) -> q_feasible q x v ->
    q_cost q x (cr_u cr x) <= q_cost q x v + tol7 * sum_upto (fun i => Rmax 1 (nth i Ls 0) * (nth i (q_b q) 0 - dot (row (q_Au q) i) v - dot (row (q_Ax q) i) x)) m.
Proof.
  intros Hnp Hq E Lx Hin. destruct (some_region np q nu nx m act cr Hnp Hq E) as (Hact & Ind & (ND & _ & W & _ & HX)).
  destruct (HX x Lx) as (Lu & Lp & St & Eqa & Zp & EV & _).
  assert (RL : forall i, (i < m)%nat -> length (row (pA (cr_poly cr)) i) = nx) by (intros i Hi; apply (shape_row _ m nx); [apply W|exact Hi]).
  assert (RI : forall i, (i < m)%nat -> dot (row (pA (cr_poly cr)) i) x <= nth i (pb (cr_poly cr)) 0 + tol7) by (intros i Hi; apply Hin; rewrite (proj1 (proj2 W)); exact Hi).
  assert (P1 : forall i L, In i act -> lipschitz nx L (fun y => nth i (cr_p cr y) 0) -> - (tol7 * Rmax 1 L) <= nth i (cr_p cr x) 0).
  { intros c L Hc HL. destruct (facet_onto act m c Hact ND (Hact c Hc)) as (i & Hi & Ec). destruct (region_rows np q nu nx m act cr i Hnp Hq E Hi) as (_ & C2 & s & Hs & Hs1 & ES). rewrite Ec in *.
    assert (Q : (i <? length act)%nat = true) by (apply Nat.ltb_lt, C2, Hc). rewrite Q in ES.
    pose proof (row_bound _ _ s L (fun y => - nth c (cr_p cr y) 0) nx x (RL i Hi) Hs1 Hs ES (lipschitz_neg _ _ _ HL) Lx (RI i Hi)) as B. cbv beta in B. lra. }
  split; [exact Hact|]. split; [intros i Hi; split; [apply Eqa, Hi|intros L HL; apply P1; assumption]|]. split.
  { intros c Hc Nc. split; [apply Zp, Nc|]. intros L HL. destruct (facet_onto act m c Hact ND Hc) as (i & Hi & Ec). destruct (region_rows np q nu nx m act cr i Hnp Hq E Hi) as (_ & C2 & s & Hs & Hs1 & ES). rewrite Ec in *.
    assert (Q : (i <? length act)%nat = false). { destruct (i <? length act)%nat eqn:Q; [|reflexivity]. apply Nat.ltb_lt in Q. exfalso. apply Nc, C2, Q. } rewrite Q in ES.
    pose proof (row_bound _ _ s L _ nx x (RL i Hi) Hs1 Hs ES HL Lx (RI i Hi)) as B. cbv beta in B. lra. }
  split; [exact Lu|]. split; [exact Lp|]. split; [exact EV|]. intros Ls v HL Hv.
  pose proof Hq as (H1 & PD & H2 & H3 & L1 & L2 & H4 & H5 & L3 & _).
  assert (Lv : length v = nu) by (destruct Hv as (Q & _); rewrite Q; apply H4).
  rewrite !(q_cost_split q nu nx m) by auto. assert (L4 : length (mv (q_Hux q) x) = nu) by (rewrite mv_length; apply H2). assert (L6 : length (mv (q_Huu q) (cr_u cr x)) = nu) by (rewrite mv_length; apply H1).
  rewrite (qp_expand (q_Huu q) (vadd (mv (q_Hux q) x) (q_fu q)) nu (cr_u cr x) v) by (auto; try apply (pd_psd _ _ PD); len).
  assert (Ld : length (vsub v (cr_u cr x)) = nu) by len. pose proof (proj2 (pd_psd _ _ PD) _ Ld) as PS. specialize (St _ Ld).
  rewrite !dot_vadd_l by len. assert (LA : forall w, length (mv (q_Au q) w) = m) by (intros; rewrite mv_length; apply H4).
  rewrite (mv_vsub (q_Au q) m nu) in St by auto. assert (LAd : length (vsub (mv (q_Au q) v) (mv (q_Au q) (cr_u cr x))) = m) by (rewrite vsub_length, !LA; apply Nat.min_id). rewrite (dot_sum (cr_p cr x) _ m Lp LAd) in St. rewrite <- sum_upto_scale.
  assert (S : - sum_upto (fun i => nth i (cr_p cr x) 0 * nth i (vsub (mv (q_Au q) v) (mv (q_Au q) (cr_u cr x))) 0) m + sum_upto (fun i => tol7 * (Rmax 1 (nth i Ls 0) * (nth i (q_b q) 0 - dot (row (q_Au q) i) v - dot (row (q_Ax q) i) x))) m >= 0); [|lra].
  replace (- sum_upto (fun i => nth i (cr_p cr x) 0 * nth i (vsub (mv (q_Au q) v) (mv (q_Au q) (cr_u cr x))) 0) m) with (sum_upto (fun i => -1 * (nth i (cr_p cr x) 0 * nth i (vsub (mv (q_Au q) v) (mv (q_Au q) (cr_u cr x))) 0)) m) by (rewrite sum_upto_scale; ring).
  rewrite <- sum_upto_plus. apply Rle_ge, sum_upto_nonneg. intros i Hi. rewrite nth_vsub by (rewrite !LA; reflexivity). rewrite !nth_mv. fold (row (q_Au q) i).
  destruct Hv as (_ & Hv). specialize (Hv i ltac:(rewrite L3; exact Hi)). assert (T : 0 < tol7) by (unfold tol7; lra). pose proof (Rmax_l 1 (nth i Ls 0)) as M1.
  destruct (in_dec Nat.eq_dec i act) as [Ia|Ia].
  - specialize (P1 i _ Ia (HL i Ia)). specialize (Eqa i Ia). set (k := Rmax 1 (nth i Ls 0)) in *. set (sl := nth i (q_b q) 0 - dot (row (q_Au q) i) v - dot (row (q_Ax q) i) x) in *. assert (0 <= sl) by (unfold sl; lra).
    replace (dot (row (q_Au q) i) v - dot (row (q_Au q) i) (cr_u cr x)) with (- sl) by (unfold sl; lra). nra.
  - rewrite (Zp i Ia). set (k := Rmax 1 (nth i Ls 0)) in *. set (sl := nth i (q_b q) 0 - dot (row (q_Au q) i) v - dot (row (q_Ax q) i) x) in *. assert (0 <= sl) by (unfold sl; lra). assert (0 <= tol7 * (k * sl)) by (apply Rmult_le_pos; [lra|apply Rmult_le_pos; lra]). lra.
Qed.

(*@ Theorem C42_tolerance_bound : Wherever the lookup answers, also outside the region found, the answer is optimal up to the tolerance 1e-7: its active constraints hold with equality, the others are violated by at most 1e-7 (times the Lipschitz constant of their value along u(x), if larger than 1), the multipliers of active constraints are at least -1e-7 (times their Lipschitz constant), V(x) is the cost of u(x), and this cost exceeds the cost of any feasible v by at most 1e-7 times the sum of the slacks of v (weighted by the Lipschitz constants). *)
Lemma lookup_tolerance np Huu Hux Hxx fu fx g Au Ax b nu nx m q fuel step crs cr x :
  exact_np np -> mp_data Huu Hux Hxx fu fx Au Ax b nu nx m ->
  MultiParametricQuadraticProgram np Huu Hux Hxx fu fx g Au Ax b = Ok q ->
  explicit_solve np fuel step q = Ok crs -> length x = nx -> get_critical_region crs x = Ok (Some cr) ->
  exists act, (forall i, In i act -> (i < m)%nat) /\
  (forall i, In i act -> dot (row Au i) (cr_u cr x) + dot (row Ax i) x = nth i b 0 /\
     forall L, lipschitz nx L (fun y => nth i (cr_p cr y) 0) -> - (tol7 * Rmax 1 L) <= nth i (cr_p cr x) 0) /\
  (forall i, (i < m)%nat -> ~ In i act -> nth i (cr_p cr x) 0 = 0 /\
     forall L, lipschitz nx L (fun y => dot (row Au i) (cr_u cr y) + dot (row Ax i) y - nth i b 0) ->
       dot (row Au i) (cr_u cr x) + dot (row Ax i) x <= nth i b 0 + tol7 * Rmax 1 L) /\
  length (cr_u cr x) = nu /\ length (cr_p cr x) = m /\ cr_V cr x = mp_cost Huu Hux Hxx fu fx g x (cr_u cr x) /\
  forall Ls v, (forall i, In i act -> lipschitz nx (nth i Ls 0) (fun y => nth i (cr_p cr y) 0)) -> mp_feasible Au Ax b x v ->
    mp_cost Huu Hux Hxx fu fx g x (cr_u cr x) <= mp_cost Huu Hux Hxx fu fx g x v + tol7 * sum_upto (fun i => Rmax 1 (nth i Ls 0) * (nth i b 0 - dot (row Au i) v - dot (row Ax i) x)) m.
Proof.
  intros Hnp D E1 E2 Lx Hg. destruct (constructed _ _ _ _ _ _ _ _ _ _ _ _ _ _ Hnp D E1) as (Hq & Hi & Eq).
  assert (F : Forall (fun c' => exists act c, explicit_solve_given_active_set np q act = Ok (Some c) /\ same_region c c') crs).
  { apply (loop_sound np q _ fuel step) with (3 := E2); [|constructor]. intros act c c' Ea Hs. eauto. }
  assert (FW : Forall (fun c' => wf (cr_poly c') m 0 nx) crs).
  { eapply Forall_impl; [|exact F]. intros c' (act & c & Ea & (_ & _ & _ & F1 & F2 & F3 & F4)). destruct (some_region np q nu nx m act c Hnp Hq Ea) as (_ & _ & (_ & _ & W & _)). unfold wf in *. rewrite F1, F2, F3, F4. exact W. }
  assert (Hm : (0 < m)%nat).
  { destruct m; [|lia]. exfalso. destruct crs as [|c crs]; [discriminate Hg|]. cbn [get_critical_region] in Hg. unfold cr_contains in Hg. rewrite (contains_raises (cr_poly c) 0 nx x tol7 (Forall_inv FW) Lx) in Hg. discriminate Hg. }
  destruct (lookup_split crs nx x ltac:(eapply Forall_impl; [|exact FW]; intros c' W; exists m; auto) Lx) as [(pre & c0 & post & Ecrs & Hin & _ & Hg')|(_ & Hg')]; rewrite Hg' in Hg; [injection Hg as ->|discriminate].
  assert (Icr : In cr crs) by (rewrite Ecrs; apply in_or_app; right; left; reflexivity).
  rewrite Forall_forall in F. destruct (F cr Icr) as (act & c & Ea & Hs). exists act.
  pose proof Hs as (S1 & S2 & S3 & S4 & S5 & _). assert (Hin' : within tol7 (cr_poly c) x) by (unfold within in *; rewrite S4, S5 in Hin; exact Hin).
  pose proof (region_tolerance np q nu nx m act c x Hnp Hq Ea Lx Hin') as K. rewrite S1, S2, S3. subst q. exact K.
Qed.
(*@ Theorem C42_tolerance_constants : The Lipschitz constants of the previous theorem exist for every region: all multipliers and all constraint values are affine functions of the parameter. *)
Lemma tolerance_constants np Huu Hux Hxx fu fx g Au Ax b nu nx m q fuel step crs cr :
  exact_np np -> mp_data Huu Hux Hxx fu fx Au Ax b nu nx m ->
  MultiParametricQuadraticProgram np Huu Hux Hxx fu fx g Au Ax b = Ok q -> explicit_solve np fuel step q = Ok crs -> In cr crs ->
  exists Lp Lc, forall i, (i < m)%nat -> lipschitz nx (nth i Lp 0) (fun y => nth i (cr_p cr y) 0) /\
    lipschitz nx (nth i Lc 0) (fun y => dot (row Au i) (cr_u cr y) + dot (row Ax i) y - nth i b 0).
Proof.
  intros Hnp D E1 E2 Hin. destruct (constructed _ _ _ _ _ _ _ _ _ _ _ _ _ _ Hnp D E1) as (Hq & Hi & Eq).
  assert (F : Forall (fun c' => exists act c, explicit_solve_given_active_set np q act = Ok (Some c) /\ same_region c c') crs).
  { apply (loop_sound np q _ fuel step) with (3 := E2); [|constructor]. intros act c c' Ea Hs. eauto. }
  rewrite Forall_forall in F. destruct (F cr Hin) as (act & c & Ea & (S1 & S2 & _)).
  destruct (some_region np q nu nx m act c Hnp Hq Ea) as (Hact & Ind & (ND & _ & W & _ & HX)).
  assert (G : forall i, (i < m)%nat -> exists L, lipschitz nx L (if in_dec Nat.eq_dec i act then fun y => - nth i (cr_p c y) 0 else fun y => dot (row Au i) (cr_u c y) + dot (row Ax i) y - nth i b 0)).
  { intros j Hj. destruct (facet_onto act m j Hact ND Hj) as (i & Hi' & Ec). destruct (region_rows np q nu nx m act c i Hnp Hq Ea Hi') as (_ & C2 & s & Hs & _ & ES). rewrite Ec in *.
    set (r := row (pA (cr_poly c)) i) in *. exists (norm r / s). intros y z Ly Lz. pose proof (ES y Ly) as Ey. pose proof (ES z Lz) as Ez.
    assert (K : dot r y - dot r z <= norm r * norm (vsub y z)) by (rewrite <- dot_vsub_r by lia; apply dot_le_norm).
    assert (K2 : forall f : vec -> R, dot r y - nth i (pb (cr_poly c)) 0 = s * f y -> dot r z - nth i (pb (cr_poly c)) 0 = s * f z -> f y - f z <= norm r / s * norm (vsub y z)).
    { intros f Fy Fz. apply Rmult_le_reg_l with s; [exact Hs|]. replace (s * (norm r / s * norm (vsub y z))) with (norm r * norm (vsub y z)) by (field; lra). lra. }
    subst q. cbn [q_Au q_Ax q_b] in Ey, Ez. destruct (in_dec Nat.eq_dec j act) as [Ia|Ia].
    - assert (Q : (i <? length act)%nat = true) by (apply Nat.ltb_lt, C2, Ia). rewrite Q in Ey, Ez. apply (K2 (fun y => - nth j (cr_p c y) 0)); assumption.
    - assert (Q : (i <? length act)%nat = false). { destruct (i <? length act)%nat eqn:Q; [|reflexivity]. apply Nat.ltb_lt in Q. exfalso. apply Ia, C2, Q. } rewrite Q in Ey, Ez.
      apply (K2 (fun y => dot (row Au j) (cr_u c y) + dot (row Ax j) y - nth j b 0)); assumption. }
  assert (Z : forall f : vec -> R, (forall y, length y = nx -> f y = 0) -> lipschitz nx 0 f) by (intros f Hf y z Ly Lz; rewrite !Hf by assumption; lra).
  assert (GP : forall i, (i < m)%nat -> exists L, lipschitz nx L (fun y => nth i (cr_p c y) 0)).
  { intros i Hi'. destruct (G i Hi') as (L & HL). destruct (in_dec Nat.eq_dec i act) as [Ia|Ia].
    - exists L. apply lipschitz_neg in HL. intros y z Ly Lz. specialize (HL y z Ly Lz). lra.
    - exists 0. apply Z. intros y Ly. apply (HX y Ly). exact Ia. }
  assert (GC : forall i, (i < m)%nat -> exists L, lipschitz nx L (fun y => dot (row Au i) (cr_u c y) + dot (row Ax i) y - nth i b 0)).
  { intros i Hi'. destruct (G i Hi') as (L & HL). destruct (in_dec Nat.eq_dec i act) as [Ia|Ia].
    - exists 0. apply Z. intros y Ly. destruct (HX y Ly) as (_ & _ & _ & Q & _). specialize (Q i Ia). subst q. cbn [q_Au q_Ax q_b] in Q. lra.
    - exists L. exact HL. }
  rewrite S1, S2. destruct (list_choice _ m GP) as (Lp & HP). destruct (list_choice _ m GC) as (Lc & HC). exists Lp, Lc. intros i Hi'. split; [apply HP, Hi'|apply HC, Hi'].
Qed.
(*@ Example C42_tolerance_example : The program min 1/2 u^2 s.t. x <= u at x = 1e-8, where the lookup answers with the region of x <= 0 and the input 0, which violates the constraint by 1e-8. *)
Lemma tolerance_example np : exact_np np -> exists q crs cr,
  mp_data (Mat 1 [[1]]) (Mat 1 [[0]]) (Mat 1 [[0]]) [0] [0] (Mat 1 [[-1]]) (Mat 1 [[1]]) [0] 1 1 1 /\
  MultiParametricQuadraticProgram np (Mat 1 [[1]]) (Mat 1 [[0]]) (Mat 1 [[0]]) [0] [0] 0 (Mat 1 [[-1]]) (Mat 1 [[1]]) [0] = Ok q /\
  explicit_solve np 3 (/ 100000) q = Ok crs /\ get_critical_region crs [/ 100000000] = Ok (Some cr) /\ In cr crs /\ cr_u cr [/ 100000000] = [0] /\ ~ in_poly (cr_poly cr) [/ 100000000].
Proof.
  intros Hnp. destruct (ex_lookup np 0 (/ 100000) Hnp ltac:(unfold tol7; lra)) as (crs & E & _ & H). specialize (H (/ 100000000)). rewrite (proj2 (Rleb_true (/ 100000000) tol7)) in H by (unfold tol7; lra).
  unfold es_u, es_eval in H. destruct (get_critical_region crs [/ 100000000]) as [[cr|]|] eqn:Eg; cbn [bind] in H; try discriminate H. injection H as Hu.
  exists (ex_q ex_I), crs, cr. split; [exact ex_data|]. split; [apply ex_ctor; exact Hnp|]. split; [exact E|]. split; [exact Eg|].
  assert (Hin : In cr crs).
  { clear - Eg. revert Eg. induction crs as [|c crs IH]; cbn [get_critical_region]; [discriminate|]. destruct (cr_contains c _) as [[|]|]; cbn [bind]; [|intros H; right; auto|discriminate]. intros E. injection E as <-. left. reflexivity. }
  split; [exact Hin|]. split; [exact Hu|]. intros Q. destruct (explicit_sound np _ _ _ _ _ 0 _ _ _ 1 1 1 _ 3 (/ 100000) crs cr _ Hnp ex_data (ex_ctor np Hnp) E Hin Q) as (((_ & K) & _) & _).
  specialize (K 0%nat ltac:(cbn; lia)). rewrite Hu in K. cbn in K. lra.
Qed.
