(** * WorkThms: the design and run of examples/linear_mpc.ipynb (C70), proofs *)
From Coq Require Import ZArith Classical.
From Verif Require Import Arr ArrFacts Spec SpecMpc SpecProg Numpy Pnnls PnnlsFacts QpFacts GeomUtils Polyhedron PolyThms Oracle SolverThms NullFacts PolySolveThms PolyMore SpecDyn Dynamics DynThms CondenseThms LqrThms McaisThms Mpqp MpqpThms Controllers CtrlThms Workflow.

(** np.max(np.absolute(np.linalg.eig(A)[0])) is the modulus r of some eigenvalue r (c + i s) of A, with eigenvector v + i w *)
Definition eig_max_ok (np : numpy) (A : mat) (n : nat) : Prop :=
  exists v w c s, length v = n /\ length w = n /\ 0 < dot v v + dot w w /\ c * c + s * s = 1 /\
    let r := np_eig_max np A in 0 <= r /\
    mv A v = vscale r (vsub (vscale c v) (vscale s w)) /\ mv A w = vscale r (vadd (vscale s v) (vscale c w)).

Lemma eig_stable np A n : shape A n n -> eig_max_ok np A n ->
  (forall x, length x = n -> forall eps, 0 < eps -> exists T, forall t, (T <= t)%nat -> norm (flow A t x) <= eps) -> np_eig_max np A <= 1.
Proof.
  intros SA (v & w & c & s & Lv & Lw & NZ & CS & H) Conv. cbv zeta in H. set (r := np_eig_max np A) in *. destruct H as (R0 & Hv & Hw).
  destruct (Rle_lt_dec r 1) as [|R1]; [assumption|exfalso].
  set (a := fun t => flow A t v). set (b := fun t => flow A t w).
  assert (La : forall t, length (a t) = n) by (intros; apply (flow_length A n); assumption). assert (Lb : forall t, length (b t) = n) by (intros; apply (flow_length A n); assumption).
  assert (REL : forall t, mv A (a t) = vscale r (vsub (vscale c (a t)) (vscale s (b t))) /\ mv A (b t) = vscale r (vadd (vscale s (a t)) (vscale c (b t)))).
  { induction t as [|t (I1 & I2)]; [split; assumption|]. change (a (S t)) with (mv A (a t)). change (b (S t)) with (mv A (b t)).
    pose proof (La t) as L1. pose proof (Lb t) as L2. split.
    - rewrite I1 at 1. rewrite mv_vscale, (mv_vsub A n n), !mv_vscale by (first [exact SA|len]). reflexivity.
    - rewrite I2 at 1. rewrite mv_vscale, (mv_vadd A n n), !mv_vscale by (first [exact SA|len]). reflexivity. }
  assert (NRM : forall t, dot v v + dot w w <= dot (a t) (a t) + dot (b t) (b t)).
  { induction t as [|t IH]; [apply Rle_refl|]. destruct (REL t) as (I1 & I2). change (a (S t)) with (mv A (a t)). change (b (S t)) with (mv A (b t)). rewrite I1, I2.
    pose proof (La t) as L1. pose proof (Lb t) as L2. set (p := a t) in *. set (q := b t) in *.
    assert (E : dot (vscale r (vsub (vscale c p) (vscale s q))) (vscale r (vsub (vscale c p) (vscale s q))) + dot (vscale r (vadd (vscale s p) (vscale c q))) (vscale r (vadd (vscale s p) (vscale c q))) = r * r * ((c * c + s * s) * (dot p p + dot q q))).
    { repeat first [rewrite dot_vscale_l|rewrite dot_vscale_r|rewrite dot_vsub_l by len|rewrite dot_vsub_r by len|rewrite dot_vadd_l by len|rewrite dot_vadd_r by len]. rewrite (dot_comm q p). ring. }
    rewrite E, CS. pose proof (dot_self_nonneg p). pose proof (dot_self_nonneg q). assert (1 <= r * r) by nra. assert (0 <= (r * r - 1) * (dot p p + dot q q)) by (apply Rmult_le_pos; lra). lra. }
  set (m := dot v v + dot w w) in *. set (e := sqrt m / 2).
  assert (S0 : 0 < sqrt m) by (apply sqrt_lt_R0; exact NZ).
  destruct (Conv v Lv e ltac:(unfold e; lra)) as (T1 & H1). destruct (Conv w Lw e ltac:(unfold e; lra)) as (T2 & H2).
  specialize (H1 (T1 + T2)%nat ltac:(lia)). specialize (H2 (T1 + T2)%nat ltac:(lia)). specialize (NRM (T1 + T2)%nat). unfold a, b in NRM.
  set (p := flow A (T1 + T2) v) in *. set (q := flow A (T1 + T2) w) in *.
  pose proof (norm_nonneg p). pose proof (norm_nonneg q). pose proof (norm_sqr p) as Np. pose proof (norm_sqr q) as Nq.
  assert (SQ : sqrt m * sqrt m = m) by (apply sqrt_sqrt; lra). unfold e in *. nra.
Qed.

(** the closed loop of the LQR converges *)
Lemma lqr_flow_converges np S Q Rm P K nx nu : exact_np np -> shape (lA S) nx nx -> shape (lB S) nx nu -> shape Q nx nx -> shape Rm nu nu -> Spec.pd Rm nu -> Spec.pd Q nx -> lqr_pair np S Q Rm P K nx nu ->
  forall x, length x = nx -> forall eps, 0 < eps -> exists T, forall t, (T <= t)%nat -> norm (flow (A_closed S K) t x) <= eps.
Proof.
  intros Hnp SA SB SQ SR PR PQ HL x Lx eps He. destruct (lqr_identity np S Q Rm P K nx nu Hnp SA SB SQ SR PR HL) as (SK & PP & SP & M & PM & HI).
  set (X := fun t => flow (A_closed S K) t x). assert (SC : shape (A_closed S K) nx nx) by (unfold A_closed; eauto with shp).
  assert (LX : forall t, length (X t) = nx) by (intros; apply (flow_length _ nx); assumption).
  set (f := fun t => stage_cost Q Rm (X t) (mv K (X t))). set (V := fun t => / 2 * dot (X t) (mv P (X t))).
  assert (LK : forall t, length (mv K (X t)) = nu) by (intros; rewrite mv_length; apply SK).
  assert (ST : forall t, f t + V (Datatypes.S t) = V t).
  { intros t. unfold f, V. pose proof (HI (X t) (mv K (X t)) (LX t) (LK t)) as H.
    assert (EX : linear_step (lA S) (lB S) (X t) (mv K (X t)) = X (Datatypes.S t)).
    { unfold X. cbn [flow]. fold (X t). unfold linear_step, A_closed. assert (SBK : shape (mm (lB S) K) nx nx) by eauto with shp. rewrite (mv_madd _ _ nx nx) by auto. rewrite (mv_mm _ K nu nx) by auto. reflexivity. }
    assert (Z : vsub (mv K (X t)) (mv K (X t)) = zeros nu). { apply (nth_ext _ _ 0 0); [rewrite vsub_length, LK, zeros_length; lia|]. intros i Hi. rewrite nth_vsub by lia. rewrite nth_zeros. ring. }
    rewrite EX, Z, dot_zeros_l in H. lra. }
  assert (F0 : forall t, / 2 * dot (X t) (mv Q (X t)) <= f t). { intros t. unfold f, stage_cost. pose proof (proj2 (pd_psd _ _ PR) _ (LK t)). lra. }
  assert (Fp : forall t, 0 <= f t). { intros t. pose proof (F0 t). pose proof (proj2 (pd_psd _ _ PQ) _ (LX t)). lra. }
  assert (SUM : forall T, sum_upto f T = V 0%nat - V T). { induction T as [|T IH]; cbn [sum_upto]; [ring|]. rewrite IH. pose proof (ST T). lra. }
  assert (V0 : forall t, 0 <= V t). { intros t. unfold V. pose proof (proj2 PP _ (LX t)). lra. }
  destruct (form_domination np Hnp (eye nx) Q nx (shape_eye nx) SQ PQ) as (c & Hc & HcQ).
  destruct (summable_terms f (V 0%nat) Fp) with (eps := eps * eps / (2 * (c + 1))) as (T & HT). { intros T. rewrite SUM. pose proof (V0 T). lra. } { apply Rdiv_lt_0_compat; nra. }
  exists T. intros t Ht. specialize (HT t Ht). pose proof (HcQ (X t) (LX t)) as G. rewrite (mv_eye nx) in G by apply LX. pose proof (F0 t) as G1. fold (X t).
  assert (GD : dot (X t) (X t) <= eps * eps).
  { assert (Q1 : dot (X t) (mv Q (X t)) < eps * eps / (c + 1)). { replace (eps * eps / (c + 1)) with (2 * (eps * eps / (2 * (c + 1)))) by (field; lra). lra. }
    pose proof (proj2 (pd_psd _ _ PQ) (X t) (LX t)) as Q0. assert (Q2 : (c + 1) * (eps * eps / (c + 1)) = eps * eps) by (field; lra). nra. }
  unfold norm. rewrite <- (sqrt_square eps) by lra. apply sqrt_le_1_alt. exact GD.
Qed.

Lemma loop_mono np f t A X O R : mcais_loop np f t A X O = Ok R -> forall f', (f <= f')%nat -> mcais_loop np f' t A X O = Ok R.
Proof.
  revert t O. induction f as [|f IH]; intros t O E f' Hf; [discriminate|]. destruct f' as [|f']; [lia|]. cbn [mcais_loop] in *.
  destruct (np_dot (pA X) (mpow A t)) as [J|]; [|discriminate]. cbn [bind] in *. destruct (mcais_residuals np J (pb X) O) as [rs|]; [|discriminate]. cbn [bind] in *.
  destruct (where_ _ rs) as [|i l]; [exact E|]. destruct (run_on _ _) as [O'|]; [|discriminate]. cbn [bind] in *. apply IH; [exact E|lia].
Qed.
Lemma bounds_rhs lo hi p : length lo = length hi -> from_bounds (D1 lo) (D1 hi) None None = Ok p -> pb p = vneg lo ++ hi.
Proof.
  intros L. unfold from_bounds. cbn [nd_size]. rewrite <- L, Nat.eqb_refl. unfold run_on. replace (Polyhedron (zmat 0 (length lo)) (D1 (zeros 0)) None None) with (Ok (whole (length lo))) by reflexivity. cbn [bind].
  unfold add_bounds, add_lower_bound, add_upper_bound, pbind, pget. cbn [bound_array nd_neg]. rewrite !add_inequality_eq.
  destruct (Nat.eqb _ (nd_size (D1 (vneg lo)))); [|discriminate]. destruct (Nat.eqb _ _); [|discriminate]. cbv beta iota zeta. rewrite ?add_inequality_eq. destruct (Nat.eqb _ (nd_size (D1 hi))); [|discriminate]. destruct (Nat.eqb _ _); [|discriminate]. cbv zeta. intros E. injection E as <-. reflexivity.
Qed.
Lemma box_bounded lo : forall hi, length lo = length hi -> exists M, 0 <= M /\ forall x, Forall2 Rle lo x -> Forall2 Rle x hi -> norm x <= M.
Proof.
  intros hi L. assert (H : exists m, 0 <= m /\ forall x, Forall2 Rle lo x -> Forall2 Rle x hi -> dot x x <= m).
  { revert hi L. induction lo as [|a lo IH]; intros [|b hi] L; try discriminate.
    - exists 0. split; [lra|]. intros x H _. inversion H. cbn. lra.
    - destruct (IH hi ltac:(cbn in L; lia)) as (m & M0 & HM). exists (a * a + b * b + m). split; [nra|]. intros x H1 H2. destruct x as [|c x]; [inversion H1|]. inversion H1; subst. inversion H2; subst.
      change (dot (c :: x) (c :: x)) with (c * c + dot x x). specialize (HM x ltac:(assumption) ltac:(assumption)). assert (c * c <= a * a + b * b); [|lra]. destruct (Rle_dec 0 c); nra. }
  destruct H as (m & M0 & HM). exists (sqrt m). split; [apply sqrt_pos|]. intros x H1 H2. unfold norm. apply sqrt_le_1_alt, HM; assumption.
Qed.
Lemma dare_system np S Q Rm P K : fst (solve_dare np S Q Rm) = Ok (P, K) -> exists c, snd (solve_dare np S Q Rm) = LSys (lA S) (lB S) c.
Proof.
  intros _. unfold solve_dare, get_controllable. destruct S as [A B [c|]]; cbn [l_controllable lA lB].
  - destruct c; eexists; reflexivity.
  - destruct (reachability A B _) as [M|e]; [|eexists; reflexivity]. cbn. destruct (np_rank np M =? _)%nat; eexists; reflexivity.
Qed.
(*@ Theorem C70_design : The workflow of examples/linear_mpc.ipynb for box constraints with the origin inside, positive definite Q and R and a controllable system, with scipy returning a positive semidefinite solution of the Riccati equation: every step succeeds (mcais for every sufficiently large number of iterations); D is the box; the terminal set contains the largest invariant set, and unless a redundancy was decided by the tolerance 1e-7 it is invariant; if it is invariant, then from every state where feedforward returns a value V below 5e13 the loop of the notebook runs for any number of steps without an exception, respects the bounds at all times, costs at most V and converges to the origin, and in the terminal set feedback is the LQR and the value is 1/2 x'P x. *)
Lemma workflow np S N Q Rm x_min x_max u_min u_max nx nu : exact_np np ->
  shape (lA S) nx nx -> shape (lB S) nx nu -> shape Q nx nx -> shape Rm nu nu -> (0 < nx)%nat -> (0 < N)%nat -> Spec.pd Q nx -> Spec.pd Rm nu ->
  l_controllable S = None -> steerable (lA S) (lB S) nx nu nx ->
  riccati (lA S) (lB S) Q Rm (np_dare np (lA S) (lB S) Q Rm) nx nu -> psd (np_dare np (lA S) (lB S) Q Rm) nx ->
  (forall K, shape K nu nx -> eig_max_ok np (A_closed S K) nx) ->
  length x_min = nx -> length x_max = nx -> length u_min = nu -> length u_max = nu ->
  Forall (fun a => a < 0) x_min -> Forall (fun a => 0 < a) x_max -> Forall (fun a => a < 0) u_min -> Forall (fun a => 0 < a) u_max ->
  let box := fun x u => Forall2 Rle x_min x /\ Forall2 Rle x x_max /\ Forall2 Rle u_min u /\ Forall2 Rle u u_max in
  exists fuel0 W, (forall fuel, (fuel0 <= fuel)%nat -> linear_mpc_design np fuel S N Q Rm x_min x_max u_min u_max = Ok W) /\
    (forall x u, length x = nx -> in_poly (d_D W) (x ++ u) <-> box x u) /\
    (exists O1 mO, wf O1 mO 0 nx /\ rows_of_flow (A_closed S (d_K W)) (cl_poly S (d_K W) (d_D W)) O1 (nx + nx + (nu + nu)) mO nx /\
       (forall x, length x = nx -> (in_poly O1 x <-> forall t, let y := flow (A_closed S (d_K W)) t x in box y (mv (d_K W) y))) /\
       (forall x, in_poly O1 x -> in_poly (d_XN W) x) /\
       (redundancy_gap O1 mO tol7 -> terminal_invariant (lA S) (lB S) (d_K W) (in_poly (d_D W)) (in_poly (d_XN W)))) /\
    (terminal_invariant (lA S) (lB S) (d_K W) (in_poly (d_D W)) (in_poly (d_XN W)) ->
       (forall x, in_poly (d_XN W) x -> feedback np (d_C W) x = Ok (Some (mv (d_K W) x)) /\ exists us, feedforward np (d_C W) x = Ok (Some us, Some (/ 2 * dot x (mv (d_P W) x)))) /\
       forall x us V, length x = nx -> feedforward np (d_C W) x = Ok (Some us, Some V) -> V < (10 ^ 14 - 1) / 2 ->
         exists X U : nat -> vec, X 0%nat = x /\
           (forall n, run_mpc np (d_C W) S n x = Ok (map U (seq 0 n), map X (seq 0 (Datatypes.S n)))) /\
           (forall t, X (Datatypes.S t) = linear_step (lA S) (lB S) (X t) (U t) /\ box (X t) (U t)) /\
           (forall T, sum_upto (fun t => / 2 * (dot (X t) (mv Q (X t)) + dot (U t) (mv Rm (U t)))) T <= V) /\
           forall eps, 0 < eps -> exists T, forall t, (T <= t)%nat -> norm (X t) < eps).
Proof.
  intros Hnp SA SB SQ SR Hn HN PQ PR FC ST RIC PSD EIG Lx1 Lx2 Lu1 Lu2 Bx1 Bx2 Bu1 Bu2 box.
  destruct (solve_dare_ok np S Q Rm nx nu Hnp SA SB SQ SR Hn FC PR RIC PSD) as (DS & _ & _). destruct (DS ST) as (P & K & ED). clear DS.
  assert (HL : lqr_pair np S Q Rm P K nx nu) by (split; [exact Hn|split; [exact FC|split; [exact RIC|split; [exact PSD|exact ED]]]]).
  destruct (lqr_identity np S Q Rm P K nx nu Hnp SA SB SQ SR PR HL) as (SK & PP & SP & _).
  destruct (dare_system np S Q Rm P K ED) as (cS & ES).
  destruct (from_bounds_ok x_min x_max ltac:(lia)) as (PX & EX & WX & IX). destruct (from_bounds_ok u_min u_max ltac:(lia)) as (PU & EU & WU & IU).
  rewrite Lx1 in WX. rewrite Lu1 in WU. destruct (cartesian_product_ok PX PU _ _ _ _ _ _ WX WU) as (D & EDp & WD & ID). cbn [Nat.add] in WD.
  assert (BOX : forall x u, length x = nx -> in_poly D (x ++ u) <-> box x u) by (intros x u Lx; rewrite (ID x u Lx), IX, IU; unfold box; tauto).
  assert (PB : pb D = (vneg x_min ++ x_max) ++ vneg u_min ++ u_max).
  { rewrite <- (bounds_rhs x_min x_max _ ltac:(lia) EX), <- (bounds_rhs u_min u_max _ ltac:(lia) EU). unfold cartesian_product, Polyhedron in EDp. destruct (same_number_rows _ _); [|discriminate]. cbn [bind] in EDp. destruct (same_number_rows _ _); [|discriminate]. cbn [bind] in EDp. injection EDp as <-. reflexivity. }
  set (m := (nx + nx + (nu + nu))%nat) in *.
  assert (Z : in_poly D (zeros (nx + nu))).
  { rewrite zeros_app. apply BOX; [apply zeros_length|]. unfold box. 
    assert (F1 : forall v n, length v = n -> Forall (fun a => a < 0) v -> Forall2 Rle v (zeros n)). { intros v n <- F. induction F; cbn; constructor; [lra|assumption]. }
    assert (F2 : forall v n, length v = n -> Forall (fun a => 0 < a) v -> Forall2 Rle (zeros n) v). { intros v n <- F. induction F; cbn; constructor; [lra|assumption]. }
    auto 10. }
  assert (PBp : forall i, (i < m)%nat -> 0 < nth i (pb D) 0).
  { intros i Hi. assert (F : Forall (fun a => 0 < a) (pb D)).
    { assert (F1 : forall v, Forall (fun a => a < 0) v -> Forall (fun a => 0 < a) (vneg v)). { intros v F. induction F; cbn; constructor; [lra|assumption]. }
      rewrite PB, !Forall_app. auto. }
    rewrite Forall_forall in F. apply F, nth_In. replace (length (pb D)) with m by (symmetry; apply WD). exact Hi. }
  assert (BND : bounded_set (fun x => in_poly D (x ++ mv K x) /\ length x = nx)).
  { destruct (box_bounded x_min x_max ltac:(lia)) as (M & _ & HM). exists M. intros x (Hx & Lx). apply BOX in Hx; [|exact Lx]. apply HM; apply Hx. }
  pose proof (lqr_flow_converges np S Q Rm P K nx nu Hnp SA SB SQ SR PR PQ HL) as CONV.
  destruct (lin_mcais_ok np 0 S K D nx nu m 0 SA SB SK WD) as (_ & SAc & Wc & _ & HIN). specialize (HIN eq_refl).
  pose proof (eig_stable np (A_closed S K) nx SAc (EIG K SK) CONV) as HE.
  assert (Acc : accepted np (A_closed S K) (cl_poly S K D) m nx).
  { unfold accepted. repeat match goal with |- _ /\ _ => split end; auto; [unfold m; lia| |].
    - apply HIN; [len|]. rewrite mv_zeros. replace (length (rows K)) with nu by (symmetry; apply SK). rewrite <- zeros_app. exact Z.
    - destruct BND as (M & HM). exists M. intros x Hx. assert (Lx : length x = nx) by (apply (in_X _ m nx Wc) in Hx; apply Hx). apply HM. split; [apply HIN; auto|exact Lx]. }
  destruct (stable_halts np (A_closed S K) (cl_poly S K D) m nx Hnp Acc PBp CONV) as (fuel0 & XN & X' & EM).
  destruct (mcais_checked np _ _ m nx Hnp Acc) as (X1 & _ & _ & _ & _ & _ & _ & _ & _ & _ & EMf).
  assert (EMA : forall fuel, (fuel0 <= fuel)%nat -> lin_mcais np fuel S K D = Ok XN).
  { intros fuel Hf. destruct (lin_mcais_ok np fuel S K D nx nu m 0 SA SB SK WD) as (-> & _). rewrite EMf. rewrite EMf in EM.
    destruct (mcais_loop np fuel0 1 (A_closed S K) X1 X1) as [O|e] eqn:EL; [|discriminate]. rewrite (loop_mono _ _ _ _ _ _ _ EL fuel Hf). cbn [bind fst] in *. injection EM as <- _. reflexivity. }
  destruct (mcais_ok np fuel0 _ _ m nx XN X' Hnp Acc EM) as (O3 & mO3 & mf3 & WO3 & RF3 & HO3 & A3 & B3 & C3 & D3 & R3 & IN3).
  assert (HINm : forall j, In j mf3 -> (j < mO3)%nat) by (intros j Hj; apply (removal_incl _ _ _ _ R3) in Hj; apply in_seq in Hj; lia).
  assert (WN : exists mN, wf XN mN 0 nx).
  { exists (length mf3). unfold wf. rewrite A3, B3, C3, D3. split; [apply (shape_mtake _ mO3); [apply WO3|exact HINm]|]. split; [apply vtake_length|]. split; [|reflexivity]. unfold shape. cbn. auto. }
  assert (AD : forall x, length x = nx -> (in_poly O3 x <-> forall t, in_poly D (flow (A_closed S K) t x ++ mv K (flow (A_closed S K) t x)))).
  { intros x Lx. rewrite HO3. unfold admissible. split; intros H t; specialize (H t); apply HIN; auto; apply (flow_length _ nx); auto. }
  assert (TI3 : redundancy_gap O3 mO3 tol7 -> terminal_invariant (lA S) (lB S) K (in_poly D) (in_poly XN)).
  { intros GAP. assert (SUB : forall x, in_poly XN x -> in_poly O3 x).
    { intros x Hx. apply (sat_all O3 mO3 0 nx x WO3).
      apply (removal_exact O3 mO3 tol7 _ mf3); [intros j Hj; apply in_seq in Hj; lia|exact GAP|exact R3|].
      destruct (set_rows_poly O3 O3 mO3 0 nx mf3 WO3 (or_introl eq_refl) HINm) as (_ & H'). apply H'.
      unfold in_poly in *. cbn [pA pb pC pd set_A set_b]. rewrite A3, B3, C3, D3 in Hx.
      destruct WO3 as (_ & _ & (LC & CC & _) & Ld). destruct (pC O3) as [c rs]. cbn [ncols rows] in *. destruct rs; [|discriminate]. subst c. destruct (pd O3); [exact Hx|discriminate]. }
    intros x Hx. assert (Lx : length x = nx) by (rewrite (proj1 (SUB x Hx)); apply WO3).
    assert (EXX : linear_step (lA S) (lB S) x (mv K x) = mv (A_closed S K) x).
    { unfold linear_step, A_closed. assert (SBK : shape (mm (lB S) K) nx nx) by eauto with shp. rewrite (mv_madd _ _ nx nx) by auto. rewrite (mv_mm _ K nu nx) by auto. reflexivity. }
    pose proof (proj1 (AD x Lx) (SUB x Hx)) as T. split; [exact (T 0%nat)|]. rewrite EXX. apply IN3, HO3, AD.
    - rewrite <- EXX. apply (step_length _ _ nx nu); assumption.
    - intros t. rewrite <- flow_S. apply T. }
  destruct WN as (mN & WN).
  assert (MD : mpc_data S N Q Rm P D XN nx nu).
  { split; [|split; [|split; [exact D3|split; [apply pd_psd, PQ|split; [exact PP|exact PR]]]]].
    - split; [exact SA|]. split; [exact SB|]. split; [exact HN|]. split; [exact SQ|]. split; [exact SP|]. split; [exact SR|]. split; eauto.
    - destruct WD as (_ & _ & _ & Ld). destruct (pd D); [reflexivity|discriminate]. }
  destruct (mpc_program np S N Q Rm P D XN nx nu Hnp MD) as (q & mq & EC & _).
  set (C := MPC S N q) in *. set (C' := MPC (LSys (lA S) (lB S) cS) N q).
  assert (FF : forall x, feedforward np C' x = feedforward np C x) by reflexivity. assert (FB : forall x, feedback np C' x = feedback np C x) by reflexivity.
  exists fuel0, (Design P K D XN C'). cbn [d_P d_K d_D d_XN d_C]. split; [|split; [exact BOX|split]].
  - intros fuel Hf. unfold linear_mpc_design. destruct (solve_dare np S Q Rm) as [r S'] eqn:E. cbn [fst snd] in ED, ES. subst r S'. cbn [bind fst snd]. rewrite EU. cbn [bind]. rewrite EX. cbn [bind]. rewrite EDp. cbn [bind].
    change (lin_mcais np fuel (LSys (lA S) (lB S) cS) K D) with (lin_mcais np fuel S K D). rewrite (EMA fuel Hf). cbn [bind].
    unfold ModelPredictiveController in EC |- *. change (condense_program np (LSys (lA S) (lB S) cS) N Q Rm P D XN) with (condense_program np S N Q Rm P D XN). destruct (condense_program np S N Q Rm P D XN); [|discriminate]. cbn [bind] in EC |- *. injection EC as ->. reflexivity.
  - exists O3, mO3. split; [exact WO3|]. split; [exact RF3|]. split; [|split; [|exact TI3]].
    + intros x Lx. rewrite (AD x Lx). split; intros H t; specialize (H t); cbv zeta in *; apply BOX; auto; apply (flow_length _ nx); auto.
    + intros x Hx. assert (Lx : length x = nx) by (rewrite (proj1 Hx); apply WO3). apply IN3, HO3, Hx.
  - intros TI. split.
    + intros x Hx. assert (Lx : length x = nx) by (rewrite (proj1 Hx); apply WN). rewrite FB, FF. destruct (mpc_lqr np S N Q Rm P D XN K nx nu C x Hnp MD EC HL Lx) as (_ & G1 & G2). destruct (G2 TI Hx) as (us & xs & HA & HK). destruct (G1 us xs HA HK) as (G3 & G4). split; [exact G4|]. exists us. exact G3.
    + intros x us V Lx EF HV. rewrite FF in EF. assert (HS : mpc_setup np S N Q Rm P D XN K nx nu C) by (split; [exact Hnp|split; [exact MD|split; [exact EC|split; [exact SK|exact TI]]]]).
      destruct (closed_loop np S N Q Rm P D XN K nx nu C x us V HS HL Lx EF HV) as (X & U & X0 & LOOP & VAL & CV). exists X, U. split; [exact X0|].
      assert (LX : forall t, length (X t) = nx). { intros [|t]; [rewrite X0; exact Lx|]. destruct (LOOP t) as (_ & -> & _). apply (step_length _ _ nx nu); assumption. }
      split; [|split; [|split; [|exact (CV PQ)]]].
      * assert (G : forall n s, run_mpc np C' S n (X s) = Ok (map U (seq s n), map X (seq s (Datatypes.S n)))).
        { induction n as [|n IH]; intros s; [reflexivity|]. cbn [run_mpc]. rewrite FB. destruct (LOOP s) as (E1 & E2 & _). rewrite E1. cbn [bind].
          assert (LU : length (U s) = nu). { destruct (feedback_optimal np S N Q Rm P D XN nx nu C (X s) (U s) Hnp MD EC (LX s) E1) as (_ & _ & _ & _ & L & _). exact L. }
          rewrite (np_mv_ok (lA S) nx nx), (np_mv_ok (lB S) nx nu) by auto. cbn [bind]. change (vadd (mv (lA S) (X s)) (mv (lB S) (U s))) with (linear_step (lA S) (lB S) (X s) (U s)). rewrite <- E2, IH. reflexivity. }
        intros n. rewrite <- X0. apply G.
      * intros t. destruct (LOOP t) as (_ & E2 & E3). split; [exact E2|]. apply BOX; [apply LX|exact E3].
      * intros T. destruct (VAL T) as (us' & V' & _ & V0 & H). lra.
Qed.

(** ** Example *)
Definition np_work : numpy := exact_numpy (fun A => A) (fun M => Rabs (nth 0 (nth 0 (rows M) []) 0)) (fun A => A) (fun _ _ _ _ => Mat 1 [[2]]) (fun _ n => zeros n) (fun _ _ _ => Ok []) (fun _ => Err QhullError).
Lemma np_work_exact : exact_np np_work.
Proof. split; [exact nnls0_ok|]. split; [exact pinv0_ok|]. split; [exact chol0_ok|]. split; [exact inv0_ok|]. split; [exact solve0_ok|exact svd0_ok]. Qed.
(** inequalities s a / 2^k <= 1 with s = 1 or -1 *)
Lemma halving_gap O1 mO : wf O1 mO 0 1 -> (forall r, (r < mO)%nat -> exists s k, (s = 1 \/ s = -1) /\ nth r (pb O1) 0 = 1 /\ forall a, dot (row (pA O1) r) [a] = s * ((/ 2) ^ k * a)) -> redundancy_gap O1 mO tol7.
Proof.
  intros WO RF' Sx0 i Hi NI HS. assert (T1 : tol7 <= 1) by (unfold tol7; lra).
  destruct (RF' i Hi) as (s & k & Hs & Hb & Hd).
  assert (L1 : forall x, sat O1 Sx0 x -> exists a, x = [a]).
  { intros x (Lx & _). replace (ncols (pA O1)) with 1%nat in Lx by (symmetry; apply WO). destruct x as [|a [|]]; try discriminate Lx. eauto. }
  assert (P2 : forall q, 0 < (/ 2) ^ q <= 1) by (intros; apply pow_le1; lra).
  destruct (classic (exists j l, In j Sx0 /\ (l <= k)%nat /\ nth j (pb O1) 0 = 1 /\ forall a, dot (row (pA O1) j) [a] = s * ((/ 2) ^ l * a))) as [(j & l & Hj & Hl & Hbj & Hdj)|NE].
  - left. intros x Sx. destruct (L1 x Sx) as (a & ->). destruct Sx as (_ & _ & Sx). specialize (Sx j Hj). rewrite Hdj, Hbj in Sx. rewrite Hd, Hb.
    replace k with (l + (k - l))%nat by lia. rewrite pow_add. pose proof (P2 (k - l)%nat). pose proof (P2 l). set (p := (/ 2) ^ l) in *. set (q := (/ 2) ^ (k - l)) in *.
    replace (s * (p * q * a)) with (q * (s * (p * a))) by ring. destruct (Rle_lt_dec 0 (s * (p * a))); nra.
  - right. exists [s * 2 ^ S k].
    assert (I2 : forall q, (/ 2) ^ q * 2 ^ q = 1). { intros q. rewrite <- Rpow_mult_distr. replace (/ 2 * 2) with 1 by field. apply pow1. }
    assert (SS : s * s = 1) by (destruct Hs; subst s; ring). split.
    + split; [replace (ncols (pA O1)) with 1%nat by (symmetry; apply WO); reflexivity|]. split.
      * destruct WO as (_ & _ & (LC & _) & Ld). unfold eq_holds. destruct (rows (pC O1)); [|discriminate]. destruct (pd O1); [constructor|discriminate].
      * intros j Hj. destruct (RF' j (HS j Hj)) as (s' & k' & Hs' & Hb' & Hd'). rewrite Hd', Hb'.
        destruct (Req_dec s' s) as [->|Ns].
        -- assert (k' > k)%nat. { apply Nat.nle_gt. intros Hl. apply NE. exists j, k'. auto. }
           replace (s * ((/ 2) ^ k' * (s * 2 ^ S k))) with ((s * s) * ((/ 2) ^ k' * 2 ^ S k)) by ring. rewrite SS.
           replace k' with ((k' - S k) + S k)%nat by lia. rewrite pow_add, Rmult_assoc, I2. pose proof (P2 (k' - S k)%nat). lra.
        -- assert (s' * s = -1) by (destruct Hs, Hs'; subst; lra).
           replace (s' * ((/ 2) ^ k' * (s * 2 ^ S k))) with ((s' * s) * ((/ 2) ^ k' * 2 ^ S k)) by ring. rewrite H.
           assert (0 < 2 ^ S k) by (apply pow_lt; lra). pose proof (P2 k'). nra.
    + rewrite Hd, Hb. replace (s * ((/ 2) ^ k * (s * 2 ^ S k))) with ((s * s) * (2 * ((/ 2) ^ k * 2 ^ k))) by (cbn [pow]; ring). rewrite SS, I2. lra.
Qed.
(*@ Example C70_example : x+ = x + u with Q = 1, R = 2, N = 1, |x| <= 1, |u| <= 1: the hypotheses of C70_design hold; the design gives K = -1/2, P = 2, an invariant terminal set, and the value 1 at x = 1. *)
Lemma workflow_example : let np := np_work in let Q := Mat 1 [[1]] in let Rm := Mat 1 [[2]] in
  exact_np np /\ Spec.pd Q 1 /\ Spec.pd Rm 1 /\ steerable (lA S_1) (lB S_1) 1 1 1 /\
  riccati (lA S_1) (lB S_1) Q Rm (np_dare np (lA S_1) (lB S_1) Q Rm) 1 1 /\ psd (np_dare np (lA S_1) (lB S_1) Q Rm) 1 /\
  (forall K, shape K 1 1 -> eig_max_ok np (A_closed S_1 K) 1) /\
  exists fuel W, linear_mpc_design np fuel S_1 1 Q Rm [-1] [1] [-1] [1] = Ok W /\ d_K W = Mat 1 [[- (1 / 2)]] /\ d_P W = Mat 1 [[2]] /\
    terminal_invariant (lA S_1) (lB S_1) (d_K W) (in_poly (d_D W)) (in_poly (d_XN W)) /\ exists us, feedforward np (d_C W) [1] = Ok (Some us, Some 1).
Proof.
  intros np Q Rm. pose proof np_work_exact as Hnp.
  assert (RIC : riccati (lA S_1) (lB S_1) Q Rm (np_dare np (lA S_1) (lB S_1) Q Rm) 1 1) by (apply scalar_riccati; lra).
  assert (PSD : psd (np_dare np (lA S_1) (lB S_1) Q Rm) 1) by (apply scalar_psd; lra).
  assert (PQ : Spec.pd Q 1) by (apply scalar_pd; lra). assert (PR : Spec.pd Rm 1) by (apply scalar_pd; lra).
  assert (ST : steerable (lA S_1) (lB S_1) 1 1 1) by (apply scalar_steerable; lra).
  assert (EIG : forall K, shape K 1 1 -> eig_max_ok np (A_closed S_1 K) 1).
  { intros [nc rs] (L1 & L2 & L3). cbn in L1, L2, L3. subst nc. destruct rs as [|r [|]]; try discriminate. inversion L3 as [|? ? Lr _]; subst. destruct r as [|k [|]]; try discriminate.
    assert (EA : A_closed S_1 (Mat 1 [[k]]) = Mat 1 [[1 + (1 * k + 0)]]) by reflexivity. unfold eig_max_ok. rewrite EA. set (z := 1 + (1 * k + 0)).
    exists [1], [0], (if Rle_dec 0 z then 1 else -1), 0. split; [reflexivity|]. split; [reflexivity|]. split; [cbn; lra|]. split; [destruct (Rle_dec 0 z); ring|]. cbv zeta. cbn [np_eig_max np np_work exact_numpy nth rows].
    split; [apply Rabs_pos|]. unfold Rabs. split; cbn; destruct (Rle_dec 0 z), (Rcase_abs z); f_equal; lra. }
  split; [exact Hnp|]. split; [exact PQ|]. split; [exact PR|]. split; [exact ST|]. split; [exact RIC|]. split; [exact PSD|]. split; [exact EIG|].
  destruct (workflow np S_1 1 Q Rm [-1] [1] [-1] [1] 1 1 Hnp (scalar_shape _) (scalar_shape _) (scalar_shape _) (scalar_shape _) ltac:(lia) ltac:(lia) PQ PR eq_refl ST RIC PSD EIG eq_refl eq_refl eq_refl eq_refl) as (fuel & W & EW & BOX & (O1 & mO & WO & RF & HO & SUB & GAP) & CL); try (repeat constructor; lra).
  specialize (EW fuel (le_n _)).
  assert (EK : d_P W = Mat 1 [[2]] /\ d_K W = Mat 1 [[- (1 / 2)]] /\ exists U, from_bounds (D1 [-1]) (D1 [1]) None None = Ok U /\ cartesian_product U U = Ok (d_D W)).
  { pose proof EW as E. unfold linear_mpc_design in E.
    destruct (dare_returns np Hnp S_1 Q Rm 1 1 (scalar_shape _) (scalar_shape _) (scalar_shape _) ltac:(lia) eq_refl PR RIC PSD) as (R1 & _ & R3).
    destruct (R1 ST) as (K & ED). destruct (R3 _ _ ED) as (_ & Mi & SM & _ & HM & EK). destruct (solve_dare np S_1 Q Rm) as [r S'] eqn:E'. cbn [fst] in ED. subst r. cbn [bind fst snd] in E.
    destruct (from_bounds (D1 [-1]) (D1 [1]) None None) as [U|]; [|discriminate]. cbn [bind] in E. destruct (cartesian_product U U) as [D|] eqn:ECP; [|discriminate]. cbn [bind] in E. destruct (lin_mcais np fuel S' K D) as [XN|]; [|discriminate]. cbn [bind] in E. destruct (ModelPredictiveController np S' 1 Q Rm _ D XN); [|discriminate]. cbn [bind] in E. injection E as <-. cbn [d_P d_K d_D]. split; [reflexivity|]. split; [|exists U; auto]. rewrite EK.
    destruct Mi as [nc rs]. destruct SM as (L1 & L2 & L3). cbn in L1, L2, L3. subst nc.
    destruct rs as [|v [|]]; try discriminate L1. inversion L3 as [|? ? Lv _]; subst. destruct v as [|mi [|]]; try discriminate Lv.
    cbv -[Rplus Rmult IZR Rminus Ropp] in HM. injection HM as HM. assert (mi = / 4) by lra. subst mi.
    cbv -[Rplus Rmult IZR Rminus Ropp Rdiv Rinv]. f_equal. f_equal. f_equal. field. }
  destruct EK as (EP & EK & U & EU & ED).
  assert (FL : forall t a, flow (A_closed S_1 (Mat 1 [[- (1 / 2)]])) t [a] = [(/ 2) ^ t * a]).
  { induction t as [|t IH]; intros a; [cbn; f_equal; ring|]. cbn [flow]. rewrite IH. cbv -[Rplus Rmult Rinv Rdiv IZR pow Ropp]. cbn [pow]. f_equal. field. }
  assert (P2 : forall q, 0 < (/ 2) ^ q <= 1) by (intros; apply pow_le1; lra). exists fuel, W. split; [exact EW|]. split; [exact EK|]. split; [exact EP|].
  assert (TI : terminal_invariant (lA S_1) (lB S_1) (d_K W) (in_poly (d_D W)) (in_poly (d_XN W))).
  { apply GAP, halving_gap; [exact WO|]. intros r Hr. destruct (RF r Hr) as (i & k & Hi & Hb & Hd). rewrite EK in Hb, Hd.
    cbv -[Rplus Rmult Ropp IZR] in EU. injection EU as <-. cbv -[Rplus Rmult Ropp IZR d_D] in ED. injection ED as ED. rewrite <- ED in Hb, Hd. cbn in Hi, Hb.
    assert (HD : forall a, exists z, dot (row (pA O1) r) [a] = z) by eauto. clear HD.
    destruct i as [|[|[|[|]]]]; [exists (-1), k|exists 1, k|exists 1, (S k)|exists (-1), (S k)|lia]; (split; [auto|]; split; [cbn in Hb; lra|]; intros a; rewrite (Hd [a] eq_refl), FL; set (p := (/ 2) ^ k); cbn; unfold p; cbn; lra). }
  split; [exact TI|]. destruct (CL TI) as (LQR & _). destruct (LQR [1]) as (_ & us & EF).
  - apply SUB, HO; [reflexivity|]. intros t. rewrite EK. cbv zeta. rewrite FL. pose proof (P2 t). repeat match goal with |- _ /\ _ => split end; (apply Forall2_cons; [cbn; lra|apply Forall2_nil]).
  - exists us. rewrite EF, EP. do 3 f_equal. cbn. lra.
Qed.
