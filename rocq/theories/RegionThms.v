(** * RegionThms: the polyhedron of get_feasible_set is a region of attraction of the closed loop (C88) *)
From Coq Require Import ZArith Classical Lra Lia.
From Verif Require Import Arr ArrFacts Spec SpecGeom SpecMpc Numpy Pnnls PnnlsFacts QpFacts GeomUtils Polyhedron PolyThms Oracle SolverThms NullFacts PolySolveThms PolyMore SpecDyn Dynamics DynThms CondenseThms LqrThms Mpqp MpqpThms Controllers CtrlThms McaisThms HullOracle Projection ProjThms.

(** x can be steered to the terminal set in N steps inside D *)
Definition can_reach (S : lsys) (N nu : nat) (D X_N : poly) (x : vec) : Prop := exists us xs, mpc_admissible (lA S) (lB S) nu N (in_poly D) (in_poly X_N) x us xs.
(** no admissible trajectory is as expensive as the solver threshold 5e13 *)
Definition cheap (S : lsys) (N nu : nat) (Q Rm P : mat) (D X_N : poly) (nx : nat) : Prop :=
  forall x us xs, length x = nx -> mpc_admissible (lA S) (lB S) nu N (in_poly D) (in_poly X_N) x us xs -> trajectory_cost Q Rm P us xs < (10 ^ 14 - 1) / 2.
(** the closed loop from x runs forever inside D, in states with the property G, and converges to the origin *)
Definition attracted np (C : mpc) (S : lsys) (D : poly) (G : vec -> Prop) (x : vec) : Prop :=
  exists X U : nat -> vec, X 0%nat = x /\
    (forall t, feedback np C (X t) = Ok (Some (U t)) /\ X (Datatypes.S t) = linear_step (lA S) (lB S) (X t) (U t) /\ in_poly D (X t ++ U t) /\ G (X t)) /\
    forall eps, 0 < eps -> exists T, forall t, (T <= t)%nat -> norm (X t) < eps.

Section Region.
Variables (np : numpy) (S : lsys) (N : nat) (Q Rm P : mat) (D X_N : poly) (K : mat) (nx nu : nat) (C : mpc).
Hypothesis HS : mpc_setup np S N Q Rm P D X_N K nx nu C.

Lemma param_iff : exists m, shape (q_Au (c_mpqp C)) m (nu * N) /\ shape (q_Ax (c_mpqp C)) m nx /\ length (q_b (c_mpqp C)) = m /\
  (forall x, feasible_parameter (q_Au (c_mpqp C)) (q_Ax (c_mpqp C)) (q_b (c_mpqp C)) (nu * N) nx x <-> length x = nx /\ can_reach S N nu D X_N x) /\
  forall xu, feasible_pair (q_Au (c_mpqp C)) (q_Ax (c_mpqp C)) (q_b (c_mpqp C)) (nu * N) nx xu <-> exists x us xs, length x = nx /\ xu = x ++ List.concat us /\ mpc_admissible (lA S) (lB S) nu N (in_poly D) (in_poly X_N) x us xs.
Proof.
  destruct HS as (Hnp & HD & E & SK & TI). destruct (mpc_program np S N Q Rm P D X_N nx nu Hnp HD) as (q & m & E' & Hq & HC). rewrite E in E'. injection E' as ->. cbn [c_mpqp].
  pose proof HD as ((SA & SB & HN & _) & _). pose proof Hq as (S1 & PD & S2 & S3 & L3 & L4 & S4 & S5 & Lb & _). exists m. split; [exact S4|]. split; [exact S5|]. split; [exact Lb|].
  assert (Cu : ncols (q_Au q) = (nu * N)%nat) by apply S4.
  assert (FW : forall x v, length x = nx -> length v = (nu * N)%nat -> (forall i, (i < length (q_b q))%nat -> dot (row (q_Au q) i) v + dot (row (q_Ax q) i) x <= nth i (q_b q) 0) ->
    exists us xs, v = List.concat us /\ mpc_admissible (lA S) (lB S) nu N (in_poly D) (in_poly X_N) x us xs).
  { intros x v Lx Lv H. destruct (chunks nu N v ltac:(lia)) as (us & Lu & Fu & Ev). destruct (trajectory_exists (lA S) (lB S) nx nu x us SA SB Lx) as (xs & Tr). destruct (HC x us xs Lx Lu Fu Tr) as (_ & G). exists us, xs. split; [auto|]. apply G. split; rewrite Ev; [lia|exact H]. }
  assert (BW : forall x us xs, length x = nx -> mpc_admissible (lA S) (lB S) nu N (in_poly D) (in_poly X_N) x us xs -> length (List.concat us) = (nu * N)%nat /\ forall i, (i < length (q_b q))%nat -> dot (row (q_Au q) i) (List.concat us) + dot (row (q_Ax q) i) x <= nth i (q_b q) 0).
  { intros x us xs Lx A. pose proof A as (Lu & Fu & Tr & _). destruct (HC x us xs Lx Lu Fu Tr) as (_ & G). apply G in A. destruct A as (A1 & A2). split; [lia|exact A2]. }
  split.
  - intros x. split.
    + intros (Lx & v & Lv & H). split; [exact Lx|]. destruct (FW x v Lx Lv H) as (us & xs & _ & A). exists us, xs. exact A.
    + intros (Lx & us & xs & A). split; [exact Lx|]. destruct (BW x us xs Lx A) as (B1 & B2). exists (List.concat us). auto.
  - intros xu. split.
    + intros (Lxu & H). assert (L1 : length (firstn nx xu) = nx) by (rewrite firstn_length; lia). assert (L2 : length (skipn nx xu) = (nu * N)%nat) by (rewrite skipn_length; lia).
      destruct (FW _ _ L1 L2 H) as (us & xs & Ev & A). exists (firstn nx xu), us, xs. split; [exact L1|]. split; [|exact A]. rewrite <- Ev. symmetry. apply firstn_skipn.
    + intros (x & us & xs & Lx & -> & A). destruct (BW x us xs Lx A) as (B1 & B2). split; [rewrite app_length; lia|]. rewrite firstn_app, Lx, Nat.sub_diag, firstn_all2, app_nil_r by lia. rewrite skipn_app, Lx, Nat.sub_diag, skipn_all2 by lia. exact B2.
Qed.
(** the origin is admissible *)
Lemma origin_admissible : in_poly X_N (zeros nx) -> exists us xs, mpc_admissible (lA S) (lB S) nu N (in_poly D) (in_poly X_N) (zeros nx) us xs /\ List.concat us = zeros (nu * N).
Proof.
  destruct HS as (Hnp & HD & E & SK & TI). intros HZ. pose proof HD as ((SA & SB & HN & _) & _). assert (LA : length (rows (lA S)) = nx) by apply SA. assert (LB : length (rows (lB S)) = nx) by apply SB. assert (LK : length (rows K) = nu) by apply SK.
  assert (DZ : in_poly D (zeros nx ++ zeros nu)). { destruct (TI _ HZ) as (H & _). rewrite mv_zeros, LK in H. exact H. }
  exists (repeat (zeros nu) N), (repeat (zeros nx) (Datatypes.S N)). split.
  - split; [apply repeat_length|]. split; [apply Forall_forall; intros v Hv; apply repeat_spec in Hv; subst v; len|]. split.
    + split; [rewrite !repeat_length; reflexivity|]. split; [reflexivity|]. intros t Ht. rewrite repeat_length in Ht. rewrite !nth_repeat_lt by lia. unfold linear_step. rewrite !mv_zeros, LA, LB. symmetry. apply vadd_zeros_r. len.
    + split; [intros t Ht; rewrite repeat_length in Ht; rewrite !nth_repeat_lt by lia; exact DZ|]. rewrite repeat_length, nth_repeat_lt by lia. exact HZ.
  - clear. induction N as [|n IH]; [rewrite Nat.mul_0_r; reflexivity|]. cbn [repeat List.concat]. rewrite IH. unfold zeros. rewrite <- repeat_app. f_equal. lia.
Qed.
Lemma pairs_bounded : bounded_set (in_poly D) -> bounded_set (feasible_pair (q_Au (c_mpqp C)) (q_Ax (c_mpqp C)) (q_b (c_mpqp C)) (nu * N) nx).
Proof.
  intros (M & HM). destruct param_iff as (m & _ & _ & _ & _ & HP). pose proof HS as (_ & ((SA & SB & HN & _) & _) & _). exists (INR (nx + nu * N) * Rabs M). intros xu H. pose proof (proj1 H) as Lxu. apply HP in H. destruct H as (x & us & xs & Lx & -> & A). rewrite <- Lxu.
  apply norm_entries; [apply Rabs_pos|]. intros j Hj. destruct A as (Lu & Fu & Tr & HDt & _). pose proof (trajectory_lengths _ _ nx nu _ _ _ SA SB Lx Tr) as Fx. pose proof (Rle_abs M) as AM.
  assert (E0 : nth 0 xs [] = x) by apply Tr.
  assert (EN : forall t i, (t < length us)%nat -> Rabs (nth i (nth t xs [] ++ nth t us []) 0) <= Rabs M) by (intros t i Ht; pose proof (nth_le_norm (nth t xs [] ++ nth t us []) i); pose proof (HM _ (HDt t Ht)); lra).
  destruct (Nat.lt_ge_cases j nx) as [Hn|Hn].
  - rewrite app_nth1 by lia. specialize (EN 0%nat j ltac:(lia)). rewrite E0, app_nth1 in EN by lia. exact EN.
  - rewrite app_nth2 by lia. rewrite Lx. set (i := (j - nx)%nat).
    assert (G : exists t k, (t < length us)%nat /\ nth i (List.concat us) 0 = nth k (nth t us []) 0).
    { assert (Hi : (i < length (List.concat us))%nat) by (rewrite app_length in Hj; lia). clearbody i. clear - Hi. revert i Hi. induction us as [|u us IH]; intros i Hi; [cbn in Hi; lia|]. cbn [List.concat] in Hi |- *. rewrite app_length in Hi. destruct (Nat.lt_ge_cases i (length u)) as [H|H].
      - exists 0%nat, i. split; [cbn; lia|]. rewrite app_nth1 by lia. reflexivity.
      - destruct (IH (i - length u)%nat ltac:(lia)) as (t & k & Ht & E). exists (Datatypes.S t), k. split; [cbn; lia|]. rewrite app_nth2 by lia. exact E. }
    destruct G as (t & k & Ht & ->). specialize (EN t (nx + k)%nat Ht). assert (Lt : length (nth t xs []) = nx) by (apply Forall_len_nth; [exact Fx|]; rewrite (proj1 Tr); lia). rewrite app_nth2 in EN by lia. rewrite Lt in EN. replace (nx + k - nx)%nat with k in EN by lia. exact EN.
Qed.
Lemma steer_attracted x : lqr_pair np S Q Rm P K nx nu -> Spec.pd Q nx -> cheap S N nu Q Rm P D X_N nx -> length x = nx -> can_reach S N nu D X_N x -> attracted np C S D (fun y => length y = nx /\ can_reach S N nu D X_N y) x.
Proof.
  intros HL PQ CH Lx (us & xs & A). pose proof HS as (Hnp & HD & E & SK & TI). pose proof HD as ((SA & SB & HN & SQ & _) & _ & _ & PQ' & PP & PR).
  destruct (mpc_none np S N Q Rm P D X_N nx nu C x Hnp HD E Lx) as (us0 & xs0 & (A0 & _) & H).
  assert (P0 : 0 <= trajectory_cost Q Rm P us0 xs0).
  { destruct A0 as (L0 & F0 & T0 & _). pose proof (trajectory_lengths _ _ nx nu _ _ _ SA SB Lx T0) as FX. assert (LX : length xs0 = Datatypes.S (length us0)) by apply T0. unfold trajectory_cost.
    assert (0 <= sum_upto (fun t => / 2 * (dot (nth t xs0 []) (mv Q (nth t xs0 [])) + dot (nth t us0 []) (mv Rm (nth t us0 [])))) (length us0)).
    { apply sum_upto_nonneg. intros i Hi. pose proof (proj2 PQ' (nth i xs0 []) ltac:(apply Forall_len_nth; [exact FX|lia])). pose proof (proj2 (pd_psd _ _ PR) (nth i us0 []) ltac:(apply Forall_len_nth; [exact F0|lia])). lra. }
    pose proof (proj2 PP (nth (length us0) xs0 []) ltac:(apply Forall_len_nth; [exact FX|lia])). lra. }
  pose proof (CH x us xs Lx A) as CX. unfold far in H. destruct H as [(_ & _ & HF)|(us1 & xs1 & E1 & _ & (A1 & _) & _)]; [specialize (HF us xs A); unfold far in HF; lra|].
  destruct (closed_loop np S N Q Rm P D X_N K nx nu C x us1 _ HS HL Lx E1 (CH x us1 xs1 Lx A1)) as (X & U & X0 & HX & HV & HC). exists X, U. split; [exact X0|].
  assert (LX : forall t, length (X t) = nx). { induction t as [|t IH]; [rewrite X0; exact Lx|]. destruct (HX t) as (_ & -> & _). unfold linear_step. rewrite vadd_length, !mv_length, (proj1 SA), (proj1 SB). lia. }
  split; [|exact (HC PQ)]. intros t. destruct (HX t) as (H1 & H2 & H3). split; [exact H1|]. split; [exact H2|]. split; [exact H3|]. split; [apply LX|].
  destruct (feedback_optimal np S N Q Rm P D X_N nx nu C (X t) (U t) Hnp HD E (LX t) H1) as (us2 & xs2 & _ & _ & _ & (A2 & _)). exists us2, xs2. exact A2.
Qed.
End Region.
Lemma not_steerable_none np S N Q Rm P D X_N K nx nu C x : mpc_setup np S N Q Rm P D X_N K nx nu C -> length x = nx -> ~ can_reach S N nu D X_N x -> feedback np C x = Ok None.
Proof.
  intros (Hnp & HD & E & _) Lx NS. destruct (mpc_none np S N Q Rm P D X_N nx nu C x Hnp HD E Lx) as (us0 & xs0 & _ & [(_ & H & _)|(us & xs & _ & _ & (A & _) & _)]); [exact H|]. elim NS. exists us, xs. exact A.
Qed.
Lemma near_zeros n : near (zeros n).
Proof. unfold near. replace (dot (zeros n) (zeros n)) with 0; [unfold tol7; lra|]. symmetry. apply dot_zeros_l. Qed.
Lemma region_setup np S N Q Rm P D X_N K nx nu C : mpc_setup np S N Q Rm P D X_N K nx nu C -> in_poly X_N (zeros nx) -> 
  exists xu, feasible_pair (q_Au (c_mpqp C)) (q_Ax (c_mpqp C)) (q_b (c_mpqp C)) (nu * N) nx xu /\ near xu.
Proof.
  intros HS HZ. destruct (param_iff np S N Q Rm P D X_N K nx nu C HS) as (m & _ & _ & _ & _ & HP). destruct (origin_admissible np S N Q Rm P D X_N K nx nu C HS HZ) as (us & xs & A & E). exists (zeros (nx + nu * N)). split; [|apply near_zeros].
  apply HP. exists (zeros nx), us, xs. split; [len|]. split; [|exact A]. rewrite E. unfold zeros. rewrite <- repeat_app. reflexivity.
Qed.
(*@ Theorem C88_region_partial : Linear MPC with P, K of solve_dare, Q positive definite, an invariant terminal set around the origin, a bounded domain and costs below the threshold of the solver, two or more states. Whatever polyhedron p get_feasible_set returns: from every state of p the closed loop runs forever inside D, through states that can be steered to the terminal set, and converges to the origin; and at every state that violates a row of p by more than the error of the projection, feedback returns None.
   Missing: states outside p but within that error (the loop may start there), costs above the threshold, and the exceptions of get_feasible_set (C54). *)
Lemma region np S N Q Rm P D X_N K nx nu C dia : mpc_setup np S N Q Rm P D X_N K nx nu C -> lqr_pair np S Q Rm P K nx nu -> Spec.pd Q nx -> in_poly X_N (zeros nx) -> bounded_set (in_poly D) -> cheap S N nu Q Rm P D X_N nx ->
  hull_ok np -> hull_total np -> rand_ok np -> (2 <= nx)%nat -> (forall y y', length y = nx -> length y' = nx -> can_reach S N nu D X_N y -> can_reach S N nu D X_N y' -> norm (vsub y y') <= dia) ->
  forall fuel p, get_feasible_set np fuel (c_mpqp C) = Ok p -> exists k vs, wf p k 0 nx /\ p_vertices p = Some vs /\ (forall x, in_poly p x <-> length x = nx /\ in_hull nx vs x) /\
    (forall x, in_poly p x -> attracted np C S D (fun y => length y = nx /\ can_reach S N nu D X_N y) x) /\
    forall x i, length x = nx -> (i < k)%nat -> nth i (pb p) 0 + (tol7 + (/ 100000 + INR nx * / 100000000) * dia) < dot (row (pA p) i) x -> feedback np C x = Ok None.
Proof.
  intros HS HL PQ HZ BD CH H1 H2 H3 Hn HD fuel p E. destruct (param_iff np S N Q Rm P D X_N K nx nu C HS) as (m & SA & SB & Lb & HP & _).
  destruct (feasible_set_ok np (c_mpqp C) m (nu * N) nx dia (proj1 HS) H1 H2 H3 SA SB Lb Hn (region_setup np S N Q Rm P D X_N K nx nu C HS HZ) (pairs_bounded np S N Q Rm P D X_N K nx nu C HS BD)) as (F & H).
  { intros y y' Hy Hy'. apply HP in Hy, Hy'. apply HD; tauto. }
  destruct (H fuel) as [(p' & vs & k & E' & W & EV & _ & HV & HI & HO & _)|[(E' & _)|[(E' & _)|(E' & _)]]]; rewrite E in E'; try discriminate. injection E' as <-. exists k, vs. split; [exact W|]. split; [exact EV|]. split; [exact HV|]. split.
  - intros x Hx. apply HI, HP in Hx. destruct Hx as (Lx & Hx). exact (steer_attracted np S N Q Rm P D X_N K nx nu C HS x HL PQ CH Lx Hx).
  - intros x i Lx Hi Hv. apply (not_steerable_none np S N Q Rm P D X_N K nx nu C x HS Lx). intros St. specialize (HO x ltac:(apply HP; auto) i Hi). lra.
Qed.
(*@ Theorem C88_interval : With one state get_feasible_set returns a polyhedron p, and p is exactly the region of attraction: from every state of p the closed loop runs forever without leaving p and converges to the origin, and at every other state feedback returns None. *)
Lemma interval_region np S N Q Rm P D X_N K nu C fuel : mpc_setup np S N Q Rm P D X_N K 1 nu C -> lqr_pair np S Q Rm P K 1 nu -> Spec.pd Q 1 -> in_poly X_N (zeros 1) -> bounded_set (in_poly D) -> cheap S N nu Q Rm P D X_N 1 ->
  exists p, get_feasible_set np fuel (c_mpqp C) = Ok p /\ (forall x, in_poly p x <-> length x = 1%nat /\ can_reach S N nu D X_N x) /\ (forall x, in_poly p x -> attracted np C S D (in_poly p) x) /\
    forall x, length x = 1%nat -> ~ in_poly p x -> feedback np C x = Ok None.
Proof.
  intros HS HL PQ HZ BD CH. destruct (param_iff np S N Q Rm P D X_N K 1 nu C HS) as (m & SA & SB & Lb & HP & _).
  destruct (feasible_set_interval np fuel (c_mpqp C) m (nu * N) (proj1 HS) SA SB Lb (region_setup np S N Q Rm P D X_N K 1 nu C HS HZ) (pairs_bounded np S N Q Rm P D X_N K 1 nu C HS BD)) as (p & E & H).
  assert (IP : forall x, in_poly p x <-> length x = 1%nat /\ can_reach S N nu D X_N x) by (intros x; rewrite H; apply HP). exists p. split; [exact E|]. split; [exact IP|]. split.
  - intros x Hx. apply IP in Hx. destruct Hx as (Lx & Hx). destruct (steer_attracted np S N Q Rm P D X_N K 1 nu C HS x HL PQ CH Lx Hx) as (X & U & X0 & HX & HC). exists X, U. split; [exact X0|]. split; [|exact HC]. intros t. destruct (HX t) as (G1 & G2 & G3 & G4). split; [exact G1|]. split; [exact G2|]. split; [exact G3|]. apply IP, G4.
  - intros x Lx Nx. apply (not_steerable_none np S N Q Rm P D X_N K 1 nu C x HS Lx). intros St. apply Nx, IP. auto.
Qed.
(** ** Examples *)
(*@ Example C88_interval_example : x+ = x + u with Q = 1, R = 2, P = 2 and K = -1/2 from solve_dare, |x| <= 1, |u| <= 1, N = 1 and terminal set |x| <= 1: all hypotheses of C88_interval hold; the state 1/2 is attracted, and at x = 3 feedback returns None. *)
Lemma interval_example fuel : let np := np_dare_const (Mat 1 [[2]]) in exists C,
  mpc_setup np S_1 1 (Mat 1 [[1]]) (Mat 1 [[2]]) (Mat 1 [[2]]) D_box X_int (Mat 1 [[- (1 / 2)]]) 1 1 C /\
  lqr_pair np S_1 (Mat 1 [[1]]) (Mat 1 [[2]]) (Mat 1 [[2]]) (Mat 1 [[- (1 / 2)]]) 1 1 /\ Spec.pd (Mat 1 [[1]]) 1 /\
  in_poly X_int (zeros 1) /\ bounded_set (in_poly D_box) /\ cheap S_1 1 1 (Mat 1 [[1]]) (Mat 1 [[2]]) (Mat 1 [[2]]) D_box X_int 1 /\
  exists p, get_feasible_set np fuel (c_mpqp C) = Ok p /\ attracted np C S_1 D_box (in_poly p) [/ 2] /\ feedback np C [3] = Ok None.
Proof.
  intros np. destruct closed_loop_example as (C & H1 & H2 & H3 & _). fold np in H1, H2. exists C. split; [exact H1|]. split; [exact H2|]. split; [exact H3|].
  assert (HZ : in_poly X_int (zeros 1)) by (apply in_X_int; lra).
  assert (HB : bounded_set (in_poly D_box)).
  { exists 2. intros x Hx. pose proof (proj1 Hx) as L. cbn in L. destruct x as [|a [|b [|]]]; try discriminate L. apply in_D_box in Hx. replace 2 with (INR (length [a; b]) * 1) by (cbn; lra). apply norm_entries; [lra|]. intros [|[|j]] Hj; cbn in Hj |- *; try lia; apply Rabs_le; lra. }
  assert (HC : cheap S_1 1 1 (Mat 1 [[1]]) (Mat 1 [[2]]) (Mat 1 [[2]]) D_box X_int 1).
  { intros x us xs L A. destruct x as [|a [|]]; try discriminate L. apply one_step_admissible in A. destruct A as (u & -> & -> & A1 & A2). apply in_D_box in A1. apply in_X_int in A2. rewrite one_step_cost. assert (a * a <= 1) by nra. assert (u * u <= 1) by nra. assert ((a + u) * (a + u) <= 1) by nra. lra. }
  split; [exact HZ|]. split; [exact HB|]. split; [exact HC|].
  destruct (interval_region np S_1 1 _ _ _ D_box X_int _ 1 C fuel H1 H2 H3 HZ HB HC) as (p & E & IP & IA & IN). exists p. split; [exact E|]. split.
  - apply IA, IP. split; [reflexivity|]. exists [[0]], [[/ 2]; [/ 2 + 0]]. apply one_step_admissible. exists 0. split; [reflexivity|]. split; [reflexivity|]. split; [apply in_D_box; lra|apply in_X_int; lra].
  - apply IN; [reflexivity|]. intros H. apply IP in H. destruct H as (_ & us & xs & A). apply one_step_admissible in A. destruct A as (u & _ & _ & A & _). apply in_D_box in A. lra.
Qed.

(** two states: x+ = x + u *)
Definition E2 : mat := Mat 2 [[1; 0]; [0; 1]].
Definition diag2 (a : R) : mat := Mat 2 [[a; 0]; [0; a]].
Definition S_2 : lsys := LSys E2 E2 None.
Definition D_2 : poly := Poly (Mat 4 [[1; 0; 0; 0]; [-1; 0; 0; 0]; [0; 1; 0; 0]; [0; -1; 0; 0]; [0; 0; 1; 0]; [0; 0; -1; 0]; [0; 0; 0; 1]; [0; 0; 0; -1]]) [1; 1; 1; 1; 1; 1; 1; 1] (Mat 4 []) [] None None None None None.
Definition X_2 : poly := Poly (Mat 2 [[1; 0]; [-1; 0]; [0; 1]; [0; -1]]) [1; 1; 1; 1] (Mat 2 []) [] None None None None None.
Definition np_2 : numpy := exact_numpy (fun A => A) (fun _ => 0) (fun A => A) (fun _ _ _ _ => diag2 2) (fun _ n => map (fun i => 10 * INR i) (seq 0 n)) (fun _ _ _ => Ok []) fm_hull.
Lemma np_2_ok : exact_np np_2 /\ hull_ok np_2 /\ hull_total np_2 /\ rand_ok np_2.
Proof.
  split; [unfold exact_np, np_2; repeat apply conj; auto using exact_nnls_ok, exact_pinv_ok, exact_chol_ok, exact_inv_ok, exact_solve_ok, exact_svd_ok|]. split; [exact fm_hull_ok|]. split; [exact fm_hull_total|]. intros k n. cbn. rewrite map_length, seq_length. reflexivity.
Qed.
Lemma diag2_shape a : shape (diag2 a) 2 2. Proof. repeat split; repeat constructor. Qed.
Lemma diag2_psd a : 0 <= a -> psd (diag2 a) 2.
Proof. intros H. split; [reflexivity|]. intros x L. destruct x as [|u [|v [|]]]; try discriminate L. cbn. pose proof (Rle_0_sqr u). pose proof (Rle_0_sqr v). unfold Rsqr in *. nra. Qed.
Lemma diag2_pd a : 0 < a -> Spec.pd (diag2 a) 2.
Proof. intros H. split; [reflexivity|]. intros x L N. destruct x as [|u [|v [|]]]; try discriminate L. cbn. assert (u <> 0 \/ v <> 0). { destruct (Req_dec u 0); [|auto]. destruct (Req_dec v 0); [|auto]. subst. elim N. reflexivity. } assert (0 <= u * u) by nra. assert (0 <= v * v) by nra. assert (G : 0 < a * (u * u + v * v)). { apply Rmult_lt_0_compat; [exact H|]. destruct H0 as [G|G]; [assert (0 < u * u) by nra|assert (0 < v * v) by nra]; lra. } lra. Qed.
Lemma in_D_2 a b c d : in_poly D_2 [a; b; c; d] <-> -1 <= a <= 1 /\ -1 <= b <= 1 /\ -1 <= c <= 1 /\ -1 <= d <= 1.
Proof.
  split.
  - intros (_ & H' & _). unfold ineq_holds in H'. cbn in H'. inv2 H'. lra.
  - intros H'. split; [reflexivity|]. split; [|constructor]. unfold ineq_holds. cbn [pA pb D_2 rows]. rows_ok.
Qed.
Lemma in_X_2 a b : in_poly X_2 [a; b] <-> -1 <= a <= 1 /\ -1 <= b <= 1.
Proof.
  split.
  - intros (_ & H' & _). unfold ineq_holds in H'. cbn in H'. inv2 H'. lra.
  - intros H'. split; [reflexivity|]. split; [|constructor]. unfold ineq_holds. cbn [pA pb X_2 rows]. rows_ok.
Qed.
Lemma two_step_admissible D X x us xs : length x = 2%nat -> mpc_admissible (lA S_2) (lB S_2) 2 1 D X x us xs <-> exists u, length u = 2%nat /\ us = [u] /\ xs = [x; vadd x u] /\ D (x ++ u) /\ X (vadd x u).
Proof.
  intros L. destruct x as [|a [|b [|]]]; try discriminate L. split.
  - intros (Lu & F & (T1 & T2 & T3) & H1 & H2). destruct us as [|u [|]]; try discriminate Lu. inversion F as [|? ? Lv _]; subst. destruct xs as [|x0 [|x1 [|]]]; try discriminate T1. cbn in T2. subst x0. specialize (T3 0%nat ltac:(cbn; lia)). cbn in T3.
    destruct u as [|c [|d [|]]]; try discriminate Lv. cbn in T3. assert (E : x1 = vadd [a; b] [c; d]) by (rewrite T3; cbn; f_equal; [ring|f_equal; ring]). subst x1. rewrite E in *. exists [c; d]. split; [reflexivity|]. split; [reflexivity|]. split; [reflexivity|]. split; [apply (H1 0%nat); cbn; lia|exact H2].
  - intros (u & Lu & -> & -> & H1 & H2). destruct u as [|c [|d [|]]]; try discriminate Lu. split; [reflexivity|]. split; [repeat constructor|]. split.
    + split; [reflexivity|]. split; [reflexivity|]. intros [|t] Ht; [|cbn in Ht; lia]. cbn. f_equal; [ring|f_equal; ring].
    + split; [|exact H2]. intros [|t] Ht; [exact H1|cbn in Ht; lia].
Qed.
Lemma can_reach_2 x : length x = 2%nat -> can_reach S_2 1 2 D_2 X_2 x <-> in_poly X_2 x.
Proof.
  intros L. split.
  - intros (us & xs & A). apply two_step_admissible in A; [|exact L]. destruct A as (u & Lu & _ & _ & H & _). destruct x as [|a [|b [|]]]; try discriminate L. destruct u as [|c [|d [|]]]; try discriminate Lu. apply in_D_2 in H. apply in_X_2. tauto.
  - intros H. destruct x as [|a [|b [|]]]; try discriminate L. exists [[0; 0]], [[a; b]; vadd [a; b] [0; 0]]. apply two_step_admissible; [reflexivity|]. apply in_X_2 in H. exists [0; 0]. split; [reflexivity|]. split; [reflexivity|]. split; [reflexivity|]. split; [apply in_D_2; lra|cbn; apply in_X_2; lra].
Qed.
(*@ Example C88_example : x+ = x + u in the plane, Q = I, R = 2I, P = 2I and K = -1/2 I from solve_dare, boxes of half width 1 for state, input and terminal set, N = 1, random offset (0, 10): all hypotheses of C88_region_partial hold with diameter 4; with enough fuel get_feasible_set returns a polyhedron, the vertices of which are not on a line, and at (2, 0) feedback returns None. *)
Lemma region_example : exists C, mpc_setup np_2 S_2 1 (diag2 1) (diag2 2) (diag2 2) D_2 X_2 (diag2 (- (1 / 2))) 2 2 C /\ lqr_pair np_2 S_2 (diag2 1) (diag2 2) (diag2 2) (diag2 (- (1 / 2))) 2 2 /\ Spec.pd (diag2 1) 2 /\
  in_poly X_2 (zeros 2) /\ bounded_set (in_poly D_2) /\ cheap S_2 1 2 (diag2 1) (diag2 2) (diag2 2) D_2 X_2 2 /\ hull_ok np_2 /\ hull_total np_2 /\ rand_ok np_2 /\
  (forall y y', length y = 2%nat -> length y' = 2%nat -> can_reach S_2 1 2 D_2 X_2 y -> can_reach S_2 1 2 D_2 X_2 y' -> norm (vsub y y') <= 4) /\
  exists F, forall fuel, (F <= fuel)%nat -> exists p vs, get_feasible_set np_2 fuel (c_mpqp C) = Ok p /\ p_vertices p = Some vs /\ (forall a d, length a = 2%nat -> Forall (fun v => dot a v = d) vs -> a = zeros 2) /\ feedback np_2 C [2; 0] = Ok None.
Proof.
  destruct np_2_ok as (Hnp & H1 & H2 & H3).
  assert (PQ : Spec.pd (diag2 1) 2) by (apply diag2_pd; lra). assert (PR : Spec.pd (diag2 2) 2) by (apply diag2_pd; lra).
  assert (HD : mpc_data S_2 1 (diag2 1) (diag2 2) (diag2 2) D_2 X_2 2 2).
  { split; [|split; [reflexivity|split; [reflexivity|split; [apply diag2_psd; lra|split; [apply diag2_psd; lra|exact PR]]]]]. split; [apply (diag2_shape 1)|]. split; [apply (diag2_shape 1)|]. split; [lia|]. split; [apply diag2_shape|]. split; [apply diag2_shape|]. split; [apply diag2_shape|]. split; [exists 8%nat, 0%nat|exists 4%nat, 0%nat]; unfold wf; simpl; repeat split; repeat constructor. }
  assert (MI : forall Mi, shape Mi 2 2 -> mm Mi (madd (mm (mm (tr (lB S_2)) (diag2 2)) (lB S_2)) (diag2 2)) = eye 2 -> Mi = diag2 (/ 4)).
  { intros Mi SM HM. destruct Mi as [nc rs]. destruct SM as (L1 & L2 & L3). cbn in L1, L2, L3. subst nc. destruct rs as [|v [|w [|]]]; try discriminate L1. inversion L3 as [|? ? Lv L4]; subst. inversion L4 as [|? ? Lw _]; subst.
    destruct v as [|v1 [|v2 [|]]]; try discriminate Lv. destruct w as [|w1 [|w2 [|]]]; try discriminate Lw. cbv -[Rplus Rmult IZR Rminus Ropp] in HM. injection HM as E1 E2 E3 E4. unfold diag2. f_equal. f_equal; [f_equal; [lra|f_equal; lra]|f_equal; f_equal; [lra|f_equal; lra]]. }
  assert (RI : riccati (lA S_2) (lB S_2) (diag2 1) (diag2 2) (np_dare np_2 (lA S_2) (lB S_2) (diag2 1) (diag2 2)) 2 2).
  { split; [apply diag2_shape|]. intros Mi SM HM. apply MI in HM; [|exact SM]. subst Mi. change (np_dare _ _ _ _ _) with (diag2 2). cbv -[Rplus Rmult IZR Rminus Ropp Rinv]. f_equal. f_equal; [f_equal; [field|f_equal; field]|f_equal; f_equal; [field|f_equal; field]]. }
  assert (ST : steerable (lA S_2) (lB S_2) 2 2 2).
  { intros x0 xf L0 Lf. destruct x0 as [|a [|b [|]]]; try discriminate L0. destruct xf as [|c [|d [|]]]; try discriminate Lf. exists (fun _ => [(c - a) / 2; (d - b) / 2]). split; [reflexivity|]. cbn. f_equal; [field|f_equal; field]. }
  assert (PD : psd (np_dare np_2 (lA S_2) (lB S_2) (diag2 1) (diag2 2)) 2) by (apply diag2_psd; lra).
  assert (HL : lqr_pair np_2 S_2 (diag2 1) (diag2 2) (diag2 2) (diag2 (- (1 / 2))) 2 2).
  { split; [lia|]. split; [reflexivity|]. split; [exact RI|]. split; [exact PD|].
    destruct (dare_returns np_2 Hnp S_2 (diag2 1) (diag2 2) 2 2 (diag2_shape 1) (diag2_shape 1) (diag2_shape 2) ltac:(lia) eq_refl PR RI PD) as (R1 & _ & R3).
    destruct (R1 ST) as (K & E). destruct (R3 _ _ E) as (_ & Mi & SM & _ & HM & EK). apply MI in HM; [|exact SM]. subst Mi. rewrite E, EK. f_equal. f_equal. cbv -[Rplus Rmult IZR Rminus Ropp Rdiv Rinv]. f_equal. f_equal; [f_equal; [field|f_equal; field]|f_equal; f_equal; [field|f_equal; field]]. }
  destruct (mpc_program np_2 _ _ _ _ _ _ _ _ _ Hnp HD) as (q & m & E & _). exists (MPC S_2 1 q).
  assert (TI : terminal_invariant (lA S_2) (lB S_2) (diag2 (- (1 / 2))) (in_poly D_2) (in_poly X_2)).
  { intros x Hx. pose proof (proj1 Hx) as Lx. cbn in Lx. destruct x as [|a [|b [|]]]; try discriminate Lx. apply in_X_2 in Hx. split; cbn; [apply in_D_2; lra|apply in_X_2; lra]. }
  assert (HS : mpc_setup np_2 S_2 1 (diag2 1) (diag2 2) (diag2 2) D_2 X_2 (diag2 (- (1 / 2))) 2 2 (MPC S_2 1 q)) by (split; [exact Hnp|]; split; [exact HD|]; split; [exact E|]; split; [apply diag2_shape|exact TI]).
  assert (HZ : in_poly X_2 (zeros 2)) by (apply in_X_2; lra).
  assert (HB : bounded_set (in_poly D_2)).
  { exists 4. intros x Hx. pose proof (proj1 Hx) as L. cbn in L. destruct x as [|a [|b [|c [|d [|]]]]]; try discriminate L. apply in_D_2 in Hx. replace 4 with (INR (length [a; b; c; d]) * 1) by (cbn; lra). apply norm_entries; [lra|]. intros [|[|[|[|j]]]] Hj; cbn in Hj |- *; try lia; apply Rabs_le; lra. }
  assert (HC : cheap S_2 1 2 (diag2 1) (diag2 2) (diag2 2) D_2 X_2 2).
  { intros x us xs L A. apply two_step_admissible in A; [|exact L]. destruct A as (u & Lu & -> & -> & A1 & A2). destruct x as [|a [|b [|]]]; try discriminate L. destruct u as [|c [|d [|]]]; try discriminate Lu. apply in_D_2 in A1. cbn in A2. apply in_X_2 in A2. unfold trajectory_cost. cbn.
    assert (a * a <= 1) by nra. assert (b * b <= 1) by nra. assert (c * c <= 1) by nra. assert (d * d <= 1) by nra. assert ((a + c) * (a + c) <= 1) by nra. assert ((b + d) * (b + d) <= 1) by nra. lra. }
  assert (HW : forall y y', length y = 2%nat -> length y' = 2%nat -> can_reach S_2 1 2 D_2 X_2 y -> can_reach S_2 1 2 D_2 X_2 y' -> norm (vsub y y') <= 4).
  { intros y y' L L' Y Y'. apply can_reach_2 in Y, Y'; auto. destruct y as [|a [|b [|]]]; try discriminate L. destruct y' as [|c [|d [|]]]; try discriminate L'. apply in_X_2 in Y, Y'. replace 4 with (INR (length (vsub [a; b] [c; d])) * 2) by (cbn; lra). apply norm_entries; [lra|]. intros [|[|j]] Hj; cbn in Hj |- *; try lia; apply Rabs_le; lra. }
  do 10 (split; [assumption|]).
  destruct (param_iff np_2 S_2 1 _ _ _ D_2 X_2 _ 2 2 _ HS) as (m' & SA & SB & Lb & HP & _).
  destruct (feasible_set_ok np_2 (c_mpqp (MPC S_2 1 q)) m' (2 * 1) 2 4 Hnp H1 H2 H3 SA SB Lb ltac:(lia) (region_setup np_2 S_2 1 _ _ _ D_2 X_2 _ 2 2 _ HS HZ) (pairs_bounded np_2 S_2 1 _ _ _ D_2 X_2 _ 2 2 _ HS HB)) as (F & H).
  { intros y y' Hy Hy'. apply HP in Hy, Hy'. apply HW; tauto. }
  assert (PX : forall x, feasible_parameter (q_Au q) (q_Ax q) (q_b q) (2 * 1) 2 x <-> in_poly X_2 x).
  { intros x. rewrite (HP x). split; [intros (L & R); apply can_reach_2; auto|]. intros Hx. pose proof (proj1 Hx) as L. split; [exact L|]. apply can_reach_2; auto. }
  assert (NT : ~ thin (feasible_parameter (q_Au q) (q_Ax q) (q_b q) (2 * 1) 2) 2).
  { intros (a & La & Na & T). destruct a as [|a1 [|a2 [|]]]; try discriminate La. assert (NN : a1 * a1 + a2 * a2 = 1). { pose proof (norm_sqr [a1; a2]) as G. rewrite Na in G. cbn in G. lra. }
    specialize (T [- a1; - a2] [a1; a2]). cbn in T. unfold tol7 in T. assert (B : -1 <= a1 <= 1 /\ -1 <= a2 <= 1) by nra. specialize (T ltac:(apply PX, in_X_2; lra) ltac:(apply PX, in_X_2; lra)). lra. }
  assert (NU : ~ unlucky np_2 (feasible_parameter (q_Au q) (q_Ax q) (q_b q) (2 * 1) 2) 2).
  { intros (i & v1 & v2 & vs & z & Hi & Lv & Fv & He & Lz & Nz & Fz). destruct i as [|[|[|i]]]; try (exfalso; lia). destruct vs; [|discriminate Lv]. inversion Fv as [|? ? P1 F2]; subst. inversion F2 as [|? ? P2 _]; subst. inversion Fz as [|? ? Z1 F3]; subst. inversion F3 as [|? ? Z2 _]; subst.
    apply PX in P1, P2. pose proof (He [-1; 0] ltac:(apply PX, in_X_2; lra)) as G1. pose proof (He [1; 0] ltac:(apply PX, in_X_2; lra)) as G2.
    pose proof (proj1 P1) as L1. pose proof (proj1 P2) as L2. cbn in L1, L2. destruct v1 as [|a [|b [|]]]; try discriminate L1. destruct v2 as [|c [|d [|]]]; try discriminate L2. destruct z as [|z1 [|z2 [|]]]; try discriminate Lz. apply in_X_2 in P1, P2. cbn in *.
    assert (a = -1) by lra. assert (c = 1) by lra. subst a c. assert (z2 * (b + d + 20) = 0) by lra. assert (z2 = 0) by nra. subst z2. apply Nz. assert (z1 = 0) by lra. subst z1. reflexivity. }
  exists F. intros fuel Hf. destruct (H fuel) as [(p & vs & k & E' & _ & EV & _ & _ & _ & _ & _ & HV)|[(_ & X)|[(_ & X)|(_ & X)]]]; [|contradiction|contradiction|lia].
  exists p, vs. split; [exact E'|]. split; [exact EV|]. split; [destruct HV as [X|X]; [contradiction|exact X]|].
  apply (not_steerable_none np_2 S_2 1 _ _ _ D_2 X_2 _ 2 2 _ [2; 0] HS eq_refl). intros X. apply can_reach_2 in X; [|reflexivity]. apply in_X_2 in X. lra.
Qed.
