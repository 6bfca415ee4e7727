(** * OriginThms: controllers whose terminal set is the origin (C98), proofs *)
From Coq Require Import Lra Lia Classical ClassicalChoice.
From Verif Require Import Arr ArrFacts Spec SpecMpc SpecProg SpecDyn SpecEig SpecRound SpecHold SpecOrigin Numpy QpFacts Polyhedron PolyThms Oracle SolverThms Dynamics DynThms CondenseThms LqrThms McaisThms Mpqp MpqpThms Controllers CtrlThms HorizonThms Gurobi Programs Hybrid HybridThms HybridOptThms HybridLoopThms RoundThms RoundSimThms RoundPwaThms ExampleCtrl ExThms ExLoopThms LocalThms PolySolveThms TolThms CartPole CartThms PlantThms HoldThms.
Local Open Scope list_scope.

(** ** Steering to the origin at least cost *)
Section Steer.
Variables (A B Q Rm : mat) (nx nu N : nat).
Hypothesis SA : shape A nx nx.
Hypothesis SB : shape B nx nu.
Hypothesis SQ : shape Q nx nx.
Hypothesis SR : shape Rm nu nu.
Hypothesis PQ : psd Q nx.
Hypothesis PR : Spec.pd Rm nu.
Hypothesis HN : (0 < N)%nat.
Hypothesis REACH : forall x, length x = nx -> exists u, steers A B nx nu N x u.
Notation J := (lq_cost A B Q Rm).
Notation X := (state A B).
Notation steer := (steers A B nx nu N).
Lemma X_length x u t : length x = nx -> length (X x u t) = nx.
Proof. apply (state_length A B nx nu); assumption. Qed.
Lemma superpose a x u y v t : length x = nx -> length y = nx -> (forall t, length (u t) = nu) -> (forall t, length (v t) = nu) ->
  X (vadd x (vscale a y)) (fun t => vadd (u t) (vscale a (v t))) t = vadd (X x u t) (vscale a (X y v t)).
Proof.
  intros Lx Ly Lu Lv. induction t as [|t IH]; [reflexivity|]. cbn [state]. rewrite IH. pose proof (X_length x u t Lx) as L1. pose proof (X_length y v t Ly) as L2. pose proof (Lu t). pose proof (Lv t).
  rewrite (mv_vadd A nx nx), (mv_vadd B nx nu), !mv_vscale by (auto; len; lia). apply vec_ext; [len; rewrite (proj1 SA), (proj1 SB); lia|]. intros i Hi.
  rewrite ?nth_vadd, ?nth_vscale, ?nth_vadd, ?nth_vscale by (len; rewrite ?(proj1 SA), ?(proj1 SB); lia). ring.
Qed.
Definition G (x : vec) (u : nat -> vec) (y : vec) (v : nat -> vec) : R := sum_upto (fun t => dot (X x u t) (mv Q (X y v t)) + dot (u t) (mv Rm (v t))) N.
Lemma form_expand M n a x y : shape M n n -> tr M = M -> length x = n -> length y = n -> dot (vadd x (vscale a y)) (mv M (vadd x (vscale a y))) = dot x (mv M x) + 2 * a * dot x (mv M y) + a * a * dot y (mv M y).
Proof.
  intros SM TM Lx Ly. rewrite (mv_vadd M n n), mv_vscale by (auto; len; lia). pose proof (proj1 SM) as LM. rewrite !dot_vadd_l, !dot_vadd_r, !dot_vscale_l, !dot_vscale_r by (len; lia). rewrite (sym_dot M n y x SM TM Ly Lx). ring.
Qed.
Lemma J_expand a x u y v : length x = nx -> length y = nx -> (forall t, length (u t) = nu) -> (forall t, length (v t) = nu) ->
  J (vadd x (vscale a y)) (fun t => vadd (u t) (vscale a (v t))) N = J x u N + a * G x u y v + a * a * J y v N.
Proof.
  intros Lx Ly Lu Lv. rewrite !cost_sum. unfold G. rewrite <- !sum_upto_scale, <- !sum_upto_plus. apply sum_upto_ext. intros t _. rewrite superpose by assumption.
  rewrite (form_expand Q nx), (form_expand Rm nu) by (auto using X_length; apply PR || apply PQ). field.
Qed.
Lemma J_nonneg x u : length x = nx -> (forall t, length (u t) = nu) -> 0 <= J x u N.
Proof. intros Lx Lu. rewrite cost_sum. apply sum_upto_nonneg. intros t _. pose proof (proj2 PQ (X x u t) (X_length x u t Lx)). pose proof (proj2 (pd_psd _ _ PR) (u t) (Lu t)). lra. Qed.
Definition least_steer (x : vec) (u : nat -> vec) : Prop := steer x u /\ forall v, steer x v -> J x u N <= J x v N.
Lemma least_exists x : length x = nx -> exists u, least_steer x u.
Proof.
  intros Lx. destruct (CartThms.zero_box nx) as (X0 & _ & WX & HX). set (D0 := Poly (Mat (nx + nu) []) [] (Mat (nx + nu) []) [] None None None None None). set (S := LSys A B None).
  assert (WD : wf D0 0 0 (nx + nu)) by (unfold wf, D0, shape; cbn; repeat split; constructor). assert (PX : Polyhedron.pd X0 = []) by (destruct (Polyhedron.pd X0) eqn:E; [reflexivity|exfalso; pose proof (proj2 (proj2 (proj2 WX))) as LL; rewrite E in LL; discriminate LL]).
  assert (HD : mpc_data S N Q Rm Q D0 X0 nx nu). { split; [|split; [reflexivity|split; [exact PX|split; [exact PQ|split; [exact PQ|exact PR]]]]]. repeat (split; [assumption|]). split; [exists 0%nat, 0%nat; exact WD|eauto]. }
  destruct (mpc_program np0 S N Q Rm Q D0 X0 nx nu np0_exact HD) as (q & m & _ & Hq & HC). destruct (REACH x Lx) as (u & Lu & Eu).
  assert (IN : forall w, length w = (nx + nu)%nat -> in_poly D0 w) by (intros w Lw; apply (CartThms.no_rows D0 (nx + nu)); assumption).
  assert (ADM : forall u, steer x u -> mpc_admissible A B nu N (in_poly D0) (in_poly X0) x (cut_u u N) (cut_x A B x u N)).
  { intros v (Lv & Ev). apply cut_admissible; [exact Lv| |apply HX; exact Ev]. intros t _. apply IN. rewrite app_length, (X_length x v t Lx), Lv. reflexivity. }
  assert (CST : forall u, steer x u -> q_feasible q x (List.concat (cut_u u N)) /\ q_cost q x (List.concat (cut_u u N)) = J x u N).
  { intros v Hv. pose proof (ADM v Hv) as AD. pose proof AD as (L1 & F1 & T1 & _). destruct (HC x _ _ Lx L1 F1 T1) as (C1 & C2). split; [apply C2, AD|]. rewrite C1, (cut_cost A B Q Rm Q x v N), (proj2 Hv), mv_zeros, dot_zeros_r. lra. }
  destruct (minimizer_exists q (nu * N) nx m x (List.concat (cut_u u N)) Hq Lx (proj1 (CST u (conj Lu Eu)))) as (w & FW & OW).
  assert (Lw : length w = (nu * N)%nat) by (destruct Hq as (_ & _ & _ & _ & _ & _ & SAu & _); rewrite (proj1 FW); apply SAu). destruct (chunks nu N w ltac:(lia)) as (us & Lus & Fus & Ew).
  destruct (trajectory_exists A B nx nu x us SA SB Lx) as (xs & TR). destruct (HC x us xs Lx Lus Fus TR) as (C1 & C2). rewrite Ew in C1, C2. pose proof (proj1 C2 FW) as (_ & _ & _ & _ & FX). apply HX in FX.
  assert (ST : steer x (sig_of nu us)). { split; [intros t; apply sig_len; exact Fus|]. rewrite <- Lus at 1. rewrite (sig_state A B nu x us xs TR) by lia. exact FX. }
  exists (sig_of nu us). split; [exact ST|]. intros v Hv. destruct (CST v Hv) as (F1 & E1). destruct (OW _ F1) as (O1 & _). fold (q_cost q x w) (q_cost q x (List.concat (cut_u v N))) in O1. rewrite E1, C1 in O1. rewrite (sig_cost A B Q Rm Q nu x us xs TR), Lus in O1. rewrite (proj2 ST), mv_zeros, dot_zeros_r in O1. lra.
Qed.
(** first-order conditions *)
Definition critical (x : vec) (u : nat -> vec) : Prop := steer x u /\ forall v, steer (zeros nx) v -> G x u (zeros nx) v = 0.
Lemma quad_zero g j : (forall a, 0 <= a * g + a * a * j) -> g = 0.
Proof.
  intros H. destruct (Rle_dec j 0) as [Hj|Hj].
  - pose proof (H 1). pose proof (H (-1)). lra.
  - pose proof (H (- g / (2 * j))) as E. replace (- g / (2 * j) * g + - g / (2 * j) * (- g / (2 * j)) * j) with (- (g * g) / (4 * j)) in E by (field; lra). assert (0 <= g * g * / (4 * j)) by (apply Rmult_le_pos; [nra|apply Rlt_le, Rinv_0_lt_compat; lra]). unfold Rdiv in E.
    assert (g * g * / (4 * j) = 0) by lra. assert (g * g = 0). { apply (Rmult_eq_reg_r (/ (4 * j))); [lra|]. apply Rinv_neq_0_compat. lra. } nra.
Qed.
Lemma add_zero x a : length x = nx -> vadd x (vscale a (zeros nx)) = x.
Proof. intros L. apply vec_ext; [len; lia|]. intros i Hi. rewrite nth_vadd, nth_vscale, nth_zeros by (len; lia). ring. Qed.
Lemma steer_add a x u v : length x = nx -> steer x u -> steer (zeros nx) v -> steer x (fun t => vadd (u t) (vscale a (v t))).
Proof.
  intros Lx (Lu & Eu) (Lv & Ev). split; [intros t; len; rewrite Lu, Lv; lia|]. rewrite <- (add_zero x a Lx) at 1. rewrite superpose by (auto; len; lia). rewrite Eu, Ev. apply add_zero. len; lia.
Qed.
Lemma least_critical x u : length x = nx -> least_steer x u -> critical x u.
Proof.
  intros Lx (ST & OPT). split; [exact ST|]. intros v Hv. apply (quad_zero _ (J (zeros nx) v N)). intros a. pose proof (OPT _ (steer_add a x u v Lx ST Hv)) as H. pose proof (J_expand a x u (zeros nx) v Lx ltac:(len; lia) (proj1 ST) (proj1 Hv)) as E. rewrite (add_zero x a Lx) in E. rewrite E in H. lra.
Qed.
Lemma critical_least x u : length x = nx -> critical x u -> forall v, steer x v -> J x u N <= J x v N /\ (J x v N = J x u N -> forall t, (t < N)%nat -> v t = u t).
Proof.
  intros Lx (ST & CR) v Hv. set (d := fun t => vadd (v t) (vscale (-1) (u t))). assert (Ld : forall t, length (d t) = nu) by (intros t; unfold d; len; rewrite (proj1 ST), (proj1 Hv); lia).
  assert (E0 : vadd x (vscale (-1) x) = zeros nx) by (apply vec_ext; [len; lia|]; intros i Hi; rewrite nth_vadd, nth_vscale, nth_zeros by (len; lia); ring).
  assert (Sd : steer (zeros nx) d). { split; [exact Ld|]. pose proof (superpose (-1) x v x u N Lx Lx (proj1 Hv) (proj1 ST)) as SP. rewrite E0, (proj2 ST), (proj2 Hv) in SP. fold d in SP. rewrite SP. apply add_zero. len; lia. }
  pose proof (J_expand 1 x u (zeros nx) d Lx ltac:(len; lia) (proj1 ST) Ld) as E. rewrite (add_zero x 1 Lx), (CR d Sd) in E.
  assert (EV : forall t, vadd (u t) (vscale 1 (d t)) = v t). { intros t. pose proof (proj1 ST t). pose proof (proj1 Hv t). unfold d. apply vec_ext; [len; lia|]. intros i Hi. rewrite ?nth_vadd, ?nth_vscale, ?nth_vadd, ?nth_vscale by (len; lia). ring. }
  rewrite (cost_ext A B Q Rm x _ v N (fun t _ => EV t)) in E. pose proof (J_nonneg (zeros nx) d ltac:(len; lia) Ld) as JN. split; [lra|]. intros EQ t Ht.
  assert (JZ : J (zeros nx) d N = 0) by lra. rewrite cost_sum in JZ. destruct (classic (d t = zeros nu)) as [Z|NZ].
  - rewrite <- (EV t), Z. pose proof (proj1 ST t). apply vec_ext; [len; lia|]. intros i Hi. rewrite nth_vadd, nth_vscale, nth_zeros by (len; lia). ring.
  - exfalso. match type of JZ with sum_upto ?f N = 0 => assert (0 < sum_upto f N); [|lra]; apply (sum_upto_pos f N t Ht) end.
    + intros i _. pose proof (proj2 PQ (X (zeros nx) d i) (X_length (zeros nx) d i (repeat_length 0 nx))). pose proof (proj2 (pd_psd _ _ PR) (d i) (Ld i)). lra.
    + pose proof (proj2 PQ (X (zeros nx) d t) (X_length (zeros nx) d t (repeat_length 0 nx))). pose proof (proj2 PR (d t) (Ld t) NZ). lra.
Qed.
Lemma G_add a x u y w v : length x = nx -> length y = nx -> (forall t, length (u t) = nu) -> (forall t, length (w t) = nu) -> (forall t, length (v t) = nu) ->
  G (vadd x (vscale a y)) (fun t => vadd (u t) (vscale a (w t))) (zeros nx) v = G x u (zeros nx) v + a * G y w (zeros nx) v.
Proof.
  intros Lx Ly Lu Lw Lv. unfold G. rewrite <- sum_upto_scale, <- sum_upto_plus. apply sum_upto_ext. intros t _. rewrite superpose by assumption. pose proof (X_length x u t Lx). pose proof (X_length y w t Ly). pose proof (Lu t). pose proof (Lw t). pose proof (Lv t). pose proof (X_length (zeros nx) v t ltac:(len; lia)).
  rewrite !dot_vadd_l, !dot_vscale_l by (len; rewrite ?(proj1 SQ), ?(proj1 SR); lia). ring.
Qed.
Lemma critical_add a x u y w : length x = nx -> length y = nx -> critical x u -> critical y w -> critical (vadd x (vscale a y)) (fun t => vadd (u t) (vscale a (w t))).
Proof.
  intros Lx Ly ((Lu & Eu) & C1) ((Lw & Ew) & C2). split.
  - split; [intros t; len; rewrite Lu, Lw; lia|]. rewrite superpose by assumption. rewrite Eu, Ew. apply add_zero. len; lia.
  - intros v Hv. rewrite G_add by (auto; apply Hv). rewrite C1, C2 by exact Hv. ring.
Qed.
Lemma critical_zero : critical (zeros nx) (fun _ => zeros nu).
Proof.
  assert (Z : forall t, X (zeros nx) (fun _ => zeros nu) t = zeros nx). { induction t as [|t IH]; [reflexivity|]. cbn [state]. rewrite IH, !mv_zeros, (proj1 SA), (proj1 SB). apply vec_ext; [len; lia|]. intros i Hi. rewrite nth_vadd, !nth_zeros by (len; lia). ring. }
  split; [split; [intros t; len; lia|apply Z]|]. intros v Hv. unfold G. rewrite (sum_upto_ext _ (fun _ => 0 * 0)) by (intros t _; rewrite Z, !dot_zeros_l; ring). rewrite sum_upto_scale. ring.
Qed.
(** the least-cost signal depends linearly on the state *)
Fixpoint px (x : vec) (k : nat) : vec := match k with O => zeros nx | Datatypes.S k' => vadd (px x k') (vscale (nth k' x 0) (unit nx k')) end.
Fixpoint pu (U : nat -> nat -> vec) (x : vec) (k t : nat) : vec := match k with O => zeros nu | Datatypes.S k' => vadd (pu U x k' t) (vscale (nth k' x 0) (U k' t)) end.
Lemma px_length x k : length (px x k) = nx.
Proof. induction k as [|k IH]; cbn [px]; len; rewrite ?IH; lia. Qed.
Lemma px_nth x k i : (i < nx)%nat -> nth i (px x k) 0 = if (i <? k)%nat then nth i x 0 else 0.
Proof.
  intros Hi. induction k as [|k IH]; cbn [px]; [rewrite nth_zeros; reflexivity|]. rewrite nth_vadd, nth_vscale by (len; rewrite ?px_length; lia). rewrite IH, nth_unit by lia.
  destruct (Nat.ltb_spec i k), (Nat.ltb_spec i (Datatypes.S k)); try lia; destruct (Nat.eqb_spec i k); try lia; try (subst; ring); ring.
Qed.
Lemma px_all x : length x = nx -> px x nx = x.
Proof. intros L. apply vec_ext; [rewrite px_length; lia|]. intros i Hi. rewrite px_length in Hi. rewrite px_nth by exact Hi. destruct (Nat.ltb_spec i nx); [reflexivity|lia]. Qed.
Lemma least_linear : exists Ks : nat -> mat, (forall t, shape (Ks t) nu nx) /\ forall x, length x = nx -> critical x (fun t => mv (Ks t) x).
Proof.
  assert (E : forall i, exists u, critical (unit nx i) u) by (intros i; destruct (least_exists (unit nx i) ltac:(len; lia)) as (u & Hu); exists u; apply least_critical; [len; lia|exact Hu]). apply choice in E. destruct E as (U & HU).
  set (Ks := fun t => Mat nx (map (fun j => map (fun i => nth j (U i t) 0) (seq 0 nx)) (seq 0 nu))). exists Ks.
  assert (SK : forall t, shape (Ks t) nu nx). { intros t. unfold Ks, shape, nrows. cbn. split; [rewrite map_length, seq_length; reflexivity|]. split; [reflexivity|]. apply Forall_forall. intros r Hr. apply in_map_iff in Hr. destruct Hr as (j & <- & _). rewrite map_length, seq_length. reflexivity. }
  split; [exact SK|]. intros x Lx.
  assert (LU : forall i t, length (U i t) = nu) by (intros; apply (HU i)).
  assert (C : forall k, critical (px x k) (pu U x k)). { induction k as [|k IH]; [exact critical_zero|]. exact (critical_add (nth k x 0) (px x k) (pu U x k) (unit nx k) (U k) (px_length x k) ltac:(len; lia) IH (HU k)). }
  specialize (C nx). rewrite (px_all x Lx) in C.
  assert (EQ : forall t, mv (Ks t) x = pu U x nx t).
  { intros t. assert (LP : forall k, length (pu U x k t) = nu) by (induction k; cbn [pu]; len; rewrite ?IHk, ?LU; lia). apply vec_ext; [len; rewrite LP; unfold Ks, nrows; cbn; rewrite map_length, seq_length; reflexivity|]. intros j Hj. rewrite mv_length in Hj. unfold Ks, nrows in Hj. cbn in Hj. rewrite map_length, seq_length in Hj.
    rewrite nth_mv. unfold Ks. cbn [rows]. rewrite (nth_indep _ [] (map (fun i => nth 0 (U i t) 0) (seq 0 nx))) by (rewrite map_length, seq_length; exact Hj). rewrite (map_nth (fun j => map (fun i => nth j (U i t) 0) (seq 0 nx)) (seq 0 nu) 0%nat j), seq_nth by exact Hj. cbn [Nat.add].
    assert (P : forall k, (k <= nx)%nat -> nth j (pu U x k t) 0 = sum_upto (fun i => nth j (U i t) 0 * nth i x 0) k). { induction k as [|k IH]; intros Hk; cbn [pu sum_upto]; [apply nth_zeros|]. rewrite nth_vadd, nth_vscale by (len; rewrite ?LP, ?LU; lia). rewrite IH by lia. ring. }
    rewrite P by lia. rewrite (TolThms.dot_sum _ x nx) by (len; lia). apply sum_upto_ext. intros i Hi. f_equal. rewrite (nth_indep _ 0 (nth j (U 0%nat t) 0)) by (rewrite map_length, seq_length; exact Hi). rewrite (map_nth (fun i => nth j (U i t) 0) (seq 0 nx) 0%nat i), seq_nth by exact Hi. reflexivity. }
  destruct C as ((C1 & C2) & C3). split; [split|].
  - intros t. rewrite mv_length. apply SK.
  - rewrite (state_ext A B x _ (pu U x nx) N (fun t _ => EQ t)). exact C2.
  - intros v Hv. rewrite <- (C3 v Hv). unfold G. apply sum_upto_ext. intros t _. rewrite EQ, (state_ext A B x _ (pu U x nx) t (fun t _ => EQ t)). reflexivity.
Qed.
(** the first input is a gain, everything is bounded by the distance from the origin *)
Lemma steer_law : exists Ks c, (forall t, shape (Ks t) nu nx) /\ 0 <= c /\ forall x, length x = nx -> critical x (fun t => mv (Ks t) x) /\
  (forall t, (t < N)%nat -> sup (mv (Ks t) x) <= c * sup x) /\ (forall t, (t <= N)%nat -> sup (X x (fun t => mv (Ks t) x) t) <= c * sup x).
Proof.
  destruct least_linear as (Ks & SK & HK).
  assert (B1 : forall n, exists c, 0 <= c /\ forall t x, (t < n)%nat -> length x = nx -> sup (mv (Ks t) x) <= c * sup x).
  { induction n as [|n (c & Pc & Hc)]; [exists 0; split; [lra|intros; lia]|]. destruct (row_sums (Ks n) nu nx (SK n)) as (al & Pal & Hal). exists (c + al). split; [lra|]. intros t x Ht Lx. pose proof (sup_nonneg x). destruct (Nat.eq_dec t n) as [->|Ne].
    - pose proof (sup_mv (Ks n) nu nx al x (SK n) Pal Hal Lx). nra.
    - pose proof (Hc t x ltac:(lia) Lx). nra. }
  destruct (B1 N) as (c & Pc & Hc). destruct (row_sums A nx nx SA) as (aa & Paa & Haa). destruct (row_sums B nx nu SB) as (ab & Pab & Hab).
  assert (B2 : forall n, (n <= N)%nat -> exists d, 0 <= d /\ forall t x, (t <= n)%nat -> length x = nx -> sup (X x (fun t => mv (Ks t) x) t) <= d * sup x).
  { induction n as [|n IH]; intros Hn; [exists 1; split; [lra|]; intros t x Ht _; replace t with 0%nat by lia; cbn [state]; lra|]. destruct (IH ltac:(lia)) as (d & Pd & Hd). exists (d + aa * d + ab * c). split; [nra|]. intros t x Ht Lx. pose proof (sup_nonneg x) as Sx. destruct (Nat.eq_dec t (Datatypes.S n)) as [->|Ne].
    - cbn [state]. pose proof (sup_vadd (mv A (X x (fun t => mv (Ks t) x) n)) (mv B (mv (Ks n) x)) ltac:(rewrite !mv_length, (proj1 SA), (proj1 SB); reflexivity)) as H1. pose proof (sup_mv A nx nx aa _ SA Paa Haa (X_length x (fun t => mv (Ks t) x) n Lx)) as H2. pose proof (sup_mv B nx nu ab (mv (Ks n) x) SB Pab Hab ltac:(rewrite mv_length; apply SK)) as H3.
      pose proof (Hd n x ltac:(lia) Lx) as H4. pose proof (Hc n x ltac:(lia) Lx) as H5. pose proof (Rmult_le_compat_l aa _ _ Paa H4). pose proof (Rmult_le_compat_l ab _ _ Pab H5). pose proof (Rmult_le_pos d _ Pd Sx). lra.
    - pose proof (Hd t x ltac:(lia) Lx). assert (0 <= (aa * d + ab * c) * sup x) by (apply Rmult_le_pos; [nra|exact Sx]). lra. }
  destruct (B2 N (le_n N)) as (d & Pd & Hd). exists Ks, (c + d). split; [exact SK|]. split; [lra|]. intros x Lx. pose proof (sup_nonneg x) as Sx. split; [apply HK, Lx|]. split; intros t Ht.
  - pose proof (Hc t x Ht Lx). pose proof (Rmult_le_pos d _ Pd Sx). lra.
  - pose proof (Hd t x Ht Lx). pose proof (Rmult_le_pos c _ Pc Sx). lra.
Qed.
(** the cost to go decreases by the stage cost *)
Lemma steer_next x u : length x = nx -> steer x u -> exists w, steer (X x u 1) w /\ J (X x u 1) w N + / 2 * (dot x (mv Q x) + dot (u 0%nat) (mv Rm (u 0%nat))) = J x u N.
Proof.
  intros Lx (Lu & Eu). set (y := X x u 1). set (w := fun t => if (t <? N - 1)%nat then u (1 + t)%nat else zeros nu). assert (Ly : length y = nx) by (apply X_length; exact Lx).
  assert (EN : N = (1 + (N - 1))%nat) by lia. assert (ES : N = Datatypes.S (N - 1)) by lia.
  assert (W1 : X y w (N - 1) = zeros nx). { rewrite (state_ext A B y w (fun t => u (1 + t)%nat)) by (intros t Ht; unfold w; destruct (Nat.ltb_spec t (N - 1)); [reflexivity|lia]). unfold y. rewrite <- state_split, <- EN. exact Eu. }
  assert (WN : w (N - 1)%nat = zeros nu) by (unfold w; destruct (Nat.ltb_spec (N - 1) (N - 1)); [lia|reflexivity]).
  exists w. split.
  - split; [intros t; unfold w; destruct (t <? N - 1)%nat; [apply Lu|len; lia]|]. rewrite ES. cbn [state]. rewrite W1, WN, !mv_zeros, (proj1 SA), (proj1 SB). apply vec_ext; [len; lia|]. intros i Hi. rewrite nth_vadd, !nth_zeros by (len; lia). ring.
  - rewrite ES at 1. cbn [lq_cost]. rewrite W1, WN, !dot_zeros_l. rewrite (cost_ext A B Q Rm y w (fun t => u (1 + t)%nat)) by (intros t Ht; unfold w; destruct (Nat.ltb_spec t (N - 1)); [reflexivity|lia]). rewrite EN at 2. rewrite cost_split. fold y. cbn [lq_cost state]. ring.
Qed.
Lemma steer_attractive Ks : Spec.pd Q nx -> (forall t, shape (Ks t) nu nx) -> (forall x, length x = nx -> critical x (fun t => mv (Ks t) x)) -> attractive (madd A (mm B (Ks 0%nat))) nx.
Proof.
  intros PDQ SK CR x Lx eps He. set (M := madd A (mm B (Ks 0%nat))). assert (SM : shape M nx nx) by (unfold M; pose proof (SK 0%nat); eauto with shp).
  assert (LF : forall t, length (flow M t x) = nx) by (induction t as [|t IH]; cbn [flow]; [exact Lx|rewrite mv_length; apply SM]). set (law := fun y t => mv (Ks t) y). set (V := fun y => J y (law y) N).
  assert (STEP : forall y, length y = nx -> mv M y = X y (law y) 1). { intros y Ly. cbn [state]. unfold M, law. rewrite (mv_madd A (mm B (Ks 0%nat)) nx nx) by (auto; pose proof (SK 0%nat); eauto with shp). rewrite (mv_mm B (Ks 0%nat) nu nx) by (auto; try apply SB; apply SK). reflexivity. }
  set (f := fun t => / 2 * (dot (flow M t x) (mv Q (flow M t x)) + dot (law (flow M t x) 0%nat) (mv Rm (law (flow M t x) 0%nat)))).
  assert (Ll : forall y t, length (law y t) = nu) by (intros; unfold law; rewrite mv_length; apply SK).
  assert (F0 : forall t, 0 <= f t). { intros t. unfold f. pose proof (proj2 PQ _ (LF t)). pose proof (proj2 (pd_psd _ _ PR) _ (Ll (flow M t x) 0%nat)). lra. }
  assert (V0 : forall y, length y = nx -> 0 <= V y) by (intros y Ly; apply J_nonneg; [exact Ly|intros t; apply Ll]).
  assert (DEC : forall T, sum_upto f T + V (flow M T x) <= V x).
  { induction T as [|T IH]; [cbn; lra|]. cbn [sum_upto flow]. rewrite (STEP _ (LF T)). destruct (steer_next (flow M T x) (law (flow M T x)) (LF T) (proj1 (CR _ (LF T)))) as (w & Hw & Ew). pose proof (proj1 (critical_least _ _ (X_length _ _ 1 (LF T)) (CR _ (X_length _ _ 1 (LF T))) w Hw)) as OPT. fold (law (X (flow M T x) (law (flow M T x)) 1)) in OPT. unfold V in *. unfold f at 2. lra. }
  destruct (form_domination np0 np0_exact (eye nx) Q nx (shape_eye nx) SQ PDQ) as (c & Hc & HcQ).
  destruct (summable_terms f (V x) F0) with (eps := eps * eps / (2 * (c + 1))) as (T & HT). { intros T. pose proof (DEC T). pose proof (V0 _ (LF T)). lra. } { apply Rdiv_lt_0_compat; nra. }
  exists T. intros t Ht. specialize (HT t Ht). pose proof (HcQ (flow M t x) (LF t)) as GQ. rewrite (mv_eye nx) in GQ by apply LF. pose proof (proj2 (pd_psd _ _ PR) _ (Ll (flow M t x) 0%nat)) as GU. unfold f in HT.
  assert (GD : dot (flow M t x) (flow M t x) <= eps * eps).
  { assert (Q1 : dot (flow M t x) (mv Q (flow M t x)) < eps * eps / (c + 1)). { replace (eps * eps / (c + 1)) with (2 * (eps * eps / (2 * (c + 1)))) by (field; lra). lra. }
    pose proof (proj2 PQ _ (LF t)) as Q0. assert (Q2 : (c + 1) * (eps * eps / (c + 1)) = eps * eps) by (field; lra). nra. }
  unfold norm. rewrite <- (sqrt_square eps) by lra. apply sqrt_le_1_alt. exact GD.
Qed.
End Steer.
(*@ Theorem C98_law : If every state can be steered to the origin in N > 0 steps, the finite-horizon problem with terminal constraint x(N) = 0 (Q, R positive definite) has a linear solution: there is a gain K such that the unique optimal run from x starts with the input K x, stays within a multiple of |x|, costs at most a multiple of |x|^2, and x+ = (A + B K) x converges to the origin *)
Lemma law_exists A B Q Rm nx nu N : shape A nx nx -> shape B nx nu -> shape Q nx nx -> shape Rm nu nu -> Spec.pd Q nx -> Spec.pd Rm nu -> (0 < N)%nat -> (forall x, length x = nx -> exists u, steers A B nx nu N x u) -> exists K c, origin_law A B Q Rm nx nu N K c.
Proof.
  intros SA SB SQ SR PDQ PR HN REACH. pose proof (pd_psd _ _ PDQ) as PQ. destruct (steer_law A B Q Rm nx nu N SA SB SQ SR PQ PR HN REACH) as (Ks & c & SK & Pc & H).
  destruct (row_sums Q nx nx SQ) as (aq & Paq & Haq). destruct (row_sums Rm nu nu SR) as (ar & Par & Har).
  set (e := INR N * (/ 2 * (INR nx * aq * (c * c) + INR nu * ar * (c * c)))). assert (Pe : 0 <= e). { unfold e. pose proof (pos_INR N). pose proof (pos_INR nx). pose proof (pos_INR nu). apply Rmult_le_pos; [lra|]. apply Rmult_le_pos; [lra|]. assert (0 <= c * c) by nra. apply Rplus_le_le_0_compat; repeat apply Rmult_le_pos; lra. }
  exists (Ks 0%nat), (c + e). split; [apply SK|]. split; [apply (steer_attractive A B Q Rm nx nu N SA SB SQ SR PQ PR HN Ks PDQ SK); intros x Lx; apply (H x Lx)|]. split; [lra|]. intros x Lx. destruct (H x Lx) as (CR & B1 & B2). pose proof CR as (ST & _). set (u := fun t => mv (Ks t) x) in *. pose proof (sup_nonneg x) as Sx.
  assert (FORM : forall M n al y, shape M n n -> 0 <= al -> (forall i, (i < n)%nat -> abs_dot (row M i) (ones n) <= al) -> length y = n -> sup y <= c * sup x -> dot y (mv M y) <= INR n * al * (c * c) * (sup x * sup x)).
  { intros M n al y SM Pal Hal Ly By. eapply Rle_trans; [apply dot_sup|]. rewrite Ly. pose proof (sup_mv M n n al y SM Pal Hal Ly) as H1. pose proof (sup_nonneg y) as Sy. rewrite !Rmult_assoc. apply Rmult_le_compat_l; [apply pos_INR|]. assert (H2 : sup y * sup y <= (c * sup x) * (c * sup x)) by (apply Rmult_le_compat; lra). assert (H3 : sup y * sup (mv M y) <= sup y * (al * sup y)) by (apply Rmult_le_compat_l; lra). pose proof (Rmult_le_compat_l al _ _ Pal H2). lra. }
  assert (ADM : run_home A B nx nu N x (cut_u u N) (cut_x A B x u N)) by (apply cut_admissible; [apply ST|intros; exact I|apply ST]).
  assert (CO : forall P, trajectory_cost Q Rm P (cut_u u N) (cut_x A B x u N) = lq_cost A B Q Rm x u N) by (intros P; rewrite cut_cost, (proj2 ST), mv_zeros, dot_zeros_r; ring).
  exists (cut_u u N), (cut_x A B x u N). split; [exact ADM|]. split; [unfold cut_u; rewrite nth_seq_map by lia; reflexivity|]. split.
  - intros t Ht. unfold cut_u, cut_x. rewrite !nth_seq_map by lia. rewrite sup_app. pose proof (B1 t Ht). pose proof (B2 t ltac:(lia)). pose proof (Rmult_le_pos e _ Pe Sx). change (u t) with (mv (Ks t) x). apply Rmax_lub; lra.
  - intros P. rewrite CO. split.
    + rewrite cost_sum. apply Rle_trans with (sum_upto (fun _ => / 2 * (INR nx * aq * (c * c) + INR nu * ar * (c * c)) * (sup x * sup x) * 1) N).
      * apply sum_upto_le. intros t Ht. pose proof (FORM Q nx aq _ SQ Paq Haq (X_length A B nx nu SA SB x u t Lx) (B2 t ltac:(lia))). pose proof (FORM Rm nu ar (u t) SR Par Har (proj1 ST t) (B1 t Ht)). lra.
      * rewrite sum_upto_scale. assert (E1 : forall n, sum_upto (fun _ => 1) n = INR n) by (induction n as [|n IH]; [reflexivity|cbn [sum_upto]; rewrite IH, S_INR; reflexivity]). rewrite E1. assert (0 <= c * (sup x * sup x)) by (apply Rmult_le_pos; [lra|apply Rmult_le_pos; lra]). unfold e. lra.
    + intros us xs (Lus & Fus & TR & _ & TM). rewrite Lus in TM. pose proof (sig_state A B nu x us xs TR N ltac:(lia)) as EN. rewrite TM in EN. assert (ST' : steers A B nx nu N x (sig_of nu us)) by (split; [intros t; apply sig_len; exact Fus|exact EN]).
      destruct (critical_least A B Q Rm nx nu N SA SB SQ SR PQ PR HN x u Lx CR _ ST') as (LE & UN). pose proof (sig_cost A B Q Rm P nu x us xs TR) as EC. rewrite Lus, EN, mv_zeros, dot_zeros_r in EC. split; [lra|]. intros EQ. apply (nth_ext _ _ [] []); [unfold cut_u; rewrite map_length, seq_length; exact Lus|]. intros t Ht. unfold cut_u. rewrite nth_seq_map by lia. rewrite <- UN by (lra || lia). symmetry. apply sig_nth. exact Ht.
Qed.
Lemma nonneg_cost Q Rm P nx nu us xs : psd Q nx -> psd P nx -> Spec.pd Rm nu -> Forall (fun v => length v = nu) us -> (forall t, (t <= length us)%nat -> length (nth t xs []) = nx) -> 0 <= trajectory_cost Q Rm P us xs.
Proof.
  intros PQ PP PR Fu Lx. unfold trajectory_cost. pose proof (proj2 PP _ (Lx (length us) (le_n _))). assert (0 <= sum_upto (fun t => / 2 * (dot (nth t xs []) (mv Q (nth t xs [])) + dot (nth t us []) (mv Rm (nth t us [])))) (length us)); [|lra].
  apply sum_upto_nonneg. intros t Ht. pose proof (proj2 PQ _ (Lx t ltac:(lia))). pose proof (proj2 (pd_psd _ _ PR) _ (Forall_len_nth us nu t Fu Ht)). lra.
Qed.
Lemma home_of A B nx nu N (D XN : vec -> Prop) x us xs : (forall y, XN y <-> y = zeros nx) -> mpc_admissible A B nu N D XN x us xs -> run_home A B nx nu N x us xs.
Proof. intros HX (H1 & H2 & H3 & H4 & H5). split; [exact H1|]. split; [exact H2|]. split; [exact H3|]. split; [intros; exact I|apply HX, H5]. Qed.
Lemma of_home A B nx nu N (D XN : vec -> Prop) x us xs : (forall y, XN y <-> y = zeros nx) -> run_home A B nx nu N x us xs -> (forall t, (t < N)%nat -> D (nth t xs [] ++ nth t us [])) -> mpc_admissible A B nu N D XN x us xs.
Proof. intros HX (H1 & H2 & H3 & H4 & H5) HD. split; [exact H1|]. split; [exact H2|]. split; [exact H3|]. split; [rewrite H1; exact HD|apply HX, H5]. Qed.
(*@ Theorem C98_feedback : The linear model predictive controller with the origin as terminal set, when D contains a neighbourhood of the origin: there is rho > 0 such that feedback returns exactly K x, with the K of C98_law, wherever |x| <= rho *)
Lemma mpc_origin np S N Q Rm P D X_N nx nu C K c sg : exact_np np -> mpc_data S N Q Rm P D X_N nx nu -> ModelPredictiveController np S N Q Rm P D X_N = Ok C -> (forall x, in_poly X_N x <-> x = zeros nx) ->
  origin_law (lA S) (lB S) Q Rm nx nu N K c -> 0 < sg -> (forall xu, length xu = (nx + nu)%nat -> sup xu <= sg -> in_poly D xu) ->
  exists rho, 0 < rho /\ rho <= sg /\ forall x, length x = nx -> sup x <= rho -> feedback np C x = Ok (Some (mv K x)) /\ in_poly D (x ++ mv K x).
Proof.
  intros Hnp HD EC HX (SK & AT & Pc & LAW) Psg BALL. pose proof HD as ((SA & SB & HN & _) & _ & _ & PQ & PP & PR). set (rho := Rmin sg (Rmin (/ (c + 1)) (sg / (c + 1)))). assert (Pq : 0 < sg / (c + 1)) by (apply Rdiv_lt_0_compat; lra). assert (Pi : 0 < / (c + 1)) by (apply Rinv_0_lt_compat; lra).
  exists rho. split; [unfold rho; repeat apply Rmin_glb_lt; lra|]. split; [apply Rmin_l|]. intros x Lx Sx. pose proof (sup_nonneg x) as S0.
  assert (S1 : sup x <= / (c + 1)) by (eapply Rle_trans; [exact Sx|unfold rho; eapply Rle_trans; [apply Rmin_r|apply Rmin_l]]). assert (S2 : sup x <= sg / (c + 1)) by (eapply Rle_trans; [exact Sx|unfold rho; eapply Rle_trans; [apply Rmin_r|apply Rmin_r]]).
  assert (S3 : c * sup x <= sg). { apply Rle_trans with ((c + 1) * (sg / (c + 1))); [apply Rmult_le_compat; lra|]. right. field. lra. }
  destruct (LAW x Lx) as (us & xs & HM & U0 & BD & CO). destruct (CO P) as (CB & OPT). pose proof HM as (Lus & Fus & TR & _). pose proof (trajectory_lengths _ _ nx nu _ _ _ SA SB Lx TR) as Fxs. pose proof (proj1 TR) as Lxs.
  assert (IN : forall t, (t < N)%nat -> in_poly D (nth t xs [] ++ nth t us [])). { intros t Ht. apply BALL; [rewrite app_length, (Forall_len_nth xs nx), (Forall_len_nth us nu) by (auto; lia); reflexivity|]. pose proof (BD t Ht). lra. }
  pose proof (of_home _ _ nx nu N (in_poly D) (in_poly X_N) x us xs HX HM IN) as ADM.
  assert (ID : in_poly D (x ++ mv K x)). { pose proof (IN 0%nat HN) as I0. rewrite U0, (proj1 (proj2 TR)) in I0. exact I0. } split; [|exact ID].
  destruct (mpc_none np S N Q Rm P D X_N nx nu C x Hnp HD EC Lx) as (us0 & xs0 & (A0 & _) & [(_ & _ & FARR)|(us' & xs' & _ & FB & (A1 & O1) & _)]).
  - exfalso. specialize (FARR us xs ADM). pose proof A0 as (L0 & F0 & T0 & _). pose proof (trajectory_lengths _ _ nx nu _ _ _ SA SB Lx T0) as Fx0. pose proof (proj1 T0) as Lx0.
    pose proof (nonneg_cost Q Rm P nx nu us0 xs0 PQ PP PR F0 ltac:(intros t Ht; apply Forall_len_nth; [exact Fx0|lia])) as N0. assert (S4 : (c + 1) * sup x <= 1). { apply Rle_trans with ((c + 1) * / (c + 1)); [apply Rmult_le_compat_l; lra|]. right. field. lra. }
    assert (S5 : c * (sup x * sup x) <= 1) by nra. unfold far in FARR. lra.
  - rewrite FB. f_equal. f_equal. destruct (O1 us xs ADM) as (LE & _). destruct (OPT us' xs' (home_of _ _ nx nu N _ _ x us' xs' HX A1)) as (GE & UN). rewrite (UN ltac:(lra)). exact U0.
Qed.
(** ** Piecewise affine systems *)
Lemma pwa_origin W X_N N Q Rm P nx nu i S D dl sg K c : hyb_data W nx nu -> (0 < N)%nat -> hyb_costs Q Rm P nx nu -> Spec.pd Q nx -> origin_mode W i S D nx dl -> (forall x, in_poly X_N x <-> x = zeros nx) ->
  origin_law (lA S) (lB S) Q Rm nx nu N K c -> 0 < sg -> (forall xu, length xu = (nx + nu)%nat -> sup xu <= sg -> in_poly D xu) ->
  exists rho, 0 < rho /\ rho <= sg /\ forall x, length x = nx -> sup x <= rho -> (exists us modes xs, pwa_run_from W X_N nu N x us modes xs) /\ in_poly D (x ++ mv K x) /\
    forall us modes xs, pwa_optimal (map aA (w_sys W)) (map aB (w_sys W)) (map ac (w_sys W)) (map in_poly (w_dom W)) (in_poly X_N) Q Rm P nu N x us modes xs -> modes = repeat i N /\ nth 0 us [] = mv K x.
Proof.
  intros HW HN HC PQ OM HX (SK & AT & Pc & LAW) Psg BALL. pose proof OM as (LM & Pdl & FAR). destruct (origin_shapes W i S D nx nu HW LM) as (SA & SB). pose proof HC as (SQ & SP & SR & PQ' & PP & PR & _). pose proof HW as (_ & _ & _ & LD & _).
  destruct (form_domination np0 np0_exact (eye nx) Q nx (shape_eye nx) SQ PQ) as (cq & Pcq & Hcq). destruct (form_domination np0 np0_exact (eye nu) Rm nu (shape_eye nu) SR PR) as (cr & Pcr & Hcr).
  set (e := cq + cr + 1). assert (Pe : 1 <= e) by (unfold e; lra).
  assert (STAGE : forall x u, length x = nx -> length u = nu -> dl <= sup (x ++ u) -> dl * dl / e <= dot x (mv Q x) + dot u (mv Rm u)).
  { intros x u Lx Lu H. pose proof (Hcq x Lx) as H1. pose proof (Hcr u Lu) as H2. rewrite (mv_eye nx) in H1 by exact Lx. rewrite (mv_eye nu) in H2 by exact Lu. pose proof (sup_dot x) as H3. pose proof (sup_dot u) as H4.
    pose proof (proj2 PQ' x Lx) as Q0. pose proof (proj2 (pd_psd _ _ PR) u Lu) as R0. set (a := dot x (mv Q x)) in *. set (b := dot u (mv Rm u)) in *. apply Rmult_le_reg_r with e; [lra|]. replace (dl * dl / e * e) with (dl * dl) by (field; lra).
    assert (X : cq * a <= e * a) by (apply Rmult_le_compat_r; unfold e; lra). assert (Y : cr * b <= e * b) by (apply Rmult_le_compat_r; unfold e; lra). pose proof (Rmult_le_pos e a ltac:(lra) Q0). pose proof (Rmult_le_pos e b ltac:(lra) R0).
    rewrite sup_app in H. apply Rmax_case_strong with (P := fun m => dl <= m -> dl * dl <= (a + b) * e) in H; [exact H|intros _ G; assert (dl * dl <= sup x * sup x) by (apply Rmult_le_compat; lra); lra|intros _ G; assert (dl * dl <= sup u * sup u) by (apply Rmult_le_compat; lra); lra]. }
  set (q := dl * dl / e). assert (Pq : 0 < q) by (apply Rdiv_lt_0_compat; [apply Rmult_lt_0_compat; lra|lra]).
  assert (P1 : 0 < q / 4 / (c + 1)) by (apply Rdiv_lt_0_compat; [lra|lra]). assert (P2 : 0 < sg / (c + 1)) by (apply Rdiv_lt_0_compat; lra).
  set (rho := Rmin sg (Rmin 1 (Rmin (sg / (c + 1)) (q / 4 / (c + 1))))). exists rho. split; [unfold rho; repeat apply Rmin_glb_lt; lra|]. split; [apply Rmin_l|]. intros x Lx Sx. pose proof (sup_nonneg x) as S0.
  assert (S1 : sup x <= 1) by (eapply Rle_trans; [exact Sx|unfold rho; eapply Rle_trans; [apply Rmin_r|apply Rmin_l]]). assert (S2 : sup x <= sg / (c + 1)) by (eapply Rle_trans; [exact Sx|unfold rho; eapply Rle_trans; [apply Rmin_r|eapply Rle_trans; [apply Rmin_r|apply Rmin_l]]]).
  assert (S3 : sup x <= q / 4 / (c + 1)) by (eapply Rle_trans; [exact Sx|unfold rho; eapply Rle_trans; [apply Rmin_r|eapply Rle_trans; [apply Rmin_r|apply Rmin_r]]]).
  assert (S4 : c * sup x <= sg). { apply Rle_trans with ((c + 1) * (sg / (c + 1))); [apply Rmult_le_compat; lra|]. right. field. lra. }
  assert (S5 : c * (sup x * sup x) <= q / 4). { apply Rle_trans with ((c + 1) * (q / 4 / (c + 1))); [apply Rmult_le_compat; [lra|nra|lra|nra]|]. right. field. lra. }
  destruct (LAW x Lx) as (us0 & xs0 & HM & U0 & BD & CO). destruct (CO P) as (CB & OPT). pose proof HM as (L0 & F0 & T0 & _). pose proof (trajectory_lengths _ _ nx nu _ _ _ SA SB Lx T0) as Fxs. pose proof (proj1 T0) as Lxs0.
  assert (IN : forall t, (t < N)%nat -> in_poly D (nth t xs0 [] ++ nth t us0 [])). { intros t Ht. apply BALL; [rewrite app_length, (Forall_len_nth xs0 nx), (Forall_len_nth us0 nu) by (auto; lia); reflexivity|]. pose proof (BD t Ht). lra. }
  pose proof (of_home _ _ nx nu N (in_poly D) (in_poly X_N) x us0 xs0 HX HM IN) as ADM.
  assert (R0 : pwa_run_from W X_N nu N x us0 (repeat i N) xs0).
  { apply (one_mode W i S D nx nu X_N N x us0 (repeat i N) xs0 HW SA SB LM (repeat_length i N)); [|exact ADM]. intros t Ht. rewrite (nth_indep _ 0%nat i) by (rewrite repeat_length; lia). apply nth_repeat. }
  split; [eauto|]. split; [pose proof (IN 0%nat HN) as I0; rewrite U0, (proj1 (proj2 T0)) in I0; exact I0|].
  intros us modes xs (HA & HO). fold (pwa_run_from W X_N nu N x us modes xs) in HA. pose proof (HO _ _ _ R0) as LE. destruct (run_cost_nonneg W X_N Q Rm P nx nu N x us modes xs HW HC Lx HA) as (_ & Lxs). pose proof HA as (Lu & Fu & Lm & HMd & _ & HDd & _). rewrite map_length in HMd. rewrite Lu in HDd.
  assert (MI : forall t, (t < N)%nat -> nth t modes 0%nat = i).
  { intros t Ht. destruct (Nat.eq_dec (nth t modes 0%nat) i) as [|NEQ]; [assumption|exfalso]. assert (Hk : (nth t modes 0 < length (w_sys W))%nat) by (apply HMd, nth_In; lia).
    specialize (HDd t Ht). cbv beta in HDd. rewrite (nth_map_lt _ (w_dom W) _ poly0) in HDd by lia.
    assert (NN : forall t, (t < N)%nat -> 0 <= / 2 * (dot (nth t xs []) (mv Q (nth t xs [])) + dot (nth t us []) (mv Rm (nth t us [])))).
    { intros s Hs. pose proof (proj2 PQ' _ (Lxs s ltac:(lia))). assert (Lt : length (nth s us []) = nu) by (apply Forall_len_nth; [exact Fu|lia]). pose proof (proj2 (pd_psd _ _ PR) _ Lt). lra. }
    pose proof (sum_upto_ge _ N t Ht NN) as G. cbv beta in G. pose proof (STAGE _ _ (Lxs t ltac:(lia)) ltac:(apply (Forall_len_nth us nu t Fu); lia) (FAR _ _ Hk NEQ HDd)) as G2. fold q in G2. pose proof (proj2 PP _ (Lxs N (le_n N))) as G3. unfold trajectory_cost in LE at 1. rewrite Lu in LE. lra. }
  split; [apply all_nth_repeat; assumption|]. pose proof (proj1 (one_mode W i S D nx nu X_N N x us modes xs HW SA SB LM Lm MI) HA) as HA'. destruct (OPT us xs (home_of _ _ nx nu N _ _ x us xs HX HA')) as (GE & UN). rewrite (UN ltac:(lra)). exact U0.
Qed.
(*@ Theorem C98_hybrid : The hybrid controller with the origin as terminal set, when the origin is in the interior of one domain (whose dynamics S has no offset) and away from the others, Q positive definite: there is rho > 0 such that at all x with |x| <= rho, whenever Gurobi solves the program, feedback returns K x, with the K of C98_law for S, and feedforward returns the mode of the origin at all steps *)
Lemma hybrid_origin np W N Q Rm P X_N nx nu mN meN C i S D dl sg K c : (0 < nx)%nat -> hyb_controller np W N Q Rm P X_N nx nu mN meN C -> Spec.pd Q nx -> origin_mode W i S D nx dl -> (forall x, in_poly X_N x <-> x = zeros nx) ->
  origin_law (lA S) (lB S) Q Rm nx nu N K c -> 0 < sg -> (forall xu, length xu = (nx + nu)%nat -> sup xu <= sg -> in_poly D xu) ->
  exists rho, 0 < rho /\ rho <= sg /\ forall grb x, length x = nx -> sup x <= rho -> gurobi_solves grb (k_mpmiqp C) x ->
    hybrid_feedback grb C x = Ok (Some (mv K x)) /\ in_poly D (x ++ mv K x) /\ exists us xs V, hybrid_feedforward grb C x = Ok (Some (us, xs, repeat i N, V)).
Proof.
  intros Pnx (Hnp & HW & HN & HDm & WX & NE & HC & EC) PQ OM HX OL Psg BALL. destruct (pwa_origin W X_N N Q Rm P nx nu i S D dl sg K c HW HN HC PQ OM HX OL Psg BALL) as (rho & Pr & Rs & H). pose proof HC as (SQ & SP & SR & _).
  exists rho. split; [exact Pr|]. split; [exact Rs|]. intros grb x Lx Sx GS. destruct (H x Lx Sx) as ((us0 & m0 & xs0 & R0) & ID & OP).
  destruct (hybrid_optimal np grb W N Q Rm P X_N nx nu mN meN C Hnp HW Pnx HN HDm SQ SP SR WX NE EC x Lx GS) as [(us & xs & modes & EF & HO & EB)|(_ & _ & _ & NR)]; [|elim (NR HC _ _ _ R0)].
  destruct (OP _ _ _ HO) as (-> & U0). split; [rewrite EB, U0; reflexivity|]. split; [exact ID|]. eauto.
Qed.
(*@ Theorem C98_drake : The same for the controller of the examples (drake version): there is rho > 0 such that at all x with |x| <= rho, whenever drake solves the program, feedback returns K x and feedforward the mode of the origin at all steps *)
Lemma drake_origin np W N Q Rm P X_N nx nu mN meN C i S D dl sg K c : exact_np np -> example_data W N Q Rm P X_N nx nu mN meN -> (0 < N)%nat -> hyb_costs Q Rm P nx nu -> ExampleController np W N Q Rm P X_N = Ok C -> Spec.pd Q nx -> origin_mode W i S D nx dl -> (forall x, in_poly X_N x <-> x = zeros nx) ->
  origin_law (lA S) (lB S) Q Rm nx nu N K c -> 0 < sg -> (forall xu, length xu = (nx + nu)%nat -> sup xu <= sg -> in_poly D xu) ->
  exists rho, 0 < rho /\ rho <= sg /\ forall drake x, length x = nx -> sup x <= rho -> drake_solves drake C x ->
    example_feedback drake C x = Ok (Some (mv K x)) /\ in_poly D (x ++ mv K x) /\ exists us xs V, example_feedforward drake C x = Ok (Some (us, xs, repeat i N, V)).
Proof.
  intros Hnp (HW & HDm & NE & H2 & SG & SQ & SP & SR & WX) HN HC EC PQ OM HX OL Psg BALL. destruct (pwa_origin W X_N N Q Rm P nx nu i S D dl sg K c HW HN HC PQ OM HX OL Psg BALL) as (rho & Pr & Rs & H).
  exists rho. split; [exact Pr|]. split; [exact Rs|]. intros drake x Lx Sx DS. destruct (H x Lx Sx) as ((us0 & m0 & xs0 & R0) & ID & OP).
  destruct (example_optimal np drake W N Q Rm P X_N nx nu mN meN Hnp HW HN HDm H2 SG SQ SP SR WX NE) as (C' & EC' & HH). rewrite EC in EC'. injection EC' as <-. destruct (HH x Lx) as (prog & EP & HP).
  destruct (HP (DS prog EP)) as [(us & xs & modes & EF & HO & EB)|(_ & _ & _ & NR)]; [|elim (NR HC _ _ _ R0)].
  destruct (OP _ _ _ HO) as (-> & U0). split; [rewrite EB, U0; reflexivity|]. split; [exact ID|]. eauto.
Qed.
(** ** On the plant *)
(** a controller (possibly without an answer, where ok fails) that is K x near the origin, on the sampled plant *)
Lemma sampled_origin np f A B nx nu h S Q Rm N K c r : hold_model np f A B nx nu h S -> origin_law (lA S) (lB S) Q Rm nx nu N K c -> 0 < r ->
  exists m c rho, (0 < m)%nat /\ 0 <= c /\ 0 < rho /\ forall (ok : vec -> Prop) (ctrl : vec -> res (option vec)), (forall x, length x = nx -> sup x <= r -> ok x -> ctrl x = Ok (Some (mv K x))) -> forall phi T, length (phi 0%nat 0) = nx -> sup (phi 0%nat 0) <= rho -> (forall k, (k < T)%nat -> ok (phi k 0)) ->
  (forall k u, (k < T)%nat -> ctrl (phi k 0) = Ok (Some u) -> phi (Datatypes.S k) 0 = phi k h /\ held_solution f u nx h (phi k)) ->
  forall k, (k < T)%nat -> length (phi k 0) = nx /\ sup (phi k 0) <= r /\ ctrl (phi k 0) = Ok (Some (mv K (phi k 0))) /\ forall t, 0 <= t <= h -> sup (phi k t) <= c * (3 / 4) ^ (k / m) * sup (phi 0%nat 0).
Proof.
  intros (SS & Hh & FD & HE & ES) (SK & AT & _) Pr0. destruct (sampled_linearizes np f A B nx nu h S SS Hh FD HE ES) as ((SA & SB) & LI).
  destruct (sampled_law f A B K nx nu h _ _ (fun x u => u = mv K x) r SS Hh FD SA SB LI SK AT Pr0 ltac:(auto)) as (m & c' & rho & Hm & Pc & Pr & H).
  exists m, c', rho. split; [exact Hm|]. split; [exact Pc|]. split; [exact Pr|]. intros ok ctrl FB phi T L0 S0 GS HF.
  assert (RUN : forall T', (T' <= T)%nat -> sampled_run f (fun x u => u = mv K x) nx h phi T').
  { induction T' as [|T' IH]; intros HT k Hk; [lia|]. destruct (proj1 (H phi T' L0 S0 (IH ltac:(lia))) k ltac:(lia)) as (LT & ST). destruct (HF k _ ltac:(lia) (FB _ LT ST (GS k ltac:(lia)))) as (E & HS). split; [exact E|]. exists (mv K (phi k 0)). split; [reflexivity|exact HS]. }
  intros k Hk. destruct (H phi T L0 S0 (RUN T (le_n T))) as (R1 & R2). destruct (R1 k ltac:(lia)) as (LT & ST). split; [exact LT|]. split; [exact ST|]. split; [apply FB; auto|]. intros t Ht. apply R2; assumption.
Qed.
(*@ Theorem C98_sampled_mpc : The linear controller of C98_feedback, for the system of from_continuous(A, B, h, 'zero_order_hold'), on the nonlinear plant dx/dt = f(x, u) with derivative A, B at the origin, its input held for h: there are rho > 0 and constants c, m such that for |x(0)| <= rho, feedback returns an input at all samples, state and input satisfy the constraints there, and |x(t)| <= c (3/4)^(k / m) |x(0)| for all t in [k h, (k+1) h] *)
Lemma sampled_mpc_origin np f A B nx nu h S N Q Rm P D X_N C K c sg : exact_np np -> hold_model np f A B nx nu h S -> mpc_data S N Q Rm P D X_N nx nu -> ModelPredictiveController np S N Q Rm P D X_N = Ok C -> (forall x, in_poly X_N x <-> x = zeros nx) ->
  origin_law (lA S) (lB S) Q Rm nx nu N K c -> 0 < sg -> (forall xu, length xu = (nx + nu)%nat -> sup xu <= sg -> in_poly D xu) ->
  exists m c rho, (0 < m)%nat /\ 0 <= c /\ 0 < rho /\ forall phi, length (phi 0%nat 0) = nx -> sup (phi 0%nat 0) <= rho ->
  (forall k u, feedback np C (phi k 0) = Ok (Some u) -> phi (Datatypes.S k) 0 = phi k h /\ held_solution f u nx h (phi k)) ->
  forall k, feedback np C (phi k 0) = Ok (Some (mv K (phi k 0))) /\ in_poly D (phi k 0 ++ mv K (phi k 0)) /\ forall t, 0 <= t <= h -> sup (phi k t) <= c * (3 / 4) ^ (k / m) * sup (phi 0%nat 0).
Proof.
  intros Hnp HM HD EC HX OL Psg BALL. destruct (mpc_origin np S N Q Rm P D X_N nx nu C K c sg Hnp HD EC HX OL Psg BALL) as (r & Pr & Rs & FB).
  destruct (sampled_origin np f A B nx nu h S Q Rm N K c r HM OL Pr) as (m & c' & rho & Hm & Pc & Prho & H).
  exists m, c', rho. split; [exact Hm|]. split; [exact Pc|]. split; [exact Prho|]. intros phi L0 S0 HF k.
  destruct (H (fun _ => True) (feedback np C) (fun x Lx Sx _ => proj1 (FB x Lx Sx)) phi (Datatypes.S k) L0 S0 (fun _ _ => I) (fun k u _ => HF k u) k (Nat.lt_succ_diag_r k)) as (LT & ST & E & BD). split; [exact E|]. split; [apply FB; assumption|exact BD].
Qed.
(*@ Theorem C98_sampled_hybrid : The hybrid controller of C98_hybrid, whose mode of the origin is this system, on the same plant: there are rho > 0 and constants c, m such that on all runs with |x(0)| <= rho, as long as Gurobi solves its programs, feedback returns K x and |x(t)| <= c (3/4)^(k / m) |x(0)| for all t in [k h, (k+1) h] *)
Lemma sampled_hybrid_origin np f A B nx nu h S W N Q Rm P X_N mN meN C i D K c dl sg : (0 < nx)%nat -> hold_model np f A B nx nu h S -> hyb_controller np W N Q Rm P X_N nx nu mN meN C -> Spec.pd Q nx -> origin_mode W i S D nx dl -> (forall x, in_poly X_N x <-> x = zeros nx) ->
  origin_law (lA S) (lB S) Q Rm nx nu N K c -> 0 < sg -> (forall xu, length xu = (nx + nu)%nat -> sup xu <= sg -> in_poly D xu) ->
  exists m c rho, (0 < m)%nat /\ 0 <= c /\ 0 < rho /\ forall grb phi T, length (phi 0%nat 0) = nx -> sup (phi 0%nat 0) <= rho -> (forall k, (k < T)%nat -> gurobi_solves grb (k_mpmiqp C) (phi k 0)) ->
  (forall k u, (k < T)%nat -> hybrid_feedback grb C (phi k 0) = Ok (Some u) -> phi (Datatypes.S k) 0 = phi k h /\ held_solution f u nx h (phi k)) ->
  forall k, (k < T)%nat -> hybrid_feedback grb C (phi k 0) = Ok (Some (mv K (phi k 0))) /\ in_poly D (phi k 0 ++ mv K (phi k 0)) /\ forall t, 0 <= t <= h -> sup (phi k t) <= c * (3 / 4) ^ (k / m) * sup (phi 0%nat 0).
Proof.
  intros Pnx HM HB PQ OM HX OL Psg BALL. destruct (hybrid_origin np W N Q Rm P X_N nx nu mN meN C i S D dl sg K c Pnx HB PQ OM HX OL Psg BALL) as (r & Pr & Rs & FB).
  destruct (sampled_origin np f A B nx nu h S Q Rm N K c r HM OL Pr) as (m & c' & rho & Hm & Pc & Prho & H).
  exists m, c', rho. split; [exact Hm|]. split; [exact Pc|]. split; [exact Prho|]. intros grb phi T L0 S0 GS HF k Hk.
  destruct (H (gurobi_solves grb (k_mpmiqp C)) (hybrid_feedback grb C) (fun x Lx Sx G => proj1 (FB grb x Lx Sx G)) phi T L0 S0 GS HF k Hk) as (LT & ST & E & BD). split; [exact E|]. split; [apply (FB grb); auto|exact BD].
Qed.
