(** * HoldThms: sampled control of continuous-time nonlinear plants (C97), proofs *)
From Coq Require Import Lra Lia String.
From Verif Require Import Arr ArrFacts Spec SpecMpc SpecDyn SpecEig SpecRound SpecHold SpecLoop SpecProg SpecCart Numpy Dynamics DynThms ZohThms OdeThms SampThms LqrThms Oracle QpFacts Polyhedron PolyThms CondenseThms McaisThms Mpqp Controllers CtrlThms Gurobi Hybrid HybridThms HybridOptThms HybridLoopThms RoundThms RoundSimThms Symbolic Walls WallThms CartDyn LocalThms PlantThms.
Local Open Scope list_scope.

(** ** Growth of the solutions *)
Lemma decreasing W W' T : 0 <= T -> (forall t, 0 <= t <= T -> derivable_pt_lim W t (W' t)) -> (forall t, 0 <= t <= T -> W' t <= 0) -> W T <= W 0.
Proof.
  intros HT HD HN. destruct (Req_dec T 0) as [->|NZ]; [lra|]. destruct (MVT_cor2 W W' 0 T ltac:(lra) ltac:(intros c Hc; apply HD; lra)) as (c & E & Hc). specialize (HN c ltac:(lra)). nra.
Qed.
Lemma gronwall V V' a b T : 0 <= T -> 0 <= a -> 0 <= b -> (forall t, 0 <= t <= T -> derivable_pt_lim V t (V' t)) -> (forall t, 0 <= t <= T -> V' t <= a * V t + b) -> V T <= exp (a * T) * (V 0 + b * T).
Proof.
  intros HT Ha Hb HD HI. set (W := fun t => V t * exp (- a * t) - b * t). set (W' := fun t => (V' t * exp (- a * t) + V t * (exp (- a * t) * (- a * 1))) - b * 1).
  assert (D : W T <= W 0).
  { apply (decreasing W W' T HT).
    - intros t Ht. apply (derivable_pt_lim_minus (fun t => V t * exp (- a * t)) (fun t => b * t)); [|apply (derivable_pt_lim_scal id), derivable_pt_lim_id].
      apply (derivable_pt_lim_mult V (fun t => exp (- a * t))); [apply HD, Ht|]. apply (derivable_pt_lim_comp (fun t => - a * t) exp); [apply (derivable_pt_lim_scal id), derivable_pt_lim_id|apply derivable_pt_lim_exp].
    - intros t Ht. unfold W'. specialize (HI t Ht). pose proof (exp_pos (- a * t)) as P. assert (E1 : exp (- a * t) <= 1). { rewrite <- exp_0. destruct (Req_dec (- a * t) 0) as [->|]; [lra|]. left. apply exp_increasing. nra. }
      assert ((V' t - a * V t) * exp (- a * t) <= b * 1); [|lra]. apply Rle_trans with (b * exp (- a * t)); [apply Rmult_le_compat_r; lra|apply Rmult_le_compat_l; lra]. }
  unfold W in D. rewrite !Rmult_0_r, exp_0, Rmult_1_r, Rminus_0_r in D. assert (E : V T = exp (a * T) * (V T * exp (- a * T))). { replace (- a * T) with (- (a * T)) by ring. rewrite exp_Ropp. field. apply Rgt_not_eq, exp_pos. }
  rewrite E. apply Rmult_le_compat_l; [apply Rlt_le, exp_pos|lra].
Qed.
Definition sq (n : nat) (y : vec) : R := sum_upto (fun i => nth i y 0 * nth i y 0) n.
Lemma sq_sup n y : length y = n -> sup y * sup y <= sq n y.
Proof.
  intros L. assert (P : 0 <= sq n y). { unfold sq. clear L. induction n as [|n IH]; cbn; [lra|]. nra. }
  assert (H : sup y <= sqrt (sq n y)).
  { apply sup_le; [apply sqrt_pos|]. intros i Hi. rewrite <- sqrt_Rsqr_abs. apply sqrt_le_1_alt. unfold Rsqr, sq. rewrite L in Hi. clear P L. induction n as [|n IH]; [lia|]. cbn [sum_upto].
    assert (N : forall m, 0 <= sum_upto (fun i => nth i y 0 * nth i y 0) m) by (intros m; induction m; cbn; [lra|nra]). destruct (Nat.eq_dec i n) as [->|]; [specialize (N n); lra|]. specialize (IH ltac:(lia)). nra. }
  pose proof (sup_nonneg y). rewrite <- (sqrt_sqrt (sq n y) P). apply Rmult_le_compat; assumption.
Qed.
Lemma sq_le n y : sq n y <= INR n * (sup y * sup y).
Proof.
  unfold sq. induction n as [|n IH]; [cbn; lra|]. rewrite S_INR. cbn [sum_upto]. pose proof (nth_sup y n) as H. assert (nth n y 0 * nth n y 0 <= sup y * sup y); [|lra]. rewrite <- (Rabs_right (nth n y 0 * nth n y 0)) by (apply Rle_ge; nra). rewrite Rabs_mult. apply Rmult_le_compat; try apply Rabs_pos; assumption.
Qed.
Lemma sq_deriv n (y : R -> vec) g t : (forall i, (i < n)%nat -> derivable_pt_lim (fun s => nth i (y s) 0) t (nth i g 0)) -> derivable_pt_lim (fun s => sq n (y s)) t (sum_upto (fun i => nth i g 0 * nth i (y t) 0 + nth i (y t) 0 * nth i g 0) n).
Proof.
  unfold sq. induction n as [|n IH]; intros H; cbn [sum_upto]; [apply derivable_pt_lim_const|].
  apply (derivable_pt_lim_plus (fun s => sum_upto (fun i => nth i (y s) 0 * nth i (y s) 0) n) (fun s => nth n (y s) 0 * nth n (y s) 0)); [apply IH; intros; apply H; lia|].
  apply (derivable_pt_lim_mult (fun s => nth n (y s) 0) (fun s => nth n (y s) 0)); apply H; lia.
Qed.
Lemma rate_le n g y : sum_upto (fun i => nth i g 0 * nth i y 0 + nth i y 0 * nth i g 0) n <= INR n * (2 * (sup y * sup g)).
Proof.
  induction n as [|n IH]; [cbn; lra|]. rewrite S_INR. cbn [sum_upto]. assert (nth n g 0 * nth n y 0 <= sup y * sup g); [|lra]. eapply Rle_trans; [apply Rle_abs|]. rewrite Rabs_mult, Rmult_comm. apply Rmult_le_compat; try apply Rabs_pos; apply nth_sup.
Qed.
(** if |dy/dt| <= L |y| + r, then |y| <= C (|y(0)| + r), with a constant that depends on L and on the length of the interval *)
Lemma growth n L h : 0 <= L -> 0 <= h -> exists C, 1 <= C /\ forall (y g : R -> vec) r T, 0 <= T <= h -> 0 <= r -> (forall t, length (y t) = n) ->
  (forall t, 0 <= t <= T -> forall i, (i < n)%nat -> derivable_pt_lim (fun s => nth i (y s) 0) t (nth i (g t) 0)) -> (forall t, 0 <= t <= T -> sup (g t) <= L * sup (y t) + r) -> sup (y T) <= C * (sup (y 0) + r).
Proof.
  intros HL Hh. set (a := INR n * (2 * L + 1)). set (D := exp (a * h) * (INR n * (1 + h))). assert (Pn : 0 <= INR n) by apply pos_INR. assert (Pa : 0 <= a) by (unfold a; apply Rmult_le_pos; lra).
  assert (PD : 0 <= D) by (unfold D; apply Rmult_le_pos; [apply Rlt_le, exp_pos|apply Rmult_le_pos; lra]).
  exists (D + 1). split; [lra|]. intros y g r T HT Hr LY HD HG.
  pose proof (gronwall (fun t => sq n (y t)) (fun t => sum_upto (fun i => nth i (g t) 0 * nth i (y t) 0 + nth i (y t) 0 * nth i (g t) 0) n) a (INR n * (r * r)) T ltac:(lra) Pa ltac:(apply Rmult_le_pos; [exact Pn|nra])) as GW.
  cbv beta in GW. specialize (GW ltac:(intros t Ht; apply sq_deriv, HD, Ht)).
  assert (RATE : forall t, 0 <= t <= T -> sum_upto (fun i => nth i (g t) 0 * nth i (y t) 0 + nth i (y t) 0 * nth i (g t) 0) n <= a * sq n (y t) + INR n * (r * r)).
  { intros t Ht. eapply Rle_trans; [apply rate_le|]. specialize (HG t Ht). pose proof (sup_nonneg (y t)) as P0. pose proof (sq_sup n (y t) (LY t)) as P1.
    assert (2 * (sup (y t) * sup (g t)) <= (2 * L + 1) * sq n (y t) + r * r).
    { assert (sup (y t) * sup (g t) <= sup (y t) * (L * sup (y t) + r)) by (apply Rmult_le_compat_l; assumption). assert (2 * (sup (y t) * r) <= sup (y t) * sup (y t) + r * r) by (pose proof (Rle_0_sqr (sup (y t) - r)) as Q; unfold Rsqr in Q; lra). assert (L * (sup (y t) * sup (y t)) <= L * sq n (y t)) by (apply Rmult_le_compat_l; assumption). lra. }
    unfold a. apply (Rmult_le_compat_l (INR n)) in H; [lra|exact Pn]. }
  specialize (GW RATE). assert (S0 := sup_nonneg (y 0)). assert (ST := sup_nonneg (y T)). pose proof (sq_sup n (y T) (LY T)) as P1. pose proof (sq_le n (y 0)) as P2.
  assert (EX : exp (a * T) <= exp (a * h)). { assert (A1 : a * T <= a * h) by (apply Rmult_le_compat_l; lra). destruct (Req_dec (a * T) (a * h)) as [->|]; [lra|]. left. apply exp_increasing. lra. }
  set (s := sup (y 0) + r) in *. assert (B : sup (y T) * sup (y T) <= D * (s * s)).
  { eapply Rle_trans; [exact P1|]. eapply Rle_trans; [exact GW|]. unfold D. rewrite (Rmult_assoc (exp (a * h))). apply Rmult_le_compat; [apply Rlt_le, exp_pos| |exact EX|].
    - apply Rplus_le_le_0_compat; [pose proof (sq_sup n (y 0) (LY 0)); nra|apply Rmult_le_pos; [apply Rmult_le_pos; [exact Pn|nra]|lra]].
    - assert (A1 : sup (y 0) * sup (y 0) <= s * s) by (unfold s; nra). assert (A2 : r * r <= s * s) by (unfold s; nra). assert (A3 : r * r * T <= s * s * h) by (apply Rmult_le_compat; nra). replace (INR n * (1 + h) * (s * s)) with (INR n * (s * s + s * s * h)) by ring. replace (sq n (y 0) + INR n * (r * r) * T) with (sq n (y 0) + INR n * (r * r * T)) by ring. nra. }
  assert (P3 : 0 <= s) by (unfold s; lra). destruct (Rle_dec (sup (y T)) ((D + 1) * s)) as [|G]; [assumption|exfalso]. apply Rnot_le_lt in G.
  assert (0 <= (D + 1) * s) by (apply Rmult_le_pos; lra). assert (((D + 1) * s) * ((D + 1) * s) < sup (y T) * sup (y T)) by (apply Rmult_le_0_lt_compat; assumption). assert (D * (s * s) <= ((D + 1) * s) * ((D + 1) * s)) by nra. lra.
Qed.
(** ** A solution cannot leave a ball that it does not reach *)
Lemma close_all n (y : R -> vec) (g : vec) t : (forall i, (i < n)%nat -> derivable_pt_lim (fun s => nth i (y s) 0) t (nth i g 0)) -> forall eps, 0 < eps -> exists dl, 0 < dl /\ forall s, Rabs (s - t) < dl -> forall i, (i < n)%nat -> Rabs (nth i (y s) 0 - nth i (y t) 0) < eps.
Proof.
  intros H eps He. induction n as [|n IH]; [exists 1; split; [lra|intros; lia]|]. destruct IH as (d1 & P1 & H1); [intros; apply H; lia|].
  pose proof (derivable_continuous_pt (fun s => nth n (y s) 0) t (exist _ _ (H n ltac:(lia)))) as C. destruct (C eps He) as (d2 & P2 & H2). exists (Rmin d1 d2). split; [apply Rmin_glb_lt; [exact P1|exact P2]|].
  intros s Hs i Hi. destruct (Nat.eq_dec i n) as [->|]; [|apply H1; [eapply Rlt_le_trans; [exact Hs|apply Rmin_l]|lia]].
  destruct (Req_dec s t) as [->|NE]; [rewrite Rminus_diag_eq, Rabs_R0 by reflexivity; exact He|]. specialize (H2 s). unfold dist in H2. cbn in H2. unfold R_dist in H2. apply H2. split; [split; [exact I|auto]|eapply Rlt_le_trans; [exact Hs|apply Rmin_r]].
Qed.
Lemma sup_close n (x y : vec) eps : length x = n -> length y = n -> 0 <= eps -> (forall i, (i < n)%nat -> Rabs (nth i x 0 - nth i y 0) <= eps) -> sup x <= sup y + eps.
Proof.
  intros Lx Ly He H. pose proof (sup_nonneg y). apply sup_le; [lra|]. intros i Hi. specialize (H i ltac:(lia)). pose proof (nth_sup y i). replace (nth i x 0) with ((nth i x 0 - nth i y 0) + nth i y 0) by ring. eapply Rle_trans; [apply Rabs_triang|]. lra.
Qed.
Lemma barrier n (y g : R -> vec) h M : 0 <= h -> (forall t, length (y t) = n) -> (forall t, 0 <= t <= h -> forall i, (i < n)%nat -> derivable_pt_lim (fun s => nth i (y s) 0) t (nth i (g t) 0)) ->
  sup (y 0) < M -> (forall T, 0 <= T <= h -> (forall t, 0 <= t <= T -> sup (y t) <= M) -> sup (y T) < M) -> forall t, 0 <= t <= h -> sup (y t) < M.
Proof.
  intros Hh LY HD H0 HS. assert (CONT : forall t, 0 <= t <= h -> forall eps, 0 < eps -> exists dl, 0 < dl /\ forall s, Rabs (s - t) < dl -> Rabs (sup (y s) - sup (y t)) <= eps).
  { intros t Ht eps He. destruct (close_all n y (g t) t (HD t Ht) eps He) as (dl & Pdl & H). exists dl. split; [exact Pdl|]. intros s Hs. specialize (H s Hs).
    pose proof (sup_close n (y s) (y t) eps (LY s) (LY t) ltac:(lra) ltac:(intros i Hi; left; apply H, Hi)). pose proof (sup_close n (y t) (y s) eps (LY t) (LY s) ltac:(lra) ltac:(intros i Hi; left; rewrite Rabs_minus_sym; apply H, Hi)). apply Rabs_le. lra. }
  set (E := fun T => 0 <= T <= h /\ forall t, 0 <= t <= T -> sup (y t) <= M).
  destruct (completeness E) as (s & UB & LUB); [exists h; intros T (HT & _); lra|exists 0; split; [lra|intros t Ht; replace t with 0 by lra; lra]|].
  assert (S0 : 0 <= s) by (apply UB; split; [lra|intros t Ht; replace t with 0 by lra; lra]). assert (Sh : s <= h) by (apply LUB; intros T (HT & _); lra).
  assert (BEL : forall t, 0 <= t < s -> sup (y t) <= M).
  { intros t Ht. destruct (Rle_dec (sup (y t)) M) as [|N]; [assumption|exfalso]. assert (s <= t); [|lra]. apply LUB. intros T (HT & HB). destruct (Rle_dec T t) as [|G]; [assumption|exfalso; apply N, HB; lra]. }
  assert (AT : sup (y s) <= M).
  { destruct (Rle_dec (sup (y s)) M) as [|N]; [assumption|exfalso]. apply Rnot_le_lt in N. destruct (Req_dec s 0) as [Z|NZ]; [rewrite Z in N; lra|].
    destruct (CONT s ltac:(lra) ((sup (y s) - M) / 2) ltac:(lra)) as (dl & Pdl & H). set (t := Rmax 0 (s - dl / 2)). assert (T1 : 0 <= t) by apply Rmax_l. assert (T2 : t < s) by (unfold t; apply Rmax_lub_lt; lra). assert (T3 : s - dl / 2 <= t) by apply Rmax_r.
    specialize (BEL t ltac:(lra)). specialize (H t ltac:(rewrite Rabs_left; lra)). apply rabs_inv in H. lra. }
  assert (IN : forall t, 0 <= t <= s -> sup (y t) <= M) by (intros t Ht; destruct (Req_dec t s) as [->|]; [exact AT|apply BEL; lra]).
  assert (ES : s = h).
  { destruct (Req_dec s h) as [|NE]; [assumption|exfalso]. pose proof (HS s ltac:(lra) IN) as LT. destruct (CONT s ltac:(lra) ((M - sup (y s)) / 2) ltac:(lra)) as (dl & Pdl & H).
    set (T := Rmin h (s + dl / 2)). assert (T1 : T <= h) by apply Rmin_l. assert (T2 : T <= s + dl / 2) by apply Rmin_r. assert (T3 : s < T) by (unfold T; apply Rmin_glb_lt; lra).
    assert (T <= s); [|lra]. apply UB. split; [lra|]. intros t Ht. destruct (Rle_dec t s) as [|G]; [apply IN; lra|]. specialize (H t ltac:(rewrite Rabs_right; lra)). apply rabs_inv in H. lra. }
  intros t Ht. apply HS; [exact Ht|]. intros r Hr. apply IN. lra.
Qed.
(** ** The plant near the origin *)
Lemma held_shorter f u nx h T phi : held_solution f u nx h phi -> T <= h -> held_solution f u nx T phi.
Proof. intros (L & H) HT. split; [exact L|]. intros t Ht. apply H. lra. Qed.
(*@ Theorem C97_between : Between the samples: let the origin be an equilibrium at which f is differentiable, and h >= 0. There are rho > 0 and C such that the solutions of dx/dt = f(x, u) on [0, h], u constant, with |x(0)| <= rho and |u| <= rho satisfy |x(t)| <= C (|x(0)| + |u|) for all t in [0, h] *)
Lemma held_bound f A B nx nu h : system_shape A B nx nu -> 0 <= h -> field_derivative f A B nx nu ->
  exists rho C, 0 < rho /\ 1 <= C /\ forall u phi, length u = nu -> held_solution f u nx h phi -> sup (phi 0) <= rho -> sup u <= rho -> forall t, 0 <= t <= h -> sup (phi t) <= C * (sup (phi 0) + sup u).
Proof.
  intros (SA & SB) Hh (LF & DF). destruct (DF 1 ltac:(lra)) as (dl & Pdl & HD). destruct (row_sums A nx nx SA) as (la & Pla & RA). destruct (row_sums B nx nu SB) as (lb & Plb & RB). set (L := la + lb + 1). assert (PL : 1 <= L) by (unfold L; lra).
  destruct (growth nx L h ltac:(lra) Hh) as (C & PC & G). assert (CL : 1 <= C * (1 + L)) by nra. set (rho := dl / (4 * (C * (1 + L)))). assert (Pr : 0 < rho) by (unfold rho; apply Rdiv_lt_0_compat; lra).
  assert (RD : rho * (4 * (C * (1 + L))) = dl) by (unfold rho; field; lra). assert (Rd : rho < dl) by nra.
  exists rho, (C * (1 + L)). split; [exact Pr|]. split; [exact CL|]. intros u phi Lu HS S0 Su t Ht. pose proof HS as (LP & HP). pose proof (sup_nonneg (phi 0)) as N0. pose proof (sup_nonneg u) as Nu.
  assert (STEP : forall T, 0 <= T <= h -> (forall t, 0 <= t <= T -> sup (phi t) <= dl) -> sup (phi T) <= C * (1 + L) * (sup (phi 0) + sup u)).
  { intros T HT HB. apply Rle_trans with (C * (sup (phi 0) + L * sup u)); [|rewrite Rmult_assoc; apply Rmult_le_compat_l; nra].
    apply (G phi (fun t => f (phi t) u) (L * sup u) T HT); [nra|exact LP|intros s Hs; apply HP; lra|]. intros s Hs. specialize (HB s Hs). pose proof (HD (phi s) u (LP s) Lu HB ltac:(lra)) as HE. pose proof (sup_nonneg (phi s)) as Ns.
    set (y := linear_step A B (phi s) u) in *. assert (Ly : length y = nx). { unfold y, linear_step. destruct SA as (R1 & _), SB as (R2 & _). rewrite vadd_length. unfold mv. rewrite !map_length. unfold nrows in *. lia. }
    assert (Sy : sup y <= la * sup (phi s) + lb * sup u). { unfold y, linear_step. eapply Rle_trans; [apply sup_vadd; unfold mv; rewrite !map_length; destruct SA as (R1 & _), SB as (R2 & _); unfold nrows in *; lia|]. apply Rplus_le_compat; [eapply sup_mv; eauto|eapply sup_mv; eauto]. }
    assert (TRI : sup (f (phi s) u) <= sup (vsub (f (phi s) u) y) + sup y).
    { rewrite <- (Rplus_comm (sup y)). pose proof (LF (phi s) u (LP s) Lu) as Lf. apply (sup_close nx); [exact Lf|exact Ly|apply sup_nonneg|]. intros i Hi. rewrite <- nth_vsub by lia. apply nth_sup. }
    unfold L. nra. }
  apply STEP; [exact Ht|]. intros s Hs. left. apply (barrier nx phi (fun t => f (phi t) u) h dl Hh LP HP); [lra| |lra]. intros T HT HB. eapply Rle_lt_trans; [apply (STEP T HT HB)|]. nra.
Qed.
(*@ Theorem C97_error : The error of the linearization over a step: for every eps > 0 there is dl > 0 such that the solutions of dx/dt = f(x, u) and of dx/dt = A x + B u on [0, h] with the same initial state and the same constant input, |x(0)| <= dl, |u| <= dl, differ by at most eps (|x(0)| + |u|) on [0, h] *)
Lemma held_error f A B nx nu h : system_shape A B nx nu -> 0 <= h -> field_derivative f A B nx nu -> forall eps, 0 < eps -> exists dl, 0 < dl /\ forall u phi psi, length u = nu -> held_solution f u nx h phi -> ode_solution A B (zeros nx) u nx h psi -> psi 0 = phi 0 ->
  sup (phi 0) <= dl -> sup u <= dl -> forall t, 0 <= t <= h -> sup (vsub (phi t) (psi t)) <= eps * (sup (phi 0) + sup u).
Proof.
  intros SS Hh FD eps He. destruct (held_bound f A B nx nu h SS Hh FD) as (rho & C & Pr & PC & HB). pose proof SS as (SA & SB). destruct FD as (LF & DF). destruct (row_sums A nx nx SA) as (la & Pla & RA). destruct (growth nx la h Pla Hh) as (C' & PC' & G).
  set (e := eps / (C' * (C + 1))). assert (Pp : 0 < C' * (C + 1)) by nra. assert (Pe : 0 < e) by (apply Rdiv_lt_0_compat; assumption). destruct (DF e Pe) as (d1 & Pd1 & HD). exists (Rmin rho (d1 / (2 * C))). assert (Pq : 0 < d1 / (2 * C)) by (apply Rdiv_lt_0_compat; lra). split; [apply Rmin_glb_lt; assumption|].
  intros u phi psi Lu HS HO E0 S0 Su t Ht. assert (S0r : sup (phi 0) <= rho) by (eapply Rle_trans; [exact S0|apply Rmin_l]). assert (Sur : sup u <= rho) by (eapply Rle_trans; [exact Su|apply Rmin_l]). specialize (HB u phi Lu HS S0r Sur).
  assert (S0d : sup (phi 0) <= d1 / (2 * C)) by (eapply Rle_trans; [exact S0|apply Rmin_r]). assert (Sud : sup u <= d1 / (2 * C)) by (eapply Rle_trans; [exact Su|apply Rmin_r]). assert (DC : C * (2 * (d1 / (2 * C))) = d1) by (field; lra).
  pose proof (sup_nonneg (phi 0)) as N0. pose proof (sup_nonneg u) as Nu. destruct HS as (LP & HP), HO as (LO & HO). set (s := sup (phi 0) + sup u) in *.
  pose proof (G (fun t => vsub (phi t) (psi t)) (fun t => vsub (f (phi t) u) (vadd (vadd (mv A (psi t)) (mv B u)) (zeros nx))) (e * ((C + 1) * s)) t Ht) as H. cbv beta in H.
  assert (LMA : forall x, length (mv A x) = nx) by (intros x; destruct SA as (R1 & _); unfold mv; rewrite map_length; exact R1). assert (LMB : forall x, length (mv B x) = nx) by (intros x; destruct SB as (R1 & _); unfold mv; rewrite map_length; exact R1).
  assert (Z0 : sup (vsub (phi 0) (psi 0)) = 0). { rewrite E0. replace (vsub (phi 0) (phi 0)) with (zeros nx); [apply sup_zeros|]. apply vec_ext; [rewrite vsub_length, zeros_length, LP; lia|]. intros i Hi. rewrite zeros_length in Hi. rewrite nth_zeros, nth_vsub by (rewrite ?LP; lia). lra. }
  rewrite Z0, Rplus_0_l in H. replace (C' * (e * ((C + 1) * s))) with (eps * s) in H by (unfold e; field; split; lra). apply H.
  - apply Rmult_le_pos; [lra|]. apply Rmult_le_pos; unfold s; lra.
  - intros r. rewrite vsub_length, LP, LO. lia.
  - intros r Hr i Hi. assert (EQ : nth i (vsub (f (phi r) u) (vadd (vadd (mv A (psi r)) (mv B u)) (zeros nx))) 0 = nth i (f (phi r) u) 0 - nth i (vadd (vadd (mv A (psi r)) (mv B u)) (zeros nx)) 0).
    { apply nth_vsub. rewrite LF by auto. rewrite !vadd_length, LMA, LMB, zeros_length. lia. }
    rewrite EQ. assert (EX : forall q, nth i (vsub (phi q) (psi q)) 0 = nth i (phi q) 0 - nth i (psi q) 0) by (intros q; apply nth_vsub; rewrite LP, LO; reflexivity).
    intros ee Hee. destruct (derivable_pt_lim_minus (fun q => nth i (phi q) 0) (fun q => nth i (psi q) 0) r _ _ (HP r ltac:(lra) i Hi) (HO r ltac:(lra) i Hi) ee Hee) as (dd & Hdd). exists dd. intros q Hq1 Hq2. specialize (Hdd q Hq1 Hq2). unfold minus_fct in Hdd. rewrite !EX. exact Hdd.
  - intros r Hr. specialize (HB r ltac:(lra)). assert (CS : C * s <= d1) by (unfold s; nra). assert (Sud1 : sup u <= d1) by (unfold s in *; nra). pose proof (HD (phi r) u (LP r) Lu ltac:(lra) Sud1) as HE. unfold linear_step in HE.
    assert (SPL : vsub (f (phi r) u) (vadd (vadd (mv A (psi r)) (mv B u)) (zeros nx)) = vadd (mv A (vsub (phi r) (psi r))) (vsub (f (phi r) u) (vadd (mv A (phi r)) (mv B u)))).
    { rewrite (mv_vsub A nx nx) by (auto; rewrite ?LP, ?LO; reflexivity). pose proof (LF (phi r) u (LP r) Lu) as Lf. apply vec_ext; [repeat rewrite ?vsub_length, ?vadd_length, ?LMA, ?LMB, ?zeros_length, ?(LF _ _ (LP r) Lu), ?LP, ?LO; lia|]. intros i Hi. rewrite !nth_vsub, !nth_vadd, !nth_vsub, !nth_vadd, nth_zeros by (repeat rewrite ?vsub_length, ?vadd_length, ?LMA, ?LMB, ?zeros_length, ?Lf; lia). lra. }
    rewrite SPL. eapply Rle_trans; [apply sup_vadd; repeat rewrite ?vsub_length, ?vadd_length, ?LMA, ?LMB, ?(LF _ _ (LP r) Lu); lia|]. apply Rplus_le_compat.
    + eapply sup_mv; eauto. rewrite vsub_length, LP, LO. lia.
    + eapply Rle_trans; [exact HE|]. apply Rmult_le_compat_l; [lra|]. unfold s in *. nra.
Qed.
(*@ Theorem C97_sampled : The linear system that LinearSystem.from_continuous(A, B, h, 'zero_order_hold') returns (exact matrix exponential) is the derivative at the origin of the sampled plant: the state x(h) of the solution of dx/dt = f(x, u), with u held, differs from A_d x(0) + B_d u by o(|x(0)| + |u|) *)
Lemma sampled_linearizes np f A B nx nu h S : system_shape A B nx nu -> 0 <= h -> field_derivative f A B nx nu -> is_expm (mscale h (zoh_matrix A B (zeros nx))) (np_expm np (mscale h (zoh_matrix A B (zeros nx)))) (nx + nu + 1) ->
  lin_from_continuous np A B h "zero_order_hold" = Ok S -> system_shape (lA S) (lB S) nx nu /\ linearizes (sampled_plant f nx h) (lA S) (lB S) nx nu.
Proof.
  intros SS Hh FD HE ES. destruct (proj1 (proj1 (lin_continuous np A B h) nx nu SS Hh) HE) as (S' & ES' & SD & HZ). rewrite ES in ES'. injection ES' as <-. split; [exact SD|]. intros eps He. destruct (held_error f A B nx nu h SS Hh FD eps He) as (dl & Pdl & H). exists dl. split; [exact Pdl|].
  intros x u y Lx Lu Sx Su (phi & HS & <- & <-). destruct (ode_solutions A B (zeros nx) u (phi 0) nx nu SS (zeros_length nx) Lu Lx) as ((psi & E0 & HO) & _). specialize (HO h). rewrite <- E0 at 1. rewrite <- (HZ u psi Lu HO). apply (H u phi psi Lu HS HO E0 Sx Su). lra.
Qed.
Lemma sampled_length f nx h x u y : sampled_plant f nx h x u y -> length y = nx.
Proof. intros (phi & (L & _) & _ & <-). apply L. Qed.
(** a control law that is K x near the origin, on the sampled plant *)
Lemma sampled_law f A B K nx nu h Ad Bd (ctrl : vec -> vec -> Prop) sg : system_shape A B nx nu -> 0 <= h -> field_derivative f A B nx nu -> shape Ad nx nx -> shape Bd nx nu -> linearizes (sampled_plant f nx h) Ad Bd nx nu -> shape K nu nx -> attractive (madd Ad (mm Bd K)) nx -> 0 < sg ->
  (forall x u, length x = nx -> sup x <= sg -> ctrl x u -> u = mv K x) ->
  exists m c rho, (0 < m)%nat /\ 0 <= c /\ 0 < rho /\ forall phi T, length (phi 0%nat 0) = nx -> sup (phi 0%nat 0) <= rho -> sampled_run f ctrl nx h phi T ->
  (forall k, (k <= T)%nat -> length (phi k 0) = nx /\ sup (phi k 0) <= sg) /\ forall k t, (k < T)%nat -> 0 <= t <= h -> sup (phi k t) <= c * (3 / 4) ^ (k / m) * sup (phi 0%nat 0).
Proof.
  intros SS Hh FD SA SB LI SK AT Psg CT. destruct (held_bound f A B nx nu h SS Hh FD) as (r & C & Pr & PC & HB). destruct (row_sums K nu nx SK) as (ka & Pka & RK). assert (KX : forall x, length x = nx -> sup (mv K x) <= ka * sup x) by (intros x Lx; eapply sup_mv; eauto).
  assert (LK : forall x, length (mv K x) = nu) by (intros x; destruct SK as (RK' & _); unfold mv; rewrite map_length; exact RK').
  set (sg' := Rmin sg (r / (1 + ka))). assert (Psg' : 0 < sg') by (apply Rmin_glb_lt; [exact Psg|apply Rdiv_lt_0_compat; lra]).
  destruct (local_law Ad Bd K nx nu (sampled_plant f nx h) ctrl sg' SA SB SK AT Psg' ltac:(intros x u y _ _; apply sampled_length) LI) as (m & c & rho & Hm & Pc & Prho & H). { intros x u Lx Sx. apply CT; [exact Lx|]. eapply Rle_trans; [exact Sx|apply Rmin_l]. }
  exists m, (C * (1 + ka) * c), rho. split; [exact Hm|]. split; [apply Rmult_le_pos; [nra|exact Pc]|]. split; [exact Prho|]. intros phi T L0 S0 HR.
  assert (RUN : forall t, (t < T)%nat -> exists u, ctrl (phi t 0) u /\ sampled_plant f nx h (phi t 0) u (phi (Datatypes.S t) 0)). { intros t Ht. destruct (HR t Ht) as (E & u & Cu & HS). exists u. split; [exact Cu|]. exists (phi t). split; [exact HS|]. split; [reflexivity|symmetry; exact E]. }
  pose proof (H (fun k => phi k 0) T L0 S0 RUN) as HK. cbv beta in HK. split; [intros k Hk; destruct (HK k Hk) as (SG & LT & _); split; [exact LT|eapply Rle_trans; [exact SG|apply Rmin_l]]|].
  intros k t Hk Ht. destruct (HK k ltac:(lia)) as (SG & LT & BT). assert (SG1 : sup (phi k 0) <= sg) by (eapply Rle_trans; [exact SG|apply Rmin_l]).
  destruct (HR k Hk) as (_ & u & Cu & HS). assert (Eu : u = mv K (phi k 0)) by (apply CT; assumption). subst u. pose proof (KX _ LT) as K1. pose proof (sup_nonneg (phi k 0)) as N0.
  assert (SR : (1 + ka) * sup (phi k 0) <= r). { assert (B1 : sup (phi k 0) <= r / (1 + ka)) by (eapply Rle_trans; [exact SG|apply Rmin_r]). apply (Rmult_le_compat_l (1 + ka)) in B1; [|lra]. replace ((1 + ka) * (r / (1 + ka))) with r in B1 by (field; lra). exact B1. }
  eapply Rle_trans; [apply (HB _ (phi k) (LK _) HS); [nra|nra|exact Ht]|]. apply Rle_trans with (C * ((1 + ka) * sup (phi k 0))); [apply Rmult_le_compat_l; lra|]. replace (C * (1 + ka) * c * (3 / 4) ^ (k / m) * sup (phi 0%nat 0)) with (C * ((1 + ka) * (c * (3 / 4) ^ (k / m) * sup (phi 0%nat 0)))) by ring. apply Rmult_le_compat_l; [lra|]. apply Rmult_le_compat_l; lra.
Qed.
(** the model of the plant dx/dt = f(x, u): its derivative A, B at the origin, discretized by the code with a zero-order hold *)
Definition hold_model np f A B nx nu h S : Prop := system_shape A B nx nu /\ 0 <= h /\ field_derivative f A B nx nu /\
  is_expm (mscale h (zoh_matrix A B (zeros nx))) (np_expm np (mscale h (zoh_matrix A B (zeros nx)))) (nx + nu + 1) /\ lin_from_continuous np A B h "zero_order_hold" = Ok S.
(*@ Theorem C97_gain : Any gain K for which A_d + B_d K is attractive (all trajectories of x+ = (A_d + B_d K) x converge to 0), with the matrices of zero_order_hold, stabilizes the continuous-time nonlinear plant: there are rho > 0 and constants c, m such that on all runs of dx/dt = f(x, u) with u = K x(k h) for k h <= t < (k+1) h and |x(0)| <= rho, |x(t)| <= c (3/4)^(k / m) |x(0)| for all times t in [k h, (k+1) h], not only at the samples *)
Lemma sampled_gain np f A B nx nu h S K : hold_model np f A B nx nu h S -> shape K nu nx -> attractive (madd (lA S) (mm (lB S) K)) nx ->
  exists m c rho, (0 < m)%nat /\ 0 <= c /\ 0 < rho /\ forall phi, length (phi 0%nat 0) = nx -> sup (phi 0%nat 0) <= rho -> (forall T, sampled_run f (fun x u => u = mv K x) nx h phi T) ->
  forall k t, 0 <= t <= h -> sup (phi k t) <= c * (3 / 4) ^ (k / m) * sup (phi 0%nat 0).
Proof.
  intros (SS & Hh & FD & HE & ES) SK AT. destruct (sampled_linearizes np f A B nx nu h S SS Hh FD HE ES) as ((SA & SB) & LI).
  destruct (sampled_law f A B K nx nu h _ _ (fun x u => u = mv K x) 1 SS Hh FD SA SB LI SK AT ltac:(lra) ltac:(auto)) as (m & c & rho & Hm & Pc & Pr & H). exists m, c, rho. split; [exact Hm|]. split; [exact Pc|]. split; [exact Pr|].
  intros phi L0 S0 HR k t Ht. apply (proj2 (H phi (Datatypes.S k) L0 S0 (HR _))); [lia|exact Ht].
Qed.
(*@ Theorem C97_lqr : In particular (C97_gain) the gain K that solve_dare computes for the system of from_continuous(A, B, h, 'zero_order_hold'), for positive definite weights *)
Lemma sampled_lqr np f A B nx nu h S Q Rm P K : exact_np np -> hold_model np f A B nx nu h S -> shape Q nx nx -> shape Rm nu nu -> Spec.pd Q nx -> Spec.pd Rm nu -> lqr_pair np S Q Rm P K nx nu ->
  exists m c rho, (0 < m)%nat /\ 0 <= c /\ 0 < rho /\ forall phi, length (phi 0%nat 0) = nx -> sup (phi 0%nat 0) <= rho -> (forall T, sampled_run f (fun x u => u = mv K x) nx h phi T) ->
  forall k t, 0 <= t <= h -> sup (phi k t) <= c * (3 / 4) ^ (k / m) * sup (phi 0%nat 0).
Proof.
  intros Hnp HM SQ SR PQ PR HL. pose proof HM as (SS & Hh & FD & HE & ES). destruct (sampled_linearizes np f A B nx nu h S SS Hh FD HE ES) as ((SA & SB) & _). destruct (lqr_attractive np S Q Rm nx nu P K Hnp SA SB SQ SR PQ PR HL) as (SK & AT).
  exact (sampled_gain np f A B nx nu h S K HM SK AT).
Qed.
(*@ Theorem C97_mpc : A model predictive controller for this system (terminal cost and gain of solve_dare, invariant terminal set around the origin), evaluated at the samples of the continuous-time nonlinear plant: there are rho > 0 and constants c, m such that for |x(0)| <= rho, feedback returns an input at all samples, state and input satisfy the constraints there, and |x(t)| <= c (3/4)^(k / m) |x(0)| for all t in [k h, (k+1) h] *)
Lemma sampled_mpc np f A B nx nu h S N Q Rm P D X_N K C sg : exact_np np -> hold_model np f A B nx nu h S -> mpc_data S N Q Rm P D X_N nx nu -> ModelPredictiveController np S N Q Rm P D X_N = Ok C ->
  lqr_pair np S Q Rm P K nx nu -> Spec.pd Q nx -> terminal_invariant (lA S) (lB S) K (in_poly D) (in_poly X_N) -> 0 < sg -> (forall x, length x = nx -> sup x <= sg -> in_poly X_N x) ->
  exists m c rho, (0 < m)%nat /\ 0 <= c /\ 0 < rho /\ forall phi, length (phi 0%nat 0) = nx -> sup (phi 0%nat 0) <= rho ->
  (forall k u, feedback np C (phi k 0) = Ok (Some u) -> phi (Datatypes.S k) 0 = phi k h /\ held_solution f u nx h (phi k)) ->
  forall k, feedback np C (phi k 0) = Ok (Some (mv K (phi k 0))) /\ in_poly D (phi k 0 ++ mv K (phi k 0)) /\ forall t, 0 <= t <= h -> sup (phi k t) <= c * (3 / 4) ^ (k / m) * sup (phi 0%nat 0).
Proof.
  intros Hnp (SS & Hh & FD & HE & ES) HD EC HL PQ TI Psg BALL. destruct (sampled_linearizes np f A B nx nu h S SS Hh FD HE ES) as ((SA & SB) & LI). pose proof HD as ((_ & _ & HN & SQ & SP & SR & _) & _ & _ & _ & PP & PR).
  destruct (lqr_attractive np S Q Rm nx nu P K Hnp SA SB SQ SR PQ PR HL) as (SK & AT).
  assert (FB : forall x, length x = nx -> sup x <= sg -> feedback np C x = Ok (Some (mv K x))) by (intros x Lx Sx; apply (mpc_feedback_lqr np S N Q Rm P D X_N K nx nu C x Hnp HD EC HL TI Lx), BALL; assumption).
  destruct (sampled_law f A B K nx nu h _ _ (fun x u => feedback np C x = Ok (Some u)) sg SS Hh FD SA SB LI SK AT Psg) as (m & c & rho & Hm & Pc & Pr & H).
  { intros x u Lx Sx Eu. rewrite (FB x Lx Sx) in Eu. injection Eu as <-. reflexivity. }
  exists m, c, rho. split; [exact Hm|]. split; [exact Pc|]. split; [exact Pr|]. intros phi L0 S0 HF.
  assert (RUN : forall T, sampled_run f (fun x u => feedback np C x = Ok (Some u)) nx h phi T).
  { induction T as [|T IH]; intros k Hk; [lia|]. destruct (proj1 (H phi T L0 S0 IH) k ltac:(lia)) as (LT & ST). destruct (HF k _ (FB _ LT ST)) as (E & HS). split; [exact E|]. exists (mv K (phi k 0)). split; [apply FB; assumption|exact HS]. }
  intros k. destruct (H phi (Datatypes.S k) L0 S0 (RUN _)) as (R1 & R2). destruct (R1 k ltac:(lia)) as (LT & ST). split; [apply FB; assumption|]. split; [apply TI, BALL; assumption|]. intros t Ht. apply R2; [lia|exact Ht].
Qed.
(*@ Theorem C97_hybrid : The hybrid controller, whose mode of the origin is this system, on the continuous-time nonlinear plant: there are rho > 0 and constants c, m such that on all runs with |x(0)| <= rho, as long as Gurobi solves its programs, feedback returns K x, the pair is in the domain of the mode, and |x(t)| <= c (3/4)^(k / m) |x(0)| for all t in [k h, (k+1) h] *)
Lemma sampled_hybrid np f A B nx nu h S W N Q Rm P X_N mN meN C i D K dl sg : hold_model np f A B nx nu h S -> hyb_controller np W N Q Rm P X_N nx nu mN meN C -> origin_mode W i S D nx dl ->
  lqr_pair np S Q Rm P K nx nu -> Spec.pd Q nx -> terminal_invariant (lA S) (lB S) K (in_poly D) (in_poly X_N) -> 0 < sg -> (forall x, length x = nx -> sup x <= sg -> in_poly X_N x) ->
  exists m c rho, (0 < m)%nat /\ 0 <= c /\ 0 < rho /\ forall grb phi T, length (phi 0%nat 0) = nx -> sup (phi 0%nat 0) <= rho -> (forall k, (k < T)%nat -> gurobi_solves grb (k_mpmiqp C) (phi k 0)) ->
  (forall k u, (k < T)%nat -> hybrid_feedback grb C (phi k 0) = Ok (Some u) -> phi (Datatypes.S k) 0 = phi k h /\ held_solution f u nx h (phi k)) ->
  forall k, (k < T)%nat -> hybrid_feedback grb C (phi k 0) = Ok (Some (mv K (phi k 0))) /\ in_poly D (phi k 0 ++ mv K (phi k 0)) /\ forall t, 0 <= t <= h -> sup (phi k t) <= c * (3 / 4) ^ (k / m) * sup (phi 0%nat 0).
Proof.
  intros (SS & Hh & FD & HE & ES) HB OM HL PQ TI Psg BALL. destruct (sampled_linearizes np f A B nx nu h S SS Hh FD HE ES) as ((SA & SB) & LI). pose proof HB as (Hnp & _ & _ & _ & _ & _ & (SQ & SP & SR & _ & _ & PR & _) & _).
  destruct (lqr_attractive np S Q Rm nx nu P K Hnp SA SB SQ SR PQ PR HL) as (SK & AT). destruct (hybrid_lqr np W N Q Rm P X_N nx nu mN meN C i S D K dl sg HB OM HL PQ TI Psg BALL) as (r & Pr0 & Rsg & FB).
  destruct (sampled_law f A B K nx nu h _ _ (fun x u => u = mv K x) r SS Hh FD SA SB LI SK AT Pr0 ltac:(auto)) as (m & c & rho & Hm & Pc & Pr & H).
  exists m, c, rho. split; [exact Hm|]. split; [exact Pc|]. split; [exact Pr|]. intros grb phi T L0 S0 GS HF.
  assert (RUN : forall T', (T' <= T)%nat -> sampled_run f (fun x u => u = mv K x) nx h phi T').
  { induction T' as [|T' IH]; intros HT k Hk; [lia|]. destruct (proj1 (H phi T' L0 S0 (IH ltac:(lia))) k ltac:(lia)) as (LT & ST). destruct (HF k _ ltac:(lia) (proj1 (FB grb _ LT ST (GS k ltac:(lia))))) as (E & HS). split; [exact E|]. exists (mv K (phi k 0)). split; [reflexivity|exact HS]. }
  intros k Hk. destruct (H phi T L0 S0 (RUN T (le_n T))) as (R1 & R2). destruct (R1 k ltac:(lia)) as (LT & ST). split; [apply FB; auto|]. split; [apply TI, BALL; [assumption|lra]|]. intros t Ht. apply R2; assumption.
Qed.
(** ** The nonlinear cart-pole in continuous time *)
Definition cart_field (mc mp l d k g : R) (x u : vec) : vec := match cart_flow mc mp l d k g x u with Ok f => f | Err _ => zeros 4 end.
Lemma cart_field_derivative mc mp l d k g : 0 < mc -> 0 < mp -> 0 < l -> 0 < d -> field_derivative (cart_field mc mp l d k g) (cart_A_free mc mp l g) (cart_B mc l) 4 1.
Proof.
  intros Hmc Hmp Hl Hd. split.
  - intros x u _ _. unfold cart_field. destruct (cart_flow_ok mc mp l d k g x u Hmc Hmp Hl) as (f & -> & Lf). exact Lf.
  - intros eps He. destruct (cart_linearizes mc mp l d k g 1 Hmc Hmp Hl Hd ltac:(lra) eps He) as (dl & Pdl & H). exists dl. split; [exact Pdl|]. intros x u Lx Lu Sx Su.
    destruct (cart_flow_ok mc mp l d k g x u Hmc Hmp Hl) as (f & EF & Lf). unfold cart_field. rewrite EF. specialize (H x u _ Lx Lu Sx Su (ex_intro _ f (conj EF eq_refl))).
    assert (EV : vsub (vadd x (vscale 1 f)) (linear_step (lA (cart_S2 mc mp l g 1)) (lB (cart_S2 mc mp l g 1)) x u) = vsub f (linear_step (cart_A_free mc mp l g) (cart_B mc l) x u)).
    { destruct x as [|x1 [|x2 [|x3 [|x4 [|? ?]]]]]; try discriminate. destruct u as [|u1 [|? ?]]; try discriminate. destruct f as [|f1 [|f2 [|f3 [|f4 [|? ?]]]]]; try discriminate. unfold linear_step, cart_S2, cart_A_free, cart_B. cbn. repeat (f_equal; [field; lra|]). f_equal; field; lra. }
    rewrite EV in H. exact H.
Qed.
