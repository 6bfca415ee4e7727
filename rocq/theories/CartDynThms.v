(** * CartDynThms: the cart-pole script (C95), proofs *)
From Coq Require Import Lra Lia.
From Coquelicot Require Import Coquelicot.
From Verif Require Import Arr ArrFacts Spec SpecDyn SpecSym SpecRound SpecCart RoundSimThms Symbolic SymThms Walls CartDyn.

(** expressions without divisions and roots *)
Fixpoint smooth (e : sx) : Prop :=
  match e with
  | SVar _ | SNum _ => True
  | SAdd e f | SMul e f => smooth e /\ smooth f
  | SDiv _ _ | SSqrt _ => False
  | SPow e _ | SSin e | SCos e | SExp e => smooth e
  end.
Lemma smooth_regular e : smooth e -> regular e.
Proof. induction e; cbn; intuition. Qed.
Lemma smooth_sdiff i e : smooth e -> smooth (sdiff i e).
Proof. induction e; cbn; intuition. Qed.
(** two derivatives of the same function agree *)
Lemma sdiff_unique i e env (F : R -> R) v : regular e -> (forall t, sv (upd env i t) e = F t) -> derivable_pt_lim F (env i) v -> sv env (sdiff i e) = v.
Proof.
  intros RE HF HD. destruct (sdiff_ok i e RE env) as (VAL & DER). specialize (DER (env i)).
  assert (EX : forall j, upd env i (env i) j = env j) by (intros j; unfold upd; destruct (Nat.eqb_spec j i); congruence).
  assert (EQ : sv (upd env i (env i)) (sdiff i e) = sv env (sdiff i e)). { pose proof (value_ext (sdiff i e) _ _ EX) as Q. rewrite (proj1 (sdiff_ok i e RE (upd env i (env i)))), VAL in Q. injection Q as Q. exact Q. }
  rewrite <- EQ. apply (uniqueness_limite F (env i)); [|exact HD]. intros eps He. destruct (DER eps He) as (dl & D). exists dl. intros h Hh Hd. rewrite <- !HF. apply D; assumption.
Qed.
Ltac dlim := apply is_derive_Reals; auto_derive; [try exact I; auto|].

Section Cart.
Variables mc mp l g : R.
Hypothesis Hmc : 0 < mc.
Hypothesis Hmp : 0 < mp.
Hypothesis Hl : 0 < l.
Variables k e : R.
(** the potential of the script, with a spring of stiffness k at e *)
Variable U : sx.
Hypothesis HU : smooth U.
Hypothesis UV : forall env, sv env U = potential mp l g k e (env 0%nat) (env 1%nat).
Let L := LL mc mp l U.
Let p1 (q1 q2 v1 v2 : R) := (mc + mp) * v1 - mp * l * cos q2 * v2.
Let p2 (q1 q2 v1 v2 : R) := mp * (l * l) * v2 - mp * l * cos q2 * v1.
Let g1 (q1 q2 v1 v2 : R) := - (k * (tip l q1 q2 - e)).
Let g2 (q1 q2 v1 v2 : R) := mp * l * sin q2 * v1 * v2 + mp * g * l * sin q2 + k * (tip l q1 q2 - e) * (l * cos q2).
Lemma sc1 x : sin x * sin x + cos x * cos x = 1.
Proof. pose proof (sin2_cos2 x) as H. unfold Rsqr in H. exact H. Qed.
Lemma lag_partials : partials (lagrangian mc mp l g k e) g1 g2 p1 p2.
Proof.
  intros q1 q2 v1 v2. unfold lagrangian, kinetic, potential, tip, g1, g2, p1, p2, tip. pose proof (sc1 q2) as SC. repeat split; dlim; try ring.
  - field.
  - field.
  - replace (l * sin q2) with (l * sin q2) by ring. set (s := sin q2) in *. set (c := cos q2) in *. field.
  - set (s := sin q2) in *. set (c := cos q2) in *. transitivity (mp * (l * l) * v2 * (s * s + c * c) - mp * l * c * v1); [field|rewrite SC; ring].
Qed.

Lemma L_smooth : smooth L.
Proof. unfold L, LL. cbn. intuition. Qed.
Lemma sv_L env : sv env L = lagrangian mc mp l g k e (env 0%nat) (env 1%nat) (env 2%nat) (env 3%nat).
Proof. unfold L, LL. cbn. rewrite UV. unfold lagrangian, kinetic, potential, tip. field. Qed.
Lemma dL env : sv env (sdiff 0 L) = g1 (env 0%nat) (env 1%nat) (env 2%nat) (env 3%nat) /\ sv env (sdiff 1 L) = g2 (env 0%nat) (env 1%nat) (env 2%nat) (env 3%nat) /\
  sv env (sdiff 2 L) = p1 (env 0%nat) (env 1%nat) (env 2%nat) (env 3%nat) /\ sv env (sdiff 3 L) = p2 (env 0%nat) (env 1%nat) (env 2%nat) (env 3%nat).
Proof.
  pose proof (smooth_regular _ L_smooth) as RL. destruct (lag_partials (env 0%nat) (env 1%nat) (env 2%nat) (env 3%nat)) as (D0 & D1 & D2 & D3).
  repeat split; (eapply sdiff_unique; [exact RL|intros t; rewrite sv_L; cbn; reflexivity|assumption]).
Qed.
Lemma ddL env : let q2 := env 1%nat in let v1 := env 2%nat in let v2 := env 3%nat in
  sv env (sdiff 2 (sdiff 2 L)) = mc + mp /\ sv env (sdiff 3 (sdiff 2 L)) = - (mp * l * cos q2) /\ sv env (sdiff 2 (sdiff 3 L)) = - (mp * l * cos q2) /\ sv env (sdiff 3 (sdiff 3 L)) = mp * (l * l) /\
  sv env (sdiff 0 (sdiff 2 L)) = 0 /\ sv env (sdiff 1 (sdiff 2 L)) = mp * l * sin q2 * v2 /\ sv env (sdiff 0 (sdiff 3 L)) = 0 /\ sv env (sdiff 1 (sdiff 3 L)) = mp * l * sin q2 * v1.
Proof.
  pose proof (smooth_regular _ (smooth_sdiff 2 _ L_smooth)) as R2. pose proof (smooth_regular _ (smooth_sdiff 3 _ L_smooth)) as R3. cbv zeta.
  repeat split; (eapply sdiff_unique; [assumption|intros t; first [rewrite (proj1 (proj2 (proj2 (dL _))))|rewrite (proj2 (proj2 (proj2 (dL _))))]; cbn; reflexivity|]); unfold p1, p2; dlim; ring.
Qed.
(** the script after L *)
Lemma ff_values Lx env s c v1 v2 u h1 h2 : env 2%nat = v1 -> env 3%nat = v2 -> env 4%nat = u -> s * s + c * c = 1 ->
  sv env (sdiff 2 (sdiff 2 Lx)) = mc + mp -> sv env (sdiff 3 (sdiff 2 Lx)) = - (mp * l * c) -> sv env (sdiff 2 (sdiff 3 Lx)) = - (mp * l * c) -> sv env (sdiff 3 (sdiff 3 Lx)) = mp * (l * l) ->
  sv env (sdiff 0 (sdiff 2 Lx)) = 0 -> sv env (sdiff 1 (sdiff 2 Lx)) = mp * l * s * v2 -> sv env (sdiff 0 (sdiff 3 Lx)) = 0 -> sv env (sdiff 1 (sdiff 3 Lx)) = mp * l * s * v1 ->
  sv env (sdiff 0 Lx) = h1 -> sv env (sdiff 1 Lx) = h2 ->
  map (sv env) (m_solve2 (MM Lx) (map (fun t => s_sub (fst t) (snd t)) (combine QQ (CC Lx)))) =
  [(l * (u - mp * l * s * (v2 * v2) + h1) + c * (h2 - mp * l * s * v1 * v2)) / (l * (mc + mp * (s * s)));
   ((mc + mp) * (h2 - mp * l * s * v1 * v2) + mp * l * c * (u - mp * l * s * (v2 * v2) + h1)) / (mp * (l * l) * (mc + mp * (s * s)))].
Proof.
  intros E2 E3 E4 SC H22 H32 H23 H33 H02 H12 H03 H13 H0 H1. cbn -[sdiff]. rewrite ?E2, ?E3, ?E4, ?H22, ?H32, ?H23, ?H33, ?H02, ?H12, ?H03, ?H13, ?H0, ?H1. cbn [sdiff sv].
  assert (SS : 0 <= s * s) by apply Rle_0_sqr. assert (P1 : 0 < mc + mp * (s * s)) by nra. assert (P2 : 0 < mp * (l * l)) by (apply Rmult_lt_0_compat; nra).
  assert (DT : (mc + mp) * (mp * (l * l)) + -1 * (- (mp * l * c) * - (mp * l * c)) = mp * (l * l) * (mc + mp * (s * s))) by (replace (s * s) with (1 - c * c) by lra; ring).
  rewrite !DT. cbn [Nat.eqb]. f_equal; [|f_equal]; field; repeat split; lra.
Qed.
Lemma script_values env : map (value env) (ff mc mp l U) = map Some [env 2%nat; env 3%nat; cart_acceleration mc mp l g k e (env 0%nat) (env 1%nat) (env 2%nat) (env 3%nat) (env 4%nat); pole_acceleration mc mp l g k e (env 0%nat) (env 1%nat) (env 2%nat) (env 3%nat) (env 4%nat)] /\ Forall regular (ff mc mp l U).
Proof.
  assert (SV : forall env, map (sv env) (m_solve2 (MM L) (map (fun t => s_sub (fst t) (snd t)) (combine QQ (CC L)))) =
    [cart_acceleration mc mp l g k e (env 0%nat) (env 1%nat) (env 2%nat) (env 3%nat) (env 4%nat); pole_acceleration mc mp l g k e (env 0%nat) (env 1%nat) (env 2%nat) (env 3%nat) (env 4%nat)]).
  { clear env. intros env. destruct (ddL env) as (H22 & H32 & H23 & H33 & H02 & H12 & H03 & H13). destruct (dL env) as (H0 & H1 & _). pose proof (sc1 (env 1%nat)) as SC.
    erewrite (ff_values L env); try eassumption; try reflexivity. unfold cart_acceleration, pole_acceleration, g1, g2. set (s := sin (env 1%nat)) in *. set (c := cos (env 1%nat)) in *. set (y := tip l (env 0%nat) (env 1%nat) - e).
    assert (SS : 0 <= s * s) by apply Rle_0_sqr. assert (P1 : mc + mp * (s * s) <> 0) by nra. f_equal; [|f_equal].
    - set (N := env 4%nat + mp * s * (g * c - l * (env 3%nat * env 3%nat)) - k * y * (s * s)). transitivity (l * N / (l * (mc + mp * (s * s)))); [|field; split; lra]. f_equal.
      apply Rminus_diag_uniq. transitivity (l * k * y * (s * s + c * c - 1)); [unfold N; ring|rewrite SC; ring].
    - field. repeat split; lra. }
  assert (RG : Forall regular (m_solve2 (MM L) (map (fun t => s_sub (fst t) (snd t)) (combine QQ (CC L))))).
  { assert (SM : forall i, smooth (sdiff i L)) by (intros; apply smooth_sdiff, L_smooth). assert (SM2 : forall i j, smooth (sdiff i (sdiff j L))) by (intros; apply smooth_sdiff, SM).
    assert (DET : forall env, value env (s_sub (SMul (sdiff 2 (sdiff 2 L)) (sdiff 3 (sdiff 3 L))) (SMul (sdiff 3 (sdiff 2 L)) (sdiff 2 (sdiff 3 L)))) <> Some 0).
    { clear env. intros env. rewrite value_regular by (apply smooth_regular; cbn -[sdiff]; intuition). cbn -[sdiff]. destruct (ddL env) as (H22 & H32 & H23 & H33 & _). rewrite H22, H32, H23, H33. intros Q. injection Q as Q. revert Q.
      pose proof (sc1 (env 1%nat)) as SC. set (s := sin (env 1%nat)) in *. set (c := cos (env 1%nat)) in *. assert (SS : 0 <= s * s) by apply Rle_0_sqr. assert (0 < mp * (l * l)) by (apply Rmult_lt_0_compat; nra).
      intros Q. assert (mp * (l * l) * (mc + mp * (s * s)) = 0) by (replace (s * s) with (1 - c * c) by lra; lra). assert (0 < mc + mp * (s * s)) by nra. nra. }
    constructor; [|constructor; [|constructor]]; (split; [|split; [|exact DET]]); apply smooth_regular; cbn -[sdiff]; cbn [sdiff smooth]; intuition. }
  assert (FF : ff mc mp l U = [SVar 2; SVar 3] ++ m_solve2 (MM L) (map (fun t => s_sub (fst t) (snd t)) (combine QQ (CC L)))) by reflexivity.
  rewrite FF. split.
  - rewrite map_app. rewrite (map_ext_in _ (fun e => Some (sv env e)) (m_solve2 _ _)). 2: { intros a Ha. rewrite Forall_forall in RG. apply value_regular, RG, Ha. }
    rewrite <- (map_map (sv env) Some (m_solve2 _ _)), SV. reflexivity.
  - constructor; [exact I|]. constructor; [exact I|]. exact RG.
Qed.

(** ** Equations of motion *)
Lemma partials_unique Lf a1 a2 b1 b2 a1' a2' b1' b2' : partials Lf a1 a2 b1 b2 -> partials Lf a1' a2' b1' b2' ->
  forall q1 q2 v1 v2, a1 q1 q2 v1 v2 = a1' q1 q2 v1 v2 /\ a2 q1 q2 v1 v2 = a2' q1 q2 v1 v2 /\ b1 q1 q2 v1 v2 = b1' q1 q2 v1 v2 /\ b2 q1 q2 v1 v2 = b2' q1 q2 v1 v2.
Proof.
  intros H H' q1 q2 v1 v2. destruct (H q1 q2 v1 v2) as (A & B & C & D). destruct (H' q1 q2 v1 v2) as (A' & B' & C' & D').
  repeat split; eapply uniqueness_limite; eassumption.
Qed.
Lemma derive_ext f f' t v : (forall s, f s = f' s) -> derivable_pt_lim f t v -> derivable_pt_lim f' t v.
Proof. intros E D eps He. destruct (D eps He) as (dl & H). exists dl. intros h Hh Hd. rewrite <- !E. apply H; assumption. Qed.
(** the mass matrix times the accelerations minus the forces *)
Let X1 (q1 q2 v1 v2 u a1 a2 : R) := (mc + mp) * a1 - mp * l * cos q2 * a2 - u + mp * l * sin q2 * (v2 * v2) + k * (tip l q1 q2 - e).
Let X2 (q1 q2 v1 v2 u a1 a2 : R) := - (mp * l * cos q2) * a1 + mp * (l * l) * a2 - mp * g * l * sin q2 - k * (tip l q1 q2 - e) * (l * cos q2).
Lemma solve_motion q1 q2 v1 v2 u a1 a2 : X1 q1 q2 v1 v2 u a1 a2 = 0 /\ X2 q1 q2 v1 v2 u a1 a2 = 0 <->
  a1 = cart_acceleration mc mp l g k e q1 q2 v1 v2 u /\ a2 = pole_acceleration mc mp l g k e q1 q2 v1 v2 u.
Proof.
  unfold X1, X2, cart_acceleration, pole_acceleration. pose proof (sc1 q2) as SC. set (s := sin q2) in *. set (c := cos q2) in *. set (y := tip l q1 q2 - e).
  assert (SS : 0 <= s * s) by apply Rle_0_sqr. assert (PD : 0 < mc + mp * (s * s)) by nra. set (D := mc + mp * (s * s)) in *. assert (PLD : 0 < l * D) by nra.
  set (x1 := (mc + mp) * a1 - mp * l * c * a2 - u + mp * l * s * (v2 * v2) + k * y). set (x2 := - (mp * l * c) * a1 + mp * (l * l) * a2 - mp * g * l * s - k * y * (l * c)).
  set (N1 := u + mp * s * (g * c - l * (v2 * v2)) - k * y * (s * s)). set (N2 := u * c + (mc + mp) * g * s - mp * l * s * c * (v2 * v2) + mc / mp * k * y * c).
  assert (T1 : l * (a1 * D - N1) = l * x1 + c * x2). { apply Rminus_diag_uniq. transitivity ((l * mp * a1 + l * k * y) * (s * s + c * c - 1)); [unfold x1, x2, N1, D; ring|rewrite SC; ring]. }
  assert (T2 : mp * l * (a2 * (l * D) - N2) = (mc + mp) * x2 + mp * l * c * x1). { apply Rminus_diag_uniq. transitivity (mp * mp * (l * l) * a2 * (s * s + c * c - 1)); [unfold x1, x2, N2, D; field; lra|rewrite SC; ring]. }
  split.
  - intros (E1 & E2). rewrite E1, E2 in T1, T2. split.
    + apply Rmult_eq_reg_r with D; [|lra]. unfold Rdiv. rewrite Rmult_assoc, Rinv_l, Rmult_1_r by lra. assert (l * (a1 * D - N1) = 0) by (rewrite T1; ring). nra.
    + apply Rmult_eq_reg_r with (l * D); [|lra]. unfold Rdiv. rewrite Rmult_assoc, Rinv_l, Rmult_1_r by lra. assert (Z : mp * l * (a2 * (l * D) - N2) = 0) by (rewrite T2; ring). apply Rmult_integral in Z. destruct Z as [Z|Z]; [|lra]. exfalso. assert (0 < mp * l) by nra. lra.
  - intros (E1 & E2). assert (Z1 : a1 * D - N1 = 0) by (rewrite E1; field; lra). assert (Z2 : a2 * (l * D) - N2 = 0) by (rewrite E2; field; split; lra). rewrite Z1 in T1. rewrite Z2 in T2. rewrite Rmult_0_r in T1, T2.
    assert (Y1 : l * D * x1 = 0). { apply Rminus_diag_uniq. transitivity ((mc + mp) * (l * x1 + c * x2) - c * ((mc + mp) * x2 + mp * l * c * x1) + l * mp * x1 * (s * s + c * c - 1)); [unfold D; ring|]. rewrite <- T1, <- T2, SC. ring. }
    assert (E3 : x1 = 0) by (apply Rmult_integral in Y1; destruct Y1 as [Y1|Y1]; [lra|exact Y1]). split; [exact E3|]. rewrite E3 in T2. assert (Y2 : (mc + mp) * x2 = 0) by lra. apply Rmult_integral in Y2. destruct Y2; [lra|assumption].
Qed.
Lemma motion (q1 q2 v1 v2 : R -> R) t u a1 a2 : (forall s, derivable_pt_lim q1 s (v1 s)) -> (forall s, derivable_pt_lim q2 s (v2 s)) -> derivable_pt_lim v1 t a1 -> derivable_pt_lim v2 t a2 ->
  euler_lagrange (lagrangian mc mp l g k e) u 0 q1 q2 v1 v2 t <->
  a1 = cart_acceleration mc mp l g k e (q1 t) (q2 t) (v1 t) (v2 t) u /\ a2 = pole_acceleration mc mp l g k e (q1 t) (q2 t) (v1 t) (v2 t) u.
Proof.
  intros D1 D2 A1 A2. rewrite <- solve_motion. assert (C2 : derivable_pt_lim (fun s => cos (q2 s)) t (- sin (q2 t) * v2 t)).
  { apply (derivable_pt_lim_comp q2 cos); [apply D2|apply derivable_pt_lim_cos]. }
  assert (W0 : Derive (fun x => q2 x) t = v2 t) by (apply is_derive_unique, is_derive_Reals, D2). assert (W1 : Derive (fun x => v1 x) t = a1) by (apply is_derive_unique, is_derive_Reals, A1). assert (W2 : Derive (fun x => v2 x) t = a2) by (apply is_derive_unique, is_derive_Reals, A2).
  assert (DP1 : derivable_pt_lim (fun s => p1 (q1 s) (q2 s) (v1 s) (v2 s)) t ((mc + mp) * a1 - mp * l * (- sin (q2 t) * v2 t * v2 t + cos (q2 t) * a2))).
  { unfold p1. apply is_derive_Reals. auto_derive; [repeat split; eexists; apply is_derive_Reals; eauto|]. rewrite W0, W1, W2. ring. }
  assert (DP2 : derivable_pt_lim (fun s => p2 (q1 s) (q2 s) (v1 s) (v2 s)) t (mp * (l * l) * a2 - mp * l * (- sin (q2 t) * v2 t * v1 t + cos (q2 t) * a1))).
  { unfold p2. apply is_derive_Reals. auto_derive; [repeat split; eexists; apply is_derive_Reals; eauto|]. rewrite W0, W1, W2. ring. }
  split.
  - intros (g1' & g2' & p1' & p2' & PA & E1 & E2). pose proof (partials_unique _ _ _ _ _ _ _ _ _ PA lag_partials) as UQ.
    assert (E1' : derivable_pt_lim (fun s => p1 (q1 s) (q2 s) (v1 s) (v2 s)) t (g1' (q1 t) (q2 t) (v1 t) (v2 t) + u)) by (eapply derive_ext; [|exact E1]; intros s; apply UQ).
    assert (E2' : derivable_pt_lim (fun s => p2 (q1 s) (q2 s) (v1 s) (v2 s)) t (g2' (q1 t) (q2 t) (v1 t) (v2 t) + 0)) by (eapply derive_ext; [|exact E2]; intros s; apply UQ).
    pose proof (uniqueness_limite _ _ _ _ DP1 E1') as Q1. pose proof (uniqueness_limite _ _ _ _ DP2 E2') as Q2. destruct (UQ (q1 t) (q2 t) (v1 t) (v2 t)) as (U1 & U2 & _). rewrite U1 in Q1. rewrite U2 in Q2. unfold g1, g2 in Q1, Q2. unfold X1, X2. split; lra.
  - intros (E1 & E2). unfold X1, X2 in E1, E2. exists g1, g2, p1, p2. split; [exact lag_partials|]. split.
    + replace (g1 (q1 t) (q2 t) (v1 t) (v2 t) + u) with ((mc + mp) * a1 - mp * l * (- sin (q2 t) * v2 t * v2 t + cos (q2 t) * a2)) by (unfold g1; lra). exact DP1.
    + replace (g2 (q1 t) (q2 t) (v1 t) (v2 t) + 0) with (mp * (l * l) * a2 - mp * l * (- sin (q2 t) * v2 t * v1 t + cos (q2 t) * a1)) by (unfold g2; lra). exact DP2.
Qed.
Lemma energy_rate (q1 q2 v1 v2 : R -> R) t u a1 a2 : (forall s, derivable_pt_lim q1 s (v1 s)) -> (forall s, derivable_pt_lim q2 s (v2 s)) -> derivable_pt_lim v1 t a1 -> derivable_pt_lim v2 t a2 ->
  a1 = cart_acceleration mc mp l g k e (q1 t) (q2 t) (v1 t) (v2 t) u /\ a2 = pole_acceleration mc mp l g k e (q1 t) (q2 t) (v1 t) (v2 t) u ->
  derivable_pt_lim (fun s => energy mc mp l g k e (q1 s) (q2 s) (v1 s) (v2 s)) t (u * v1 t).
Proof.
  intros D1 D2 A1 A2 EQ. apply solve_motion in EQ. destruct EQ as (E1 & E2). unfold X1, X2 in E1, E2. specialize (D1 t). specialize (D2 t). pose proof (sc1 (q2 t)) as SC.
  apply is_derive_Reals in D1, D2, A1, A2. unfold energy, kinetic, potential, tip. apply is_derive_Reals. unfold tip in E1, E2.
  auto_derive; [repeat split; eexists; eassumption|].
  assert (Q1 : Derive (fun x => q1 x) t = v1 t) by (apply is_derive_unique, D1). assert (Q2 : Derive (fun x => q2 x) t = v2 t) by (apply is_derive_unique, D2). assert (W1 : Derive (fun x => v1 x) t = a1) by (apply is_derive_unique, A1). assert (W2 : Derive (fun x => v2 x) t = a2) by (apply is_derive_unique, A2).
  rewrite Q1, Q2, W1, W2.
  set (s := sin (q2 t)) in *. set (c := cos (q2 t)) in *. set (y := q1 t - l * s - e) in *. 
  apply Rminus_diag_uniq. match goal with |- ?A = 0 => transitivity (A - v1 t * ((mc + mp) * a1 - mp * l * c * a2 - u + mp * l * s * (v2 t * v2 t) + k * y) - v2 t * (- (mp * l * c) * a1 + mp * (l * l) * a2 - mp * g * l * s - k * y * (l * c))) end; [rewrite E1, E2; ring|].
  transitivity (mp * (l * l) * a2 * v2 t * (s * s + c * c - 1)); [unfold y; field|rewrite SC; ring].
Qed.

(** ** Linearization *)
Lemma linearized : linearize mc mp l U = Ok (Mat 4 [[0; 0; 1; 0]; [0; 0; 0; 1]; [0; g * mp / mc; 0; 0]; [k / (l * mp); g * (mc + mp) / (l * mc) - k / mp; 0; 0]], Mat 1 [[0]; [0]; [1 / mc]; [1 / (l * mc)]], [0; 0; 0; - (k * e) / (l * mp)]).
Proof.
  set (en0 := fun _ : nat => 0).
  destruct (script_values en0) as (VV & RG). assert (SV : forall env, map (sv env) (ff mc mp l U) = [env 2%nat; env 3%nat; cart_acceleration mc mp l g k e (env 0%nat) (env 1%nat) (env 2%nat) (env 3%nat) (env 4%nat); pole_acceleration mc mp l g k e (env 0%nat) (env 1%nat) (env 2%nat) (env 3%nat) (env 4%nat)]).
  { intros env. destruct (script_values env) as (V & _). assert (V2 : map Some (map (sv env) (ff mc mp l U)) = map Some [env 2%nat; env 3%nat; cart_acceleration mc mp l g k e (env 0%nat) (env 1%nat) (env 2%nat) (env 3%nat) (env 4%nat); pole_acceleration mc mp l g k e (env 0%nat) (env 1%nat) (env 2%nat) (env 3%nat) (env 4%nat)]).
    { rewrite <- V, map_map. apply map_ext_in. intros a Ha. rewrite Forall_forall in RG. symmetry. apply value_regular, RG, Ha. }
    revert V2. generalize (map (sv env) (ff mc mp l U)). intros x. generalize [env 2%nat; env 3%nat; cart_acceleration mc mp l g k e (env 0%nat) (env 1%nat) (env 2%nat) (env 3%nat) (env 4%nat); pole_acceleration mc mp l g k e (env 0%nat) (env 1%nat) (env 2%nat) (env 3%nat) (env 4%nat)]. clear.
    induction x as [|a x IH]; intros [|b y]; cbn; try discriminate; [reflexivity|]. intros Q. injection Q as -> Q. f_equal. apply IH, Q. }
  unfold linearize. revert VV RG SV. assert (FS : exists f3 f4, ff mc mp l U = [SVar 2; SVar 3; f3; f4]) by (do 2 eexists; reflexivity). destruct FS as (f3 & f4 & ->). intros VV RG SV.
  assert (R3 : regular f3) by (inversion RG as [|? ? ? RG1]; inversion RG1 as [|? ? ? RG2]; inversion RG2; assumption).
  assert (R4 : regular f4) by (inversion RG as [|? ? ? RG1]; inversion RG1 as [|? ? ? RG2]; inversion RG2 as [|? ? ? RG3]; inversion RG3; assumption).
  assert (S3 : forall env, sv env f3 = cart_acceleration mc mp l g k e (env 0%nat) (env 1%nat) (env 2%nat) (env 3%nat) (env 4%nat)) by (intros env; specialize (SV env); injection SV; auto).
  assert (S4 : forall env, sv env f4 = pole_acceleration mc mp l g k e (env 0%nat) (env 1%nat) (env 2%nat) (env 3%nat) (env 4%nat)) by (intros env; specialize (SV env); injection SV; auto).
  assert (AT : forall i f v, regular f -> sv en0 (sdiff i f) = v -> m_at0 (sdiff i f) = Ok v). { intros i f v RF <-. unfold m_at0. fold en0. now rewrite (proj1 (sdiff_ok i f RF en0)). }
  assert (Z3 : forall env j t, sv (upd env j t) f3 = cart_acceleration mc mp l g k e (upd env j t 0%nat) (upd env j t 1%nat) (upd env j t 2%nat) (upd env j t 3%nat) (upd env j t 4%nat)) by (intros; apply S3).
  assert (Z4 : forall env j t, sv (upd env j t) f4 = pole_acceleration mc mp l g k e (upd env j t 0%nat) (upd env j t 1%nat) (upd env j t 2%nat) (upd env j t 3%nat) (upd env j t 4%nat)) by (intros; apply S4).
  assert (NZ : mc + mp * (0 * 0) <> 0) by nra.
  assert (P3 : forall i, (i < 5)%nat -> sv en0 (sdiff i f3) = nth i [0; g * mp / mc; 0; 0; 1 / mc] 0).
  { intros i Hi. eapply sdiff_unique; [exact R3|intros t; rewrite Z3; reflexivity|]. do 5 (destruct i as [|i]; [cbn; unfold en0, cart_acceleration, tip; dlim; rewrite ?sin_0, ?cos_0; repeat split; auto; try (field; lra)|]). lia. }
  assert (P4 : forall i, (i < 5)%nat -> sv en0 (sdiff i f4) = nth i [k / (l * mp); g * (mc + mp) / (l * mc) - k / mp; 0; 0; 1 / (l * mc)] 0).
  { assert (NL : l * (mc + mp * (0 * 0)) <> 0) by nra. intros i Hi. eapply sdiff_unique; [exact R4|intros t; rewrite Z4; reflexivity|]. do 5 (destruct i as [|i]; [cbn; unfold en0, pole_acceleration, tip; dlim; rewrite ?sin_0, ?cos_0; repeat split; auto; try (field; repeat split; lra)|]). lia. }
  cbn [m_jacobian map mapM xx].
  assert (N2 : forall i, m_at0 (sdiff i (SVar 2)) = Ok (if Nat.eqb i 2 then 1 else 0)) by reflexivity. assert (N3 : forall i, m_at0 (sdiff i (SVar 3)) = Ok (if Nat.eqb i 3 then 1 else 0)) by reflexivity.
  rewrite !N2, !N3, (AT 0%nat f3 _ R3 (P3 0%nat ltac:(lia))), (AT 1%nat f3 _ R3 (P3 1%nat ltac:(lia))), (AT 2%nat f3 _ R3 (P3 2%nat ltac:(lia))), (AT 3%nat f3 _ R3 (P3 3%nat ltac:(lia))), (AT 4%nat f3 _ R3 (P3 4%nat ltac:(lia))), (AT 0%nat f4 _ R4 (P4 0%nat ltac:(lia))), (AT 1%nat f4 _ R4 (P4 1%nat ltac:(lia))), (AT 2%nat f4 _ R4 (P4 2%nat ltac:(lia))), (AT 3%nat f4 _ R4 (P4 3%nat ltac:(lia))), (AT 4%nat f4 _ R4 (P4 4%nat ltac:(lia))). cbn [bind nth Nat.eqb].
  assert (V3 : value en0 f3 = Some 0). { rewrite (value_regular f3 R3), S3. f_equal. unfold en0, cart_acceleration, tip. rewrite sin_0, cos_0. field. lra. }
  assert (V4 : value en0 f4 = Some (- (k * e) / (l * mp))). { rewrite (value_regular f4 R4), S4. f_equal. unfold en0, pole_acceleration, tip. rewrite sin_0, cos_0. field. repeat split; lra. }
  unfold m_at0. fold en0. rewrite V3, V4. reflexivity.
Qed.
End Cart.

(** ** The three modes *)
(** potential of a mode with the stiffness and the rest position of its spring *)
Definition springs (mp l d k g : R) : list (sx * R * R) := [(U0 mp l d k g, k, - d); (U1 mp l g, 0, 0); (U2 mp l d k g, k, d)].
Lemma springs_ok mp l d k g U k' e : In (U, k', e) (springs mp l d k g) -> smooth U /\ forall env, sv env U = potential mp l g k' e (env 0%nat) (env 1%nat).
Proof.
  intros H. cbn in H. decompose [or] H; try tauto; match goal with Q : (_, _, _) = _ |- _ => injection Q as <- <- <- end; (split; [cbn; tauto|intros env; cbn; unfold potential, tip; field]).
Qed.
(*@ Theorem C95_equations : In each of the three modes, for all positive masses and lengths, a motion of the cart and the pole satisfies the Euler-Lagrange equations of the physical system (cart, point mass at the tip, gravity, the spring of the mode; force u on the cart) at the time t if and only if the vector field f computed by cart_pole_dynamics.m gives its velocities and accelerations *)
Lemma script_motion mc mp l d k g U k' e q1 q2 v1 v2 t u a1 a2 env : 0 < mc -> 0 < mp -> 0 < l -> In (U, k', e) (springs mp l d k g) ->
  (forall s, derivable_pt_lim q1 s (v1 s)) -> (forall s, derivable_pt_lim q2 s (v2 s)) -> derivable_pt_lim v1 t a1 -> derivable_pt_lim v2 t a2 ->
  env = cart_env [q1 t; q2 t; v1 t; v2 t] [u] ->
  euler_lagrange (lagrangian mc mp l g k' e) u 0 q1 q2 v1 v2 t <-> map (value env) (ff mc mp l U) = map Some [v1 t; v2 t; a1; a2].
Proof.
  intros Hmc Hmp Hl HU D1 D2 A1 A2 ->. destruct (springs_ok _ _ _ _ _ _ _ _ HU) as (SM & UV).
  rewrite (motion mc mp l g Hmc Hmp Hl k' e q1 q2 v1 v2 t u a1 a2 D1 D2 A1 A2), (proj1 (script_values mc mp l g Hmc Hmp Hl k' e U SM UV _)). cbn. split.
  - intros (-> & ->). reflexivity.
  - intros Q. injection Q as Q1 Q2. auto.
Qed.
(*@ Theorem C95_energy : Along every motion that follows the vector field of a mode, the total energy (kinetic, gravity, spring) grows at the rate u v1, the power of the input *)
Lemma script_energy mc mp l d k g U k' e q1 q2 v1 v2 t u a1 a2 env : 0 < mc -> 0 < mp -> 0 < l -> In (U, k', e) (springs mp l d k g) ->
  (forall s, derivable_pt_lim q1 s (v1 s)) -> (forall s, derivable_pt_lim q2 s (v2 s)) -> derivable_pt_lim v1 t a1 -> derivable_pt_lim v2 t a2 ->
  env = cart_env [q1 t; q2 t; v1 t; v2 t] [u] -> map (value env) (ff mc mp l U) = map Some [v1 t; v2 t; a1; a2] ->
  derivable_pt_lim (fun s => energy mc mp l g k' e (q1 s) (q2 s) (v1 s) (v2 s)) t (u * v1 t).
Proof.
  intros Hmc Hmp Hl HU D1 D2 A1 A2 EE H. apply (energy_rate mc mp l g Hmc Hmp Hl k' e q1 q2 v1 v2 t u a1 a2 D1 D2 A1 A2). apply (motion mc mp l g Hmc Hmp Hl k' e q1 q2 v1 v2 t u a1 a2 D1 D2 A1 A2).
  apply (script_motion mc mp l d k g U k' e q1 q2 v1 v2 t u a1 a2 env); assumption.
Qed.
(*@ Theorem C95_notebook : The linearizations the script prints for the modes 0, 1, 2 are, for all positive masses and lengths and all d, k, g, the matrices that hybrid_mpc_2.ipynb contains as constants *)
Lemma script_notebook mc mp l d k g : 0 < mc -> 0 < mp -> 0 < l ->
  cart_script mc mp l d k g = Ok ((cart_A_wall mc mp l k g, cart_B mc l, [0; 0; 0; (d * k) / (l * mp)]), (cart_A_free mc mp l g, cart_B mc l, zeros 4), (cart_A_wall mc mp l k g, cart_B mc l, [0; 0; 0; - (d * k) / (l * mp)])).
Proof.
  intros Hmc Hmp Hl. unfold cart_script.
  assert (LI : forall U k' e, In (U, k', e) (springs mp l d k g) -> linearize mc mp l U = Ok (cart_A_wall mc mp l k' g, cart_B mc l, [0; 0; 0; - (k' * e) / (l * mp)])).
  { intros U k' e HU. destruct (springs_ok _ _ _ _ _ _ _ _ HU) as (SM & UV). rewrite (linearized mc mp l g Hmc Hmp Hl k' e U SM UV). unfold cart_A_wall. replace (g * (mc + mp) / (l * mc) - k' / mp) with ((g * (mp * mp) + g * mc * mp - k' * l * mc) / (l * mc * mp)) by (field; repeat split; lra). reflexivity. }
  rewrite (LI (U0 mp l d k g) k (- d) ltac:(left; reflexivity)), (LI (U1 mp l g) 0 0 ltac:(right; left; reflexivity)), (LI (U2 mp l d k g) k d ltac:(right; right; left; reflexivity)). cbn [bind]. unfold cart_A_wall, cart_A_free.
  replace (- (k * - d) / (l * mp)) with (d * k / (l * mp)) by (field; lra). replace (- (k * d) / (l * mp)) with (- (d * k) / (l * mp)) by (field; lra). replace (- (0 * 0) / (l * mp)) with 0 by (field; lra).
  replace ((g * (mp * mp) + g * mc * mp - 0 * l * mc) / (l * mc * mp)) with (g * (mc + mp) / (l * mc)) by (field; repeat split; lra). replace (0 / (l * mp)) with 0 by (field; lra). reflexivity.
Qed.

(** ** Error of the linearization *)
Lemma sin_abs x : Rabs (sin x) <= Rabs x.
Proof.
  assert (P : forall y, 0 <= y -> Rabs (sin y) <= y).
  { intros y Hy. destruct (Rle_lt_dec y 1) as [H1|H1].
    - destruct Hy as [Hy| <-]; [|rewrite sin_0, Rabs_R0; lra]. pose proof (sin_lt_x y Hy). pose proof PI2_3_2. rewrite Rabs_pos_eq; [lra|]. apply sin_ge_0; pose proof PI_RGT_0; lra.
    - pose proof (SIN_bound y). apply Rabs_le. lra. }
  destruct (Rle_lt_dec 0 x) as [H|H]; [rewrite (Rabs_pos_eq x H); apply P, H|]. rewrite (Rabs_left x H), <- (Rabs_Ropp (sin x)), <- sin_neg. apply P. lra.
Qed.
Lemma cos_err x : Rabs (cos x - 1) <= / 2 * (x * x).
Proof.
  replace x with (2 * (x / 2)) at 1 by field. rewrite cos_2a_sin. set (s := sin (x / 2)). replace (1 - 2 * s * s - 1) with (- (2 * (s * s))) by ring. rewrite Rabs_Ropp, Rabs_pos_eq by (pose proof (Rle_0_sqr s); unfold Rsqr in *; lra).
  pose proof (sin_abs (x / 2)) as H. fold s in H. assert (Q : s * s <= x / 2 * (x / 2)). { apply Rsqr_le_abs_1 in H. exact H. } lra.
Qed.
Lemma sin_err x : Rabs (sin x - x) <= / 2 * (x * x) * Rabs x.
Proof.
  destruct (MVT_gen (fun y => sin y - y) 0 x (fun y => cos y - 1)) as (c & (C1 & C2) & E).
  - intros y _. auto_derive; [exact I|ring].
  - intros y _. apply continuity_pt_minus; [apply continuity_sin|apply derivable_continuous_pt, derivable_pt_id].
  - rewrite sin_0 in E. replace (sin x - x - (0 - 0)) with (sin x - x) in E by ring. rewrite E, Rminus_0_r, Rabs_mult. apply Rmult_le_compat_r; [apply Rabs_pos|]. eapply Rle_trans; [apply cos_err|].
    assert (c * c <= x * x); [|lra]. destruct (Rle_lt_dec 0 x) as [H|H]; [rewrite Rmin_left in C1 by lra; rewrite Rmax_right in C2 by lra|rewrite Rmin_right in C1 by lra; rewrite Rmax_left in C2 by lra]; nra.
Qed.
Lemma abs_mul a b A B : Rabs a <= A -> Rabs b <= B -> Rabs (a * b) <= A * B.
Proof. intros HA HB. rewrite Rabs_mult. apply Rmult_le_compat; auto using Rabs_pos. Qed.
Lemma abs_add a b A B : Rabs a <= A -> Rabs b <= B -> Rabs (a + b) <= A + B.
Proof. intros HA HB. eapply Rle_trans; [apply Rabs_triang|lra]. Qed.
Lemma abs_sub a b A B : Rabs a <= A -> Rabs b <= B -> Rabs (a - b) <= A + B.
Proof. intros HA HB. unfold Rminus. apply abs_add; [exact HA|rewrite Rabs_Ropp; exact HB]. Qed.
Lemma abs_div a b A B : Rabs a <= A -> 0 < B -> B <= b -> Rabs (a / b) <= A / B.
Proof.
  intros HA HB H. unfold Rdiv. rewrite Rabs_mult. pose proof (Rabs_pos a). apply Rmult_le_compat; [exact H0|apply Rabs_pos|exact HA|]. rewrite Rabs_pos_eq; [apply Rinv_le_contravar; lra|apply Rlt_le, Rinv_0_lt_compat; lra].
Qed.
Lemma trig_small r x : 0 <= r <= 1 -> Rabs x <= r -> Rabs (sin x) <= r /\ Rabs (cos x) <= 1 /\ Rabs (sin x - x) <= r * r /\ Rabs (cos x - 1) <= r * r /\ Rabs (sin x * sin x) <= r * r.
Proof.
  intros Hr Hx. pose proof (sin_abs x). assert (XX : x * x <= r * r) by (assert (Q : Rabs x <= Rabs r) by (rewrite (Rabs_pos_eq r) by lra; lra); apply Rsqr_le_abs_1 in Q; exact Q). assert (0 <= x * x) by apply Rle_0_sqr. repeat split.
  - lra.
  - pose proof (COS_bound x). apply Rabs_le. lra.
  - eapply Rle_trans; [apply sin_err|]. pose proof (Rabs_pos x). nra.
  - eapply Rle_trans; [apply cos_err|]. lra.
  - apply abs_mul; lra.
Qed.
Lemma Rabs_R0_eq a : a = 0 -> Rabs a = 0.
Proof. intros ->. apply Rabs_R0. Qed.
Lemma le_shrink a b : 0 <= a -> b <= 1 -> a * b <= a.
Proof. intros. rewrite <- (Rmult_1_r a) at 2. apply Rmult_le_compat_l; assumption. Qed.
Lemma accelerations_near mc mp l g k e : 0 < mc -> 0 < mp -> 0 < l -> exists K, 0 <= K /\ forall q1 q2 v1 v2 u r, 0 <= r <= 1 -> Rabs q1 <= r -> Rabs q2 <= r -> Rabs v1 <= r -> Rabs v2 <= r -> Rabs u <= r ->
  Rabs (cart_acceleration mc mp l g k e q1 q2 v1 v2 u - (g * mp / mc * q2 + 1 / mc * u)) <= K * (r * r) /\
  Rabs (pole_acceleration mc mp l g k e q1 q2 v1 v2 u - (k / (l * mp) * q1 + (g * (mc + mp) / (l * mc) - k / mp) * q2 + 1 / (l * mc) * u + - (k * e) / (l * mp))) <= K * (r * r).
Proof.
  intros Hmc Hmp Hl.
  set (Y := 1 + l + Rabs e). set (b1 := (1 + mp * (Rabs g + l) + Rabs k * Y) / mc).
  set (b2 := (1 + (mc + mp) * Rabs g + mp * l + mc / mp * Rabs k * Y) / (l * mc)).
  set (K1 := (mp * Rabs g * 2 + mp * l + Rabs k * Y + mp * b1) / mc).
  set (K2 := (1 + (mc + mp) * Rabs g + mp * l + mc / mp * Rabs k * (Y + l) + l * mp * b2) / (l * mc)).
  pose proof (Rabs_pos g). pose proof (Rabs_pos k). pose proof (Rabs_pos e). assert (Y1 : 1 <= Y) by (unfold Y; lra). assert (PL : 0 < l * mc) by nra. assert (QQ : 0 < mc / mp) by (apply Rdiv_lt_0_compat; lra).
  assert (KY : 0 <= Rabs k * Y) by (apply Rmult_le_pos; lra). assert (GL : 0 <= mp * (Rabs g + l)) by (apply Rmult_le_pos; lra). assert (ML0 : 0 < mp * l) by (apply Rmult_lt_0_compat; lra). assert (MG : 0 <= (mc + mp) * Rabs g) by (apply Rmult_le_pos; lra). assert (MG' : 0 <= mp * Rabs g) by (apply Rmult_le_pos; lra).
  assert (N1 : 0 <= b1) by (unfold b1; apply Rdiv_le_0_compat; lra).
  assert (N2 : 0 <= b2). { unfold b2. apply Rdiv_le_0_compat; [|lra]. assert (0 <= mc / mp * Rabs k * Y) by (apply Rmult_le_pos; [apply Rmult_le_pos; lra|lra]). lra. }
  assert (NK1 : 0 <= K1). { unfold K1. apply Rdiv_le_0_compat; [|lra]. assert (0 <= mp * b1) by (apply Rmult_le_pos; lra). lra. }
  assert (NK2 : 0 <= K2). { unfold K2. apply Rdiv_le_0_compat; [|lra]. assert (0 <= mc / mp * Rabs k * (Y + l)) by (apply Rmult_le_pos; [apply Rmult_le_pos; lra|lra]). assert (0 <= l * mp * b2) by (apply Rmult_le_pos; [nra|lra]). lra. }
  exists (K1 + K2). split; [lra|]. intros q1 q2 v1 v2 u r Hr A1 A2 A3 A4 A5.
  destruct (trig_small r q2 Hr A2) as (S1 & C1 & S2 & C2 & SS).
  assert (VV : Rabs (v2 * v2) <= r * r) by (apply abs_mul; assumption). assert (RR : 0 <= r * r <= 1) by nra.
  set (s := sin q2) in *. set (c := cos q2) in *. set (y := tip l q1 q2 - e). assert (S0 : 0 <= s * s) by apply Rle_0_sqr.
  assert (AL : forall a, 0 < a -> Rabs a <= a) by (intros a Ha; rewrite Rabs_pos_eq; lra).
  assert (AY : Rabs y <= Y). { unfold y, tip. fold s. eapply Rle_trans; [apply abs_sub; [apply abs_sub; [exact A1|apply abs_mul; [apply AL, Hl|exact S1]]|apply Rle_refl]|]. unfold Y. pose proof (le_shrink l r ltac:(lra) ltac:(lra)). lra. }
  assert (PD : mc <= mc + mp * (s * s)) by nra. assert (PD2 : l * mc <= l * (mc + mp * (s * s))) by nra.
  set (x1 := cart_acceleration mc mp l g k e q1 q2 v1 v2 u). set (x2 := pole_acceleration mc mp l g k e q1 q2 v1 v2 u).
  assert (B1 : Rabs x1 <= b1).
  { unfold x1, cart_acceleration, b1. fold s c y. apply abs_div; [|exact Hmc|exact PD].
    eapply Rle_trans; [apply abs_sub; [apply abs_add; [exact A5|apply abs_mul; [apply abs_mul; [apply AL, Hmp|exact S1]|apply abs_sub; [apply abs_mul; [apply Rle_refl|exact C1]|apply abs_mul; [apply AL, Hl|exact VV]]]]|apply abs_mul; [apply abs_mul; [apply Rle_refl|exact AY]|exact SS]]|].
    assert (mp * r * (Rabs g * 1 + l * (r * r)) <= mp * (Rabs g + l)). { rewrite Rmult_assoc. apply Rmult_le_compat_l; [lra|]. pose proof (le_shrink l (r * r) ltac:(lra) ltac:(lra)). assert (0 <= l * (r * r)) by (apply Rmult_le_pos; lra). rewrite Rmult_comm. eapply Rle_trans; [apply le_shrink; lra|lra]. }
    pose proof (le_shrink (Rabs k * Y) (r * r) ltac:(apply Rmult_le_pos; lra) ltac:(lra)). lra. }
  assert (B2 : Rabs x2 <= b2).
  { unfold x2, pole_acceleration, b2. fold s c y. apply abs_div; [|exact PL|exact PD2].
    eapply Rle_trans; [apply abs_add; [apply abs_sub; [apply abs_add; [apply abs_mul; [exact A5|exact C1]|apply abs_mul; [apply abs_mul; [apply AL; lra|apply Rle_refl]|exact S1]]|apply abs_mul; [apply abs_mul; [apply abs_mul; [apply abs_mul; [apply AL, Hmp|apply AL, Hl]|exact S1]|exact C1]|exact VV]]|apply abs_mul; [apply abs_mul; [apply abs_mul; [apply AL, QQ|apply Rle_refl]|exact AY]|exact C1]]|].
    pose proof (le_shrink ((mc + mp) * Rabs g) r ltac:(apply Rmult_le_pos; lra) ltac:(lra)). assert (ML : 0 < mp * l) by (apply Rmult_lt_0_compat; lra). assert (mp * l * r * 1 * (r * r) <= mp * l). { replace (mp * l * r * 1 * (r * r)) with (mp * l * (r * (r * r))) by ring. assert (r * (r * r) <= 1) by (eapply Rle_trans; [apply le_shrink; lra|lra]). apply le_shrink; lra. } lra. }
  assert (E1 : x1 - (g * mp / mc * q2 + 1 / mc * u) = (mp * g * (s * (c - 1) + (s - q2)) - mp * l * s * (v2 * v2) - k * y * (s * s) - mp * (s * s) * x1) / mc).
  { assert (D : x1 * (mc + mp * (s * s)) = u + mp * s * (g * c - l * (v2 * v2)) - k * y * (s * s)) by (unfold x1, cart_acceleration; fold s c y; field; lra).
    apply Rmult_eq_reg_r with mc; [|lra]. unfold Rdiv at 3. rewrite (Rmult_assoc _ (/ mc) mc), Rinv_l, Rmult_1_r by lra. replace ((x1 - (g * mp / mc * q2 + 1 / mc * u)) * mc) with (x1 * mc - g * mp * q2 - u) by (field; lra). lra. }
  assert (E2 : x2 - (k / (l * mp) * q1 + (g * (mc + mp) / (l * mc) - k / mp) * q2 + 1 / (l * mc) * u + - (k * e) / (l * mp)) = (u * (c - 1) + (mc + mp) * g * (s - q2) - mp * l * s * c * (v2 * v2) + mc / mp * k * (y * (c - 1) - l * (s - q2)) - l * mp * (s * s) * x2) / (l * mc)).
  { assert (D : x2 * (l * (mc + mp * (s * s))) = u * c + (mc + mp) * g * s - mp * l * s * c * (v2 * v2) + mc / mp * k * y * c) by (unfold x2, pole_acceleration; fold s c y; field; split; lra).
    assert (D' : x2 * (l * mc) = u * c + (mc + mp) * g * s - mp * l * s * c * (v2 * v2) + mc / mp * k * y * c - l * mp * (s * s) * x2) by lra.
    apply Rmult_eq_reg_r with (l * mc); [|lra]. unfold Rdiv at 6. rewrite (Rmult_assoc _ (/ (l * mc)) (l * mc)), Rinv_l, Rmult_1_r by lra. rewrite Rmult_minus_distr_r, D'. unfold y, tip. fold s. field. repeat split; lra. }
  assert (D1' : K1 * (r * r) = (mp * Rabs g * 2 + mp * l + Rabs k * Y + mp * b1) * (r * r) / mc) by (unfold K1, Rdiv; ring).
  assert (D2' : K2 * (r * r) = (1 + (mc + mp) * Rabs g + mp * l + mc / mp * Rabs k * (Y + l) + l * mp * b2) * (r * r) / (l * mc)) by (unfold K2, Rdiv; ring).
  rewrite E1, E2. split.
  - apply Rle_trans with (K1 * (r * r)); [|apply Rmult_le_compat_r; lra]. rewrite D1'. apply abs_div; [|exact Hmc|lra].
    eapply Rle_trans; [apply abs_sub; [apply abs_sub; [apply abs_sub; [apply abs_mul; [apply abs_mul; [apply AL, Hmp|apply Rle_refl]|apply abs_add; [apply abs_mul; [exact S1|exact C2]|exact S2]]|apply abs_mul; [apply abs_mul; [apply abs_mul; [apply AL, Hmp|apply AL, Hl]|exact S1]|exact VV]]|apply abs_mul; [apply abs_mul; [apply Rle_refl|exact AY]|exact SS]]|apply abs_mul; [apply abs_mul; [apply AL, Hmp|exact SS]|exact B1]]|].
    assert (G1 : 0 <= mp * Rabs g) by (apply Rmult_le_pos; lra). assert (G2 : 0 < mp * l) by (apply Rmult_lt_0_compat; lra). assert (G3 : r * (r * r) <= r * r) by (rewrite (Rmult_comm r (r * r)); apply le_shrink; lra). pose proof (Rmult_le_compat_l _ _ _ G1 G3). pose proof (Rmult_le_compat_l _ _ _ (Rlt_le _ _ G2) G3). lra.
  - apply Rle_trans with (K2 * (r * r)); [|apply Rmult_le_compat_r; lra]. rewrite D2'. apply abs_div; [|exact PL|lra].
    eapply Rle_trans; [apply abs_sub; [apply abs_add; [apply abs_sub; [apply abs_add; [apply abs_mul; [exact A5|exact C2]|apply abs_mul; [apply abs_mul; [apply AL; lra|apply Rle_refl]|exact S2]]|apply abs_mul; [apply abs_mul; [apply abs_mul; [apply abs_mul; [apply AL, Hmp|apply AL, Hl]|exact S1]|exact C1]|exact VV]]|apply abs_mul; [apply abs_mul; [apply AL, QQ|apply Rle_refl]|apply abs_sub; [apply abs_mul; [exact AY|exact C2]|apply abs_mul; [apply AL, Hl|exact S2]]]]|apply abs_mul; [apply abs_mul; [apply abs_mul; [apply AL, Hl|apply AL, Hmp]|exact SS]|exact B2]]|].
    assert (G2 : 0 < mp * l) by (apply Rmult_lt_0_compat; lra). assert (G3 : r * (r * r) <= r * r) by (rewrite (Rmult_comm r (r * r)); apply le_shrink; lra). pose proof (Rmult_le_compat_l _ _ _ (Rlt_le _ _ G2) G3).
    replace (mc / mp * Rabs k * (Y * (r * r) + l * (r * r))) with (mc / mp * Rabs k * (Y + l) * (r * r)) by ring. replace (l * mp * (r * r) * b2) with (l * mp * b2 * (r * r)) by ring. lra.
Qed.
(*@ Theorem C95_error : In each mode the affine model A x + B u + c of the script differs from its vector field by at most K r^2, for all states and inputs with entries at most r <= 1, with one constant K for the parameters *)
Lemma script_error mc mp l d k g U k' e A B c : 0 < mc -> 0 < mp -> 0 < l -> In (U, k', e) (springs mp l d k g) -> linearize mc mp l U = Ok (A, B, c) ->
  exists K, 0 <= K /\ forall x u r, length x = 4%nat -> length u = 1%nat -> 0 <= r <= 1 -> sup x <= r -> sup u <= r ->
  exists f, map (value (cart_env x u)) (ff mc mp l U) = map Some f /\ length f = 4%nat /\ sup (vsub f (affine_step A B c x u)) <= K * (r * r).
Proof.
  intros Hmc Hmp Hl HU EL. destruct (springs_ok _ _ _ _ _ _ _ _ HU) as (SM & UV). rewrite (linearized mc mp l g Hmc Hmp Hl k' e U SM UV) in EL. injection EL as <- <- <-.
  destruct (accelerations_near mc mp l g k' e Hmc Hmp Hl) as (K & PK & H). exists K. split; [exact PK|]. intros x u r Lx Lu Hr Sx Su.
  destruct x as [|q1 [|q2 [|v1 [|v2 [|? ?]]]]]; try discriminate. destruct u as [|u [|? ?]]; try discriminate.
  pose proof (nth_sup [q1; q2; v1; v2] 0) as A1. pose proof (nth_sup [q1; q2; v1; v2] 1) as A2. pose proof (nth_sup [q1; q2; v1; v2] 2) as A3. pose proof (nth_sup [q1; q2; v1; v2] 3) as A4. pose proof (nth_sup [u] 0) as A5. cbn [nth] in A1, A2, A3, A4, A5.
  destruct (H q1 q2 v1 v2 u r Hr ltac:(lra) ltac:(lra) ltac:(lra) ltac:(lra) ltac:(lra)) as (H1 & H2).
  eexists. split; [apply (proj1 (script_values mc mp l g Hmc Hmp Hl k' e U SM UV _))|]. split; [reflexivity|]. assert (RR : 0 <= K * (r * r)) by (apply Rmult_le_pos; [lra|apply Rle_0_sqr]).
  apply sup_le; [exact RR|]. intros i Hi. cbn [cart_env nth app]. unfold affine_step. cbn -[cart_acceleration pole_acceleration].
  destruct i as [|[|[|[|i]]]]; cbn -[cart_acceleration pole_acceleration].
  - rewrite Rabs_R0_eq; [exact RR|ring].
  - rewrite Rabs_R0_eq; [exact RR|ring].
  - eapply Rle_trans; [|exact H1]. right. f_equal. ring.
  - eapply Rle_trans; [|exact H2]. right. f_equal. ring.
  - cbn in Hi. lia.
Qed.
(*@ Example C95_example : The numbers of the script (mc = mp = l = d = 1, k = 100, g = 10): the cart oscillates as 1 + cos(10 t) with the pole upright, pushed by u = -100 cos(10 t), against the spring of mode 2. The motion meets the hypotheses of C95_equations and satisfies the Euler-Lagrange equations at all times *)
Lemma script_example : let q1 := fun t => 1 + cos (10 * t) in let v1 := fun t => - (10 * sin (10 * t)) in let o := fun _ : R => 0 in In (U2 1 1 1 100 10, 100, 1) (springs 1 1 1 100 10) /\
  (forall s, derivable_pt_lim q1 s (v1 s)) /\ (forall s, derivable_pt_lim o s (o s)) /\ (forall t, derivable_pt_lim v1 t (- (100 * cos (10 * t)))) /\
  forall t, euler_lagrange (lagrangian 1 1 1 10 100 1) (- (100 * cos (10 * t))) 0 q1 o v1 o t.
Proof.
  intros q1 v1 o. assert (D1 : forall s, derivable_pt_lim q1 s (v1 s)) by (intros s; unfold q1, v1; dlim; ring). assert (D2 : forall s, derivable_pt_lim o s (o s)) by (intros s; unfold o; dlim; ring). assert (D3 : forall t, derivable_pt_lim v1 t (- (100 * cos (10 * t)))) by (intros s; unfold v1; dlim; ring).
  split; [right; right; left; reflexivity|]. split; [exact D1|]. split; [exact D2|]. split; [exact D3|]. intros t.
  apply (motion 1 1 1 10 ltac:(lra) ltac:(lra) ltac:(lra) 100 1 q1 o v1 o t (- (100 * cos (10 * t))) (- (100 * cos (10 * t))) (o t) D1 D2 (D3 t) (D2 t)).
  unfold cart_acceleration, pole_acceleration, tip, q1, v1, o. rewrite sin_0, cos_0. split; field.
Qed.
