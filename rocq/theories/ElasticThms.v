(** * ElasticThms: the cart-pole between elastic walls (C95), proofs *)
From Coq Require Import Lra Lia.
From Coquelicot Require Import Coquelicot.
From Verif Require Import Arr ArrFacts Spec SpecDyn SpecSym SpecCart Symbolic SymThms CartDyn CartDynThms LocalThms.

(** half of the square of the positive part is differentiable *)
Lemma pos_part_derive y : derivable_pt_lim (fun t => Rmax 0 t * Rmax 0 t) y (2 * Rmax 0 y).
Proof.
  destruct (total_order_T y 0) as [[N| ->]|P].
  - rewrite Rmax_left by lra. intros eps He. exists (mkposreal (- y) ltac:(lra)). intros h Hh Hd. cbn in Hd. apply Rabs_def2 in Hd. rewrite !Rmax_left by lra. replace ((0 * 0 - 0 * 0) / h - 2 * 0) with 0 by (field; exact Hh). rewrite Rabs_R0. exact He.
  - rewrite Rmax_left by lra. intros eps He. exists (mkposreal eps He). intros h Hh Hd. cbn in Hd. rewrite Rplus_0_l, ?(Rmax_left 0 0) by lra. replace ((Rmax 0 h * Rmax 0 h - 0 * 0) / h - 2 * 0) with (Rmax 0 h * Rmax 0 h / h) by (field; exact Hh).
    unfold Rmax. destruct (Rle_dec 0 h); [replace (h * h / h) with h by (field; exact Hh); exact Hd|]. replace (0 * 0 / h) with 0 by (field; exact Hh). rewrite Rabs_R0. exact He.
  - rewrite Rmax_right by lra. intros eps He. exists (mkposreal (Rmin y eps) ltac:(apply Rmin_glb_lt; lra)). intros h Hh Hd. cbn in Hd. assert (Hd1 : Rabs h < y) by (eapply Rlt_le_trans; [exact Hd|apply Rmin_l]). assert (Hd2 : Rabs h < eps) by (eapply Rlt_le_trans; [exact Hd|apply Rmin_r]).
    apply Rabs_def2 in Hd1. rewrite !Rmax_right by lra. replace (((y + h) * (y + h) - y * y) / h - 2 * y) with h by (field; exact Hh). exact Hd2.
Qed.
Lemma scal_lim (f : R -> R) a t v : derivable_pt_lim f t v -> derivable_pt_lim (fun s => a * f s) t (a * v).
Proof. apply derivable_pt_lim_scal. Qed.
Section Elastic.
Variables mc mp l g k d : R.
Hypothesis Hmc : 0 < mc.
Hypothesis Hmp : 0 < mp.
Hypothesis Hl : 0 < l.
Hypothesis Hd : 0 <= d.
(** elastic force of the walls, divided by k *)
Let w (q1 q2 : R) := Rmax 0 (tip l q1 q2 - d) - Rmax 0 (- d - tip l q1 q2).
Let V1 (q1 q2 : R) := k * w q1 q2.
Let V2 (q1 q2 : R) := - (mp * g * l * sin q2) - k * w q1 q2 * (l * cos q2).
Lemma pos_chain (f : R -> R) t f' : derivable_pt_lim f t f' -> derivable_pt_lim (fun s => Rmax 0 (f s) * Rmax 0 (f s)) t (2 * Rmax 0 (f t) * f').
Proof. intros D. apply (derivable_pt_lim_comp f (fun y => Rmax 0 y * Rmax 0 y)); [exact D|apply pos_part_derive]. Qed.
(** the potential along a curve *)
Lemma potential_rate (q1 q2 : R -> R) t v1 v2 : derivable_pt_lim q1 t v1 -> derivable_pt_lim q2 t v2 -> derivable_pt_lim (fun s => wall_potential mp l g k d (q1 s) (q2 s)) t (V1 (q1 t) (q2 t) * v1 + V2 (q1 t) (q2 t) * v2).
Proof.
  intros D1 D2. assert (DC : derivable_pt_lim (fun s => cos (q2 s)) t (- sin (q2 t) * v2)) by (apply (derivable_pt_lim_comp q2 cos); [exact D2|apply derivable_pt_lim_cos]).
  assert (DS : derivable_pt_lim (fun s => sin (q2 s)) t (cos (q2 t) * v2)) by (apply (derivable_pt_lim_comp q2 sin); [exact D2|apply derivable_pt_lim_sin]).
  assert (DT : derivable_pt_lim (fun s => tip l (q1 s) (q2 s)) t (v1 - l * (cos (q2 t) * v2))) by (unfold tip; apply derivable_pt_lim_minus; [exact D1|apply (scal_lim (fun s => sin (q2 s))), DS]).
  assert (DR : derivable_pt_lim (fun s => tip l (q1 s) (q2 s) - d) t (v1 - l * (cos (q2 t) * v2) - 0)) by (apply derivable_pt_lim_minus; [exact DT|apply derivable_pt_lim_const]).
  assert (DL : derivable_pt_lim (fun s => - d - tip l (q1 s) (q2 s)) t (0 - (v1 - l * (cos (q2 t) * v2)))) by (apply derivable_pt_lim_minus; [apply derivable_pt_lim_const|exact DT]).
  unfold wall_potential. replace (V1 (q1 t) (q2 t) * v1 + V2 (q1 t) (q2 t) * v2) with (mp * g * (l * (- sin (q2 t) * v2)) + / 2 * k * (2 * Rmax 0 (tip l (q1 t) (q2 t) - d) * (v1 - l * (cos (q2 t) * v2) - 0)) + / 2 * k * (2 * Rmax 0 (- d - tip l (q1 t) (q2 t)) * (0 - (v1 - l * (cos (q2 t) * v2))))) by (unfold V1, V2, w; field).
  apply derivable_pt_lim_plus; [apply derivable_pt_lim_plus|].
  - apply (scal_lim (fun s => l * cos (q2 s))), (scal_lim (fun s => cos (q2 s))), DC.
  - apply (scal_lim (fun s => Rmax 0 (tip l (q1 s) (q2 s) - d) * Rmax 0 (tip l (q1 s) (q2 s) - d))), (pos_chain (fun s => tip l (q1 s) (q2 s) - d) t _ DR).
  - apply (scal_lim (fun s => Rmax 0 (- d - tip l (q1 s) (q2 s)) * Rmax 0 (- d - tip l (q1 s) (q2 s)))), (pos_chain (fun s => - d - tip l (q1 s) (q2 s)) t _ DL).
Qed.
Let p1 (q1 q2 v1 v2 : R) := (mc + mp) * v1 - mp * l * cos q2 * v2.
Let p2 (q1 q2 v1 v2 : R) := mp * (l * l) * v2 - mp * l * cos q2 * v1.
Lemma wall_partials : partials (wall_lagrangian mc mp l g k d) (fun q1 q2 v1 v2 => - V1 q1 q2) (fun q1 q2 v1 v2 => mp * l * sin q2 * v1 * v2 - V2 q1 q2) p1 p2.
Proof.
  intros q1 q2 v1 v2. pose proof (sc1 q2) as SC. unfold wall_lagrangian. repeat split.
  - replace (- V1 q1 q2) with (0 - (V1 q1 q2 * 1 + V2 q1 q2 * 0)) by ring. apply derivable_pt_lim_minus; [apply derivable_pt_lim_const|]. apply (potential_rate (fun s => s) (fun _ => q2) q1 1 0); [apply derivable_pt_lim_id|apply derivable_pt_lim_const].
  - replace (mp * l * sin q2 * v1 * v2 - V2 q1 q2) with (mp * l * sin q2 * v1 * v2 - (V1 q1 q2 * 0 + V2 q1 q2 * 1)) by ring. apply derivable_pt_lim_minus; [|apply (potential_rate (fun _ => q1) (fun s => s) q2 0 1); [apply derivable_pt_lim_const|apply derivable_pt_lim_id]].
    unfold kinetic. dlim. field.
  - replace (p1 q1 q2 v1 v2) with (p1 q1 q2 v1 v2 - 0) by ring. apply derivable_pt_lim_minus; [|apply derivable_pt_lim_const]. unfold kinetic, p1. dlim. field.
  - replace (p2 q1 q2 v1 v2) with (p2 q1 q2 v1 v2 - 0) by ring. apply derivable_pt_lim_minus; [|apply derivable_pt_lim_const]. unfold kinetic, p2. dlim. set (s := sin q2) in *. set (c := cos q2) in *. transitivity (mp * (l * l) * v2 * (s * s + c * c) - mp * l * c * v1); [field|rewrite SC; ring].
Qed.
Let X1 (q1 q2 v1 v2 u a1 a2 : R) := (mc + mp) * a1 - mp * l * cos q2 * a2 - u + mp * l * sin q2 * (v2 * v2) + V1 q1 q2.
Let X2 (q1 q2 v1 v2 u a1 a2 : R) := - (mp * l * cos q2) * a1 + mp * (l * l) * a2 + V2 q1 q2.
Lemma wall_motion (q1 q2 v1 v2 : R -> R) t u a1 a2 : (forall s, derivable_pt_lim q1 s (v1 s)) -> (forall s, derivable_pt_lim q2 s (v2 s)) -> derivable_pt_lim v1 t a1 -> derivable_pt_lim v2 t a2 ->
  euler_lagrange (wall_lagrangian mc mp l g k d) u 0 q1 q2 v1 v2 t <-> X1 (q1 t) (q2 t) (v1 t) (v2 t) u a1 a2 = 0 /\ X2 (q1 t) (q2 t) (v1 t) (v2 t) u a1 a2 = 0.
Proof.
  intros D1 D2 A1 A2.
  assert (W0 : Derive (fun x => q2 x) t = v2 t) by (apply is_derive_unique, is_derive_Reals, D2). assert (W1 : Derive (fun x => v1 x) t = a1) by (apply is_derive_unique, is_derive_Reals, A1). assert (W2 : Derive (fun x => v2 x) t = a2) by (apply is_derive_unique, is_derive_Reals, A2).
  assert (DP1 : derivable_pt_lim (fun s => p1 (q1 s) (q2 s) (v1 s) (v2 s)) t ((mc + mp) * a1 - mp * l * (- sin (q2 t) * v2 t * v2 t + cos (q2 t) * a2))).
  { unfold p1. apply is_derive_Reals. auto_derive; [repeat split; eexists; apply is_derive_Reals; eauto|]. rewrite W0, W1, W2. ring. }
  assert (DP2 : derivable_pt_lim (fun s => p2 (q1 s) (q2 s) (v1 s) (v2 s)) t (mp * (l * l) * a2 - mp * l * (- sin (q2 t) * v2 t * v1 t + cos (q2 t) * a1))).
  { unfold p2. apply is_derive_Reals. auto_derive; [repeat split; eexists; apply is_derive_Reals; eauto|]. rewrite W0, W1, W2. ring. }
  unfold X1, X2. split.
  - intros (g1' & g2' & p1' & p2' & PA & E1 & E2). pose proof (partials_unique _ _ _ _ _ _ _ _ _ PA wall_partials) as UQ.
    assert (E1' : derivable_pt_lim (fun s => p1 (q1 s) (q2 s) (v1 s) (v2 s)) t (g1' (q1 t) (q2 t) (v1 t) (v2 t) + u)) by (eapply derive_ext; [|exact E1]; intros s; apply UQ).
    assert (E2' : derivable_pt_lim (fun s => p2 (q1 s) (q2 s) (v1 s) (v2 s)) t (g2' (q1 t) (q2 t) (v1 t) (v2 t) + 0)) by (eapply derive_ext; [|exact E2]; intros s; apply UQ).
    pose proof (uniqueness_limite _ _ _ _ DP1 E1') as Q1. pose proof (uniqueness_limite _ _ _ _ DP2 E2') as Q2. destruct (UQ (q1 t) (q2 t) (v1 t) (v2 t)) as (U1 & U2 & _). rewrite U1 in Q1. rewrite U2 in Q2. split; lra.
  - intros (E1 & E2). do 4 eexists. split; [exact wall_partials|]. split.
    + match goal with |- derivable_pt_lim _ _ ?A => replace A with ((mc + mp) * a1 - mp * l * (- sin (q2 t) * v2 t * v2 t + cos (q2 t) * a2)) by lra end. exact DP1.
    + match goal with |- derivable_pt_lim _ _ ?A => replace A with (mp * (l * l) * a2 - mp * l * (- sin (q2 t) * v2 t * v1 t + cos (q2 t) * a1)) by lra end. exact DP2.
Qed.
(** the spring of the mode exerts the elastic force of the walls *)
Lemma mode_spring x u q1 q2 : nth 0 (x ++ u) 0 = q1 -> nth 1 (x ++ u) 0 = q2 -> exists k' e, In (cart_mode mp l d k g x u, k', e) (springs mp l d k g) /\ k' * (tip l q1 q2 - e) = k * w q1 q2.
Proof.
  intros E1 E2. assert (E : value (cart_env x u) (nth 0 (pp l) (SNum 0)) = Some (tip l q1 q2)) by (cbn; unfold tip, cart_env; rewrite E1, E2; f_equal; ring).
  unfold cart_mode, w. rewrite E. destruct (Rlt_dec _ _) as [H|H]; [|destruct (Rle_dec _ _) as [H'|H']].
  - exists k, (- d). split; [left; reflexivity|]. rewrite (Rmax_left 0 (_ - d)), Rmax_right by lra. ring.
  - exists 0, 0. split; [right; left; reflexivity|]. rewrite !Rmax_left by lra. ring.
  - exists k, d. split; [right; right; left; reflexivity|]. rewrite Rmax_right, Rmax_left by lra. ring.
Qed.
Lemma flow_solves q1 q2 v1 v2 u a1 a2 : X1 q1 q2 v1 v2 u a1 a2 = 0 /\ X2 q1 q2 v1 v2 u a1 a2 = 0 <-> cart_flow mc mp l d k g [q1; q2; v1; v2] [u] = Ok [v1; v2; a1; a2].
Proof.
  destruct (mode_spring [q1; q2; v1; v2] [u] q1 q2 eq_refl eq_refl) as (k' & e & HU & EW). destruct (springs_ok _ _ _ _ _ _ _ _ HU) as (SM & UV). unfold cart_flow.
  rewrite (mapM_value _ _ _ (proj1 (script_values mc mp l g Hmc Hmp Hl k' e _ SM UV _))). cbn [cart_env nth app].
  pose proof (solve_motion mc mp l g Hmc Hmp Hl k' e q1 q2 v1 v2 u a1 a2) as SL. unfold X1, X2, V1, V2. rewrite <- EW.
  replace (- (mp * l * cos q2) * a1 + mp * (l * l) * a2 + (- (mp * g * l * sin q2) - k' * (tip l q1 q2 - e) * (l * cos q2))) with (- (mp * l * cos q2) * a1 + mp * (l * l) * a2 - mp * g * l * sin q2 - k' * (tip l q1 q2 - e) * (l * cos q2)) by ring.
  etransitivity; [exact SL|]. split.
  - intros (-> & ->). reflexivity.
  - intros Q. injection Q as Q1 Q2. auto.
Qed.
Lemma wall_energy_rate (q1 q2 v1 v2 : R -> R) t u a1 a2 : (forall s, derivable_pt_lim q1 s (v1 s)) -> (forall s, derivable_pt_lim q2 s (v2 s)) -> derivable_pt_lim v1 t a1 -> derivable_pt_lim v2 t a2 ->
  X1 (q1 t) (q2 t) (v1 t) (v2 t) u a1 a2 = 0 /\ X2 (q1 t) (q2 t) (v1 t) (v2 t) u a1 a2 = 0 -> derivable_pt_lim (fun s => wall_energy mc mp l g k d (q1 s) (q2 s) (v1 s) (v2 s)) t (u * v1 t).
Proof.
  intros D1 D2 A1 A2 (E1 & E2). pose proof (potential_rate q1 q2 t (v1 t) (v2 t) (D1 t) (D2 t)) as DV. specialize (D1 t). specialize (D2 t). pose proof (sc1 (q2 t)) as SC.
  assert (W0 : Derive (fun x => q2 x) t = v2 t) by (apply is_derive_unique, is_derive_Reals, D2). assert (W1 : Derive (fun x => v1 x) t = a1) by (apply is_derive_unique, is_derive_Reals, A1). assert (W2 : Derive (fun x => v2 x) t = a2) by (apply is_derive_unique, is_derive_Reals, A2).
  unfold wall_energy. set (kr := (mc + mp) * a1 * v1 t - mp * l * cos (q2 t) * (a1 * v2 t + v1 t * a2) + mp * l * sin (q2 t) * v1 t * v2 t * v2 t + mp * (l * l) * a2 * v2 t).
  replace (u * v1 t) with (kr + (V1 (q1 t) (q2 t) * v1 t + V2 (q1 t) (q2 t) * v2 t)).
  - apply derivable_pt_lim_plus; [|exact DV]. unfold kinetic. apply is_derive_Reals. apply is_derive_Reals in D2, A1, A2. auto_derive; [repeat split; eexists; eassumption|]. rewrite W0, W1, W2. unfold kr. set (s := sin (q2 t)) in *. set (c := cos (q2 t)) in *.
    apply Rminus_diag_uniq. transitivity (mp * (l * l) * a2 * v2 t * (s * s + c * c - 1)); [field|rewrite SC; ring].
  - unfold X1, X2 in E1, E2. apply Rminus_diag_uniq. match goal with |- ?A = 0 => transitivity (A - v1 t * ((mc + mp) * a1 - mp * l * cos (q2 t) * a2 - u + mp * l * sin (q2 t) * (v2 t * v2 t) + V1 (q1 t) (q2 t)) - v2 t * (- (mp * l * cos (q2 t)) * a1 + mp * (l * l) * a2 + V2 (q1 t) (q2 t))) end; [rewrite E1, E2; ring|unfold kr; ring].
Qed.
End Elastic.
(*@ Theorem C95_walls : The three modes together are the cart-pole between two elastic walls: at all states, also on the boundaries of the modes, a motion satisfies the Euler-Lagrange equations of the wall potential k/2 max(0, tip - d)^2 + k/2 max(0, -d - tip)^2 if and only if the vector field of the script in the mode of the state gives its velocities and accelerations *)
Lemma elastic_motion mc mp l d k g (q1 q2 v1 v2 : R -> R) t u a1 a2 : 0 < mc -> 0 < mp -> 0 < l -> 0 <= d ->
  (forall s, derivable_pt_lim q1 s (v1 s)) -> (forall s, derivable_pt_lim q2 s (v2 s)) -> derivable_pt_lim v1 t a1 -> derivable_pt_lim v2 t a2 ->
  euler_lagrange (wall_lagrangian mc mp l g k d) u 0 q1 q2 v1 v2 t <-> cart_flow mc mp l d k g [q1 t; q2 t; v1 t; v2 t] [u] = Ok [v1 t; v2 t; a1; a2].
Proof.
  intros Hmc Hmp Hl Hd D1 D2 A1 A2. etransitivity; [apply (wall_motion mc mp l g k d q1 q2 v1 v2 t u a1 a2 D1 D2 A1 A2)|apply (flow_solves mc mp l g k d Hmc Hmp Hl Hd)].
Qed.
(*@ Theorem C95_conservation : Without input, the total energy (kinetic, gravity, walls) of a motion that follows the three-mode vector field from the time T to the time T' does not change, whatever contacts are made or lost in between *)
Lemma elastic_conservation mc mp l d k g (q1 q2 v1 v2 a1 a2 : R -> R) T T' : 0 < mc -> 0 < mp -> 0 < l -> 0 <= d -> T <= T' ->
  (forall s, derivable_pt_lim q1 s (v1 s)) -> (forall s, derivable_pt_lim q2 s (v2 s)) -> (forall s, derivable_pt_lim v1 s (a1 s)) -> (forall s, derivable_pt_lim v2 s (a2 s)) ->
  (forall t, T <= t <= T' -> cart_flow mc mp l d k g [q1 t; q2 t; v1 t; v2 t] [0] = Ok [v1 t; v2 t; a1 t; a2 t]) ->
  wall_energy mc mp l g k d (q1 T) (q2 T) (v1 T) (v2 T) = wall_energy mc mp l g k d (q1 T') (q2 T') (v1 T') (v2 T').
Proof.
  intros Hmc Hmp Hl Hd HT D1 D2 A1 A2 FL. set (E := fun s => wall_energy mc mp l g k d (q1 s) (q2 s) (v1 s) (v2 s)). change (E T = E T').
  assert (DE : forall s, T <= s <= T' -> is_derive E s 0).
  { intros s Hs. apply is_derive_Reals. replace 0 with (0 * v1 s) by ring. apply (wall_energy_rate mc mp l g k d q1 q2 v1 v2 s 0 (a1 s) (a2 s) D1 D2 (A1 s) (A2 s)).
    exact (proj2 (flow_solves mc mp l g k d Hmc Hmp Hl Hd (q1 s) (q2 s) (v1 s) (v2 s) 0 (a1 s) (a2 s)) (FL s Hs)). }
  destruct (MVT_gen E T T' (fun _ => 0)) as (c & _ & EQ).
  - intros s Hs. rewrite Rmin_left, Rmax_right in Hs by lra. apply DE. lra.
  - intros s Hs. rewrite Rmin_left, Rmax_right in Hs by lra. apply derivable_continuous_pt. exists 0. apply is_derive_Reals, DE, Hs.
  - lra.
Qed.
(*@ Example C95_walls_example : The numbers of the script. In contact with the right wall: the motion 1 + cos(10 t) of C95_example, with u = -100 cos(10 t), at the time 0 (the tip is at 2, one unit beyond the wall). Without input: the cart moves with speed 1 from -1 to 1, the pole upright, and meets the hypotheses of C95_conservation from the time -1 to the time 1 *)
Lemma elastic_example : cart_flow 1 1 1 1 100 10 [1 + cos (10 * 0); 0; - (10 * sin (10 * 0)); 0] [- (100 * cos (10 * 0))] = Ok [- (10 * sin (10 * 0)); 0; - (100 * cos (10 * 0)); 0] /\
  forall t, -1 <= t <= 1 -> cart_flow 1 1 1 1 100 10 [t; 0; 1; 0] [0] = Ok [1; 0; 0; 0].
Proof.
  split.
  - apply (flow_solves 1 1 1 10 100 1 ltac:(lra) ltac:(lra) ltac:(lra) ltac:(lra)). unfold tip. rewrite Rmult_0_r, sin_0, cos_0, (Rmax_right 0 (1 + 1 - 1 * 0 - 1)), (Rmax_left 0 (- (1) - (1 + 1 - 1 * 0))) by lra. split; ring.
  - intros t Ht. apply (flow_solves 1 1 1 10 100 1 ltac:(lra) ltac:(lra) ltac:(lra) ltac:(lra)). unfold tip. rewrite sin_0, cos_0, !Rmax_left by lra. split; ring.
Qed.
