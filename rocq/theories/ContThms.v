(** * ContThms: the explicit solution as a function of the parameter: single-valued, continuous, convex value (C79), proofs *)
From Coq Require Import ZArith Classical.
From Verif Require Import Arr ArrFacts Spec SpecMpc Numpy Pnnls PnnlsFacts QpFacts GeomUtils Polyhedron PolyThms Oracle SolverThms NullFacts PolySolveThms PolyMore PolyChebThms SpecDyn Dynamics DynThms CondenseThms LqrThms Mpqp MpqpThms Controllers CtrlThms.

(** ** Continuous functions of a vector *)
Definition cont_at (n : nat) (f : vec -> R) (x : vec) : Prop :=
  forall eps, 0 < eps -> exists d, 0 < d /\ forall y, length y = n -> norm (vsub y x) < d -> Rabs (f y - f x) <= eps.
Lemma dot_vsub_gen a y x : length y = length x -> dot a (vsub y x) = dot a y - dot a x.
Proof. revert y x. induction a as [|c a IH]; intros [|u y] [|v x] L; try discriminate L; cbn; try ring. change (map2 Rminus y x) with (vsub y x). rewrite IH by (cbn in L; lia). ring. Qed.
Lemma cont_dot n a x : length x = n -> cont_at n (dot a) x.
Proof.
  intros Lx eps He. exists (eps / (norm a + 1)). pose proof (norm_nonneg a). split; [apply Rdiv_lt_0_compat; lra|]. intros y Ly Hy. rewrite <- dot_vsub_gen by lia.
  assert (norm a * norm (vsub y x) <= eps).
  { pose proof (norm_nonneg (vsub y x)). apply Rle_trans with ((norm a + 1) * (eps / (norm a + 1))); [apply Rmult_le_compat; lra|]. right. field. lra. }
  pose proof (dot_le_norm a (vsub y x)) as D1. pose proof (dot_le_norm (vneg a) (vsub y x)) as D2. rewrite norm_vneg, dot_vneg_l in D2. unfold Rabs. destruct (Rcase_abs _); lra.
Qed.
Lemma cont_const n c x : cont_at n (fun _ => c) x.
Proof. intros eps He. exists 1. split; [lra|]. intros y _ _. unfold Rminus. rewrite Rplus_opp_r, Rabs_R0. lra. Qed.
Lemma cont_plus n f g x : cont_at n f x -> cont_at n g x -> cont_at n (fun y => f y + g y) x.
Proof.
  intros Hf Hg eps He. destruct (Hf (eps / 2) ltac:(lra)) as (d1 & P1 & H1). destruct (Hg (eps / 2) ltac:(lra)) as (d2 & P2 & H2). exists (Rmin d1 d2). split; [apply Rmin_pos; assumption|].
  intros y Ly Hy. specialize (H1 y Ly (Rlt_le_trans _ _ _ Hy (Rmin_l _ _))). specialize (H2 y Ly (Rlt_le_trans _ _ _ Hy (Rmin_r _ _))).
  replace (f y + g y - (f x + g x)) with ((f y - f x) + (g y - g x)) by ring. eapply Rle_trans; [apply Rabs_triang|]. lra.
Qed.
Lemma cont_mult n f g x : cont_at n f x -> cont_at n g x -> cont_at n (fun y => f y * g y) x.
Proof.
  intros Hf Hg eps He. set (k := Rabs (f x) + Rabs (g x) + 1). assert (Pk : 1 <= k) by (unfold k; pose proof (Rabs_pos (f x)); pose proof (Rabs_pos (g x)); lra).
  set (e := Rmin 1 (eps / k)). assert (Pe : 0 < e) by (apply Rmin_pos; [lra|apply Rdiv_lt_0_compat; lra]). assert (E1 : e <= 1) by apply Rmin_l. assert (E2 : e * k <= eps). { apply Rle_trans with (eps / k * k); [apply Rmult_le_compat_r; [lra|apply Rmin_r]|right; field; lra]. }
  destruct (Hf e Pe) as (d1 & P1 & H1). destruct (Hg e Pe) as (d2 & P2 & H2). exists (Rmin d1 d2). split; [apply Rmin_pos; assumption|].
  intros y Ly Hy. specialize (H1 y Ly (Rlt_le_trans _ _ _ Hy (Rmin_l _ _))). specialize (H2 y Ly (Rlt_le_trans _ _ _ Hy (Rmin_r _ _))).
  replace (f y * g y - f x * g x) with ((f y - f x) * (g y - g x) + ((f y - f x) * g x + f x * (g y - g x))) by ring.
  eapply Rle_trans; [apply Rabs_triang|]. eapply Rle_trans; [apply Rplus_le_compat_l, Rabs_triang|]. rewrite !Rabs_mult.
  pose proof (Rabs_pos (f y - f x)). pose proof (Rabs_pos (g y - g x)). pose proof (Rabs_pos (f x)). pose proof (Rabs_pos (g x)).
  assert (Rabs (f y - f x) * Rabs (g y - g x) <= e * 1) by (apply Rmult_le_compat; lra). assert (Rabs (f y - f x) * Rabs (g x) <= e * Rabs (g x)) by (apply Rmult_le_compat_r; lra). assert (Rabs (f x) * Rabs (g y - g x) <= Rabs (f x) * e) by (apply Rmult_le_compat_l; lra).
  unfold k in E2. lra.
Qed.
Lemma cont_ext n f g x : (forall y, length y = n -> f y = g y) -> length x = n -> cont_at n f x -> cont_at n g x.
Proof. intros E Lx Hf eps He. destruct (Hf eps He) as (d & Pd & H). exists d. split; [exact Pd|]. intros y Ly Hy. rewrite <- !E by assumption. apply H; assumption. Qed.
Lemma cont_nth n k x : length x = n -> cont_at n (fun y => nth k y 0) x.
Proof.
  intros Lx. destruct (Nat.lt_ge_cases k n) as [H|H].
  - apply (cont_ext n (dot (unit n k))); [|exact Lx|apply cont_dot, Lx]. intros y Ly. apply dot_unit; assumption.
  - apply (cont_ext n (fun _ => 0)); [intros y Ly; rewrite nth_overflow by lia; reflexivity|exact Lx|apply cont_const].
Qed.
Lemma cont_quad n l x : length x = n -> forall k, cont_at n (fun y => dot (skipn k y) (map (fun r => dot r y) l)) x.
Proof.
  intros Lx. induction l as [|r l IH]; intros k.
  - apply (cont_ext n (fun _ => 0)); [intros y Ly; cbn; destruct (skipn k y); reflexivity|exact Lx|apply cont_const].
  - destruct (Nat.lt_ge_cases k n) as [H|H].
    + apply (cont_ext n (fun y => nth k y 0 * dot r y + dot (skipn (S k) y) (map (fun r => dot r y) l))); [|exact Lx|apply cont_plus; [apply cont_mult; [apply cont_nth, Lx|apply cont_dot, Lx]|apply IH]].
      intros y Ly. assert (E : skipn k y = nth k y 0 :: skipn (S k) y) by (clear - H Ly; revert y n H Ly; induction k as [|k IHk]; intros [|c y] n H Ly; cbn in Ly; try lia; [reflexivity|]; cbn [skipn nth]; apply (IHk y (n - 1)%nat); lia).
      rewrite E. cbn [map dot]. reflexivity.
    + apply (cont_ext n (fun _ => 0)); [intros y Ly; rewrite skipn_all2 by lia; reflexivity|exact Lx|apply cont_const].
Qed.
(** finitely many deltas *)
Lemma common_delta {A} (l : list A) (P : A -> vec -> Prop) n x : (forall a, In a l -> exists d, 0 < d /\ forall y, length y = n -> norm (vsub y x) < d -> P a y) ->
  exists d, 0 < d /\ forall a y, In a l -> length y = n -> norm (vsub y x) < d -> P a y.
Proof.
  induction l as [|a l IH]; intros H; [exists 1; split; [lra|]; intros a y []|]. destruct IH as (d1 & P1 & H1); [intros b Hb; apply H; right; exact Hb|]. destruct (H a (or_introl eq_refl)) as (d2 & P2 & H2).
  exists (Rmin d1 d2). split; [apply Rmin_pos; assumption|]. intros b y [<-|Hb] Ly Hy; [apply H2; [exact Ly|]|apply H1; [exact Hb|exact Ly|]]; eapply Rlt_le_trans; try exact Hy; [apply Rmin_r|apply Rmin_l].
Qed.
Lemma nth_vadd_in a b j : (j < length (vadd a b))%nat -> nth j (vadd a b) 0 = nth j a 0 + nth j b 0.
Proof. revert b j. induction a as [|u a IH]; intros [|v b] j H; cbn in H; try lia. destruct j; [reflexivity|]. cbn [vadd map2 nth]. apply IH. cbn. lia. Qed.
Lemma norm_small v n eps : length v = n -> 0 <= eps -> (forall j, (j < n)%nat -> Rabs (nth j v 0) <= eps) -> norm v <= INR n * eps.
Proof.
  intros L He H. apply PolyChebThms.norm_le_sqr; [apply Rmult_le_pos; [apply pos_INR|exact He]|]. revert n L H. induction v as [|a v IH]; intros n L H; cbn in L; subst n; [cbn; lra|].
  assert (Ha : Rabs a <= eps) by (apply (H 0%nat); lia). specialize (IH (length v) eq_refl ltac:(intros j Hj; apply (H (S j)); lia)). rewrite S_INR. cbn [dot].
  assert (a * a <= eps * eps) by (unfold Rabs in Ha; destruct (Rcase_abs a); nra).
  pose proof (pos_INR (length v)). nra.
Qed.

(** ** The pieces *)
Section Pieces.
Variables (np : numpy) (Huu Hux Hxx : mat) (fu fx : vec) (g : R) (Au Ax : mat) (b : vec) (nu nx m : nat) (q : mpqp) (crs : list critical_region).
Hypothesis Hnp : exact_np np.
Hypothesis D : mp_data Huu Hux Hxx fu fx Au Ax b nu nx m.
Hypothesis E1 : MultiParametricQuadraticProgram np Huu Hux Hxx fu fx g Au Ax b = Ok q.
Hypothesis E2 : Forall (fun c' => exists act c, explicit_solve_given_active_set np q act = Ok (Some c) /\ same_region c c') crs.
Lemma pieces c : In c crs -> wf (cr_poly c) m 0 nx /\ forall x, length x = nx -> length (cr_u c x) = nu.
Proof.
  intros Hc. destruct (constructed _ _ _ _ _ _ _ _ _ _ _ _ _ _ Hnp D E1) as (Hq & Hi & Eq).
  pose proof E2 as F.
  rewrite Forall_forall in F. destruct (F c Hc) as (act & c0 & Ea & (S1 & S2 & S3 & F1 & F2 & F3 & F4)). destruct (some_region np q nu nx m act c0 Hnp Hq Ea) as (_ & _ & (_ & _ & W & _ & HX)).
  split; [unfold wf in *; rewrite F1, F2, F3, F4; exact W|]. intros x Lx. rewrite S1. apply (HX x Lx).
Qed.
Lemma sound c x : In c crs -> in_poly (cr_poly c) x -> mp_minimizer Huu Hux Hxx fu fx g Au Ax b x (cr_u c x) /\ cr_V c x = mp_cost Huu Hux Hxx fu fx g x (cr_u c x).
Proof.
  intros Hc Hx. pose proof E2 as F. rewrite Forall_forall in F. destruct (F c Hc) as (act & c0 & Ea & Hs). apply (same_region_poly _ _ _ Hs) in Hx.
  destruct (region_optimal np Huu Hux Hxx fu fx g Au Ax b nu nx m q act c0 x Hnp D E1 Ea Hx) as (A & _ & B). destruct Hs as (-> & _ & -> & _). auto.
Qed.
Lemma single c c' x : In c crs -> In c' crs -> in_poly (cr_poly c) x -> in_poly (cr_poly c') x -> cr_u c x = cr_u c' x /\ cr_V c x = cr_V c' x.
Proof.
  intros Hc Hc' Hx Hx'. destruct (sound c x Hc Hx) as ((F1 & M1) & V1). destruct (sound c' x Hc' Hx') as ((F2 & M2) & V2).
  destruct (M1 _ F2) as (L1 & U1). destruct (M2 _ F1) as (L2 & _). assert (U : cr_u c' x = cr_u c x) by (apply U1; lra). split; [auto|]. rewrite V1, V2, U. reflexivity.
Qed.
Lemma away c x : In c crs -> length x = nx -> ~ in_poly (cr_poly c) x -> exists d, 0 < d /\ forall y, length y = nx -> norm (vsub y x) < d -> ~ in_poly (cr_poly c) y.
Proof.
  intros Hc Lx Hx. destruct (pieces c Hc) as (W & _). rewrite <- (sat_all _ m 0 nx x W) in Hx.
  assert (V : exists i, (i < m)%nat /\ nth i (pb (cr_poly c)) 0 < dot (row (pA (cr_poly c)) i) x).
  { apply NNPP. intros N. apply Hx. pose proof W as (WA & _ & (L & _) & Wd). split; [rewrite Lx; symmetry; apply WA|]. split; [unfold eq_holds; destruct (rows (pC (cr_poly c))); [|discriminate L]; destruct (pd (cr_poly c)); [constructor|discriminate Wd]|].
    intros j Hj. apply in_seq in Hj. destruct (Rle_lt_dec (dot (row (pA (cr_poly c)) j) x) (nth j (pb (cr_poly c)) 0)); [assumption|]. exfalso. apply N. exists j. split; [lia|assumption]. }
  destruct V as (i & Hi & V). destruct (cont_dot nx (row (pA (cr_poly c)) i) x Lx ((dot (row (pA (cr_poly c)) i) x - nth i (pb (cr_poly c)) 0) / 2) ltac:(lra)) as (d & Pd & H). exists d. split; [exact Pd|].
  intros y Ly Hy Iy. specialize (H y Ly Hy). apply (sat_all _ m 0 nx y W) in Iy. destruct Iy as (_ & _ & Iy). specialize (Iy i ltac:(apply in_seq; lia)). unfold Rabs in H. destruct (Rcase_abs _); lra.
Qed.
Lemma piece_cont c x : In c crs -> length x = nx -> (forall eps, 0 < eps -> exists d, 0 < d /\ forall y, length y = nx -> norm (vsub y x) < d -> norm (vsub (cr_u c y) (cr_u c x)) <= eps) /\ cont_at nx (cr_V c) x.
Proof.
  intros Hc Lx. destruct (pieces c Hc) as (_ & LU). split.
  - intros eps He. set (e := eps / (INR nu + 1)). pose proof (pos_INR nu) as PN. assert (Pe : 0 < e) by (apply Rdiv_lt_0_compat; lra).
    destruct (common_delta (seq 0 nu) (fun j y => Rabs (nth j (cr_u c y) 0 - nth j (cr_u c x) 0) <= e) nx x) as (d & Pd & H).
    { intros j Hj. apply in_seq in Hj. assert (K : forall y, length y = nx -> nth j (cr_u c y) 0 = dot (row (cr_ux c) j) y + nth j (cr_u0 c) 0) by (intros y Ly; unfold cr_u; rewrite nth_vadd_in by (fold (cr_u c y); rewrite LU by exact Ly; lia); rewrite nth_mv; reflexivity).
      destruct (cont_dot nx (row (cr_ux c) j) x Lx e Pe) as (d & Pd & H). exists d. split; [exact Pd|]. intros y Ly Hy. rewrite !K by assumption. specialize (H y Ly Hy).
      replace (dot (row (cr_ux c) j) y + nth j (cr_u0 c) 0 - (dot (row (cr_ux c) j) x + nth j (cr_u0 c) 0)) with (dot (row (cr_ux c) j) y - dot (row (cr_ux c) j) x) by ring. exact H. }
    exists d. split; [exact Pd|]. intros y Ly Hy. apply Rle_trans with (INR nu * e).
    + apply norm_small; [rewrite vsub_length, !LU by assumption; apply Nat.min_id|lra|]. intros j Hj. rewrite nth_vsub by (rewrite !LU by assumption; reflexivity). apply (H j y); [apply in_seq; lia|exact Ly|exact Hy].
    + unfold e. apply Rle_trans with ((INR nu + 1) * (eps / (INR nu + 1))); [apply Rmult_le_compat_r; [left; exact Pe|lra]|right; field; lra].
  - apply (cont_ext nx (fun y => / 2 * dot (skipn 0 y) (map (fun r => dot r y) (rows (cr_Vxx c))) + dot (cr_Vx c) y + cr_V0 c)); [intros y _; reflexivity|exact Lx|].
    apply cont_plus; [apply cont_plus; [apply cont_mult; [apply cont_const|apply cont_quad, Lx]|apply cont_dot, Lx]|apply cont_const].
Qed.
Lemma continuous c x eps : In c crs -> in_poly (cr_poly c) x -> 0 < eps ->
  exists d, 0 < d /\ forall c' y, In c' crs -> in_poly (cr_poly c') y -> norm (vsub y x) < d -> norm (vsub (cr_u c' y) (cr_u c x)) <= eps /\ Rabs (cr_V c' y - cr_V c x) <= eps.
Proof.
  intros Hc Hx He. assert (Lx : length x = nx) by (destruct (pieces c Hc) as (W & _); destruct Hx as (L & _); rewrite L; apply W).
  destruct (common_delta crs (fun c' y => in_poly (cr_poly c') y -> norm (vsub (cr_u c' y) (cr_u c x)) <= eps /\ Rabs (cr_V c' y - cr_V c x) <= eps) nx x) as (d & Pd & H).
  - intros c' Hc'. destruct (classic (in_poly (cr_poly c') x)) as [I|I].
    + destruct (single c c' x Hc Hc' Hx I) as (EU & EV). rewrite EU, EV. destruct (piece_cont c' x Hc' Lx) as (CU & CV). destruct (CU eps He) as (d1 & P1 & H1). destruct (CV eps He) as (d2 & P2 & H2).
      exists (Rmin d1 d2). split; [apply Rmin_pos; assumption|]. intros y Ly Hy _. split; [apply H1|apply H2]; try exact Ly; eapply Rlt_le_trans; try exact Hy; [apply Rmin_l|apply Rmin_r].
    + destruct (away c' x Hc' Lx I) as (d & Pd & H). exists d. split; [exact Pd|]. intros y Ly Hy Iy. destruct (H y Ly Hy Iy).
  - exists d. split; [exact Pd|]. intros c' y Hc' Iy Hy. apply H; try assumption. destruct (pieces c' Hc') as (W & _). destruct Iy as (L & _). rewrite L. apply W.
Qed.
Lemma cost_convex x1 u1 x2 u2 t : length x1 = nx -> length x2 = nx -> length u1 = nu -> length u2 = nu ->
  let x := vadd (vscale (1 - t) x1) (vscale t x2) in let u := vadd (vscale (1 - t) u1) (vscale t u2) in let dx := vsub x1 x2 in let du := vsub u1 u2 in
  mp_cost Huu Hux Hxx fu fx g x u = (1 - t) * mp_cost Huu Hux Hxx fu fx g x1 u1 + t * mp_cost Huu Hux Hxx fu fx g x2 u2
    - (1 - t) * t / 2 * (dot du (mv Huu du) + 2 * dot du (mv Hux dx) + dot dx (mv Hxx dx)).
Proof.
  intros L1 L2 M1 M2. cbv zeta. pose proof D as (S1 & _ & S2 & S3 & L3 & L4 & _). unfold mp_cost.
  rewrite (mv_vadd Huu nu nu), (mv_vadd Hux nu nx), (mv_vadd Hxx nx nx) by (rewrite ?vscale_length; assumption). rewrite !mv_vscale.
  rewrite (mv_vsub Huu nu nu), (mv_vsub Hux nu nx), (mv_vsub Hxx nx nx) by assumption.
  assert (K : forall M r c v, shape M r c -> length (mv M v) = r) by (intros M r c v (L & _); rewrite mv_length; exact L).
  pose proof (K _ _ _ u1 S1). pose proof (K _ _ _ u2 S1). pose proof (K _ _ _ x1 S2). pose proof (K _ _ _ x2 S2). pose proof (K _ _ _ x1 S3). pose proof (K _ _ _ x2 S3).
  rewrite ?dot_vadd_l, ?dot_vadd_r, ?dot_vsub_l, ?dot_vsub_r by (rewrite ?vscale_length, ?vsub_length, ?vadd_length; lia).
  rewrite ?dot_vscale_l, ?dot_vscale_r. rewrite ?dot_vadd_l, ?dot_vadd_r, ?dot_vsub_l, ?dot_vsub_r by (rewrite ?vscale_length, ?vsub_length, ?vadd_length; lia). rewrite ?dot_vscale_l, ?dot_vscale_r. field.
Qed.
Lemma value_convex c1 x1 c2 x2 c t : (forall x u, length x = nx -> length u = nu -> 0 <= dot u (mv Huu u) + 2 * dot u (mv Hux x) + dot x (mv Hxx x)) ->
  In c1 crs -> in_poly (cr_poly c1) x1 -> In c2 crs -> in_poly (cr_poly c2) x2 -> 0 <= t <= 1 -> let x := vadd (vscale (1 - t) x1) (vscale t x2) in
  In c crs -> in_poly (cr_poly c) x -> cr_V c x <= (1 - t) * cr_V c1 x1 + t * cr_V c2 x2.
Proof.
  intros HP H1 I1 H2 I2 Ht x Hc Hx. destruct (pieces c1 H1) as (W1 & _). destruct (pieces c2 H2) as (W2 & _).
  assert (L1 : length x1 = nx) by (destruct I1 as (L & _); rewrite L; apply W1). assert (L2 : length x2 = nx) by (destruct I2 as (L & _); rewrite L; apply W2).
  destruct (sound c1 x1 H1 I1) as ((F1 & _) & V1). destruct (sound c2 x2 H2 I2) as ((F2 & _) & V2). destruct (sound c x Hc Hx) as ((_ & M) & V). rewrite V, V1, V2.
  pose proof D as (_ & _ & _ & _ & _ & _ & SAu & SAx & Lb). set (u1 := cr_u c1 x1) in *. set (u2 := cr_u c2 x2) in *. assert (N1 : length u1 = nu) by (rewrite (proj1 F1); apply SAu). assert (N2 : length u2 = nu) by (rewrite (proj1 F2); apply SAu).
  set (u := vadd (vscale (1 - t) u1) (vscale t u2)).
  assert (F : mp_feasible Au Ax b x u).
  { split; [unfold u; rewrite vadd_length, !vscale_length, N1, N2, Nat.min_id; symmetry; apply SAu|]. intros i Hi. destruct F1 as (_ & F1). destruct F2 as (_ & F2). specialize (F1 i Hi). specialize (F2 i Hi). unfold u, x.
    rewrite !dot_vadd_r by (rewrite !vscale_length; lia). rewrite !dot_vscale_r. nra. }
  destruct (M u F) as (LE & _). eapply Rle_trans; [exact LE|]. unfold u, x. rewrite (cost_convex x1 u1 x2 u2 t L1 L2 N1 N2).
  specialize (HP (vsub x1 x2) (vsub u1 u2) ltac:(rewrite vsub_length; lia) ltac:(rewrite vsub_length; lia)). assert (0 <= (1 - t) * t) by nra. nra.
Qed.
End Pieces.
Lemma explicit_regions np q fuel step crs : explicit_solve np fuel step q = Ok crs -> Forall (fun c' => exists act c, explicit_solve_given_active_set np q act = Ok (Some c) /\ same_region c c') crs.
Proof. intros E2. apply (loop_sound np q _ fuel step) with (3 := E2); [|constructor]. intros act c0 c' Ea Hs. eauto. Qed.

(*@ Theorem C79_single_valued : Regions of the explicit solution agree where they overlap: the same minimizer, the same value. *)
Lemma single_valued np Huu Hux Hxx fu fx g Au Ax b nu nx m q fuel step crs c c' x :
  exact_np np -> mp_data Huu Hux Hxx fu fx Au Ax b nu nx m -> MultiParametricQuadraticProgram np Huu Hux Hxx fu fx g Au Ax b = Ok q -> explicit_solve np fuel step q = Ok crs ->
  In c crs -> In c' crs -> in_poly (cr_poly c) x -> in_poly (cr_poly c') x -> cr_u c x = cr_u c' x /\ cr_V c x = cr_V c' x.
Proof. intros Hnp D E1 E2. apply (single np Huu Hux Hxx fu fx g Au Ax b nu nx m q); try assumption; apply (explicit_regions np q fuel step); assumption. Qed.
(*@ Theorem C79_continuous : The minimizer and the value given by the regions are continuous on their union. *)
Lemma explicit_continuous np Huu Hux Hxx fu fx g Au Ax b nu nx m q fuel step crs c x eps :
  exact_np np -> mp_data Huu Hux Hxx fu fx Au Ax b nu nx m -> MultiParametricQuadraticProgram np Huu Hux Hxx fu fx g Au Ax b = Ok q -> explicit_solve np fuel step q = Ok crs ->
  In c crs -> in_poly (cr_poly c) x -> 0 < eps ->
  exists d, 0 < d /\ forall c' y, In c' crs -> in_poly (cr_poly c') y -> norm (vsub y x) < d -> norm (vsub (cr_u c' y) (cr_u c x)) <= eps /\ Rabs (cr_V c' y - cr_V c x) <= eps.
Proof. intros Hnp D E1 E2. apply (continuous np Huu Hux Hxx fu fx g Au Ax b nu nx m q); try assumption; apply (explicit_regions np q fuel step); assumption. Qed.
(*@ Theorem C79_value_convex_partial : If the objective is convex in (x, u) jointly, the value is a convex function on the union of the regions. Missing: without joint convexity it need not be (C79_convex_refuted). *)
Lemma explicit_convex np Huu Hux Hxx fu fx g Au Ax b nu nx m q fuel step crs c1 x1 c2 x2 c t :
  exact_np np -> mp_data Huu Hux Hxx fu fx Au Ax b nu nx m -> MultiParametricQuadraticProgram np Huu Hux Hxx fu fx g Au Ax b = Ok q -> explicit_solve np fuel step q = Ok crs ->
  (forall x u, length x = nx -> length u = nu -> 0 <= dot u (mv Huu u) + 2 * dot u (mv Hux x) + dot x (mv Hxx x)) ->
  In c1 crs -> in_poly (cr_poly c1) x1 -> In c2 crs -> in_poly (cr_poly c2) x2 -> 0 <= t <= 1 -> let x := vadd (vscale (1 - t) x1) (vscale t x2) in
  In c crs -> in_poly (cr_poly c) x -> cr_V c x <= (1 - t) * cr_V c1 x1 + t * cr_V c2 x2.
Proof. intros Hnp D E1 E2 HP H1 I1 H2 I2 Ht. apply (value_convex np Huu Hux Hxx fu fx g Au Ax b nu nx m q crs); try assumption; apply (explicit_regions np q fuel step); assumption. Qed.

(** ** The controller *)
Lemma concat_mix t us1 : forall us2 nu, length us1 = length us2 -> Forall (fun v => length v = nu) us1 -> Forall (fun v => length v = nu) us2 ->
  List.concat (map2 (fun a b => vadd (vscale (1 - t) a) (vscale t b)) us1 us2) = vadd (vscale (1 - t) (List.concat us1)) (vscale t (List.concat us2)).
Proof.
  induction us1 as [|u us1 IH]; intros [|v us2] nu L F1 F2; try discriminate L; [reflexivity|]. cbn [map2 List.concat]. pose proof (Forall_inv F1). pose proof (Forall_inv F2).
  rewrite (IH us2 nu) by (eauto using Forall_inv_tail; cbn in L; lia). unfold vscale. rewrite !map_app. fold (vscale (1 - t) u) (vscale t v) (vscale (1 - t) (List.concat us1)) (vscale t (List.concat us2)).
  rewrite vadd_app; [reflexivity|]. rewrite !vscale_length. congruence.
Qed.
Lemma quad_nonneg (a l c : R) : (forall s, 0 <= / 2 * a * (s * s) + l * s + c) -> 0 <= a.
Proof.
  intros H. destruct (Rle_lt_dec 0 a) as [|N]; [assumption|exfalso]. set (k := Rabs l + Rabs c). pose proof (Rabs_pos l). pose proof (Rabs_pos c). assert (K : 0 <= k) by (unfold k; lra).
  set (s := 1 + 2 * k / (- a)). assert (S1 : 1 <= s). { unfold s. assert (0 <= 2 * k / - a) by (apply Rmult_le_pos; [lra|left; apply Rinv_0_lt_compat; lra]). lra. }
  specialize (H s). assert (E : - a * s = - a + 2 * k) by (unfold s; field; lra). pose proof (Rle_abs l). pose proof (Rle_abs c).
  assert (l * s <= Rabs l * s) by (apply Rmult_le_compat_r; lra). assert (c <= Rabs c * s) by nra. assert (l * s + c <= k * s) by (unfold k; lra).
  assert (Q : / 2 * a * (s * s) = - / 2 * (- a * s) * s) by field. rewrite E in Q. nra.
Qed.
(*@ Theorem C79_mpc_convex : For the linear MPC controller: the set of states with an admissible input sequence is convex, and the optimal cost is convex in the state: between two states at which feedforward answers with costs V1 and V2 there is an admissible sequence with cost at most (1-t) V1 + t V2, and feedforward, if it answers there, answers with no larger a cost. *)
Lemma mpc_convex np S N Q Rm P D X_N nx nu C x1 x2 us1 us2 V1 V2 t : exact_np np -> mpc_data S N Q Rm P D X_N nx nu -> ModelPredictiveController np S N Q Rm P D X_N = Ok C ->
  length x1 = nx -> length x2 = nx -> feedforward np C x1 = Ok (Some us1, Some V1) -> feedforward np C x2 = Ok (Some us2, Some V2) -> 0 <= t <= 1 ->
  let x := vadd (vscale (1 - t) x1) (vscale t x2) in
  (exists us xs, mpc_admissible (lA S) (lB S) nu N (in_poly D) (in_poly X_N) x us xs /\ trajectory_cost Q Rm P us xs <= (1 - t) * V1 + t * V2) /\
  forall us V, feedforward np C x = Ok (Some us, Some V) -> V <= (1 - t) * V1 + t * V2.
Proof.
  intros Hnp HD E L1 L2 E1 E2 Ht x. assert (Lx : length x = nx) by (unfold x; rewrite vadd_length, !vscale_length; lia).
  destruct (mpc_program np S N Q Rm P D X_N nx nu Hnp HD) as (q & m & E' & Hq & HC). rewrite E in E'. injection E' as ->. pose proof HD as ((SA & SB & HN & SQ & SP & SR & _) & _ & _ & PQ & PP & PR).
  assert (OPT : forall y us V, length y = nx -> feedforward np (MPC S N q) y = Ok (Some us, Some V) -> exists xs, V = trajectory_cost Q Rm P us xs /\ mpc_optimal (lA S) (lB S) Q Rm P nu N (in_poly D) (in_poly X_N) y us xs).
  { intros y us V Ly EF. destruct (mpc_none np S N Q Rm P D X_N nx nu _ y Hnp HD E Ly) as (us0 & xs0 & _ & [(EN & _)|(us' & xs' & E1' & _ & HO & _)]); rewrite EF in *; [discriminate|]. injection E1' as -> ->. eauto. }
  destruct (OPT x1 us1 V1 L1 E1) as (xs1 & -> & (A1 & _)). destruct (OPT x2 us2 V2 L2 E2) as (xs2 & -> & (A2 & _)). pose proof A1 as (U1 & F1 & T1 & _). pose proof A2 as (U2 & F2 & T2 & _).
  set (us := map2 (fun a b => vadd (vscale (1 - t) a) (vscale t b)) us1 us2).
  assert (Lu : length us = N) by (unfold us; rewrite map2_len; lia).
  assert (Fu : Forall (fun v => length v = nu) us).
  { unfold us. clear - F1 F2. revert us2 F2. induction F1 as [|u us1 Hu F1 IH]; intros us2 F2; [constructor|]. destruct us2 as [|v us2]; [constructor|]. cbn [map2]. constructor; [|apply IH, (Forall_inv_tail F2)]. rewrite vadd_length, !vscale_length, (Forall_inv F2 : length v = nu). lia. }
  destruct (trajectory_exists (lA S) (lB S) nx nu x us SA SB Lx) as (xs & Tr).
  destruct (HC x us xs Lx Lu Fu Tr) as (C0 & G0). destruct (HC x1 us1 xs1 L1 U1 F1 T1) as (C1 & G1). destruct (HC x2 us2 xs2 L2 U2 F2 T2) as (C2 & G2).
  assert (EU : List.concat us = vadd (vscale (1 - t) (List.concat us1)) (vscale t (List.concat us2))) by (unfold us; apply (concat_mix t us1 us2 nu); [lia|assumption|assumption]).
  apply G1 in A1. apply G2 in A2. pose proof Hq as (S1 & PD & S2 & S3 & L3 & L4 & S4 & S5 & Lb & _).
  assert (MD : mp_data (q_Huu q) (q_Hux q) (q_Hxx q) (q_fu q) (q_fx q) (q_Au q) (q_Ax q) (q_b q) (nu * N) nx m) by (unfold mp_data; tauto).
  assert (N1 : length (List.concat us1) = (nu * N)%nat) by (rewrite (proj1 A1); apply S4). assert (N2 : length (List.concat us2) = (nu * N)%nat) by (rewrite (proj1 A2); apply S4).
  assert (ADM : mpc_admissible (lA S) (lB S) nu N (in_poly D) (in_poly X_N) x us xs).
  { apply G0. split; [rewrite EU, vadd_length, !vscale_length, N1, N2, Nat.min_id; symmetry; apply S4|]. intros i Hi. destruct A1 as (_ & A1). destruct A2 as (_ & A2). specialize (A1 i Hi). specialize (A2 i Hi). rewrite EU. unfold x.
    rewrite !dot_vadd_r by (rewrite !vscale_length; lia). rewrite !dot_vscale_r. nra. }
  assert (NONNEG : forall y v, length y = nx -> length v = (nu * N)%nat -> 0 <= q_cost q y v).
  { intros y v Ly Lv. destruct (chunks nu N v ltac:(lia)) as (vs & LV & FV & EV).
    destruct (trajectory_exists (lA S) (lB S) nx nu y vs SA SB Ly) as (ys & Ty). destruct (HC y vs ys Ly LV FV Ty) as (Cy & _). rewrite EV in Cy. rewrite Cy.
    pose proof (trajectory_lengths (lA S) (lB S) nx nu y vs ys SA SB Ly Ty) as FY. assert (LY : length ys = Datatypes.S (length vs)) by apply Ty. unfold trajectory_cost.
    assert (0 <= sum_upto (fun t => / 2 * (dot (nth t ys []) (mv Q (nth t ys [])) + dot (nth t vs []) (mv Rm (nth t vs [])))) (length vs)).
    { apply sum_upto_nonneg. intros i Hi. pose proof (proj2 PQ (nth i ys []) ltac:(apply Forall_len_nth; [exact FY|lia])). pose proof (proj2 (pd_psd _ _ PR) (nth i vs []) ltac:(apply Forall_len_nth; [exact FV|lia])). lra. }
    pose proof (proj2 PP (nth (length vs) ys []) ltac:(apply Forall_len_nth; [exact FY|lia])). lra. }
  assert (LE : trajectory_cost Q Rm P us xs <= (1 - t) * trajectory_cost Q Rm P us1 xs1 + t * trajectory_cost Q Rm P us2 xs2).
  { rewrite <- C0, <- C1, <- C2, EU. unfold q_cost, x. rewrite (cost_convex (q_Huu q) (q_Hux q) (q_Hxx q) (q_fu q) (q_fx q) (q_g q) (q_Au q) (q_Ax q) (q_b q) (nu * N) nx m MD x1 _ x2 _ t L1 L2 N1 N2).
    set (dx := vsub x1 x2). set (du := vsub (List.concat us1) (List.concat us2)). assert (Ld : length dx = nx) by (unfold dx; rewrite vsub_length; lia). assert (Lv : length du = (nu * N)%nat) by (unfold du; rewrite vsub_length; lia).
    assert (0 <= dot du (mv (q_Huu q) du) + 2 * dot du (mv (q_Hux q) dx) + dot dx (mv (q_Hxx q) dx)).
    { apply (quad_nonneg _ (dot (q_fu q) du + dot (q_fx q) dx) (q_g q)). intros s. specialize (NONNEG (vscale s dx) (vscale s du) ltac:(rewrite vscale_length; exact Ld) ltac:(rewrite vscale_length; exact Lv)).
      unfold q_cost, mp_cost in NONNEG. rewrite !mv_vscale, !dot_vscale_l, !dot_vscale_r in NONNEG. lra. }
    assert (0 <= (1 - t) * t) by nra. nra. }
  split; [eauto|]. intros us' V' EF. destruct (OPT x us' V' Lx EF) as (xs' & -> & (_ & OM)). destruct (OM us xs ADM). lra.
Qed.

(** ** Without joint convexity: min 1/2 u^2 - x^2 s.t. x <= u *)
Definition nc_q : mpqp := MPQP (Mat 1 [[1]]) (Mat 1 [[0]]) (Mat 1 [[-2]]) [0] [0] 0 (Mat 1 [[-1]]) (Mat 1 [[1]]) [0] ex_I.
Lemma nc_data : mp_data (Mat 1 [[1]]) (Mat 1 [[0]]) (Mat 1 [[-2]]) [0] [0] (Mat 1 [[-1]]) (Mat 1 [[1]]) [0] 1 1 1.
Proof.
  unfold mp_data. repeat match goal with |- _ /\ _ => split end; try (apply scalar_shape); try reflexivity.
  apply scalar_pd. lra.
Qed.
Definition nc_r0 : critical_region := CR [] (Mat 1 [[0]]) [0] (Mat 1 [[0]]) [0] (Mat 1 [[-2]]) [0] 0 (Poly (Mat 1 [[1]]) [0] (Mat 1 []) [] None None None None None).
Definition nc_r1 : critical_region := CR [0%nat] (Mat 1 [[1]]) [0] (Mat 1 [[1]]) [0] (Mat 1 [[-1]]) [0] 0 (Poly (Mat 1 [[-1]]) [0] (Mat 1 []) [] None None None None None).
Lemma nc_ctor np : exact_np np -> MultiParametricQuadraticProgram np (Mat 1 [[1]]) (Mat 1 [[0]]) (Mat 1 [[-2]]) [0] [0] 0 (Mat 1 [[-1]]) (Mat 1 [[1]]) [0] = Ok nc_q.
Proof. intros (_ & _ & _ & Hi & _). unfold MultiParametricQuadraticProgram. rewrite (inv_scalar_ok np 1 Hi) by lra. cbn [bind]. rewrite Rinv_1. reflexivity. Qed.
Lemma nc_region0 np : exact_np np -> explicit_solve_given_active_set np nc_q [] = Ok (Some nc_r0).
Proof.
  intros (_ & _ & _ & Hi & _). unfold explicit_solve_given_active_set. cbn [nc_q q_Au q_Ax q_b q_Huu_inv q_Hux q_fu q_Huu q_Hxx q_fx q_g forallb negb].
  match goal with |- context [np_inv np ?G] => set (GG := G) end. assert (EG : GG = Mat 0 []) by (unfold GG; cbn; reflexivity).
  destruct (Hi GG 0%nat ltac:(rewrite EG; repeat constructor)) as [(_ & X & EX & SX & _)|((x & Lx & Nx & _) & _)]; [|exfalso; apply Nx; destruct x; [reflexivity|discriminate]].
  rewrite EX. cbn [bind]. assert (X = Mat 0 []). { destruct X as [nc rs]. destruct SX as (S1 & S2 & _). cbn in S1, S2. subst nc. destruct rs; [reflexivity|discriminate]. } subst X.
  cbn - [normalize Rmult Rplus]. apply f_equal, f_equal. unfold nc_r0. f_equal; try solve [crfields | cbv -[Rplus Rmult Ropp Rminus IZR]; crfields].
  rewrite <- ex_normalized by auto. f_equal. cbv -[Rplus Rmult Ropp Rminus IZR]. crfields.
Qed.
Lemma nc_region1 np : exact_np np -> explicit_solve_given_active_set np nc_q [0%nat] = Ok (Some nc_r1).
Proof.
  intros (_ & _ & _ & Hi & _ & Hs). unfold explicit_solve_given_active_set. cbn [nc_q q_Au q_Ax q_b q_Huu_inv q_Hux q_fu q_Huu q_Hxx q_fx q_g].
  change (forallb _ [0%nat]) with true. cbn [negb]. change (mtake (Mat 1 [[-1]]) [0%nat]) with (Mat 1 [[-1]]). cbv zeta.
  rewrite (rank_indep np (Mat 1 [[-1]]) 1 1 Hs (scalar_shape _)).
  2:{ intros y Ly E. destruct y as [|c [|]]; try discriminate Ly. cbn in E. injection E as E. change (zeros 1) with [0]. f_equal. lra. }
  cbn [nrows rows length Nat.ltb Nat.leb andb].
  match goal with |- context [np_inv np ?G] => replace G with (Mat 1 [[1]]) by (cbv -[Rplus Rmult Ropp IZR]; crfields) end.
  rewrite (inv_scalar_ok np 1 Hi) by lra. rewrite Rinv_1. cbn [bind].
  cbn - [normalize Rmult Rplus]. apply f_equal, f_equal. unfold nc_r1. f_equal; try solve [crfields | cbv -[Rplus Rmult Ropp Rminus IZR]; crfields].
  rewrite <- ex_normalized by auto. f_equal. cbv -[Rplus Rmult Ropp Rminus IZR]. crfields.
Qed.
Lemma nc_loop np step fuel : exact_np np -> tol7 < step -> exists e0 e1,
  explicit_solve np (3 + fuel) step nc_q =
  Ok [CR [] (Mat 1 [[0]]) [0] (Mat 1 [[0]]) [0] (Mat 1 [[-2]]) [0] 0 (Poly (Mat 1 [[1]]) [0] (Mat 1 []) [] e0 None None None None);
      CR [0%nat] (Mat 1 [[1]]) [0] (Mat 1 [[1]]) [0] (Mat 1 [[-1]]) [0] 0 (Poly (Mat 1 [[-1]]) [0] (Mat 1 []) [] e1 None None None None)].
Proof.
  intros Hnp Hst. assert (T : 0 < tol7) by (unfold tol7; lra).
  destruct (ex_facets np 1 Hnp ltac:(auto)) as (e0 & F0). destruct (ex_facets np (-1) Hnp ltac:(auto)) as (e1 & F1). exists e0, e1.
  unfold explicit_solve. change (zeros (length (q_fx nc_q))) with [0]. cbn [plus explicit_loop].
  (* first region *)
  cbn [uncovered fst covered mapM bind existsb].
  unfold explicit_solve_given_point at 1. rewrite (nc_region0 np Hnp). cbn [bind]. unfold cr_contains at 1. cbn [nc_r0 cr_poly]. rewrite ex_contains.
  rewrite (proj2 (Rleb_true (1 * 0) tol7)) by lra. cbn [bind]. cbn [nc_r0 cr_poly]. rewrite F0. cbn [mapM bind facet_center pA ncols Nat.eqb pb nth rows row cr_active].
  unfold facet_center at 1. cbn [pA ncols Nat.eqb pb nth rows row bind mapM app cr_active cr_ux cr_u0 cr_px cr_p0 cr_Vxx cr_Vx cr_V0 nc_r0].
  set (x1 := 0 / 1 + step * 1). change (vadd [0 / 1] (vscale step [1])) with [x1]. assert (X1 : x1 = step) by (unfold x1; field). rewrite X1. clear x1 X1.
  change (flip [] 0) with [0%nat].
  (* second region *)
  cbn [uncovered fst bind]. unfold covered at 1. cbn [mapM bind]. unfold cr_contains at 1. cbn [cr_poly]. rewrite ex_contains. cbn [bind existsb].
  rewrite (proj2 (Rleb_false (1 * step) tol7)) by lra. cbn [orb].
  unfold explicit_solve_given_point at 1. rewrite (nc_region1 np Hnp). cbn [bind]. unfold cr_contains at 1. cbn [nc_r1 cr_poly]. rewrite ex_contains.
  rewrite (proj2 (Rleb_true (-1 * step) tol7)) by lra. cbn [bind]. cbn [nc_r1 cr_poly]. rewrite F1. cbn [mapM bind].
  unfold facet_center at 1. cbn [pA ncols Nat.eqb pb nth rows row bind mapM app cr_active cr_ux cr_u0 cr_px cr_p0 cr_Vxx cr_Vx cr_V0 nc_r1].
  set (x2 := 0 / -1 + step * -1). change (vadd [0 / -1] (vscale step [-1])) with [x2]. assert (X2 : x2 = - step) by (unfold x2; field). rewrite X2. clear x2 X2.
  (* everything is covered *)
  cbn [uncovered fst bind]. unfold covered at 1. cbn [mapM bind]. unfold cr_contains at 1. cbn [cr_poly]. rewrite ex_contains. cbn [bind].
  unfold cr_contains at 1. cbn [cr_poly]. rewrite ex_contains. cbn [bind existsb].
  rewrite (proj2 (Rleb_true (1 * - step) tol7)) by lra. cbn [orb]. reflexivity.
Qed.

(*@ Theorem C79_convex_refuted : Without joint convexity the value need not be convex: min 1/2 u^2 - x^2 s.t. x <= u is accepted by the constructor and by explicit_solve; its value at -1 is larger than the mean of its values at -2 and 0. *)
Lemma convex_refuted : exists Huu Hux Hxx fu fx g Au Ax b, mp_data Huu Hux Hxx fu fx Au Ax b 1 1 1 /\
  forall np, exact_np np -> exists q fuel step crs c x1 x2, MultiParametricQuadraticProgram np Huu Hux Hxx fu fx g Au Ax b = Ok q /\ explicit_solve np fuel step q = Ok crs /\
    In c crs /\ in_poly (cr_poly c) x1 /\ in_poly (cr_poly c) x2 /\ let x := vadd (vscale (1 - / 2) x1) (vscale (/ 2) x2) in in_poly (cr_poly c) x /\ (1 - / 2) * cr_V c x1 + / 2 * cr_V c x2 < cr_V c x.
Proof.
  do 9 eexists. split; [exact nc_data|]. intros np Hnp. destruct (nc_loop np (/ 100000) 0 Hnp ltac:(unfold tol7; lra)) as (e0 & e1 & E).
  exists nc_q, (3 + 0)%nat, (/ 100000). eexists. eexists. exists [-2], [0]. split; [apply nc_ctor; exact Hnp|]. split; [exact E|]. split; [left; reflexivity|].
  split; [|split; [|cbv zeta; split]]; [| | |unfold cr_V; cbn [cr_Vxx cr_Vx cr_V0 vadd vscale map map2 mv dot rows]; nra]; (split; [reflexivity|]; split; [|constructor]; apply Forall2_cons; [cbn; lra|constructor]).
Qed.
(*@ Theorem C79_lookup_refuted : The function ExplicitSolution.u itself is not continuous: the lookup keeps the first region within 1e-7 of x, so for min 1/2 u^2 s.t. x <= u it answers 0 at x = 1e-7 and x just above. *)
Lemma lookup_refuted : exists Huu Hux Hxx fu fx g Au Ax b, mp_data Huu Hux Hxx fu fx Au Ax b 1 1 1 /\
  forall np, exact_np np -> exists q fuel step crs x eps, MultiParametricQuadraticProgram np Huu Hux Hxx fu fx g Au Ax b = Ok q /\ explicit_solve np fuel step q = Ok crs /\ 0 < eps /\
    forall d, 0 < d -> exists y ux uy, norm (vsub y x) < d /\ es_u crs x = Ok (Some ux) /\ es_u crs y = Ok (Some uy) /\ eps <= norm (vsub uy ux).
Proof.
  do 9 eexists. split; [exact ex_data|]. intros np Hnp. destruct (ex_lookup np 0 (/ 100000) Hnp ltac:(unfold tol7; lra)) as (crs & E & _ & H). assert (T : 0 < tol7) by (unfold tol7; lra).
  exists (ex_q ex_I), (3 + 0)%nat, (/ 100000), crs, [tol7], tol7. split; [apply ex_ctor; exact Hnp|]. split; [exact E|]. split; [exact T|]. intros d Hd.
  exists [tol7 + d / 2]. eexists. eexists. split; [|split; [apply H|split; [apply H|]]].
  - cbn. rewrite norm1. rewrite Rabs_right by lra. lra.
  - rewrite (proj2 (Rleb_true tol7 tol7)) by lra. rewrite (proj2 (Rleb_false (tol7 + d / 2) tol7)) by lra. cbn. rewrite norm1. rewrite Rabs_right by lra. lra.
Qed.
(*@ Example C79_example : min 1/2 u^2 s.t. x <= u: the hypotheses of all C79 theorems hold (the objective is jointly convex), the two regions share the point 0, and their value is V(x) = 0 for x <= 0 and 1/2 x^2 for x >= 0. *)
Lemma cont_example np : exact_np np -> exists q crs c0 c1, 
  mp_data (Mat 1 [[1]]) (Mat 1 [[0]]) (Mat 1 [[0]]) [0] [0] (Mat 1 [[-1]]) (Mat 1 [[1]]) [0] 1 1 1 /\
  MultiParametricQuadraticProgram np (Mat 1 [[1]]) (Mat 1 [[0]]) (Mat 1 [[0]]) [0] [0] 0 (Mat 1 [[-1]]) (Mat 1 [[1]]) [0] = Ok q /\
  explicit_solve np 3 (/ 100000) q = Ok crs /\ crs = [c0; c1] /\
  (forall x u, length x = 1%nat -> length u = 1%nat -> 0 <= dot u (mv (Mat 1 [[1]]) u) + 2 * dot u (mv (Mat 1 [[0]]) x) + dot x (mv (Mat 1 [[0]]) x)) /\
  in_poly (cr_poly c0) [0] /\ in_poly (cr_poly c1) [0] /\ in_poly (cr_poly c0) [-2] /\ in_poly (cr_poly c1) [2] /\ cr_V c0 [-2] = 0 /\ cr_V c1 [2] = 2 /\ cr_u c1 [2] = [2].
Proof.
  intros Hnp. destruct (ex_loop np (/ 100000) 0 Hnp ltac:(unfold tol7; lra)) as (e0 & e1 & E). exists (ex_q ex_I). do 3 eexists. split; [exact ex_data|]. split; [apply ex_ctor; exact Hnp|]. split; [exact E|]. split; [reflexivity|].
  split. { intros [|a [|]] [|v [|]] Lx Lu; try discriminate Lx; try discriminate Lu. cbn. nra. }
  do 4 (split; [split; [reflexivity|]; split; [|constructor]; apply Forall2_cons; [cbn; lra|constructor]|]).
  split; [unfold cr_V; cbn [cr_Vxx cr_Vx cr_V0 mv map dot rows]; field|]. split; [unfold cr_V; cbn [cr_Vxx cr_Vx cr_V0 mv map dot rows]; field|]. cbn. f_equal. lra.
Qed.
(*@ Example C79_mpc_example : x+ = x + u with Q = R = P = 1, N = 1, |x| <= 1, |u| <= 1, |x(1)| <= 1: the hypotheses of C79_mpc_convex hold at x1 = 1, x2 = -1, where feedforward answers with V = 3/4. *)
Lemma cont_mpc_example np : exact_np np -> mpc_data S_1 1 I_1 I_1 I_1 D_box X_int 1 1 /\
  exists C us2, ModelPredictiveController np S_1 1 I_1 I_1 I_1 D_box X_int = Ok C /\
    feedforward np C [1] = Ok (Some [[- (1 / 2)]], Some (3 / 4)) /\ feedforward np C [-1] = Ok (Some us2, Some (3 / 4)).
Proof.
  intros Hnp. destruct (mpc_example np Hnp) as (HD & C & EC & EF & _). split; [exact HD|]. exists C, [[1 / 2]]. split; [exact EC|]. split; [exact EF|].
  destruct (feedforward_ok np S_1 1 I_1 I_1 I_1 D_box X_int 1 1 Hnp HD) as (C' & EC' & HC). rewrite EC in EC'. injection EC' as <-.
  assert (AD : mpc_admissible (lA S_1) (lB S_1) 1 1 (in_poly D_box) (in_poly X_int) [-1] [[1 / 2]] [[-1]; [-1 + 1 / 2]]).
  { apply one_step_admissible. eexists. split; [reflexivity|]. split; [reflexivity|]. split; [apply in_D_box; lra|apply in_X_int; lra]. }
  destruct (HC [-1] eq_refl) as (us0 & xs0 & ((A0 & _) & [(_ & _ & HF)|(us & xs & EF' & EB & (AO & HO) & _)])).
  - exfalso. apply one_step_admissible in A0. destruct A0 as (u0 & -> & -> & _). specialize (HF _ _ AD). unfold I_1 in HF. rewrite !one_step_cost in HF. nra.
  - specialize (HO _ _ AD). apply one_step_admissible in AO. destruct AO as (u & -> & -> & _). unfold I_1 in HO, EF'. rewrite !one_step_cost in HO. rewrite one_step_cost in EF'.
    assert (u = 1 / 2) by nra. subst u. rewrite EF'; do 3 f_equal; lra.
Qed.
