(** * FtaThms: complex numbers and the fundamental theorem of algebra (used for eigenvalues, C92) *)
From Coq Require Import Reals Lra Lia List Classical Ring.
Import ListNotations.
Local Open Scope R_scope.

Record cx := Cx { re : R; im : R }.
Lemma cx_ext z w : re z = re w -> im z = im w -> z = w.
Proof. destruct z, w. cbn. intros -> ->. reflexivity. Qed.
Definition c0 := Cx 0 0.
Definition c1 := Cx 1 0.
Definition cadd z w := Cx (re z + re w) (im z + im w).
Definition cmul z w := Cx (re z * re w - im z * im w) (re z * im w + im z * re w).
Definition copp z := Cx (- re z) (- im z).
Definition csub z w := cadd z (copp w).
Definition cre (a : R) := Cx a 0.
Lemma cx_ring : ring_theory c0 c1 cadd cmul csub copp eq.
Proof. split; intros; unfold csub; try reflexivity; apply cx_ext; cbn; ring. Qed.
Add Ring CxRing : cx_ring.

Definition cmod z := sqrt (re z * re z + im z * im z).
Lemma sq_nn z : 0 <= re z * re z + im z * im z.
Proof. nra. Qed.
Lemma cmod_sq z : cmod z * cmod z = re z * re z + im z * im z.
Proof. apply sqrt_sqrt, sq_nn. Qed.
Lemma cmod_pos z : 0 <= cmod z.
Proof. apply sqrt_pos. Qed.
Lemma cmod_mul z w : cmod (cmul z w) = cmod z * cmod w.
Proof. unfold cmod. rewrite <- sqrt_mult by apply sq_nn. f_equal. cbn. ring. Qed.
Lemma cmod_opp z : cmod (copp z) = cmod z.
Proof. unfold cmod. f_equal. cbn. ring. Qed.
Lemma cmod_re a : cmod (cre a) = Rabs a.
Proof. unfold cmod. cbn. replace (a * a + 0 * 0) with (Rsqr a) by (unfold Rsqr; ring). apply sqrt_Rsqr_abs. Qed.
Lemma cmod_c1 : cmod c1 = 1.
Proof. change c1 with (cre 1). rewrite cmod_re. apply Rabs_R1. Qed.
Lemma cmod_c0 : cmod c0 = 0.
Proof. change c0 with (cre 0). rewrite cmod_re. apply Rabs_R0. Qed.
Lemma cmod_zero z : cmod z = 0 -> z = c0.
Proof. intros H. pose proof (cmod_sq z) as E. rewrite H in E. apply cx_ext; cbn; nra. Qed.
Lemma cmod_nz z : z <> c0 -> 0 < cmod z.
Proof. intros N. destruct (cmod_pos z) as [|E]; [assumption|]. exfalso. apply N, cmod_zero. auto. Qed.
Lemma cmod_tri z w : cmod (cadd z w) <= cmod z + cmod w.
Proof.
  pose proof (cmod_pos z). pose proof (cmod_pos w). pose proof (cmod_sq z) as Ez. pose proof (cmod_sq w) as Ew. pose proof (cmod_sq (cadd z w)) as Es. cbn in Es.
  assert (CS : re z * re w + im z * im w <= cmod z * cmod w).
  { destruct (Rle_lt_dec (re z * re w + im z * im w) 0) as [|L]; [nra|]. apply Rsqr_incr_0; [|lra|nra]. unfold Rsqr.
    replace (cmod z * cmod w * (cmod z * cmod w)) with ((cmod z * cmod z) * (cmod w * cmod w)) by ring. rewrite Ez, Ew. pose proof (Rle_0_sqr (re z * im w - im z * re w)) as Q. unfold Rsqr in Q. nra. }
  apply Rsqr_incr_0; [unfold Rsqr; nra|apply cmod_pos|lra].
Qed.
Lemma cmod_sub z w : cmod z - cmod w <= cmod (cadd z w).
Proof. pose proof (cmod_tri (cadd z w) (copp w)) as H. replace (cadd (cadd z w) (copp w)) with z in H by ring. rewrite cmod_opp in H. lra. Qed.
Lemma cmod_re_le z : Rabs (re z) <= cmod z.
Proof. unfold cmod. rewrite <- sqrt_Rsqr_abs. apply sqrt_le_1_alt. unfold Rsqr. nra. Qed.
Lemma cmod_im_le z : Rabs (im z) <= cmod z.
Proof. unfold cmod. rewrite <- sqrt_Rsqr_abs. apply sqrt_le_1_alt. unfold Rsqr. nra. Qed.
Lemma cmod_le_sum z : cmod z <= Rabs (re z) + Rabs (im z).
Proof.
  pose proof (cmod_tri (cre (re z)) (cmul (Cx 0 1) (cre (im z)))) as H. rewrite cmod_mul, !cmod_re in H.
  replace (cadd (cre (re z)) (cmul (Cx 0 1) (cre (im z)))) with z in H by (apply cx_ext; cbn; ring).
  replace (cmod (Cx 0 1)) with 1 in H by (unfold cmod; cbn; replace (0 * 0 + 1 * 1) with 1 by ring; rewrite sqrt_1; reflexivity). lra.
Qed.
Definition cinv z := let d := re z * re z + im z * im z in Cx (re z / d) (- im z / d).
Lemma cinv_r z : z <> c0 -> cmul z (cinv z) = c1.
Proof.
  intros N. assert (D : re z * re z + im z * im z <> 0). { intros E. apply N. apply cx_ext; cbn; nra. }
  apply cx_ext; unfold cinv; cbn; field; exact D.
Qed.
Lemma cmul_zero z w : cmul z w = c0 -> z = c0 \/ w = c0.
Proof.
  intros H. assert (E : cmod z * cmod w = 0) by (rewrite <- cmod_mul, H; apply cmod_c0). apply Rmult_integral in E. destruct E as [E|E]; [left|right]; apply cmod_zero, E.
Qed.
Fixpoint cpow z k := match k with O => c1 | S k => cmul z (cpow z k) end.
Lemma cmod_pow z k : cmod (cpow z k) = cmod z ^ k.
Proof. induction k as [|k IH]; cbn; [apply cmod_c1|]. rewrite cmod_mul, IH. reflexivity. Qed.
Lemma cpow_mul z w k : cpow (cmul z w) k = cmul (cpow z k) (cpow w k).
Proof. induction k as [|k IH]; cbn; [ring|]. rewrite IH. ring. Qed.
Lemma cpow_re a k : cpow (cre a) k = cre (a ^ k).
Proof. induction k as [|k IH]; cbn; [reflexivity|]. rewrite IH. apply cx_ext; cbn; ring. Qed.

(** ** Roots of complex numbers *)
Lemma polar_unit c s : c * c + s * s = 1 -> exists t, cos t = c /\ sin t = s.
Proof.
  intros H. assert (B : -1 <= c <= 1) by nra. destruct (Rle_lt_dec 0 s) as [P|P].
  - exists (acos c). split; [apply cos_acos; exact B|]. rewrite sin_acos by exact B. unfold Rsqr. replace (1 - c * c) with (s * s) by lra. apply sqrt_square, P.
  - exists (- acos c). split; [rewrite cos_neg; apply cos_acos; exact B|]. rewrite sin_neg, sin_acos by exact B. unfold Rsqr. replace (1 - c * c) with ((- s) * (- s)) by lra. rewrite sqrt_square; lra.
Qed.
Lemma de_moivre t k : cpow (Cx (cos t) (sin t)) k = Cx (cos (INR k * t)) (sin (INR k * t)).
Proof.
  induction k as [|k IH]; [cbn; rewrite Rmult_0_l, cos_0, sin_0; reflexivity|]. change (cpow ?z (S k)) with (cmul z (cpow z k)). rewrite IH, S_INR.
  replace ((INR k + 1) * t) with (t + INR k * t) by ring. rewrite cos_plus, sin_plus. apply cx_ext; cbn; ring.
Qed.
Lemma croot z k : (0 < k)%nat -> exists w, cpow w k = z.
Proof.
  intros Hk. destruct (classic (z = c0)) as [->|N]. { exists c0. destruct k; [lia|]. cbn. ring. }
  pose proof (cmod_nz z N) as P. pose proof (cmod_sq z) as E.
  destruct (polar_unit (re z / cmod z) (im z / cmod z)) as (t & Hc & Hs). { replace (re z / cmod z * (re z / cmod z) + im z / cmod z * (im z / cmod z)) with ((re z * re z + im z * im z) / (cmod z * cmod z)) by (field; lra). rewrite <- E. field. lra. }
  assert (Ik : INR k <> 0) by (apply not_0_INR; lia).
  exists (cmul (cre (Rpower (cmod z) (/ INR k))) (Cx (cos (t / INR k)) (sin (t / INR k)))).
  rewrite cpow_mul, cpow_re, de_moivre. replace (INR k * (t / INR k)) with t by (field; exact Ik).
  rewrite <- Rpower_pow by apply exp_pos. rewrite Rpower_mult, Rinv_l, Rpower_1 by assumption. rewrite Hc, Hs. apply cx_ext; cbn; field; lra.
Qed.

(** ** Polynomials: coefficients from the constant one up *)
Fixpoint pev (l : list cx) (z : cx) : cx := match l with [] => c0 | a :: l => cadd a (cmul z (pev l z)) end.
Inductive monic : nat -> list cx -> Prop :=
| monic_0 : monic 0 [c1]
| monic_S n a l : monic n l -> monic (S n) (a :: l).

Lemma pev_bound l Rr : exists B, forall z, cmod z <= Rr -> cmod (pev l z) <= B.
Proof.
  induction l as [|a l (B & IH)]; cbn.
  - exists 0. intros. rewrite cmod_c0. lra.
  - exists (cmod a + Rr * B). intros z Hz. eapply Rle_trans; [apply cmod_tri|]. rewrite cmod_mul. apply Rplus_le_compat_l. apply Rmult_le_compat; auto using cmod_pos.
Qed.
Lemma pev_lip l Rr : exists L, 0 <= L /\ forall z w, cmod z <= Rr -> cmod w <= Rr -> cmod (csub (pev l z) (pev l w)) <= L * cmod (csub z w).
Proof.
  induction l as [|a l (L & L0 & IH)]; cbn [pev].
  - exists 0. split; [lra|]. intros z w _ _. replace (csub c0 c0) with c0 by ring. rewrite cmod_c0. lra.
  - destruct (pev_bound l Rr) as (B & HB). exists (Rabs Rr * L + Rabs B). split. { pose proof (Rabs_pos Rr). pose proof (Rabs_pos B). nra. }
    intros z w Hz Hw. replace (csub (cadd a (cmul z (pev l z))) (cadd a (cmul w (pev l w)))) with (cadd (cmul z (csub (pev l z) (pev l w))) (cmul (csub z w) (pev l w))) by ring.
    eapply Rle_trans; [apply cmod_tri|]. rewrite !cmod_mul. pose proof (IH z w Hz Hw) as I. pose proof (HB w Hw) as I2. pose proof (cmod_pos z). pose proof (cmod_pos (csub z w)). pose proof (Rle_abs Rr). pose proof (Rle_abs B).
    assert (cmod z * cmod (csub (pev l z) (pev l w)) <= Rabs Rr * (L * cmod (csub z w))) by (apply Rmult_le_compat; auto using cmod_pos; lra).
    assert (cmod (csub z w) * cmod (pev l w) <= cmod (csub z w) * Rabs B) by (apply Rmult_le_compat_l; [assumption|lra]). lra.
Qed.
Lemma monic_one n l : monic n l -> exists Rr, 0 < Rr /\ forall z, Rr <= cmod z -> 1 <= cmod (pev l z).
Proof.
  induction 1 as [|n a l _ (Rr & R0 & IH)].
  - exists 1. split; [lra|]. intros z _. cbn. replace (cadd c1 (cmul z c0)) with c1 by ring. rewrite cmod_c1. lra.
  - exists (Rr + 1 + cmod a). pose proof (cmod_pos a). split; [lra|]. intros z Hz. cbn. pose proof (cmod_sub (cmul z (pev l z)) a) as Q. replace (cadd (cmul z (pev l z)) a) with (cadd a (cmul z (pev l z))) in Q by ring. rewrite cmod_mul in Q. pose proof (IH z ltac:(lra)). nra.
Qed.
Lemma monic_grows n l M : monic (S n) l -> exists Rr, 0 < Rr /\ forall z, Rr <= cmod z -> M <= cmod (pev l z).
Proof.
  intros H. inversion H as [|n' a l' Hm]; subst. destruct (monic_one _ _ Hm) as (Rr & R0 & HR). exists (Rr + Rabs M + cmod a). pose proof (cmod_pos a). pose proof (Rabs_pos M). pose proof (Rle_abs M). split; [lra|].
  intros z Hz. cbn. pose proof (cmod_sub (cmul z (pev l' z)) a) as Q. replace (cadd (cmul z (pev l' z)) a) with (cadd a (cmul z (pev l' z))) in Q by ring. rewrite cmod_mul in Q. pose proof (HR z ltac:(lra)). nra.
Qed.
Lemma monic_div n l a : monic (S n) l -> exists l', monic n l' /\ forall z, pev l z = cadd (cmul (csub z a) (pev l' z)) (pev l a).
Proof.
  revert l. induction n as [|n IH]; intros l H; inversion H as [|n' b l' Hm]; subst.
  - inversion Hm; subst. exists [c1]. split; [constructor|]. intros z. cbn. ring.
  - destruct (IH l' Hm) as (q & Mq & Eq). exists (pev l' a :: q). split; [constructor; exact Mq|]. intros z. cbn. rewrite (Eq z). ring.
Qed.
Lemma monic_mult n l a : monic n l -> exists k r l', monic r l' /\ pev l' a <> c0 /\ forall z, pev l z = cmul (cpow (csub z a) k) (pev l' z).
Proof.
  revert l. induction n as [|n IH]; intros l H.
  - exists 0%nat, 0%nat, l. split; [exact H|]. inversion H; subst. split; [|intros z; cbn; ring]. cbn. replace (cadd c1 (cmul a c0)) with c1 by ring. intros E. apply (f_equal re) in E. cbn in E. lra.
  - destruct (classic (pev l a = c0)) as [E|N].
    + destruct (monic_div n l a H) as (q & Mq & Eq). destruct (IH q Mq) as (k & r & l' & Mr & Nr & Er). exists (S k), r, l'. split; [exact Mr|]. split; [exact Nr|]. intros z. rewrite Eq, E, Er. cbn. ring.
    + exists 0%nat, (S n), l. split; [exact H|]. split; [exact N|]. intros z. cbn. ring.
Qed.

Lemma Rabs_le_inv x a : Rabs x <= a -> - a <= x <= a.
Proof. unfold Rabs. destruct (Rcase_abs x); lra. Qed.
(** ** Minima of Lipschitz functions on squares *)
Lemma lip_continuous (f : R -> R) L x : 0 <= L -> (forall y, Rabs (y - x) <= 1 -> Rabs (f y - f x) <= L * Rabs (y - x)) -> continuity_pt f x.
Proof.
  intros L0 H eps He. assert (P : 0 < eps / (L + 1)) by (apply Rdiv_lt_0_compat; lra). exists (Rmin 1 (eps / (L + 1))). split; [apply Rmin_case; lra|]. intros y (_ & D). cbn in D |- *. unfold R_dist in *.
  pose proof (Rmin_l 1 (eps / (L + 1))). pose proof (Rmin_r 1 (eps / (L + 1))). apply Rle_lt_trans with (L * Rabs (y - x)); [apply H; lra|].
  apply Rle_lt_trans with (L * (eps / (L + 1))); [apply Rmult_le_compat_l; lra|]. replace (L * (eps / (L + 1))) with (eps - eps / (L + 1)) by (field; lra). lra.
Qed.
Lemma square_min (f : R -> R -> R) a : 0 <= a -> (forall b, exists L, 0 <= L /\ forall x y x' y', Rabs x <= b -> Rabs y <= b -> Rabs x' <= b -> Rabs y' <= b -> Rabs (f x y - f x' y') <= L * (Rabs (x - x') + Rabs (y - y'))) ->
  exists x y, Rabs x <= a /\ Rabs y <= a /\ forall x' y', Rabs x' <= a -> Rabs y' <= a -> f x y <= f x' y'.
Proof.
  intros A0 LIP.
  assert (AB : forall b x y, Rabs x <= b -> Rabs (y - x) <= 1 -> Rabs y <= b + 1). { intros b x y H1 H2. pose proof (Rabs_triang x (y - x)) as T. replace (x + (y - x)) with y in T by ring. lra. }
  assert (IV : forall t, Rabs t <= a <-> - a <= t <= a). { intros t. split; [intros H; apply Rabs_le_inv; exact H|apply Rabs_le]. }
  assert (MY : forall x, exists y, - a <= y <= a /\ forall y', - a <= y' <= a -> f x y <= f x y').
  { intros x. destruct (continuity_ab_min (f x) (- a) a ltac:(lra)) as (y & H1 & H2); [|exists y; split; [exact H2|exact H1]].
    intros c Hc. destruct (LIP (Rabs x + a + 1)) as (L & L0 & HL). pose proof (Rabs_pos x). apply (lip_continuous _ L); [exact L0|]. intros y Hy. apply IV in Hc. pose proof (AB a c y Hc Hy).
    replace (L * Rabs (y - c)) with (L * (Rabs (x - x) + Rabs (y - c))) by (rewrite Rminus_diag_eq, Rabs_R0 by reflexivity; ring). apply HL; lra. }
  assert (BD : forall x, bound (fun m => exists y, - a <= y <= a /\ m = - f x y)). { intros x. destruct (MY x) as (y & _ & H). exists (- f x y). intros m (y' & I & ->). pose proof (H y' I). lra. }
  assert (NE : forall x, exists m, (fun m => exists y, - a <= y <= a /\ m = - f x y) m). { intros x. exists (- f x 0), 0. split; [lra|reflexivity]. }
  set (g := fun x => - proj1_sig (completeness _ (BD x) (NE x))).
  assert (G : forall x y, - a <= y <= a -> (forall y', - a <= y' <= a -> f x y <= f x y') -> g x = f x y).
  { intros x y Hy Hm. unfold g. destruct (completeness _ (BD x) (NE x)) as (m & UB & LB). cbn. pose proof (UB (- f x y) ltac:(exists y; auto)). pose proof (LB (- f x y)) as Q. assert (m <= - f x y); [|lra]. apply Q. intros m' (y' & I & ->). pose proof (Hm y' I). lra. }
  destruct (continuity_ab_min g (- a) a ltac:(lra)) as (x & H1 & H2).
  { intros c Hc. destruct (LIP (a + 1)) as (L & L0 & HL). apply (lip_continuous _ L); [exact L0|]. intros x Hx. apply IV in Hc. pose proof (AB a c x Hc Hx) as Bx.
    destruct (MY x) as (y1 & I1 & M1). destruct (MY c) as (y2 & I2 & M2). rewrite (G x y1 I1 M1), (G c y2 I2 M2). pose proof I1 as J1. pose proof I2 as J2. apply IV in J1, J2.
    assert (Q1 : Rabs (f x y1 - f c y1) <= L * (Rabs (x - c) + Rabs (y1 - y1))) by (apply HL; lra). assert (Q2 : Rabs (f x y2 - f c y2) <= L * (Rabs (x - c) + Rabs (y2 - y2))) by (apply HL; lra).
    rewrite (Rminus_diag_eq y1 y1), Rabs_R0, Rplus_0_r in Q1 by reflexivity. rewrite (Rminus_diag_eq y2 y2), Rabs_R0, Rplus_0_r in Q2 by reflexivity.
    pose proof (M1 y2 I2). pose proof (M2 y1 I1). apply Rabs_le_inv in Q1, Q2. apply Rabs_le. lra. }
  destruct (MY x) as (y & Iy & My). exists x, y. split; [apply IV, H2|]. split; [apply IV, Iy|]. intros x' y' Hx' Hy'. apply IV in Hx', Hy'. destruct (MY x') as (y2 & I2 & M2).
  pose proof (H1 x' Hx') as Q. rewrite (G x y Iy My), (G x' y2 I2 M2) in Q. pose proof (M2 y' Hy'). lra.
Qed.

(** ** The fundamental theorem *)
Lemma poly_min n l : monic (S n) l -> exists z, forall w, cmod (pev l z) <= cmod (pev l w).
Proof.
  intros H. destruct (monic_grows n l (cmod (pev l c0)) H) as (Rr & R0 & HR).
  destruct (square_min (fun x y => cmod (pev l (Cx x y))) Rr ltac:(lra)) as (x & y & _ & _ & Hm).
  - intros b. destruct (pev_lip l (Rabs b + Rabs b)) as (L & L0 & HL). exists L. split; [exact L0|]. intros x y x' y' Hx Hy Hx' Hy'. pose proof (Rle_abs b).
    assert (S1 : cmod (Cx x y) <= Rabs b + Rabs b) by (eapply Rle_trans; [apply cmod_le_sum|]; cbn; lra). assert (S2 : cmod (Cx x' y') <= Rabs b + Rabs b) by (eapply Rle_trans; [apply cmod_le_sum|]; cbn; lra).
    pose proof (HL _ _ S1 S2) as Q. pose proof (cmod_le_sum (csub (Cx x y) (Cx x' y'))) as Q2. cbn in Q2. change (x + - x') with (x - x') in Q2. change (y + - y') with (y - y') in Q2.
    assert (Q3 : L * cmod (csub (Cx x y) (Cx x' y')) <= L * (Rabs (x - x') + Rabs (y - y'))) by (apply Rmult_le_compat_l; assumption).
    pose proof (cmod_sub (pev l (Cx x y)) (copp (pev l (Cx x' y')))) as Q4. rewrite cmod_opp in Q4. pose proof (cmod_sub (pev l (Cx x' y')) (copp (pev l (Cx x y)))) as Q5. rewrite cmod_opp in Q5.
    replace (cadd (pev l (Cx x' y')) (copp (pev l (Cx x y)))) with (copp (csub (pev l (Cx x y)) (pev l (Cx x' y')))) in Q5 by ring. rewrite cmod_opp in Q5. change (cadd (pev l (Cx x y)) (copp (pev l (Cx x' y')))) with (csub (pev l (Cx x y)) (pev l (Cx x' y'))) in Q4.
    apply Rabs_le. lra.
  - exists (Cx x y). intros w. destruct (Rle_lt_dec Rr (cmod w)) as [G|G].
    + eapply Rle_trans; [apply (Hm 0 0); rewrite Rabs_R0; lra|]. apply HR, G.
    + destruct w as [u v]. apply Hm; [eapply Rle_trans; [apply (cmod_re_le (Cx u v))|lra]|eapply Rle_trans; [apply (cmod_im_le (Cx u v))|lra]].
Qed.
Lemma poly_descend n l z : monic (S n) l -> pev l z <> c0 -> exists w, cmod (pev l w) < cmod (pev l z).
Proof.
  intros H N. destruct (monic_div n l z H) as (q & Mq & Eq). destruct (monic_mult n q z Mq) as (k & r & l' & _ & Nl & El).
  destruct (croot (copp (cmul (pev l z) (cinv (pev l' z)))) (S k) ltac:(lia)) as (w & Hw).
  destruct (pev_lip l' (cmod z + cmod w)) as (L & L0 & HL). pose proof (cmod_nz _ N) as P. pose proof (cmod_pos w) as W0. pose proof (cmod_pos z) as Z0.
  set (D := cmod (cpow w (S k)) * (L * cmod w)). assert (D0 : 0 <= D) by (unfold D; pose proof (cmod_pos (cpow w (S k))); pose proof (Rmult_le_pos L (cmod w) L0 W0); nra).
  set (t := cmod (pev l z) / (cmod (pev l z) + D + 1)). assert (T0 : 0 < t) by (apply Rdiv_lt_0_compat; lra). assert (T1 : t < 1). { unfold t. apply (Rmult_lt_reg_r (cmod (pev l z) + D + 1)); [lra|]. unfold Rdiv. rewrite Rmult_assoc, Rinv_l by lra. lra. }
  assert (TD : t * D < cmod (pev l z)). { unfold t. apply (Rmult_lt_reg_r (cmod (pev l z) + D + 1)); [lra|]. replace (cmod (pev l z) / (cmod (pev l z) + D + 1) * D * (cmod (pev l z) + D + 1)) with (cmod (pev l z) * D) by (field; lra). nra. }
  assert (TK : 0 < t ^ S k <= 1). { split; [apply pow_lt, T0|]. rewrite <- (pow1 (S k)). apply pow_incr. lra. }
  set (x := cadd z (cmul (cre t) w)). exists x.
  assert (EX : pev l x = cadd (cmul (cre (1 - t ^ S k)) (pev l z)) (cmul (cre (t ^ S k)) (cmul (cpow w (S k)) (csub (pev l' x) (pev l' z))))).
  { rewrite Eq, El. replace (cmul (csub x z) (cmul (cpow (csub x z) k) (pev l' x))) with (cmul (cpow (csub x z) (S k)) (pev l' x)) by (cbn; ring).
    replace (csub x z) with (cmul (cre t) w) by (unfold x; ring). rewrite cpow_mul, cpow_re.
    assert (EW : cmul (cpow w (S k)) (pev l' z) = copp (pev l z)). { rewrite Hw. replace (cmul (copp (cmul (pev l z) (cinv (pev l' z)))) (pev l' z)) with (copp (cmul (pev l z) (cmul (pev l' z) (cinv (pev l' z))))) by ring. rewrite cinv_r by exact Nl. ring. }
    replace (cmul (cpow w (S k)) (csub (pev l' x) (pev l' z))) with (csub (cmul (cpow w (S k)) (pev l' x)) (cmul (cpow w (S k)) (pev l' z))) by ring. rewrite EW.
    replace (cre (1 - t ^ S k)) with (csub c1 (cre (t ^ S k))) by (apply cx_ext; cbn; ring). ring. }
  rewrite EX. eapply Rle_lt_trans; [apply cmod_tri|]. rewrite !cmod_mul, !cmod_re. rewrite (Rabs_pos_eq (1 - t ^ S k)) by lra. rewrite (Rabs_pos_eq (t ^ S k)) by lra.
  assert (XZ : cmod (csub (pev l' x) (pev l' z)) <= L * (t * cmod w)).
  { eapply Rle_trans; [apply HL|]; [|lra|].
    - unfold x. eapply Rle_trans; [apply cmod_tri|]. rewrite cmod_mul, cmod_re, Rabs_pos_eq by lra. nra.
    - replace (csub x z) with (cmul (cre t) w) by (unfold x; ring). rewrite cmod_mul, cmod_re, Rabs_pos_eq by lra. lra. }
  assert (cmod (cpow w (S k)) * cmod (csub (pev l' x) (pev l' z)) <= t * D).
  { unfold D. replace (t * (cmod (cpow w (S k)) * (L * cmod w))) with (cmod (cpow w (S k)) * (L * (t * cmod w))) by ring. apply Rmult_le_compat_l; [apply cmod_pos|exact XZ]. }
  assert (t ^ S k * (cmod (cpow w (S k)) * cmod (csub (pev l' x) (pev l' z))) <= t ^ S k * (t * D)) by (apply Rmult_le_compat_l; lra).
  assert (t ^ S k * (t * D) < t ^ S k * cmod (pev l z)) by (apply Rmult_lt_compat_l; lra). lra.
Qed.
Theorem fundamental_theorem n l : monic (S n) l -> exists z, pev l z = c0.
Proof.
  intros H. destruct (poly_min n l H) as (z & Hz). exists z. destruct (classic (pev l z = c0)) as [|N]; [assumption|exfalso]. destruct (poly_descend n l z H N) as (w & Hw). pose proof (Hz w). lra.
Qed.
