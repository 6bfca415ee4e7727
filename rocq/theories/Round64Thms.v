(** * Round64Thms: the rounding-error theorems for float64 (C93, C94), proofs *)
From Flocq Require Import Core Relative.
From Coq Require Import ZArith Permutation.
From Verif Require Import Arr ArrFacts Spec SpecRound Pnnls Polyhedron PolyThms Dynamics Round Round64 RoundThms.

Lemma bpow_pos n : bpow radix2 (Z.of_nat n) = 2 ^ n.
Proof. rewrite bpow_powerRZ. rewrite <- pow_powerRZ. reflexivity. Qed.
Lemma bpow_neg n : bpow radix2 (- Z.of_nat n) = / 2 ^ n.
Proof. rewrite bpow_opp, bpow_pos. reflexivity. Qed.

(*@ Theorem C93_binary64 : rounding to nearest in float64 meets the assumption on rounding with u = 2^-53 and eta = 2^-1075 *)
Lemma binary64_rounding : rounding u64 eta64 binary64.
Proof.
  split; [unfold u64; left; apply Rinv_0_lt_compat, pow_lt; lra|]. split; [unfold eta64; left; apply Rinv_0_lt_compat, pow_lt; lra|]. intros x. unfold binary64.
  destruct (relative_error_N_FLT'_ex radix2 (-1074) 53 eq_refl (fun z => negb (Z.even z)) x) as (e & h & He & Hh & _ & ->).
  assert (U : u_ro radix2 53 = u64). { unfold u_ro, u64. rewrite (bpow_neg 52 : bpow radix2 (- (53) + 1) = _). cbn [pow]. field. }
  assert (T : / 2 * bpow radix2 (-1074) = eta64). { unfold eta64. rewrite (bpow_neg 1074 : bpow radix2 (-1074) = _). rewrite <- Rinv_mult. reflexivity. }
  rewrite U in He. rewrite T in Hh. assert (P : 0 < u64) by (unfold u64; apply Rinv_0_lt_compat, pow_lt; lra).
  assert (He' : Rabs e <= u64). { eapply Rle_trans; [exact He|]. unfold Rdiv. rewrite <- (Rmult_1_r u64) at 3. apply Rmult_le_compat_l; [lra|]. rewrite <- Rinv_1. apply Rinv_le_contravar; lra. }
  replace (x * (1 + e) + h - x) with (x * e + h) by ring. eapply Rle_trans; [apply Rabs_triang|]. rewrite Rabs_mult. pose proof (Rabs_pos x). nra.
Qed.
Lemma pow_bound u n : 0 <= u -> INR n * u < 1 -> (1 + u) ^ n <= / (1 - INR n * u).
Proof.
  intros U. induction n as [|n IH]; intros H; [cbn; rewrite Rmult_0_l, Rminus_0_r, Rinv_1; lra|]. rewrite S_INR in *. cbn [pow].
  assert (0 <= INR n) by apply pos_INR. specialize (IH ltac:(nra)).
  assert (P1 : 0 < 1 - INR n * u) by nra. assert (P2 : 0 < 1 - (INR n + 1) * u) by lra.
  apply (Rmult_le_reg_r (1 - (INR n + 1) * u)); [exact P2|]. rewrite Rinv_l by lra.
  assert (Q : (1 + u) ^ n * (1 - INR n * u) <= 1). { apply (Rmult_le_compat_r (1 - INR n * u)) in IH; [|lra]. rewrite Rinv_l in IH by lra. exact IH. }
  assert (0 < (1 + u) ^ n) by (apply pow_lt; lra). assert ((1 + u) * (1 - (INR n + 1) * u) <= 1 - INR n * u) by nra. nra.
Qed.
Lemma error_small n s : (n <= 1000)%nat -> 0 <= s <= 10 ^ 5 -> rounding_error u64 eta64 n s <= tol7 / 8.
Proof.
  intros N (S0 & S1). eapply Rle_trans; [apply (rounding_error_mono u64 eta64 binary64 binary64_rounding n 1000); assumption|].
  eapply Rle_trans; [apply (rounding_error_le u64 eta64 binary64 binary64_rounding 1000 s (10 ^ 5)); exact S1|]. unfold rounding_error.
  assert (P53 : 2 ^ 53 = 9007199254740992) by (cbn [pow]; ring).
  assert (EU : u64 = / 9007199254740992) by (unfold u64; rewrite P53; reflexivity).
  assert (EE : eta64 <= / 9007199254740992). { unfold eta64. rewrite <- P53. apply Rinv_le_contravar; [apply pow_lt; lra|]. apply Rle_pow; [lra|lia]. }
  assert (E0 : 0 <= eta64) by apply binary64_rounding.
  assert (I1 : INR 1000 = 1000) by (rewrite INR_IZR_INZ; reflexivity). rewrite I1.
  pose proof (pow_bound u64 1000) as PB. rewrite I1 in PB. specialize (PB ltac:(rewrite EU; lra) ltac:(rewrite EU; lra)).
  assert (W : (1 + u64) ^ 1000 <= 1 + 1111 / 10 ^ 16). { eapply Rle_trans; [exact PB|]. rewrite EU. apply (Rmult_le_reg_r (1 - 1000 * / 9007199254740992)); [lra|]. rewrite Rinv_l by lra. lra. }
  assert (1 <= (1 + u64) ^ 1000) by (apply pow_R1_Rle; rewrite EU; lra). set (w := (1 + u64) ^ 1000) in *. unfold tol7. nra.
Qed.
(*@ Theorem C93_float64 : in float64, with the default tolerance, up to 999 dimensions and residuals whose terms add up to at most 10^5 in absolute value: every point of the polyhedron is accepted, however the sums are evaluated, and every accepted point violates each inequality by at most 1.125e-7 *)
Lemma fl_contains_64 p x m n r : wf p m 0 n -> (0 < m)%nat -> length x = n -> (n < 1000)%nat -> (forall i, (i < m)%nat -> abs_dot (row (pA p) i) x + Rabs (nth i (pb p) 0) <= 10 ^ 5) ->
  fl_contains binary64 tol7 p x r -> exists c, r = Ok c /\ (in_poly p x -> c = true) /\ (c = true -> forall i, (i < m)%nat -> dot (row (pA p) i) x <= nth i (pb p) 0 + 9 / 8 / 10 ^ 7).
Proof.
  intros HW Hm Lx Hn HB HR. destruct (fl_contains_points u64 eta64 binary64 tol7 p x (tol7 / 8) m n r) as (c & -> & H1 & H2); auto using binary64_rounding.
  - intros i Hi. replace (nrows (pA p)) with m in Hi by (symmetry; apply HW). apply error_small; [lia|]. split; [|apply HB; exact Hi]. pose proof (abs_dot_nonneg (row (pA p) i) x). pose proof (Rabs_pos (nth i (pb p) 0)). lra.
  - exists c. split; [reflexivity|]. split; [intros HI; apply H1; [exact HI|unfold tol7; lra]|]. intros HC i Hi. specialize (H2 HC i Hi). unfold tol7 in H2. lra.
Qed.
(** values of the rounding function *)
Lemma b64_near x z e : (-1074 <= e)%Z -> bpow radix2 (52 + e) <= Rabs x < bpow radix2 (53 + e) -> Rabs (x * bpow radix2 (- e) - IZR z) < / 2 -> binary64 x = IZR z * bpow radix2 e.
Proof.
  intros E M N. unfold binary64, round, F2R, scaled_mantissa, cexp. assert (MX : mag radix2 x = (53 + e)%Z :> Z). { apply mag_unique. replace (53 + e - 1)%Z with (52 + e)%Z by lia. exact M. }
  rewrite MX. unfold FLT_exp. replace (Z.max (53 + e - 53) (-1074)) with e by lia. cbn [Fnum Fexp]. rewrite (Znearest_imp _ _ z N). reflexivity.
Qed.
Lemma b64_exact z e : (Z.abs z < 2 ^ 53)%Z -> (-1074 <= e)%Z -> float64 (IZR z * bpow radix2 e).
Proof.
  intros H E. unfold float64, binary64. apply round_generic; [apply valid_rnd_N|]. apply generic_format_FLT. apply (FLT_spec _ _ _ _ (Float radix2 z e)); [reflexivity|exact H|exact E].
Qed.
Lemma b64_int z : (Z.abs z < 2 ^ 53)%Z -> float64 (IZR z).
Proof. intros H. replace (IZR z) with (IZR z * bpow radix2 0) by (cbn; ring). apply b64_exact; [exact H|lia]. Qed.
(*@ Theorem C93_far_refuted : in float64, points with large coordinates are misjudged: with floats as data a point of the polyhedron is rejected, and a point that violates the inequality by 1 is accepted *)
Lemma fl_far : exists a x1 x2, Forall float64 [a; x1; x2] /\
  (let P := Poly (Mat 2 [[- a; 1]]) [-1] (Mat 2 []) [] None None None None None in wf P 1 0 2 /\ in_poly P [x1; x2] /\ contains tol7 P [x1; x2] = Ok true /\ fl_contains binary64 tol7 P [x1; x2] (Ok false)) /\
  (let P := Poly (Mat 2 [[a; -1]]) [0] (Mat 2 []) [] None None None None None in wf P 1 0 2 /\ dot [a; -1] [x1; x2] = 0 + 1 /\ contains tol7 P [x1; x2] = Ok false /\ fl_contains binary64 tol7 P [x1; x2] (Ok true)).
Proof.
  set (a := 1073741823). set (y := 1152921502459363328).
  assert (Fa : float64 a) by (apply (b64_int 1073741823); reflexivity).
  assert (Ey : y = IZR 536870911 * bpow radix2 31). { unfold y. rewrite (bpow_pos 31 : bpow radix2 31 = _). cbn [pow]. ring. }
  assert (Fy : float64 y). { rewrite Ey. apply b64_exact; [reflexivity|lia]. }
  assert (M1 : binary64 (a * a) = y).
  { rewrite (b64_near _ 9007199237963776 7); [unfold y; rewrite (bpow_pos 7 : bpow radix2 7 = _); cbn [pow]; ring|lia| |].
    - rewrite (bpow_pos 59 : bpow radix2 (52 + 7) = _), (bpow_pos 60 : bpow radix2 (53 + 7) = _). unfold a. rewrite Rabs_pos_eq by lra. cbn [pow]. lra.
    - rewrite (bpow_neg 7 : bpow radix2 (- (7)) = _). unfold a. cbn [pow]. rewrite Rabs_pos_eq by lra. lra. }
  assert (M2 : binary64 (- a * a) = - y). { rewrite Ropp_mult_distr_l_reverse. unfold binary64. rewrite round_NE_opp. fold (binary64 (a * a)). rewrite M1. reflexivity. }
  assert (Z0 : binary64 0 = 0) by (apply (b64_int 0); reflexivity). assert (Z1 : binary64 1 = 1) by (apply (b64_int 1); reflexivity).
  assert (FN : binary64 (- y) = - y). { unfold binary64. rewrite round_NE_opp. fold (binary64 y). rewrite Fy. reflexivity. }
  exists a, a, y. split; [repeat constructor; assumption|]. split; cbv zeta.
  - split; [unfold wf, shape; cbn; repeat split; repeat constructor|]. split; [|split].
    + split; [reflexivity|]. split; [|constructor]. constructor; [|constructor]. cbn. unfold a, y. lra.
    + unfold contains, np_mv. cbn. f_equal. rewrite andb_true_r. apply Rleb_true. unfold a, y, tol7. lra.
    + exists (Ok 1). split.
      * exists [0]. split.
        -- constructor; [|constructor]. cbn [combine].
           pose proof (fd_add binary64 [(- a, a)] [(1, y)] _ _ ltac:(discriminate) ltac:(discriminate) (fd_one _ _ _) (fd_one _ _ _)) as FF. rewrite M2, Rmult_1_l, Fy in FF. replace (- y + y) with 0 in FF by ring. rewrite Z0 in FF. exact FF.
        -- cbn. f_equal. replace (0 - -1) with 1 by ring. now rewrite Z1.
      * cbn. f_equal. symmetry. apply Rleb_false. unfold tol7. lra.
  - split; [unfold wf, shape; cbn; repeat split; repeat constructor|]. split; [cbn; unfold a, y; lra|]. split.
    + unfold contains, np_mv. cbn. f_equal. rewrite andb_true_r. apply Rleb_false. unfold a, y, tol7. lra.
    + exists (Ok 0). split.
      * exists [0]. split.
        -- constructor; [|constructor]. cbn [combine].
           pose proof (fd_add binary64 [(a, a)] [(-1, y)] _ _ ltac:(discriminate) ltac:(discriminate) (fd_one _ _ _) (fd_one _ _ _)) as FF. rewrite M1 in FF. replace (-1 * y) with (- y) in FF by ring. rewrite FN in FF. replace (y + - y) with 0 in FF by ring. rewrite Z0 in FF. exact FF.
        -- cbn. f_equal. replace (0 - 0) with 0 by ring. now rewrite Z0.
      * cbn. f_equal. symmetry. apply Rleb_true. unfold tol7. lra.
Qed.
