(** * RoundValThms: the stored optimal value in rounded arithmetic (C103), proofs *)
From Coq Require Import Lra Lia.
From Verif Require Import Arr ArrFacts Spec SpecMpc SpecDyn SpecEig SpecRound SpecValue Numpy Pnnls PnnlsFacts QpFacts Polyhedron PolyThms Dynamics Mpqp MpqpThms TolThms Controllers CtrlThms Round RoundExpl RoundValue RoundThms RoundSimThms Round64 Round64Thms RoundPwaThms RoundExplThms ExplGapThms ExplValThms.
Local Open Scope list_scope.
(** ** Quadratic forms *)
Lemma dot_pert (y : vec) : forall Y e x, length y = length x -> length Y = length x -> length e = length x -> (forall i, (i < length x)%nat -> Rabs (nth i y 0 - nth i Y 0) <= nth i e 0) ->
  Rabs (dot y x - dot Y x) <= dot e (map Rabs x) /\ SpecRound.abs_dot y x <= SpecRound.abs_dot Y x + dot e (map Rabs x).
Proof.
  induction y as [|a y IH]; intros [|b Y] [|c e] [|z x] L1 L2 L3 H; try discriminate; [cbn; rewrite Rminus_0_r, Rabs_R0; unfold SpecRound.abs_dot; cbn; lra|].
  cbn in L1, L2, L3. destruct (IH Y e x ltac:(lia) ltac:(lia) ltac:(lia) (fun i Hi => H (Datatypes.S i) ltac:(cbn; lia))) as (I1 & I2). specialize (H 0%nat ltac:(cbn; lia)). cbn [nth] in H. unfold SpecRound.abs_dot in *. cbn [map dot].
  pose proof (Rabs_pos z) as PZ. assert (HZ : Rabs ((a - b) * z) <= c * Rabs z) by (rewrite Rabs_mult; apply Rmult_le_compat_r; assumption). split.
  - replace (a * z + dot y x - (b * z + dot Y x)) with ((a - b) * z + (dot y x - dot Y x)) by ring. eapply Rle_trans; [apply Rabs_triang|]. lra.
  - pose proof (Rabs_triang b (a - b)) as T. replace (b + (a - b)) with a in T by ring. assert (Rabs a * Rabs z <= (Rabs b + c) * Rabs z) by (apply Rmult_le_compat_r; lra). lra.
Qed.
Lemma dot_affine {A} (g : A -> R) al be l : forall y, length l = length y -> dot (map (fun r => al * g r + be) l) y = al * dot (map g l) y + be * vsum y.
Proof. induction l as [|r l IH]; intros [|a y] L; try discriminate; [cbn; ring|]. cbn in L. cbn [map dot vsum fold_right]. rewrite IH by lia. unfold vsum. ring. Qed.
Lemma abs_form_nonneg M x : 0 <= abs_form M x.
Proof.
  unfold abs_form. generalize (rows M) as l. set (g := fun r : vec => SpecRound.abs_dot r x). assert (G : forall r, 0 <= g r) by (intros r; apply abs_dot_nonneg). clearbody g. induction x as [|a x IH]; intros [|r l]; cbn [map dot]; try lra. pose proof (IH l). pose proof (Rmult_le_pos _ _ (G r) (Rabs_pos a)). lra.
Qed.
Lemma abs_form_tr M n x : shape M n n -> length x = n -> abs_form (tr M) x = abs_form M x.
Proof.
  intros SM Lx. set (aM := Mat (ncols M) (map (map Rabs) (rows M))). set (ax := map Rabs x). assert (La : length ax = n) by (unfold ax; rewrite map_length; exact Lx).
  assert (SA : shape aM n n). { destruct SM as (S1 & S2 & S3). unfold aM. split; [cbn; rewrite map_length; exact S1|]. split; [exact S2|]. cbn. apply Forall_forall. intros r Hr. apply in_map_iff in Hr. destruct Hr as (r0 & <- & I0). rewrite map_length. rewrite Forall_forall in S3. apply S3, I0. }
  assert (F : forall P, map (fun r => SpecRound.abs_dot r x) P = mv (Mat n (map (map Rabs) P)) ax) by (intros P; unfold mv; cbn [rows]; rewrite map_map; reflexivity).
  assert (ET : Mat n (map (map Rabs) (rows (tr M))) = tr aM).
  { unfold tr, aM. cbn [rows ncols]. rewrite !map_length. destruct SM as (S1 & _ & _). unfold nrows in S1. f_equal; [lia|]. rewrite map_map. apply map_ext. intros j. rewrite !map_map. apply map_ext. intros r. rewrite <- Rabs_R0 at 2. symmetry. apply map_nth. }
  unfold abs_form. fold ax. rewrite !F, ET. rewrite (dot_mv_tr aM n n) by assumption. rewrite dot_comm. f_equal.
Qed.
Section Form.
Variables (u eta : R) (rnd : R -> R).
Hypothesis RND : rounding u eta rnd.
Definition near (k : nat) (E P al a : R) : Prop := Rabs al <= P /\ 0 <= E /\ Rabs (a - al) <= ((1 + u) ^ k - 1) * P + E * (1 + u) ^ k * eta.
Lemma near_mono k k' E E' P al a : (k <= k')%nat -> E <= E' -> near k E P al a -> near k' E' P al a.
Proof.
  intros K HE (H1 & H2 & H3). split; [exact H1|]. split; [lra|]. eapply Rle_trans; [exact H3|]. pose proof (pow_mono1 u eta rnd RND k k' K) as PM. pose proof (pow_ge1 u eta rnd RND k) as P1. destruct RND as (_ & Pe & _). pose proof (Rabs_pos al) as PA.
  assert (X1 : ((1 + u) ^ k - 1) * P <= ((1 + u) ^ k' - 1) * P) by (apply Rmult_le_compat_r; lra). assert (X2 : E * (1 + u) ^ k <= E' * (1 + u) ^ k') by (apply Rmult_le_compat; lra). assert (X3 : E * (1 + u) ^ k * eta <= E' * (1 + u) ^ k' * eta) by (apply Rmult_le_compat_r; lra). lra.
Qed.
Lemma near_add k E F P Q al be a b : near k E P al a -> near k F Q be b -> near (k + 1) (E + F + 1) (P + Q) (al + be) (rnd (a + b)).
Proof.
  intros (H1 & H2 & H3) (G1 & G2 & G3). split; [eapply Rle_trans; [apply Rabs_triang|]; lra|]. split; [lra|]. apply (err_add u eta rnd RND (k + 1) k k (E + F + 1) E F); try lia; try lra; assumption.
Qed.
Lemma near_exact P al : Rabs al <= P -> near 0 0 P al al.
Proof. intros H. split; [exact H|]. split; [lra|]. rewrite Rminus_diag_eq by reflexivity. rewrite Rabs_R0. cbn. lra. Qed.
Lemma near_half k E P al a : near k E P al a -> near (k + 1) (E / 2 + 1) (P / 2) (al / 2) (rnd (/ 2 * a)).
Proof.
  intros (H1 & H2 & H3). split; [unfold Rdiv; rewrite Rabs_mult, (Rabs_right (/ 2)) by lra; lra|]. split; [lra|]. assert (H : Rabs (/ 2 * a - al / 2) <= / 2 * (((1 + u) ^ k - 1) * P + E * (1 + u) ^ k * eta)) by (replace (/ 2 * a - al / 2) with (/ 2 * (a - al)) by field; rewrite Rabs_mult, (Rabs_right (/ 2)) by lra; lra).
  apply (round_err u eta rnd RND) in H. eapply Rle_trans; [exact H|]. pose proof RND as (U & Pe & _). assert (HA : Rabs (al / 2) <= P / 2) by (unfold Rdiv; rewrite Rabs_mult, (Rabs_right (/ 2)) by lra; lra). assert (UA : u * Rabs (al / 2) <= u * (P / 2)) by (apply Rmult_le_compat_l; assumption).
  rewrite pow_add, pow_1. pose proof (pow_ge1 u eta rnd RND k) as P1. set (w := (1 + u) ^ k) in *. assert (X : eta <= w * (1 + u) * eta) by (rewrite <- (Rmult_1_l eta) at 1; apply Rmult_le_compat_r; [exact Pe|]; nra).
  replace ((w * (1 + u) - 1) * (P / 2) + (E / 2 + 1) * (w * (1 + u)) * eta) with ((1 + u) * (/ 2 * ((w - 1) * P + E * w * eta)) + u * (P / 2) + w * (1 + u) * eta) by field. lra.
Qed.
Lemma form_near M n x y s : shape M n n -> length x = n -> fl_mv rnd M x y -> fl_dot rnd (combine y x) s -> near (2 * n) (2 * INR n * (vsum (map Rabs x) + 1)) (abs_form M x) (dot (mv M x) x) s.
Proof.
  intros SM Lx Hy Hs. pose proof (fl_mv_len _ _ _ _ _ _ SM Hy) as Ly. pose proof (row_err u eta rnd RND y x s ltac:(lia) Hs) as HS. rewrite Lx in HS. set (e := map (fun r => ((1 + u) ^ n - 1) * SpecRound.abs_dot r x + 2 * INR n * (1 + u) ^ n * eta) (rows M)).
  assert (LM : length (rows M) = n) by apply SM. assert (Le : length e = n) by (unfold e; rewrite map_length; exact LM). assert (LY : length (mv M x) = n) by (rewrite mv_length; exact LM).
  destruct (dot_pert y (mv M x) e x ltac:(lia) ltac:(lia) ltac:(lia)) as (D1 & D2).
  { intros i Hi. rewrite nth_mv. pose proof (fl_mv_err u eta rnd M x y n n i RND SM Lx Hy ltac:(lia)) as Q. fold (row M i). eapply Rle_trans; [exact Q|]. right. unfold e. rewrite (nth_indep _ 0 ((fun r => ((1 + u) ^ n - 1) * SpecRound.abs_dot r x + 2 * INR n * (1 + u) ^ n * eta) [])) by (rewrite map_length; lia). rewrite (map_nth (fun r => ((1 + u) ^ n - 1) * SpecRound.abs_dot r x + 2 * INR n * (1 + u) ^ n * eta)). reflexivity. }
  assert (DE : dot e (map Rabs x) = ((1 + u) ^ n - 1) * abs_form M x + 2 * INR n * (1 + u) ^ n * eta * vsum (map Rabs x)) by (unfold e; rewrite (dot_affine (fun r => SpecRound.abs_dot r x)) by (rewrite map_length; lia); reflexivity).
  assert (AY : SpecRound.abs_dot (mv M x) x <= abs_form M x). { unfold SpecRound.abs_dot at 1, abs_form. unfold mv. rewrite map_map. clear. generalize (rows M) as l. intros l. set (g := fun r : vec => Rabs (dot r x)). set (h := fun r => SpecRound.abs_dot r x). assert (G : forall r, g r <= h r) by (intros r; apply dot_le_abs). clearbody g h. revert x. induction l as [|r l IH]; intros [|a x]; cbn [map dot]; try lra. specialize (IH x). pose proof (Rmult_le_compat_r (Rabs a) _ _ (Rabs_pos a) (G r)). lra. }
  pose proof (abs_form_nonneg M x) as PA. pose proof (pos_INR n) as PN. assert (PV : 0 <= vsum (map Rabs x)) by (clear; induction x as [|a x IH]; cbn; [lra|pose proof (Rabs_pos a); unfold vsum in IH; lra]). pose proof RND as (U & Pe & _). pose proof (pow_ge1 u eta rnd RND n) as P1.
  split; [eapply Rle_trans; [apply dot_le_abs|exact AY]|]. split; [apply Rmult_le_pos; lra|].
  replace (s - dot (mv M x) x) with ((s - dot y x) + (dot y x - dot (mv M x) x)) by ring. eapply Rle_trans; [apply Rabs_triang|]. rewrite DE in D1, D2. set (A := abs_form M x) in *. set (X := vsum (map Rabs x)) in *. replace (2 * n)%nat with (n + n)%nat by lia. rewrite pow_add. set (w := (1 + u) ^ n) in *. set (k := INR n) in *.
  assert (HS2 : Rabs (s - dot y x) <= (w - 1) * (A + ((w - 1) * A + 2 * k * w * eta * X)) + 2 * k * w * eta). { eapply Rle_trans; [exact HS|]. unfold rounding_error. fold w k. apply Rplus_le_compat_r. apply Rmult_le_compat_l; [lra|]. lra. }
  assert (KE : 0 <= 2 * k * w * eta) by (repeat apply Rmult_le_pos; lra). assert (KW : 2 * k * w * eta <= 2 * k * w * eta * w) by (rewrite <- (Rmult_1_r (2 * k * w * eta)) at 1; apply Rmult_le_compat_l; lra).
  replace ((w * w - 1) * A + 2 * k * (X + 1) * (w * w) * eta) with (((w - 1) * (A + ((w - 1) * A + 2 * k * w * eta * X)) + ((w - 1) * A + 2 * k * w * eta * X)) + 2 * k * w * eta * w) by ring. lra.
Qed.
Lemma fl_cr_V_err0 c x v n : shape (cr_Vxx c) n n -> length (cr_Vx c) = n -> length x = n -> fl_cr_V rnd c x v ->
  Rabs (v - cr_V c x) <= value_error u eta n (abs_form (cr_Vxx c) x / 2 + SpecRound.abs_dot (cr_Vx c) x + Rabs (cr_V0 c)) x.
Proof.
  intros SV LV Lx (y & s & l & Hy & Hs & Hl & ->). assert (ST : shape (tr (cr_Vxx c)) n n) by eauto with shp. pose proof (form_near _ n x y s ST Lx Hy Hs) as N1. rewrite (abs_form_tr _ n x SV Lx), (dot_mv_tr _ n n x x SV Lx) in N1. apply near_half in N1.
  assert (N2 : near n (2 * INR n) (SpecRound.abs_dot (cr_Vx c) x) (dot (cr_Vx c) x) l) by (split; [apply dot_le_abs|]; split; [pose proof (pos_INR n); lra|]; pose proof (row_err u eta rnd RND (cr_Vx c) x l ltac:(lia) Hl) as Q; rewrite Lx in Q; exact Q).
  apply (near_mono n (2 * n + 1) _ (2 * INR n)) in N2; [|lia|lra]. pose proof (near_add _ _ _ _ _ _ _ _ _ N1 N2) as N3. pose proof (near_mono 0 (2 * n + 1 + 1) 0 0 _ _ _ ltac:(lia) ltac:(lra) (near_exact _ (cr_V0 c) (Rle_refl _))) as N4. pose proof (near_add _ _ _ _ _ _ _ _ _ N3 N4) as (_ & _ & N5).
  unfold cr_V, value_error. replace (2 * n + 3)%nat with (2 * n + 1 + 1 + 1)%nat by lia. replace (/ 2 * dot x (mv (cr_Vxx c) x)) with (dot x (mv (cr_Vxx c) x) / 2) by (unfold Rdiv; ring).
  eapply Rle_trans; [exact N5|]. apply Rplus_le_compat_l. right. field.
Qed.
End Form.
(*@ Theorem C103_form : The value of a critical region, evaluated with rounded operations in any order of summation, differs from the exact one by at most the error of 2 n + 3 roundings, n the number of parameters *)
Lemma fl_cr_V_err u eta rnd : rounding u eta rnd -> forall c x v n, shape (cr_Vxx c) n n -> length (cr_Vx c) = n -> length x = n -> fl_cr_V rnd c x v ->
  Rabs (v - cr_V c x) <= value_error u eta n (abs_form (cr_Vxx c) x / 2 + SpecRound.abs_dot (cr_Vx c) x + Rabs (cr_V0 c)) x.
Proof. intros RND c x v n H1 H2 H3 H4. exact (fl_cr_V_err0 u eta rnd RND c x v n H1 H2 H3 H4). Qed.
(** ** The stored table *)
Lemma loop_values np q fuel step : forall buf crs res, Forall (fun c' => exists act c, explicit_solve_given_active_set np q act = Ok (Some c) /\ same_region c c' /\ cr_Vxx c' = cr_Vxx c /\ cr_Vx c' = cr_Vx c) crs ->
  explicit_loop np fuel step q buf crs = Ok res -> Forall (fun c' => exists act c, explicit_solve_given_active_set np q act = Ok (Some c) /\ same_region c c' /\ cr_Vxx c' = cr_Vxx c /\ cr_Vx c' = cr_Vx c) res.
Proof.
  induction fuel as [|fuel IH]; intros buf crs res F; cbn [explicit_loop]; [discriminate|].
  destruct buf as [|xg0 buf0]; [intros E; injection E as <-; exact F|].
  destruct (uncovered crs (xg0 :: buf0)) as [buf'|e]; cbn [bind]; [|discriminate]. destruct buf' as [|(x & guess) rest]; [intros E; injection E as <-; exact F|].
  destruct (explicit_solve_given_point np q x (Some guess)) as [[c|]|e] eqn:E; cbn [bind]; [|apply IH; exact F|discriminate].
  destruct (point_some _ _ _ _ _ E) as (act & Ea).
  pose proof (facets_fields np tol7 (cr_poly c)) as Q. cbv zeta in Q. destruct (minimal_facets np tol7 (cr_poly c)) as [[[mf|]|e] p']; cbn [snd] in Q; try discriminate.
  destruct (mapM _ mf) as [new|e]; cbn [bind]; [|discriminate]. apply IH. apply Forall_app. split; [exact F|]. constructor; [|constructor].
  exists act, c. split; [exact Ea|]. split; [|split; reflexivity]. split; [reflexivity|]. split; [reflexivity|]. split; [reflexivity|]. exact Q.
Qed.
Lemma value_shape np q nu nx m act cr : exact_np np -> MpqpThms.coherent q nu nx m -> explicit_solve_given_active_set np q act = Ok (Some cr) -> shape (cr_Vxx cr) nx nx /\ length (cr_Vx cr) = nx.
Proof.
  intros Hnp Hq E. destruct (region_shape np q nu nx m act cr Hnp Hq E) as (SU & LU). pose proof Hq as (H1 & PD & H2 & H3 & L1 & L2 & _).
  assert (FX : cr_Vxx cr = madd (madd (mm (mm (tr (cr_ux cr)) (q_Huu q)) (cr_ux cr)) (mscale 2 (mm (tr (q_Hux q)) (cr_ux cr)))) (q_Hxx q) /\ cr_Vx cr = vadd (vadd (mv (madd (mm (tr (cr_ux cr)) (tr (q_Huu q))) (tr (q_Hux q))) (cr_u0 cr)) (mv (tr (cr_ux cr)) (q_fu q))) (q_fx q)).
  { unfold explicit_solve_given_active_set in E. destruct (negb _); [discriminate E|]. cbn zeta in E. destruct (_ && _)%bool; [discriminate E|]. match type of E with bind ?e _ = _ => destruct e as [M|]; [|discriminate E] end. cbn [bind] in E. match type of E with bind ?e _ = _ => destruct e as [p|]; [|discriminate E] end. cbn [bind] in E. injection E as <-. split; reflexivity. }
  destruct FX as (-> & ->). assert (T1 : shape (tr (cr_ux cr)) nx nu) by eauto with shp. assert (T2 : shape (tr (q_Hux q)) nx nu) by eauto with shp. assert (T3 : shape (tr (q_Huu q)) nu nu) by eauto with shp. split.
  - repeat (apply shape_madd || apply shape_mscale || eapply shape_mm); eauto with shp.
  - assert (SM : shape (madd (mm (tr (cr_ux cr)) (tr (q_Huu q))) (tr (q_Hux q))) nx nu) by (apply shape_madd; [eapply shape_mm; eauto|exact T2]). rewrite !vadd_length, !mv_length, (proj1 SM), (proj1 T1). lia.
Qed.
Lemma fl_cr_V_total rnd c x : exists v, fl_cr_V rnd c x v.
Proof. destruct (fl_mv_total rnd (tr (cr_Vxx c)) x) as (y & Hy). destruct (fl_dot_total rnd (combine y x)) as (s & Hs). destruct (fl_dot_total rnd (combine (cr_Vx c) x)) as (l & Hl). eexists. exists y, s, l. split; [exact Hy|]. split; [exact Hs|]. split; [exact Hl|reflexivity]. Qed.
(*@ Theorem C103_explicit : The stored value of a quadratic program, looked up and evaluated with rounded operations in any order: there is a constant c of the problem such that the evaluation never raises, and returns either None, in which case no region contains the parameter if the rounding errors E of the residuals are at most 1e-7, or a number that differs from the optimal value at the parameter, if the program is feasible there, by at most c (1e-7 + E) (1 + |x| + 1e-7 + E) + G, where G bounds the rounding errors of the quadratic functions *)
Lemma value_rounded np Huu Hux Hxx fu fx g Au Ax b nu nx m q fuel step crs :
  exact_np np -> mp_data Huu Hux Hxx fu fx Au Ax b nu nx m -> (0 < m)%nat -> MultiParametricQuadraticProgram np Huu Hux Hxx fu fx g Au Ax b = Ok q -> explicit_solve np fuel step q = Ok crs ->
  exists c, 0 <= c /\ forall u eta rnd x E G, rounding u eta rnd -> length x = nx -> 0 <= E ->
    (forall cr, In cr crs -> residual_bound u eta E (pA (cr_poly cr)) (pb (cr_poly cr)) x /\ value_error u eta nx (abs_form (cr_Vxx cr) x / 2 + SpecRound.abs_dot (cr_Vx cr) x + Rabs (cr_V0 cr)) x <= G) ->
    (exists r, fl_es_V rnd crs x r) /\ forall r, fl_es_V rnd crs x r ->
      (r = Ok None /\ (E <= tol7 -> forall cr, In cr crs -> ~ in_poly (cr_poly cr) x)) \/
      exists v, r = Ok (Some v) /\ forall w, mp_minimizer Huu Hux Hxx fu fx g Au Ax b x w -> Rabs (v - mp_cost Huu Hux Hxx fu fx g x w) <= c * (tol7 + E) * (1 + sup x + (tol7 + E)) + G.
Proof.
  intros Hnp D Hm E1 E2. destruct (explicit_value np _ _ _ _ _ _ _ _ _ _ _ _ q fuel step crs Hnp D E1 E2) as (c & Pc & HV). exists c. split; [exact Pc|]. intros u eta rnd x E G RN Lx PE HB.
  destruct (constructed _ _ _ _ _ _ _ _ _ _ _ _ _ _ Hnp D E1) as (Hq & Hi & Eq). pose proof (loop_values np q fuel step _ [] crs (Forall_nil _) E2) as FF. rewrite Forall_forall in FF.
  assert (RG : forall cr, In cr crs -> wf (cr_poly cr) m 0 nx /\ shape (cr_Vxx cr) nx nx /\ length (cr_Vx cr) = nx).
  { intros cr I. destruct (FF cr I) as (act & c0 & Ea & (_ & _ & _ & F1 & F2 & F3 & F4) & U1 & U2). destruct (some_region np q nu nx m act c0 Hnp Hq Ea) as (_ & _ & (_ & _ & W & _)). rewrite U1, U2. split; [unfold wf in *; rewrite F1, F2, F3, F4; exact W|]. apply (value_shape np q nu nx m act c0 Hnp Hq Ea). }
  assert (TB : table_ok crs nx) by (apply Forall_forall; intros cr I; exists m; split; [lia|apply RG, I]).
  destruct (fl_lookup_ok u eta rnd crs x E nx RN TB Lx (fun cr I => proj1 (HB cr I))) as ((r0 & Hr0) & HL). split.
  - destruct (HL r0 Hr0) as [(-> & _)|(pre & cr & post & _ & -> & _)]; [exists (Ok None), (Ok None); auto|]. destruct (fl_cr_V_total rnd cr x) as (v & Hv). exists (Ok (Some v)), (Ok (Some cr)). eauto.
  - intros r (k & Hk & HK). destruct (HL k Hk) as [(-> & NN)|(pre & cr & post & EC & -> & HW & _)].
    + left. split; [exact HK|]. intros HE cr I Hx. destruct (fl_lookup_covered u eta rnd crs x E nx cr (Ok None) RN TB Lx (fun cr I => proj1 (HB cr I)) HE I Hx Hk) as (c' & X & _). discriminate X.
    + right. destruct HK as (v & Hv & ->). exists v. split; [reflexivity|]. intros w HM. assert (I : In cr crs) by (rewrite EC; apply in_or_app; right; left; reflexivity). destruct (RG cr I) as (_ & SV & LV). pose proof (fl_cr_V_err u eta rnd RN cr x v nx SV LV Lx Hv) as B1. pose proof (proj2 (HB cr I)) as B2. assert (T7 : 0 < tol7) by (unfold tol7; lra).
      pose proof (HV cr (tol7 + E) x w I ltac:(lra) Lx HW HM) as B3. replace (v - mp_cost Huu Hux Hxx fu fx g x w) with ((v - cr_V cr x) + (cr_V cr x - mp_cost Huu Hux Hxx fu fx g x w)) by ring. eapply Rle_trans; [apply Rabs_triang|]. lra.
Qed.
(*@ Theorem C103_float64 : In float64, up to 498 parameters, terms that add up to at most 10^5 and entries of x that add up to at most 10^5: the rounding error of the value is at most 2.5e-8 *)
Lemma value_64 n s x : (n < 499)%nat -> 0 <= s <= 10 ^ 5 -> vsum (map Rabs x) <= 10 ^ 5 -> value_error u64 eta64 n s x <= / 4 / 10 ^ 7.
Proof.
  intros Hn Hs HX. unfold value_error. set (k := (2 * n + 3)%nat). assert (K : (k <= 1000)%nat) by (unfold k; lia). pose proof (error_small k s K Hs) as B. unfold rounding_error in B. pose proof (pow_ge1 u64 eta64 binary64 binary64_rounding k) as P1.
  assert (PV : 0 <= vsum (map Rabs x)) by (clear; induction x as [|a x IH]; cbn; [lra|pose proof (Rabs_pos a); unfold vsum in IH; lra]). assert (NI : INR n <= 500) by (replace 500 with (INR 500) by (rewrite INR_IZR_INZ; reflexivity); apply le_INR; lia). pose proof (pos_INR n) as PN.
  assert (P53 : 2 ^ 53 = 9007199254740992) by (cbn [pow]; ring). assert (EU : u64 = / 9007199254740992) by (unfold u64; rewrite P53; reflexivity).
  assert (EE : eta64 <= / (9007199254740992 * 9007199254740992)). { unfold eta64. rewrite <- P53, <- pow_add. apply Rinv_le_contravar; [apply pow_lt; lra|]. apply Rle_pow; [lra|lia]. } assert (E0 : 0 <= eta64) by apply binary64_rounding.
  assert (IK : INR k <= 1000) by (replace 1000 with (INR 1000) by (rewrite INR_IZR_INZ; reflexivity); apply le_INR; exact K). pose proof (pos_INR k) as PK.
  assert (W : (1 + u64) ^ k <= 2).
  { assert (Q : INR k * u64 <= / 2) by (rewrite EU; lra). assert (U0 : 0 <= u64) by (rewrite EU; lra). eapply Rle_trans; [apply (pow_bound u64 k U0); lra|]. rewrite <- (Rinv_inv 2). apply Rinv_le_contravar; lra. }
  clearbody k. set (w := (1 + u64) ^ k) in *. clearbody w. set (e := eta64) in *. clearbody e. set (X := vsum (map Rabs x)) in *. clearbody X. set (N := INR n) in *. clearbody N. set (kk := INR k) in *. clearbody kk.
  assert (T2 : 0 <= 2 * kk * w * e) by (repeat apply Rmult_le_pos; lra).
  assert (P0 : 0 <= N * (X + 3)) by (apply Rmult_le_pos; lra).
  assert (T3 : N * (X + 3) + 3 <= 10 ^ 8) by (assert (N * (X + 3) <= 500 * (10 ^ 5 + 3)) by (apply Rmult_le_compat; lra); lra).
  assert (T4 : (N * (X + 3) + 3) * w <= 10 ^ 8 * 2) by (apply Rmult_le_compat; lra).
  assert (T5 : (N * (X + 3) + 3) * w * e <= 10 ^ 8 * 2 * / (9007199254740992 * 9007199254740992)) by (apply Rmult_le_compat; try lra; apply Rmult_le_pos; lra).
  unfold tol7 in B. lra.
Qed.
(*@ Theorem C103_feedforward : feedforward_explicit with its value: the inputs it returns, and its errors, are those of C99_feedback, and the value is that of C103_explicit *)
Lemma feedforward_both rnd C es x : (forall r, fl_feedforward_both rnd C es x r -> fl_feedforward_explicit rnd C es x (bind r (fun p => Ok (fst p)))) /\
  (forall r, fl_feedforward_explicit rnd C es x r -> exists r', fl_feedforward_both rnd C es x r' /\ r = bind r' (fun p => Ok (fst p))) /\
  forall crs us V, es = Some crs -> fl_feedforward_both rnd C es x (Ok (us, V)) -> fl_es_V rnd crs x (Ok V).
Proof.
  assert (PR : forall crs q', fl_es_V rnd crs x q' -> exists k, fl_lookup rnd x crs k /\ match k with Err e => q' = Err e | Ok _ => exists o, q' = Ok o end).
  { intros crs q' (k & Hk & HK). exists k. split; [exact Hk|]. destruct k as [[c|]|e]; [destruct HK as (v & _ & ->); eauto|eauto|exact HK]. }
  destruct es as [crs|]; cbn [fl_feedforward_both fl_feedforward_explicit].
  - split; [|split].
    + intros r (q & q' & H1 & H2 & ->). destruct (PR crs q' H2) as (k & Hk & HK). exists q, k. split; [exact H1|]. split; [exact Hk|]. destruct q as [o|e]; cbn [bind]; [|reflexivity]. destruct k as [c|e]; [destruct HK as (V & ->); reflexivity|subst q'; reflexivity].
    + intros r (q & k & H1 & Hk & ->). assert (Q : exists q', fl_es_V rnd crs x q' /\ match k with Err e => q' = Err e | Ok _ => exists o, q' = Ok o end).
      { destruct k as [[c|]|e]; [destruct (fl_cr_V_total rnd c x) as (v & Hv); exists (Ok (Some v)); split; [exists (Ok (Some c)); eauto|eauto]|exists (Ok None); split; [exists (Ok None); auto|eauto]|exists (Err e); split; [exists (Err e); auto|reflexivity]]. }
      destruct Q as (q' & H2 & HK). eexists. split; [exists q, q'; split; [exact H1|]; split; [exact H2|reflexivity]|]. destruct q as [o|e]; cbn [bind]; [|reflexivity]. destruct k as [c|e]; [destruct HK as (V & ->); reflexivity|subst q'; reflexivity].
    + intros crs0 us V E (q & q' & H1 & H2 & HE). injection E as <-. destruct q as [o|e]; cbn [bind] in HE; [|discriminate HE]. destruct q' as [V'|e]; cbn [bind] in HE; [|discriminate HE]. injection HE as _ ->. exact H2.
  - split; [intros r ->; reflexivity|]. split; [intros r ->; exists (Err ValueError); split; reflexivity|]. intros crs us V E. discriminate E.
Qed.
(*@ Theorem C103_unrounded : Without rounding the relations are the exact value function of the table and the exact feedforward_explicit, with its errors *)
Lemma value_unrounded C es crs x nx : length x = nx -> Forall (fun c => shape (cr_Vxx c) nx nx) crs -> (forall r, fl_es_V (fun a => a) crs x r <-> es_V crs x = r) /\ (forall r, es = Some crs -> fl_feedforward_both (fun a => a) C es x r <-> feedforward_explicit C es x = r).
Proof.
  intros Lx HS. rewrite Forall_forall in HS.
  assert (UC : forall c v, In c crs -> fl_cr_V (fun a => a) c x v <-> v = cr_V c x).
  { intros c v I. pose proof (HS c I) as SV. unfold cr_V. rewrite <- (dot_mv_tr _ nx nx x x SV Lx). split.
    - intros (y & s & l & Hy & Hs & Hl & ->). apply fl_mv_id in Hy. subst y. rewrite (fl_dot_id _ _ Hs), (fl_dot_id _ _ Hl), !dot_combine. reflexivity.
    - intros ->. destruct (fl_dot_total (fun a => a) (combine (mv (tr (cr_Vxx c)) x) x)) as (s & Hs). destruct (fl_dot_total (fun a => a) (combine (cr_Vx c) x)) as (l & Hl). exists (mv (tr (cr_Vxx c)) x), s, l. split; [apply fl_mv_id; reflexivity|]. split; [exact Hs|]. split; [exact Hl|]. rewrite (fl_dot_id _ _ Hs), (fl_dot_id _ _ Hl), !dot_combine. reflexivity. }
  assert (IN : forall c, get_critical_region crs x = Ok (Some c) -> In c crs). { clear. induction crs as [|a crs IH]; intros c; cbn [get_critical_region]; [discriminate|]. destruct (cr_contains a x) as [[|]|]; cbn [bind]; [intros E; injection E as ->; left; reflexivity|intros E; right; apply IH, E|discriminate]. }
  assert (V : forall r, fl_es_V (fun a => a) crs x r <-> es_V crs x = r).
  { intros r. unfold fl_es_V, es_V, es_eval. split.
    - intros (q & Hq & H). apply fl_lookup_id in Hq. rewrite Hq. destruct q as [[c|]|e]; cbn [bind]; [|congruence|congruence]. destruct H as (v & Hv & ->). apply UC in Hv; [|apply IN, Hq]. subst v. reflexivity.
    - intros E. exists (get_critical_region crs x). split; [apply fl_lookup_id; reflexivity|]. destruct (get_critical_region crs x) as [[c|]|e] eqn:Q; cbn [bind] in E; [|congruence|congruence]. exists (cr_V c x). split; [apply UC; [apply IN; reflexivity|reflexivity]|congruence]. }
  split; [exact V|]. intros r ->. cbn [fl_feedforward_both feedforward_explicit]. pose proof (proj1 (explicit_unrounded C None crs x)) as U. split.
  - intros (q & q' & H1 & H2 & ->). apply U in H1. apply V in H2. subst q q'. reflexivity.
  - intros <-. exists (es_u crs x), (es_V crs x). split; [apply U; reflexivity|]. split; [apply V; reflexivity|reflexivity].
Qed.
(** ** Example *)
(*@ Example C103_example : min 1/2 u^2 s.t. x <= u in float64: the hypotheses of C103_explicit hold for every |x| <= 100 with E = 1e-7/8 and G = 2.5e-8, and the stored table answers there with a value within 2.5e-8 of 0 or of 1/2 x^2 *)
Lemma value_rounded_example np : exact_np np -> exists q crs,
  mp_data (Mat 1 [[1]]) (Mat 1 [[0]]) (Mat 1 [[0]]) [0] [0] (Mat 1 [[-1]]) (Mat 1 [[1]]) [0] 1 1 1 /\
  MultiParametricQuadraticProgram np (Mat 1 [[1]]) (Mat 1 [[0]]) (Mat 1 [[0]]) [0] [0] 0 (Mat 1 [[-1]]) (Mat 1 [[1]]) [0] = Ok q /\
  explicit_solve np 3 (/ 100000) q = Ok crs /\
  forall x, Rabs x <= 100 -> (forall cr, In cr crs -> residual_bound u64 eta64 (tol7 / 8) (pA (cr_poly cr)) (pb (cr_poly cr)) [x] /\ value_error u64 eta64 1 (abs_form (cr_Vxx cr) [x] / 2 + SpecRound.abs_dot (cr_Vx cr) [x] + Rabs (cr_V0 cr)) [x] <= / 4 / 10 ^ 7) /\
    (exists r, fl_es_V binary64 crs [x] r) /\ forall r, fl_es_V binary64 crs [x] r -> exists v, r = Ok (Some v) /\ (Rabs v <= / 4 / 10 ^ 7 \/ Rabs (v - / 2 * (x * x)) <= / 4 / 10 ^ 7).
Proof.
  intros Hnp. assert (T : tol7 < / 100000) by (unfold tol7; lra). destruct (ex_loop np (/ 100000) 0 Hnp T) as (e0 & e1 & E). exists (ex_q ex_I). eexists. split; [exact ex_data|]. split; [apply ex_ctor; exact Hnp|]. split; [exact E|].
  match type of E with _ = Ok ?l => set (crs := l) end. assert (TB : table_ok crs 1). { repeat constructor; exists 1%nat; (split; [lia|]); unfold wf; cbn; repeat split; repeat constructor. }
  intros x Hx.
  assert (RB : forall cr, In cr crs -> residual_bound u64 eta64 (tol7 / 8) (pA (cr_poly cr)) (pb (cr_poly cr)) [x] /\ value_error u64 eta64 1 (abs_form (cr_Vxx cr) [x] / 2 + SpecRound.abs_dot (cr_Vx cr) [x] + Rabs (cr_V0 cr)) [x] <= / 4 / 10 ^ 7).
  { assert (PX := Rabs_pos x). assert (XX : Rabs x * Rabs x <= 10000) by nra. intros cr [<-|[<-|[]]]; (split; [intros i Hi; cbn in Hi; assert (i = 0%nat) by lia; subst i; apply error_small; [cbn; lia|]|apply value_64; [lia| |cbn; lra]]); cbn [cr_poly cr_ux cr_u0 cr_Vxx cr_Vx cr_V0 ex_r0 ex_r1 pA pb row rows nth map dot]; unfold abs_form, SpecRound.abs_dot; cbn [rows map dot row nth]; rewrite ?Rabs_R0, ?Rabs_R1, ?Rabs_Ropp, ?(Rabs_left (-1)) by lra; nra. }
  split; [exact RB|]. destruct (fl_lookup_ok u64 eta64 binary64 crs [x] (tol7 / 8) 1 binary64_rounding TB eq_refl (fun cr I => proj1 (RB cr I))) as ((r0 & Hr0) & HL). split.
  - destruct (HL r0 Hr0) as [(-> & _)|(pre & cr & post & _ & -> & _)]; [exists (Ok None), (Ok None); auto|]. destruct (fl_cr_V_total binary64 cr [x]) as (v & Hv). exists (Ok (Some v)), (Ok (Some cr)). eauto.
  - intros r (k & Hk & HK). assert (CO : exists cr, In cr crs /\ in_poly (cr_poly cr) [x]).
    { destruct (Rle_dec x 0) as [H|H].
      + eexists. split; [left; reflexivity|]. split; [reflexivity|]. split; [|constructor]. cbn. apply Forall2_cons; [cbn; lra|constructor].
      + eexists. split; [right; left; reflexivity|]. split; [reflexivity|]. split; [|constructor]. cbn. apply Forall2_cons; [cbn; lra|constructor]. }
    destruct CO as (cr & Icr & Hcr). destruct (fl_lookup_covered u64 eta64 binary64 crs [x] (tol7 / 8) 1 cr k binary64_rounding TB eq_refl (fun cr I => proj1 (RB cr I)) ltac:(unfold tol7; lra) Icr Hcr Hk) as (c' & -> & I' & _).
    destruct HK as (v & Hv & ->). exists v. split; [reflexivity|]. pose proof (proj2 (RB c' I')) as B2. assert (SH : shape (cr_Vxx c') 1 1 /\ length (cr_Vx c') = 1%nat) by (destruct I' as [<-|[<-|[]]]; (split; [|reflexivity]); repeat constructor).
    pose proof (fl_cr_V_err u64 eta64 binary64 binary64_rounding c' [x] v 1 (proj1 SH) (proj2 SH) eq_refl Hv) as HV.
    destruct I' as [<-|[<-|[]]]; [left|right]; (eapply Rle_trans; [|exact B2]); (eapply Rle_trans; [|exact HV]); right; f_equal; unfold cr_V; cbn; field.
Qed.
