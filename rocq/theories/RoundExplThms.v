(** * RoundExplThms: the explicit controller with rounded arithmetic (C99), proofs *)
From Flocq Require Round_NE.
From Coq Require Import Classical.
From Verif Require Import Arr ArrFacts Spec SpecMpc SpecDyn SpecEig SpecRound Numpy Pnnls PnnlsFacts QpFacts GeomUtils Polyhedron PolyThms MembThms Oracle SolverThms NullFacts PolySolveThms PolyMore GeomThms Dynamics DynThms CondenseThms LqrThms McaisThms SpectralThms Mpqp MpqpThms NeighThms Controllers CtrlThms TolThms Round RoundExpl RoundThms RoundSimThms RoundPwaThms PlantThms Round64 Round64Thms.
Local Open Scope list_scope.

Lemma row_bound_by tau (a : vec) b s L (f : vec -> R) n x : 0 < tau -> length a = n -> (s = 1 \/ norm a = 1) -> 0 < s -> (forall x, length x = n -> dot a x - b = s * f x) -> lipschitz n L f -> length x = n ->
  dot a x <= b + tau -> f x <= tau * Rmax 1 L.
Proof.
  intros T La Na Hs E HL Lx Hx. specialize (E x Lx) as Ex. pose proof (Rmax_l 1 L) as M1. pose proof (Rmax_r 1 L) as M2. destruct Na as [ -> |Na]; [nra|].
  pose proof (row_slope a b s L f n La Na Hs E HL) as K.
  apply Rmult_le_reg_l with s; [exact Hs|]. apply Rle_trans with tau; [lra|]. assert (s * L <= s * Rmax 1 L) by (apply Rmult_le_compat_l; lra). replace (s * (tau * Rmax 1 L)) with (tau * (s * Rmax 1 L)) by ring. rewrite <- (Rmult_1_r tau) at 1. apply Rmult_le_compat_l; lra.
Qed.


(** C42_tolerance_bound for any tolerance *)
Lemma region_tolerance_by tau np q nu nx m act cr x : 0 < tau -> exact_np np -> MpqpThms.coherent q nu nx m -> explicit_solve_given_active_set np q act = Ok (Some cr) -> length x = nx -> MpqpThms.within tau (cr_poly cr) x ->
  (forall i, In i act -> (i < m)%nat) /\
  (forall i, In i act -> dot (row (q_Au q) i) (cr_u cr x) + dot (row (q_Ax q) i) x = nth i (q_b q) 0 /\
     forall L, lipschitz nx L (fun y => nth i (cr_p cr y) 0) -> - (tau * Rmax 1 L) <= nth i (cr_p cr x) 0) /\
  (forall i, (i < m)%nat -> ~ In i act -> nth i (cr_p cr x) 0 = 0 /\
     forall L, lipschitz nx L (fun y => dot (row (q_Au q) i) (cr_u cr y) + dot (row (q_Ax q) i) y - nth i (q_b q) 0) ->
       dot (row (q_Au q) i) (cr_u cr x) + dot (row (q_Ax q) i) x <= nth i (q_b q) 0 + tau * Rmax 1 L) /\
  length (cr_u cr x) = nu /\ length (cr_p cr x) = m /\ cr_V cr x = q_cost q x (cr_u cr x) /\
  forall Ls v, (forall i, In i act -> lipschitz nx (nth i Ls 0) (fun y => nth i (cr_p cr y) 0)) -> q_feasible q x v ->
    q_cost q x (cr_u cr x) <= q_cost q x v + tau * sum_upto (fun i => Rmax 1 (nth i Ls 0) * (nth i (q_b q) 0 - dot (row (q_Au q) i) v - dot (row (q_Ax q) i) x)) m.
Proof.
  intros T Hnp Hq E Lx Hin. destruct (some_region np q nu nx m act cr Hnp Hq E) as (Hact & Ind & (ND & _ & W & _ & HX)).
  destruct (HX x Lx) as (Lu & Lp & St & Eqa & Zp & EV & _).
  assert (RL : forall i, (i < m)%nat -> length (row (pA (cr_poly cr)) i) = nx) by (intros i Hi; apply (shape_row _ m nx); [apply W|exact Hi]).
  assert (RI : forall i, (i < m)%nat -> dot (row (pA (cr_poly cr)) i) x <= nth i (pb (cr_poly cr)) 0 + tau) by (intros i Hi; apply Hin; rewrite (proj1 (proj2 W)); exact Hi).
  assert (P1 : forall i L, In i act -> lipschitz nx L (fun y => nth i (cr_p cr y) 0) -> - (tau * Rmax 1 L) <= nth i (cr_p cr x) 0).
  { intros c L Hc HL. destruct (facet_onto act m c Hact ND (Hact c Hc)) as (i & Hi & Ec). destruct (region_rows np q nu nx m act cr i Hnp Hq E Hi) as (_ & C2 & s & Hs & Hs1 & ES). rewrite Ec in *.
    assert (Q : (i <? length act)%nat = true) by (apply Nat.ltb_lt, C2, Hc). rewrite Q in ES.
    pose proof (row_bound_by tau _ _ s L (fun y => - nth c (cr_p cr y) 0) nx x T (RL i Hi) Hs1 Hs ES (lipschitz_neg _ _ _ HL) Lx (RI i Hi)) as B. cbv beta in B. lra. }
  split; [exact Hact|]. split; [intros i Hi; split; [apply Eqa, Hi|intros L HL; apply P1; assumption]|]. split.
  { intros c Hc Nc. split; [apply Zp, Nc|]. intros L HL. destruct (facet_onto act m c Hact ND Hc) as (i & Hi & Ec). destruct (region_rows np q nu nx m act cr i Hnp Hq E Hi) as (_ & C2 & s & Hs & Hs1 & ES). rewrite Ec in *.
    assert (Q : (i <? length act)%nat = false). { destruct (i <? length act)%nat eqn:Q; [|reflexivity]. apply Nat.ltb_lt in Q. exfalso. apply Nc, C2, Q. } rewrite Q in ES.
    pose proof (row_bound_by tau _ _ s L _ nx x T (RL i Hi) Hs1 Hs ES HL Lx (RI i Hi)) as B. cbv beta in B. lra. }
  split; [exact Lu|]. split; [exact Lp|]. split; [exact EV|]. intros Ls v HL Hv.
  pose proof Hq as (H1 & PD & H2 & H3 & L1 & L2 & H4 & H5 & L3 & _).
  assert (Lv : length v = nu) by (destruct Hv as (Q & _); rewrite Q; apply H4).
  rewrite !(q_cost_split q nu nx m) by auto. assert (L4 : length (mv (q_Hux q) x) = nu) by (rewrite mv_length; apply H2). assert (L6 : length (mv (q_Huu q) (cr_u cr x)) = nu) by (rewrite mv_length; apply H1).
  rewrite (qp_expand (q_Huu q) (vadd (mv (q_Hux q) x) (q_fu q)) nu (cr_u cr x) v) by (auto; try apply (pd_psd _ _ PD); len).
  assert (Ld : length (vsub v (cr_u cr x)) = nu) by len. pose proof (proj2 (pd_psd _ _ PD) _ Ld) as PS. specialize (St _ Ld).
  rewrite !dot_vadd_l by len. assert (LA : forall w, length (mv (q_Au q) w) = m) by (intros; rewrite mv_length; apply H4).
  rewrite (mv_vsub (q_Au q) m nu) in St by auto. assert (LAd : length (vsub (mv (q_Au q) v) (mv (q_Au q) (cr_u cr x))) = m) by (rewrite vsub_length, !LA; apply Nat.min_id). rewrite (dot_sum (cr_p cr x) _ m Lp LAd) in St. rewrite <- sum_upto_scale.
  assert (S : - sum_upto (fun i => nth i (cr_p cr x) 0 * nth i (vsub (mv (q_Au q) v) (mv (q_Au q) (cr_u cr x))) 0) m + sum_upto (fun i => tau * (Rmax 1 (nth i Ls 0) * (nth i (q_b q) 0 - dot (row (q_Au q) i) v - dot (row (q_Ax q) i) x))) m >= 0); [|lra].
  replace (- sum_upto (fun i => nth i (cr_p cr x) 0 * nth i (vsub (mv (q_Au q) v) (mv (q_Au q) (cr_u cr x))) 0) m) with (sum_upto (fun i => -1 * (nth i (cr_p cr x) 0 * nth i (vsub (mv (q_Au q) v) (mv (q_Au q) (cr_u cr x))) 0)) m) by (rewrite sum_upto_scale; ring).
  rewrite <- sum_upto_plus. apply Rle_ge, sum_upto_nonneg. intros i Hi. rewrite nth_vsub by (rewrite !LA; reflexivity). rewrite !nth_mv. fold (row (q_Au q) i).
  destruct Hv as (_ & Hv). specialize (Hv i ltac:(rewrite L3; exact Hi)). pose proof (Rmax_l 1 (nth i Ls 0)) as M1.
  destruct (in_dec Nat.eq_dec i act) as [Ia|Ia].
  - specialize (P1 i _ Ia (HL i Ia)). specialize (Eqa i Ia). set (k := Rmax 1 (nth i Ls 0)) in *. set (sl := nth i (q_b q) 0 - dot (row (q_Au q) i) v - dot (row (q_Ax q) i) x) in *. assert (0 <= sl) by (unfold sl; lra).
    replace (dot (row (q_Au q) i) v - dot (row (q_Au q) i) (cr_u cr x)) with (- sl) by (unfold sl; lra). nra.
  - rewrite (Zp i Ia). set (k := Rmax 1 (nth i Ls 0)) in *. set (sl := nth i (q_b q) 0 - dot (row (q_Au q) i) v - dot (row (q_Ax q) i) x) in *. assert (0 <= sl) by (unfold sl; lra). assert (0 <= tau * (k * sl)) by (apply Rmult_le_pos; [lra|apply Rmult_le_pos; lra]). lra.
Qed.

(** ** Lookup *)
Definition table_ok (crs : list critical_region) (nx : nat) : Prop := Forall (fun c => exists m, (0 < m)%nat /\ wf (cr_poly c) m 0 nx) crs.
Lemma fl_test u eta rnd p x E m n : rounding u eta rnd -> wf p m 0 n -> (0 < m)%nat -> length x = n -> residual_bound u eta E (pA p) (pb p) x ->
  (exists r, fl_contains rnd tol7 p x r) /\ forall r, fl_contains rnd tol7 p x r -> (r = Ok true /\ MpqpThms.within (tol7 + E) p x) \/ (r = Ok false /\ ~ MpqpThms.within (tol7 - E) p x).
Proof.
  intros RN HW Hm Lx EA. assert (EC : residual_bound u eta E (pC p) (Polyhedron.pd p) x). { intros i Hi. destruct HW as (_ & _ & HC & _). replace (nrows (pC p)) with 0%nat in Hi by (symmetry; apply HC). lia. }
  destruct (fl_contains_sandwich u eta rnd tol7 p x E m 0 n RN HW Hm Lx EA EC) as (EX & H). split; [exact EX|]. intros r Hr. destruct (H r Hr) as (c & -> & H1 & H2). assert (Lb : length (pb p) = m) by apply HW.
  destruct (contains_ineqs p x m n (tol7 + E) HW Hm Lx) as (c2 & E2 & K2). destruct (contains_ineqs p x m n (tol7 - E) HW Hm Lx) as (c1 & E1 & K1). destruct c; [left|right]; (split; [reflexivity|]); unfold MpqpThms.within; rewrite Lb.
  - apply K2. specialize (H2 eq_refl). rewrite E2 in H2. injection H2 as ->. reflexivity.
  - intros Q. apply K1 in Q. rewrite Q in E1. specialize (H1 E1). discriminate H1.
Qed.
(*@ Theorem C99_lookup : With rounded operations, summed in any order, the lookup does not raise; if E bounds the rounding errors of the residuals, the region returned is the first accepted one: its inequalities hold at x up to 1e-7 + E, and no region before it (none at all if None is returned) contains x with the margin 1e-7 - E *)
Lemma fl_lookup_ok u eta rnd crs x E nx : rounding u eta rnd -> table_ok crs nx -> length x = nx -> (forall c, In c crs -> residual_bound u eta E (pA (cr_poly c)) (pb (cr_poly c)) x) ->
  (exists r, fl_lookup rnd x crs r) /\ forall r, fl_lookup rnd x crs r ->
    (r = Ok None /\ forall c, In c crs -> ~ MpqpThms.within (tol7 - E) (cr_poly c) x) \/
    exists pre c post, crs = pre ++ c :: post /\ r = Ok (Some c) /\ MpqpThms.within (tol7 + E) (cr_poly c) x /\ forall c', In c' pre -> ~ MpqpThms.within (tol7 - E) (cr_poly c') x.
Proof.
  intros RN TB Lx. induction TB as [|c crs (m & Hm & W) TB IH]; intros RB.
  - split; [exists (Ok None); constructor|]. intros r Hr. inversion Hr; subst. left. split; [reflexivity|]. intros c [].
  - destruct (fl_test u eta rnd (cr_poly c) x E m nx RN W Hm Lx (RB c (or_introl eq_refl))) as (EX & HT). destruct (IH (fun c' I => RB c' (or_intror I))) as (EL & HL). split.
    + destruct EX as (r & Hr). destruct (HT r Hr) as [(-> & _)|(-> & _)]; [exists (Ok (Some c)); apply fl_lookup_in; exact Hr|]. destruct EL as (r' & Hr'). exists r'. apply fl_lookup_out; assumption.
    + intros r Hr. inversion Hr as [|c0 crs0 e H1|c0 crs0 H1|c0 crs0 r0 H1 H2]; subst; destruct (HT _ H1) as [(E1 & HW)|(E1 & HW)]; try discriminate E1.
      * right. exists [], c, crs. split; [reflexivity|]. split; [reflexivity|]. split; [exact HW|]. intros c' [].
      * destruct (HL r H2) as [(-> & N)|(pre & c' & post & -> & -> & HW' & N)].
        -- left. split; [reflexivity|]. intros c' [<-|I]; [exact HW|apply N, I].
        -- right. exists (c :: pre), c', post. split; [reflexivity|]. split; [reflexivity|]. split; [exact HW'|]. intros c'' [<-|I]; [exact HW|apply N, I].
Qed.
(*@ Theorem C99_covered : A state of one of the regions is found if the rounding errors are at most 1e-7 *)
Lemma fl_lookup_covered u eta rnd crs x E nx c r : rounding u eta rnd -> table_ok crs nx -> length x = nx -> (forall c, In c crs -> residual_bound u eta E (pA (cr_poly c)) (pb (cr_poly c)) x) -> E <= tol7 ->
  In c crs -> in_poly (cr_poly c) x -> fl_lookup rnd x crs r -> exists c', r = Ok (Some c') /\ In c' crs /\ MpqpThms.within (tol7 + E) (cr_poly c') x.
Proof.
  intros RN TB Lx RB HE Ic Hx Hr. destruct (fl_lookup_ok u eta rnd crs x E nx RN TB Lx RB) as (_ & H). destruct (H r Hr) as [(_ & N)|(pre & c' & post & -> & -> & HW & _)].
  - exfalso. apply (N c Ic). unfold table_ok in TB. rewrite Forall_forall in TB. destruct (TB c Ic) as (m & Hm & W). apply (in_poly_vle _ m 0 nx x W) in Hx. destruct Hx as (_ & HV & _). apply vle_nth in HV. destruct HV as (LV & HV).
    intros i Hi. specialize (HV i ltac:(rewrite LV; exact Hi)). rewrite nth_mv in HV. unfold row. lra.
  - exists c'. split; [reflexivity|]. split; [apply in_or_app; right; left; reflexivity|exact HW].
Qed.
(** ** Inputs *)
Lemma fl_cr_u_err u eta rnd c x v nu nx : rounding u eta rnd -> shape (cr_ux c) nu nx -> length (cr_u0 c) = nu -> length x = nx -> fl_cr_u rnd c x v ->
  length v = nu /\ forall i, (i < nu)%nat -> Rabs (nth i v 0 - nth i (cr_u c x) 0) <= rounding_error u eta (nx + 1) (abs_dot (row (cr_ux c) i) x + Rabs (nth i (cr_u0 c) 0)).
Proof.
  intros RN HU L0 Lx (a & Ha & ->). pose proof (fl_mv_len _ _ _ _ _ _ HU Ha) as La. assert (LU : length (rows (cr_ux c)) = nu) by apply HU.
  split; [unfold fl_vadd; rewrite map2_length; lia|]. intros i Hi. rewrite nth_fl_vadd by lia. unfold cr_u. rewrite nth_vadd by len. rewrite nth_mv. fold (row (cr_ux c) i).
  replace (nx + 1)%nat with (nx + 0 + 1)%nat by lia. apply (sum_err u eta rnd RN); [apply dot_le_abs|lra|eapply fl_mv_err; eauto|]. rewrite Rminus_diag_eq by reflexivity. rewrite Rabs_R0. apply (rounding_error_nonneg u eta rnd RN), Rabs_pos.
Qed.
Lemma fl_cr_u_total rnd c x : exists v, fl_cr_u rnd c x v.
Proof. destruct (fl_mv_total rnd (cr_ux c) x) as (a & Ha). eexists. exists a. split; [exact Ha|reflexivity]. Qed.
Lemma loop_fields np q fuel step : forall buf crs res, Forall (fun c' => exists act c, explicit_solve_given_active_set np q act = Ok (Some c) /\ same_region c c' /\ cr_ux c' = cr_ux c /\ cr_u0 c' = cr_u0 c) crs ->
  explicit_loop np fuel step q buf crs = Ok res -> Forall (fun c' => exists act c, explicit_solve_given_active_set np q act = Ok (Some c) /\ same_region c c' /\ cr_ux c' = cr_ux c /\ cr_u0 c' = cr_u0 c) res.
Proof.
  induction fuel as [|fuel IH]; intros buf crs res F; cbn [explicit_loop]; [discriminate|].
  destruct buf as [|xg0 buf0]; [intros E; injection E as <-; exact F|].
  destruct (uncovered crs (xg0 :: buf0)) as [buf'|e]; cbn [bind]; [|discriminate]. destruct buf' as [|(x & guess) rest]; [intros E; injection E as <-; exact F|].
  destruct (explicit_solve_given_point np q x (Some guess)) as [[c|]|e] eqn:E; cbn [bind]; [|apply IH; exact F|discriminate].
  destruct (point_some _ _ _ _ _ E) as (act & Ea).
  pose proof (facets_fields np tol7 (cr_poly c)) as Q. cbv zeta in Q. destruct (minimal_facets np tol7 (cr_poly c)) as [[[mf|]|e] p']; cbn [snd] in Q; try discriminate.
  destruct (mapM _ mf) as [new|e]; cbn [bind]; [|discriminate]. apply IH. apply Forall_app. split; [exact F|]. constructor; [|constructor].
  exists act, c. split; [exact Ea|]. split; [|split; reflexivity]. split; [reflexivity|]. split; [reflexivity|]. split; [reflexivity|]. exact Q.
Qed.
Lemma region_shape np q nu nx m act cr : exact_np np -> MpqpThms.coherent q nu nx m -> explicit_solve_given_active_set np q act = Ok (Some cr) -> shape (cr_ux cr) nu nx /\ length (cr_u0 cr) = nu.
Proof.
  intros Hnp Hq E. destruct (some_region np q nu nx m act cr Hnp Hq E) as (Hact & _). destruct Hnp as (_ & _ & _ & Hinv & _).
  assert (ISH : shape (q_Huu q) nu nu /\ shape (q_Hux q) nu nx /\ shape (q_Au q) m nu /\ shape (q_Ax q) m nx /\ shape (q_Huu_inv q) nu nu /\ length (q_fu q) = nu /\ length (q_b q) = m) by (unfold MpqpThms.coherent in Hq; tauto).
  destruct ISH as (H1 & H2 & H3 & H4 & H5 & L1 & L2). assert (SA : shape (mtake (q_Au q) act) (length act) nu) by (apply (shape_mtake (q_Au q) m); [exact H3|exact Hact]).
  unfold explicit_solve_given_active_set in E. destruct (negb _); [discriminate E|]. cbn zeta in E. destruct (_ && _)%bool; [discriminate E|].
  set (G := mm (mm (mtake (q_Au q) act) (q_Huu_inv q)) (tr (mtake (q_Au q) act))) in E. assert (SG : shape G (length act) (length act)) by (unfold G; eauto 8 with shp).
  destruct (np_inv np G) as [M|] eqn:EM; [|discriminate E]. cbn [bind] in E. destruct (Hinv G (length act) SG) as [(_ & M' & EM' & SM & _)|(_ & EM')]; rewrite EM in EM'; [injection EM' as <-|discriminate EM'].
  match type of E with bind ?e _ = _ => destruct e as [p|]; [|discriminate E] end. cbn [bind] in E. injection E as <-. cbn [cr_ux cr_u0].
  split; [apply (S_ux q nu nx m act M Hq Hact SM)|apply (L_u0 q nu nx m act M Hq)].
Qed.
(** ** Optimality up to the tolerance and the rounding errors *)
Lemma dot_abs_err a v w n F : length a = n -> length v = n -> length w = n -> (forall i, (i < n)%nat -> Rabs (nth i v 0 - nth i w 0) <= F) -> dot a v <= dot a w + abs_dot a (ones n) * F.
Proof.
  intros La. revert v w n La. induction a as [|p a IH]; intros [|x v] [|y w] [|n] La Lv Lw H; try discriminate; [cbn; lra|].
  cbn in La, Lv, Lw. specialize (IH v w n ltac:(lia) ltac:(lia) ltac:(lia) (fun i Hi => H (Datatypes.S i) ltac:(lia))). specialize (H 0%nat ltac:(lia)). cbn [nth] in H.
  unfold abs_dot in *. change (ones (Datatypes.S n)) with (1 :: ones n). cbn [map dot]. rewrite Rabs_R1. assert (Q : p * (x - y) <= Rabs p * F). { eapply Rle_trans; [apply Rle_abs|]. rewrite Rabs_mult. apply Rmult_le_compat_l; [apply Rabs_pos|exact H]. } lra.
Qed.
Lemma cost_near H f k n s : shape H n n -> tr H = H -> 0 <= s -> (forall i, (i < n)%nat -> abs_dot (row H i) (ones n) <= s) -> forall u v F, length f = n -> length u = n -> length v = n -> 0 <= F -> (forall i, (i < n)%nat -> Rabs (nth i v 0 - nth i u 0) <= F) ->
  s * sup u + sup f <= k -> qp_cost H f v <= qp_cost H f u + INR n * (F * (k + s * F)).
Proof.
  intros SH HS Ps HR u v F Lf Lu Lv PF H0 HK. rewrite (qp_expand H f n u v) by auto. assert (LH : forall w, length (mv H w) = n) by (intros w; rewrite mv_length; apply SH).
  assert (Ld : length (vsub v u) = n) by len. assert (SD : sup (vsub v u) <= F) by (apply sup_le; [exact PF|]; intros i Hi; rewrite nth_vsub by lia; apply H0; lia). pose proof (sup_nonneg (vsub v u)) as P1.
  pose proof (dot_sup (vadd (mv H u) f) (vsub v u)) as D1. pose proof (dot_sup (vsub v u) (mv H (vsub v u))) as D2. assert (Lg : length (vadd (mv H u) f) = n) by (pose proof (LH u); len). rewrite Lg in D1. rewrite Ld in D2.
  pose proof (sup_vadd (mv H u) f ltac:(rewrite LH; lia)) as S1. pose proof (sup_mv H n n s u SH Ps HR Lu) as S2. pose proof (sup_mv H n n s (vsub v u) SH Ps HR Ld) as S3. pose proof (sup_nonneg (vadd (mv H u) f)) as P2. pose proof (sup_nonneg (mv H (vsub v u))) as P3. pose proof (pos_INR n) as PN.
  assert (B1 : sup (vadd (mv H u) f) * sup (vsub v u) <= k * F) by (apply Rmult_le_compat; lra).
  assert (B2 : sup (vsub v u) * sup (mv H (vsub v u)) <= F * (s * F)). { apply Rmult_le_compat; try lra. eapply Rle_trans; [exact S3|]. apply Rmult_le_compat_l; lra. }
  assert (B3 : 0 <= sup (vsub v u) * sup (mv H (vsub v u))) by (apply Rmult_le_pos; lra). nra.
Qed.
Section Region.
Variables (np : numpy) (q : mpqp) (nu nx m : nat) (act : list nat) (cr : critical_region).
Hypothesis ENP : exact_np np.
Hypothesis HQ : MpqpThms.coherent q nu nx m.
Hypothesis EA : explicit_solve_given_active_set np q act = Ok (Some cr).
Lemma region_rounded Lp Lc : (forall i, (i < m)%nat -> lipschitz nx (nth i Lp 0) (fun y => nth i (cr_p cr y) 0) /\ lipschitz nx (nth i Lc 0) (fun y => dot (row (q_Au q) i) (cr_u cr y) + dot (row (q_Ax q) i) y - nth i (q_b q) 0)) ->
  exists c, 0 <= c /\ forall tau F x v, 0 < tau -> 0 <= F -> length x = nx -> length v = nu -> MpqpThms.within tau (cr_poly cr) x -> (forall i, (i < nu)%nat -> Rabs (nth i v 0 - nth i (cr_u cr x) 0) <= F) ->
    (forall i, (i < m)%nat -> dot (row (q_Au q) i) v + dot (row (q_Ax q) i) x <= nth i (q_b q) 0 + c * (tau + F)) /\
    forall w, q_feasible q x w -> q_cost q x v <= q_cost q x w + c * tau * sum_upto (fun i => nth i (q_b q) 0 - dot (row (q_Au q) i) w - dot (row (q_Ax q) i) x) m + c * F * (1 + sup x + F).
Proof.
  intros HL. pose proof HQ as (H1 & PD & H2 & H3 & L1 & L2 & H4 & H5 & L3 & _). destruct (region_shape np q nu nx m act cr ENP HQ EA) as (SU & LU0).
  destruct (row_sums (q_Huu q) nu nu H1) as (hs & Phs & HS). destruct (row_sums (q_Hux q) nu nx H2) as (ks & Pks & KS). destruct (row_sums (cr_ux cr) nu nx SU) as (us & Pus & US). destruct (row_sums (q_Au q) m nu H4) as (al & Pal & AL).
  set (s0 := sup (cr_u0 cr)). set (sf := sup (q_fu q)). assert (Ps0 : 0 <= s0) by apply sup_nonneg. assert (Psf : 0 <= sf) by apply sup_nonneg. pose proof (sup_nonneg Lp) as PLp. pose proof (sup_nonneg Lc) as PLc. pose proof (pos_INR nu) as PN.
  set (k := INR nu * (hs * us + hs * s0 + ks + sf + hs)). assert (Pk : 0 <= k) by (unfold k; repeat (apply Rmult_le_pos || apply Rplus_le_le_0_compat); assumption).
  exists (1 + sup Lp + sup Lc + al + k). split; [lra|]. intros tau F x v PT PF Lx Lv HW HF. set (c := 1 + sup Lp + sup Lc + al + k).
  destruct (region_tolerance_by tau np q nu nx m act cr x PT ENP HQ EA Lx HW) as (RA & RI & RN & Lu & _ & _ & RC).
  assert (LR : forall i, (i < m)%nat -> length (row (q_Au q) i) = nu) by (intros i Hi; apply (shape_row _ m nu); assumption).
  assert (MX : forall l i, 0 <= sup l -> sup l + 1 <= c -> Rmax 1 (nth i l 0) <= c). { intros l i Pl Hl. apply Rmax_lub; [lra|]. pose proof (nth_sup l i) as Q. pose proof (Rle_abs (nth i l 0)). lra. }
  split.
  - intros i Hi. pose proof (dot_abs_err (row (q_Au q) i) v (cr_u cr x) nu F (LR i Hi) Lv Lu HF) as Q. specialize (AL i Hi). assert (QA : abs_dot (row (q_Au q) i) (ones nu) * F <= c * F) by (apply Rmult_le_compat_r; [exact PF|unfold c; lra]).
    destruct (in_dec Nat.eq_dec i act) as [Ia|Na].
    + destruct (RI i Ia) as (EQ & _). assert (0 <= c * tau) by (apply Rmult_le_pos; [unfold c; lra|lra]). lra.
    + destruct (RN i Hi Na) as (_ & G). specialize (G _ (proj2 (HL i Hi))). pose proof (MX Lc i PLc ltac:(unfold c; lra)) as M1. assert (tau * Rmax 1 (nth i Lc 0) <= tau * c) by (apply Rmult_le_compat_l; lra). lra.
  - intros w Hw. specialize (RC Lp w (fun i Hi => proj1 (HL i (RA i Hi))) Hw).
    assert (SL : forall i, (i < m)%nat -> 0 <= nth i (q_b q) 0 - dot (row (q_Au q) i) w - dot (row (q_Ax q) i) x) by (intros i Hi; destruct Hw as (_ & Hw); specialize (Hw i ltac:(lia)); lra).
    assert (SM : sum_upto (fun i => Rmax 1 (nth i Lp 0) * (nth i (q_b q) 0 - dot (row (q_Au q) i) w - dot (row (q_Ax q) i) x)) m <= c * sum_upto (fun i => nth i (q_b q) 0 - dot (row (q_Au q) i) w - dot (row (q_Ax q) i) x) m).
    { rewrite <- sum_upto_scale. apply sum_upto_le. intros i Hi. apply Rmult_le_compat_r; [apply SL, Hi|]. apply MX; [exact PLp|unfold c; lra]. }
    assert (CN : q_cost q x v <= q_cost q x (cr_u cr x) + c * F * (1 + sup x + F)).
    { rewrite !(q_cost_split q nu nx m) by assumption. assert (Lf : length (vadd (mv (q_Hux q) x) (q_fu q)) = nu) by (assert (length (mv (q_Hux q) x) = nu) by (rewrite mv_length; apply H2); len).
      pose proof (sup_nonneg x) as PX. pose proof (sup_mv (q_Hux q) nu nx ks x H2 Pks KS Lx) as S1. pose proof (sup_vadd (mv (q_Hux q) x) (q_fu q) ltac:(rewrite mv_length; rewrite (proj1 H2); lia)) as S2. fold sf in S2.
      pose proof (sup_mv (cr_ux cr) nu nx us x SU Pus US Lx) as S3. pose proof (sup_vadd (mv (cr_ux cr) x) (cr_u0 cr) ltac:(rewrite mv_length; rewrite (proj1 SU); lia)) as S4. fold s0 in S4. fold (cr_u cr x) in S4.
      assert (B : hs * sup (cr_u cr x) + sup (vadd (mv (q_Hux q) x) (q_fu q)) <= hs * (us * sup x + s0) + (ks * sup x + sf)). { assert (hs * sup (cr_u cr x) <= hs * (us * sup x + s0)) by (apply Rmult_le_compat_l; lra). lra. }
      pose proof (cost_near (q_Huu q) (vadd (mv (q_Hux q) x) (q_fu q)) _ nu hs H1 (proj1 (pd_psd _ _ PD)) Phs HS (cr_u cr x) v F Lf Lu Lv PF HF B) as CN.
      assert (G : INR nu * (F * (hs * (us * sup x + s0) + (ks * sup x + sf) + hs * F)) <= c * F * (1 + sup x + F)).
      { replace (INR nu * (F * (hs * (us * sup x + s0) + (ks * sup x + sf) + hs * F))) with (F * (INR nu * (hs * us * sup x + hs * s0 + ks * sup x + sf + hs * F))) by ring. replace (c * F * (1 + sup x + F)) with (F * (c * (1 + sup x + F))) by ring. apply Rmult_le_compat_l; [exact PF|].
        apply Rle_trans with (k * (1 + sup x + F)); [|apply Rmult_le_compat_r; [lra|unfold c; lra]]. unfold k. rewrite (Rmult_assoc (INR nu) (hs * us + hs * s0 + ks + sf + hs)). apply Rmult_le_compat_l; [exact PN|].
        assert (0 <= hs * us) by (apply Rmult_le_pos; assumption). assert (0 <= hs * s0) by (apply Rmult_le_pos; assumption). assert (A1 : 0 <= hs * us * (1 + F)) by (apply Rmult_le_pos; lra). assert (A2 : 0 <= hs * s0 * (sup x + F)) by (apply Rmult_le_pos; lra). assert (A3 : 0 <= ks * (1 + F)) by (apply Rmult_le_pos; lra). assert (A4 : 0 <= sf * (sup x + F)) by (apply Rmult_le_pos; lra). assert (A5 : 0 <= hs * (1 + sup x)) by (apply Rmult_le_pos; lra). lra. }
      lra. }
    assert (tau * sum_upto (fun i => Rmax 1 (nth i Lp 0) * (nth i (q_b q) 0 - dot (row (q_Au q) i) w - dot (row (q_Ax q) i) x)) m <= tau * (c * sum_upto (fun i => nth i (q_b q) 0 - dot (row (q_Au q) i) w - dot (row (q_Ax q) i) x) m)) by (apply Rmult_le_compat_l; lra). lra.
Qed.
End Region.
Lemma common_constant {A} (P : A -> R -> Prop) (l : list A) : (forall a c c', c <= c' -> P a c -> P a c') -> (forall a, In a l -> exists c, 0 <= c /\ P a c) -> exists c, 0 <= c /\ forall a, In a l -> P a c.
Proof.
  intros M. induction l as [|a l IH]; intros H; [exists 0; split; [lra|intros a []]|]. destruct (H a (or_introl eq_refl)) as (c1 & P1 & Q1). destruct (IH (fun b I => H b (or_intror I))) as (c2 & P2 & Q2).
  exists (Rmax c1 c2). split; [eapply Rle_trans; [exact P1|apply Rmax_l]|]. intros b [<-|I]; [apply (M _ c1 _ (Rmax_l c1 c2)), Q1|apply (M _ c2 _ (Rmax_r c1 c2)), Q2, I].
Qed.
(*@ Theorem C99_explicit : The stored solution of a quadratic program, looked up and evaluated with rounded operations in any order: there is a constant c of the problem such that the evaluation never raises, and returns either None, in which case no region contains the parameter if the rounding errors E of the residuals are at most 1e-7, or an input that violates every constraint by at most c (1e-7 + E + F), where F bounds the rounding errors of the input, and whose cost exceeds that of any feasible point by at most c (1e-7 + E) times its total slack, plus c F (1 + |x| + F) *)
Lemma explicit_rounded np Huu Hux Hxx fu fx g Au Ax b nu nx m q fuel step crs :
  exact_np np -> mp_data Huu Hux Hxx fu fx Au Ax b nu nx m -> (0 < m)%nat -> MultiParametricQuadraticProgram np Huu Hux Hxx fu fx g Au Ax b = Ok q -> explicit_solve np fuel step q = Ok crs ->
  exists c, 0 <= c /\ forall u eta rnd x E F, rounding u eta rnd -> length x = nx -> 0 <= E -> 0 <= F ->
    (forall cr, In cr crs -> residual_bound u eta E (pA (cr_poly cr)) (pb (cr_poly cr)) x /\ forall i, (i < nu)%nat -> rounding_error u eta (nx + 1) (abs_dot (row (cr_ux cr) i) x + Rabs (nth i (cr_u0 cr) 0)) <= F) ->
    (exists r, fl_es_u rnd crs x r) /\ forall r, fl_es_u rnd crs x r ->
      (r = Ok None /\ (E <= tol7 -> forall cr, In cr crs -> ~ in_poly (cr_poly cr) x)) \/
      exists v, r = Ok (Some v) /\ length v = nu /\
        (forall i, (i < m)%nat -> dot (row Au i) v + dot (row Ax i) x <= nth i b 0 + c * (tol7 + E + F)) /\
        forall w, mp_feasible Au Ax b x w -> mp_cost Huu Hux Hxx fu fx g x v <= mp_cost Huu Hux Hxx fu fx g x w + c * (tol7 + E) * sum_upto (fun i => nth i b 0 - dot (row Au i) w - dot (row Ax i) x) m + c * F * (1 + sup x + F).
Proof.
  intros Hnp D Hm E1 E2. destruct (constructed _ _ _ _ _ _ _ _ _ _ _ _ _ _ Hnp D E1) as (Hq & Hi & Eq).
  pose proof (loop_fields np q fuel step _ [] crs (Forall_nil _) E2) as FF. rewrite Forall_forall in FF.
  assert (RG : forall cr, In cr crs -> wf (cr_poly cr) m 0 nx /\ shape (cr_ux cr) nu nx /\ length (cr_u0 cr) = nu).
  { intros cr I. destruct (FF cr I) as (act & c & Ea & (_ & _ & _ & F1 & F2 & F3 & F4) & U1 & U2). destruct (some_region np q nu nx m act c Hnp Hq Ea) as (_ & _ & (_ & _ & W & _)). rewrite U1, U2. split; [unfold wf in *; rewrite F1, F2, F3, F4; exact W|]. apply (region_shape np q nu nx m act c Hnp Hq Ea). }
  assert (TB : table_ok crs nx) by (apply Forall_forall; intros cr I; exists m; split; [exact Hm|apply RG, I]).
  destruct (common_constant (fun cr c => forall tau F x v, 0 < tau -> 0 <= F -> length x = nx -> length v = nu -> MpqpThms.within tau (cr_poly cr) x -> (forall i, (i < nu)%nat -> Rabs (nth i v 0 - nth i (cr_u cr x) 0) <= F) ->
    (forall i, (i < m)%nat -> dot (row Au i) v + dot (row Ax i) x <= nth i b 0 + c * (tau + F)) /\
    forall w, mp_feasible Au Ax b x w -> mp_cost Huu Hux Hxx fu fx g x v <= mp_cost Huu Hux Hxx fu fx g x w + c * tau * sum_upto (fun i => nth i b 0 - dot (row Au i) w - dot (row Ax i) x) m + c * F * (1 + sup x + F)) crs) as (c & Pc & HC).
  - intros cr c c' Hc H tau F x v PT PF Lx Lv HW HF. destruct (H tau F x v PT PF Lx Lv HW HF) as (G1 & G2). split.
    + intros i Hi'. specialize (G1 i Hi'). assert (c * (tau + F) <= c' * (tau + F)) by (apply Rmult_le_compat_r; lra). lra.
    + intros w Hw. specialize (G2 w Hw). pose proof (sup_nonneg x). assert (A1 : c * (F * (1 + sup x + F)) <= c' * (F * (1 + sup x + F))) by (apply Rmult_le_compat_r; [apply Rmult_le_pos; lra|exact Hc]).
      assert (PS : 0 <= sum_upto (fun i => nth i b 0 - dot (row Au i) w - dot (row Ax i) x) m).
      { apply sum_upto_nonneg. intros i Hi'. destruct Hw as (_ & Hw). assert (Lb : length b = m) by (unfold mp_data in D; tauto). specialize (Hw i ltac:(lia)). lra. }
      assert (A2 : c * (tau * sum_upto (fun i => nth i b 0 - dot (row Au i) w - dot (row Ax i) x) m) <= c' * (tau * sum_upto (fun i => nth i b 0 - dot (row Au i) w - dot (row Ax i) x) m)) by (apply Rmult_le_compat_r; [apply Rmult_le_pos; lra|exact Hc]). lra.
  - intros cr I. destruct (FF cr I) as (act & c0 & Ea & (S1 & S2 & S3 & S4 & S5 & _) & _). destruct (tolerance_constants _ _ _ _ _ _ _ _ _ _ _ _ _ _ _ _ _ _ Hnp D E1 E2 I) as (Lp & Lc & HL).
    destruct (region_rounded np q nu nx m act c0 Hnp Hq Ea Lp Lc) as (c & Pc & HC).
    { intros i Hi'. specialize (HL i Hi'). rewrite S1, S2 in HL. subst q. exact HL. }
    exists c. split; [exact Pc|]. intros tau F x v PT PF Lx Lv HW HF. rewrite S1 in HF. unfold MpqpThms.within in HW. rewrite S4, S5 in HW. specialize (HC tau F x v PT PF Lx Lv HW HF). subst q. exact HC.
  - exists c. split; [exact Pc|]. intros u eta rnd x E F RN Lx PE PF HB. assert (T7 : 0 < tol7) by (unfold tol7; lra).
    destruct (fl_lookup_ok u eta rnd crs x E nx RN TB Lx (fun cr I => proj1 (HB cr I))) as ((r0 & Hr0) & HL). split.
    + destruct (HL r0 Hr0) as [(-> & _)|(pre & cr & post & _ & -> & _)]; [exists (Ok None), (Ok None); auto|]. destruct (fl_cr_u_total rnd cr x) as (v & Hv). exists (Ok (Some v)), (Ok (Some cr)). eauto.
    + intros r (q0 & Hq0 & HR). destruct (HL q0 Hq0) as [(-> & N)|(pre & cr & post & EC & -> & HW & _)].
      * left. split; [exact HR|]. intros HE cr I Hx. destruct (fl_lookup_covered u eta rnd crs x E nx cr _ RN TB Lx (fun cr I => proj1 (HB cr I)) HE I Hx Hq0) as (c' & Q & _). discriminate Q.
      * right. destruct HR as (v & Hv & ->). assert (I : In cr crs) by (rewrite EC; apply in_or_app; right; left; reflexivity). destruct (RG cr I) as (W & SU & L0). destruct (fl_cr_u_err u eta rnd cr x v nu nx RN SU L0 Lx Hv) as (Lv & HV).
        exists v. split; [reflexivity|]. split; [exact Lv|]. apply (HC cr I (tol7 + E) F x v); auto; try lra. intros i Hi'. eapply Rle_trans; [apply HV; exact Hi'|]. apply (HB cr I); exact Hi'.
Qed.
(** ** The controller *)
(*@ Theorem C99_feedback : feedback_explicit with rounded operations: before the solution is stored it raises ValueError; afterwards it never raises, and returns None or a first input that differs from the exact value of the law of the region found by at most the rounding errors of one matrix-vector product and one sum *)
Lemma feedback_rounded u eta rnd C crs x E nx nu N : rounding u eta rnd -> table_ok crs nx -> length x = nx -> lnu (c_S C) = nu -> c_N C = N -> (0 < N)%nat ->
  (forall c, In c crs -> shape (cr_ux c) (nu * N) nx /\ length (cr_u0 c) = (nu * N)%nat /\ residual_bound u eta E (pA (cr_poly c)) (pb (cr_poly c)) x) ->
  (forall r, fl_feedback_explicit rnd C None x r <-> r = Err ValueError) /\
  (exists r, fl_feedback_explicit rnd C (Some crs) x r) /\
  forall r, fl_feedback_explicit rnd C (Some crs) x r ->
    (r = Ok None /\ forall c, In c crs -> ~ MpqpThms.within (tol7 - E) (cr_poly c) x) \/
    exists pre c post w, crs = pre ++ c :: post /\ r = Ok (Some w) /\ MpqpThms.within (tol7 + E) (cr_poly c) x /\ (forall c', In c' pre -> ~ MpqpThms.within (tol7 - E) (cr_poly c') x) /\ length w = nu /\
      forall i, (i < nu)%nat -> Rabs (nth i w 0 - (dot (row (cr_ux c) i) x + nth i (cr_u0 c) 0)) <= rounding_error u eta (nx + 1) (abs_dot (row (cr_ux c) i) x + Rabs (nth i (cr_u0 c) 0)).
Proof.
  intros RN TB Lx Hnu HN PN HB. destruct (fl_lookup_ok u eta rnd crs x E nx RN TB Lx (fun c I => proj2 (proj2 (HB c I)))) as ((r0 & Hr0) & HL). split; [|split].
  - intros r. split; [intros (q & -> & ->); reflexivity|]. intros ->. exists (Err ValueError). split; reflexivity.
  - assert (X : exists q, fl_es_u rnd crs x q).
    { destruct (HL r0 Hr0) as [(-> & _)|(pre & cr & post & _ & -> & _)]; [exists (Ok None), (Ok None); auto|]. destruct (fl_cr_u_total rnd cr x) as (v & Hv). exists (Ok (Some v)), (Ok (Some cr)). eauto. }
    destruct X as (q & Hq). eexists. eexists. split; [|reflexivity]. exists q, r0. split; [exact Hq|]. split; [exact Hr0|reflexivity].
  - intros r (q & (q0 & q' & (k & Hk & HK) & Hq' & ->) & ->). assert (Q' : exists o, q' = Ok o) by (destruct (HL q' Hq') as [(-> & _)|(pre & cr & post & _ & -> & _)]; eauto). destruct Q' as (o & ->).
    destruct (HL k Hk) as [(-> & NN)|(pre & cr & post & EC & -> & HW & NN)].
    + left. subst q0. split; [reflexivity|exact NN].
    + right. destruct HK as (v & Hv & ->). assert (I : In cr crs) by (rewrite EC; apply in_or_app; right; left; reflexivity). destruct (HB cr I) as (SU & L0 & _). destruct (fl_cr_u_err u eta rnd cr x v (nu * N) nx RN SU L0 Lx Hv) as (Lv & HV).
      exists pre, cr, post, (firstn nu v). split; [exact EC|]. split; [|split; [exact HW|split; [exact NN|]]].
      * cbn [bind]. rewrite Hnu, HN. destruct N as [|N]; [lia|]. unfold split_inputs. cbn [seq map bind first_input]. unfold slice. rewrite Nat.mul_0_r. cbn [skipn]. rewrite Nat.add_0_l, Nat.mul_1_r, Nat.sub_0_r. reflexivity.
      * assert (GE : (nu <= nu * N)%nat) by nia. split; [rewrite firstn_length; lia|]. intros i Hi. specialize (HV i ltac:(lia)). rewrite nth_firstn' by exact Hi. unfold cr_u in HV. rewrite nth_vadd in HV by (rewrite ?mv_length, ?(proj1 SU); lia). rewrite nth_mv in HV. exact HV.
Qed.
(*@ Theorem C99_float64 : In float64, up to 999 parameters and terms that add up to at most 10^5: every parameter of a region is found, by a region whose inequalities it violates by at most 1.125e-7, and every input is within 1.25e-8 of its exact value *)
Lemma explicit_64 C crs x nx nu N c r : table_ok crs nx -> length x = nx -> (nx < 1000)%nat -> lnu (c_S C) = nu -> c_N C = N -> (0 < N)%nat ->
  (forall c, In c crs -> shape (cr_ux c) (nu * N) nx /\ length (cr_u0 c) = (nu * N)%nat /\ (forall i, (i < length (pb (cr_poly c)))%nat -> abs_dot (row (pA (cr_poly c)) i) x + Rabs (nth i (pb (cr_poly c)) 0) <= 10 ^ 5) /\
     forall i, (i < nu)%nat -> abs_dot (row (cr_ux c) i) x + Rabs (nth i (cr_u0 c) 0) <= 10 ^ 5) ->
  In c crs -> in_poly (cr_poly c) x -> fl_feedback_explicit binary64 C (Some crs) x r ->
  exists c' w, In c' crs /\ r = Ok (Some w) /\ length w = nu /\ MpqpThms.within (9 / 8 / 10 ^ 7) (cr_poly c') x /\ forall i, (i < nu)%nat -> Rabs (nth i w 0 - (dot (row (cr_ux c') i) x + nth i (cr_u0 c') 0)) <= / 8 / 10 ^ 7.
Proof.
  intros TB Lx Hn Hnu HN PN HB Ic Hx Hr.
  assert (NB : forall (a y : vec) b, 0 <= abs_dot a y + Rabs b) by (intros a y b; pose proof (abs_dot_nonneg a y); pose proof (Rabs_pos b); lra).
  assert (TF := TB). unfold table_ok in TF. rewrite Forall_forall in TF.
  assert (RB : forall c, In c crs -> residual_bound u64 eta64 (tol7 / 8) (pA (cr_poly c)) (pb (cr_poly c)) x).
  { intros c0 I i Hi. destruct (HB c0 I) as (_ & _ & B1 & _). destruct (TF c0 I) as (m & _ & W). apply error_small; [lia|]. split; [apply NB|]. apply B1. replace (nrows (pA (cr_poly c0))) with m in Hi by (symmetry; apply W). replace (length (pb (cr_poly c0))) with m by (symmetry; apply W). exact Hi. }
  destruct (feedback_rounded u64 eta64 binary64 C crs x (tol7 / 8) nx nu N binary64_rounding TB Lx Hnu HN PN) as (_ & _ & H).
  { intros c0 I. destruct (HB c0 I) as (B1 & B2 & _). split; [exact B1|]. split; [exact B2|apply RB, I]. }
  destruct (H r Hr) as [(_ & NN)|(pre & c' & post & w & EC & -> & HW & _ & Lw & HV)].
  - exfalso. apply (NN c Ic). destruct (TF c Ic) as (m & Hm & W). apply (in_poly_vle _ m 0 nx x W) in Hx. destruct Hx as (_ & HVl & _). apply vle_nth in HVl. destruct HVl as (LV & HVl).
    intros i Hi. specialize (HVl i ltac:(rewrite LV; exact Hi)). rewrite nth_mv in HVl. unfold row, tol7. lra.
  - assert (I : In c' crs) by (rewrite EC; apply in_or_app; right; left; reflexivity). exists c', w. split; [exact I|]. split; [reflexivity|]. split; [exact Lw|]. split.
    + intros i Hi. specialize (HW i Hi). unfold tol7 in HW. lra.
    + intros i Hi. eapply Rle_trans; [apply HV; exact Hi|]. destruct (HB c' I) as (_ & _ & _ & B2). eapply Rle_trans; [apply error_small; [lia|]; split; [apply NB|apply B2; exact Hi]|]. unfold tol7. lra.
Qed.
(*@ Theorem C99_stored : The table stored by a controller has the shapes that C99_feedback and C99_float64 ask for, if its quadratic program has at least one inequality *)
Lemma stored_table np S N Q Rm P D X_N nx nu C fuel step crs : exact_np np -> mpc_data S N Q Rm P D X_N nx nu -> ModelPredictiveController np S N Q Rm P D X_N = Ok C -> (0 < length (q_b (c_mpqp C)))%nat ->
  store_explicit_solution np fuel step C = Ok crs -> lnu (c_S C) = nu /\ c_N C = N /\ (0 < N)%nat /\ table_ok crs nx /\ forall c, In c crs -> shape (cr_ux c) (nu * N) nx /\ length (cr_u0 c) = (nu * N)%nat.
Proof.
  intros Hnp HD E Hm ES. destruct (mpc_program np S N Q Rm P D X_N nx nu Hnp HD) as (q & m & E' & Hq & _). rewrite E in E'. injection E' as ->. cbn [c_mpqp c_S c_N] in *. pose proof HD as ((SA & SB & HN & _) & _).
  assert (Lb : length (q_b q) = m) by (unfold MpqpThms.coherent in Hq; tauto). split; [apply SB|]. split; [reflexivity|]. split; [lia|].
  pose proof (loop_fields np q fuel step _ [] crs (Forall_nil _) ES) as FF. rewrite Forall_forall in FF.
  assert (RG : forall cr, In cr crs -> wf (cr_poly cr) m 0 nx /\ shape (cr_ux cr) (nu * N) nx /\ length (cr_u0 cr) = (nu * N)%nat).
  { intros cr I. destruct (FF cr I) as (act & c & Ea & (_ & _ & _ & F1 & F2 & F3 & F4) & U1 & U2). destruct (some_region np q (nu * N) nx m act c Hnp Hq Ea) as (_ & _ & (_ & _ & W & _)). rewrite U1, U2. split; [unfold wf in *; rewrite F1, F2, F3, F4; exact W|]. apply (region_shape np q (nu * N) nx m act c Hnp Hq Ea). }
  split; [apply Forall_forall; intros cr I; exists m; split; [lia|apply RG, I]|]. intros c I. apply RG, I.
Qed.
(** ** Without rounding *)
Lemma fl_dot_id l s : fl_dot (fun a => a) l s -> s = fold_right (fun p t => fst p * snd p + t) 0 l.
Proof.
  assert (A : forall l1 l2, fold_right (fun (p : R * R) t => fst p * snd p + t) 0 (l1 ++ l2) = fold_right (fun p t => fst p * snd p + t) 0 l1 + fold_right (fun p t => fst p * snd p + t) 0 l2) by (induction l1 as [|p l1 IH]; intros l2; cbn; [lra|rewrite IH; lra]).
  induction 1 as [|a x|l1 l2 s1 s2 _ _ H1 -> H2 ->|l s a x _ _ ->|l l' s HP _ ->]; [reflexivity|cbn; lra|symmetry; apply A|rewrite A; cbn; lra|].
  induction HP as [|p l l' HP IH|p p' l|l l' l'' H1 IH1 H2 IH2]; cbn; lra.
Qed.
Lemma dot_combine a x : fold_right (fun p t => fst p * snd p + t) 0 (combine a x) = dot a x.
Proof. revert x. induction a as [|p a IH]; intros [|y x]; cbn; try reflexivity. rewrite IH. reflexivity. Qed.
Lemma fl_mv_id A x y : fl_mv (fun a => a) A x y <-> y = mv A x.
Proof.
  split.
  - unfold fl_mv, mv. intros H. induction H as [|r s rs y' Hr H IH]; [reflexivity|]. cbn. f_equal; [|exact IH]. rewrite (fl_dot_id _ _ Hr). apply dot_combine.
  - intros ->. destruct (fl_mv_total (fun a => a) A x) as (y & Hy). assert (E : y = mv A x); [|rewrite <- E; exact Hy]. clear - Hy. unfold fl_mv, mv in *. induction Hy as [|r s rs y' Hr H IH]; [reflexivity|]. cbn. f_equal; [|exact IH]. rewrite (fl_dot_id _ _ Hr). apply dot_combine.
Qed.
(*@ Theorem C93_unrounded : Without rounding the relation is the exact membership test, whatever the order of the sums, also where it raises *)
Lemma fl_contains_id tol p x r : fl_contains (fun a => a) tol p x r <-> contains tol p x = r.
Proof.
  assert (RS : forall A b q, fl_residual (fun a => a) A x b q <-> @eq (res R) (bind (np_mv A x) (fun y => vmax (vsub y b))) q).
  { intros A b q. unfold fl_residual, np_mv. destruct (Nat.eqb (ncols A) (length x)); cbn [bind]; [|split; intros <-; reflexivity]. split; [intros (y & Hy & ->); apply fl_mv_id in Hy; subst y; reflexivity|]. intros <-. exists (mv A x). split; [apply fl_mv_id; reflexivity|reflexivity]. }
  assert (K : contains tol p x = bind (bind (np_mv (pA p) x) (fun y => vmax (vsub y (pb p)))) (fun mx => if (0 <? nrows (pC p))%nat then bind (bind (np_mv (pC p) x) (fun y => vmax (vsub y (Polyhedron.pd p)))) (fun me => Ok (Rleb mx tol && Rleb (Rabs me) tol)%bool) else Ok (Rleb mx tol))).
  { unfold contains. destruct (np_mv (pA p) x) as [y|e]; cbn [bind]; [|reflexivity]. destruct (vmax (vsub y (pb p))) as [mx|e]; cbn [bind]; [|reflexivity]. destruct (0 <? nrows (pC p))%nat; cbn [bind]; [|rewrite Bool.andb_true_r; reflexivity].
    destruct (np_mv (pC p) x) as [y'|e]; cbn [bind]; [|reflexivity]. destruct (vmax (vsub y' (Polyhedron.pd p))) as [me|e]; reflexivity. }
  rewrite K. unfold fl_contains. split.
  - intros (q & Hq & H). apply RS in Hq. rewrite Hq. destruct q as [mx|e]; cbn [bind]; [|congruence]. destruct (0 <? nrows (pC p))%nat; [|congruence]. destruct H as (q' & Hq' & ->). apply RS in Hq'. rewrite Hq'. reflexivity.
  - intros E. exists (bind (np_mv (pA p) x) (fun y => vmax (vsub y (pb p)))). split; [apply RS; reflexivity|]. destruct (bind (np_mv (pA p) x) (fun y => vmax (vsub y (pb p)))) as [mx|e]; cbn [bind] in E; [|congruence]. destruct (0 <? nrows (pC p))%nat; [|congruence].
    exists (bind (np_mv (pC p) x) (fun y => vmax (vsub y (Polyhedron.pd p)))). split; [apply RS; reflexivity|congruence].
Qed.
Lemma fl_lookup_id crs x r : fl_lookup (fun a => a) x crs r <-> get_critical_region crs x = r.
Proof.
  split.
  - induction 1 as [|c crs e H|c crs H|c crs r H _ IH]; cbn [get_critical_region]; [reflexivity| | |]; apply fl_contains_id in H; unfold cr_contains; rewrite H; cbn [bind]; auto.
  - revert r. induction crs as [|c crs IH]; cbn [get_critical_region]; intros r E; [subst r; constructor|]. unfold cr_contains in E. destruct (contains tol7 (cr_poly c) x) as [[|]|e] eqn:Q; apply fl_contains_id in Q; cbn [bind] in E; subst r; [apply fl_lookup_in|apply fl_lookup_out|apply fl_lookup_err]; auto.
Qed.
(*@ Theorem C99_unrounded : Without rounding the relations are the exact explicit controller: the stored input law, and feedback_explicit with its errors *)
Lemma explicit_unrounded C es crs x : (forall r, fl_es_u (fun a => a) crs x r <-> es_u crs x = r) /\ (forall r, fl_feedback_explicit (fun a => a) C es x r <-> feedback_explicit C es x = r).
Proof.
  assert (U : forall crs r, fl_es_u (fun a => a) crs x r <-> es_u crs x = r).
  { clear crs. intros crs r. unfold fl_es_u, es_u, es_eval.
    assert (UC : forall c v, fl_cr_u (fun a => a) c x v <-> v = cr_u c x). { intros c v. unfold fl_cr_u, cr_u. split; [intros (a & Ha & ->); apply fl_mv_id in Ha; subst a; reflexivity|]. intros ->. exists (mv (cr_ux c) x). split; [apply fl_mv_id; reflexivity|reflexivity]. }
    split.
    - intros (q & Hq & H). apply fl_lookup_id in Hq. rewrite Hq. destruct q as [[c|]|e]; cbn [bind]; [|congruence|congruence]. destruct H as (u & Hu & ->). apply UC in Hu. subst u. reflexivity.
    - intros E. exists (get_critical_region crs x). split; [apply fl_lookup_id; reflexivity|]. destruct (get_critical_region crs x) as [[c|]|e]; cbn [bind] in E; [|congruence|congruence]. exists (cr_u c x). split; [apply UC; reflexivity|congruence]. }
  split; [apply U|]. intros r. unfold fl_feedback_explicit, fl_feedforward_explicit, feedback_explicit, feedforward_explicit. destruct es as [crs0|].
  - split.
    + intros (q & (q0 & q' & H1 & H2 & ->) & ->). apply U in H1. apply fl_lookup_id in H2. subst q0 q'. destruct (es_u crs0 x) as [u|e]; cbn [bind]; [|reflexivity]. unfold es_V, es_eval. destruct (get_critical_region crs0 x) as [o|e]; reflexivity.
    + intros <-. eexists. split; [exists (es_u crs0 x), (get_critical_region crs0 x); split; [apply U; reflexivity|]; split; [apply fl_lookup_id; reflexivity|reflexivity]|]. destruct (es_u crs0 x) as [u|e]; cbn [bind]; [|reflexivity]. unfold es_V, es_eval. destruct (get_critical_region crs0 x) as [o|e]; reflexivity.
  - split; [intros (q & -> & ->); reflexivity|]. intros <-. exists (Err ValueError). split; reflexivity.
Qed.
(*@ Theorem C99_far_refuted : In float64, far from the origin a parameter of a stored region may not be found, and a region may answer whose inequality is violated by 1 *)
Lemma explicit_far : exists c1 c2 x, table_ok [c1] 2 /\ table_ok [c2] 2 /\ Forall float64 (x ++ List.concat (rows (pA (cr_poly c1)) ++ rows (pA (cr_poly c2))) ++ pb (cr_poly c1) ++ pb (cr_poly c2)) /\
  (in_poly (cr_poly c1) x /\ es_u [c1] x = Ok (Some [0]) /\ fl_es_u binary64 [c1] x (Ok None)) /\
  (dot (row (pA (cr_poly c2)) 0) x = nth 0 (pb (cr_poly c2)) 0 + 1 /\ es_u [c2] x = Ok None /\ exists v, fl_es_u binary64 [c2] x (Ok (Some v))).
Proof.
  destruct fl_far as (a & x1 & x2 & HF & H1 & H2). cbv zeta in H1, H2. destruct H1 as (W1 & I1 & E1 & F1). destruct H2 as (W2 & V2 & E2 & F2).
  inversion HF as [|? ? Fa HF1]; subst. inversion HF1 as [|? ? Fx1 HF2]; subst. inversion HF2 as [|? ? Fx2 _]; subst.
  set (law := fun p => CR [] (Mat 2 [[0; 0]]) [0] (Mat 2 [[0; 0]]) [0] (Mat 2 [[0; 0]; [0; 0]]) [0; 0] 0 p).
  eexists (law _), (law _), [x1; x2]. split; [constructor; [|constructor]; exists 1%nat; split; [lia|exact W1]|]. split; [constructor; [|constructor]; exists 1%nat; split; [lia|exact W2]|]. split; [|split].
  - cbn [law cr_poly pA pb rows app List.concat]. assert (FN : float64 (- a)) by (unfold float64, binary64 in *; rewrite Round_NE.round_NE_opp, Fa; reflexivity). repeat apply Forall_cons; auto; try (apply (b64_int 1); reflexivity); try (apply (b64_int (-1)); reflexivity); try (apply (b64_int 0); reflexivity).
  - split; [exact I1|]. split.
    + unfold es_u, es_eval. cbn [get_critical_region]. unfold cr_contains. cbn [law cr_poly]. rewrite E1. cbn [bind]. unfold cr_u. cbn. do 3 f_equal. ring.
    + exists (Ok (@None critical_region)). split; [|reflexivity]. apply fl_lookup_out; [exact F1|constructor].
  - split; [exact V2|]. split.
    + unfold es_u, es_eval. cbn [get_critical_region]. unfold cr_contains. cbn [law cr_poly]. rewrite E2. reflexivity.
    + destruct (fl_cr_u_total binary64 (law (Poly (Mat 2 [[a; -1]]) [0] (Mat 2 []) [] None None None None None)) [x1; x2]) as (v & Hv). exists v. eexists (Ok (Some _)). split; [apply fl_lookup_in; exact F2|]. exists v. split; [exact Hv|reflexivity].
Qed.
(** ** Example *)
(*@ Example C99_example : min 1/2 u^2 s.t. x <= u in float64: the hypotheses hold for every |x| <= 10^4 with E = F = 1e-7/8, and the stored table answers there with an input within 1e-7/8 of 0 or of x *)
Lemma rounded_example np : exact_np np -> exists q crs,
  mp_data (Mat 1 [[1]]) (Mat 1 [[0]]) (Mat 1 [[0]]) [0] [0] (Mat 1 [[-1]]) (Mat 1 [[1]]) [0] 1 1 1 /\
  MultiParametricQuadraticProgram np (Mat 1 [[1]]) (Mat 1 [[0]]) (Mat 1 [[0]]) [0] [0] 0 (Mat 1 [[-1]]) (Mat 1 [[1]]) [0] = Ok q /\
  explicit_solve np 3 (/ 100000) q = Ok crs /\ table_ok crs 1 /\
  forall x, Rabs x <= 10 ^ 4 -> (forall cr, In cr crs -> residual_bound u64 eta64 (tol7 / 8) (pA (cr_poly cr)) (pb (cr_poly cr)) [x] /\ forall i, (i < 1)%nat -> rounding_error u64 eta64 (1 + 1) (abs_dot (row (cr_ux cr) i) [x] + Rabs (nth i (cr_u0 cr) 0)) <= tol7 / 8) /\
    (exists r, fl_es_u binary64 crs [x] r) /\ forall r, fl_es_u binary64 crs [x] r -> exists v, r = Ok (Some [v]) /\ (Rabs v <= tol7 / 8 \/ Rabs (v - x) <= tol7 / 8).
Proof.
  intros Hnp. assert (T : tol7 < / 100000) by (unfold tol7; lra). destruct (ex_loop np (/ 100000) 0 Hnp T) as (e0 & e1 & E). exists (ex_q ex_I). eexists. split; [exact ex_data|]. split; [apply ex_ctor; exact Hnp|]. split; [exact E|].
  match goal with |- table_ok ?l _ /\ _ => set (crs := l) end. assert (TB : table_ok crs 1). { repeat constructor; exists 1%nat; (split; [lia|]); unfold wf; cbn; repeat split; repeat constructor. }
  split; [exact TB|]. intros x Hx.
  assert (RB : forall cr, In cr crs -> residual_bound u64 eta64 (tol7 / 8) (pA (cr_poly cr)) (pb (cr_poly cr)) [x] /\ forall i, (i < 1)%nat -> rounding_error u64 eta64 (1 + 1) (abs_dot (row (cr_ux cr) i) [x] + Rabs (nth i (cr_u0 cr) 0)) <= tol7 / 8).
  { assert (PX := Rabs_pos x). intros cr [<-|[<-|[]]]; (split; [intros i Hi; cbn in Hi|intros i Hi]; assert (i = 0%nat) by lia; subst i; apply error_small; try (cbn; lia); cbn [cr_poly cr_ux cr_u0 ex_r0 ex_r1 pA pb row rows nth abs_dot map dot]; unfold abs_dot; cbn [map dot]; rewrite ?Rabs_R0, ?Rabs_R1, ?Rabs_Ropp, ?(Rabs_left (-1)) by lra; lra). }
  split; [exact RB|]. destruct (fl_lookup_ok u64 eta64 binary64 crs [x] (tol7 / 8) 1 binary64_rounding TB eq_refl (fun cr I => proj1 (RB cr I))) as ((r0 & Hr0) & HL). split.
  - destruct (HL r0 Hr0) as [(-> & _)|(pre & cr & post & _ & -> & _)]; [exists (Ok None), (Ok None); auto|]. destruct (fl_cr_u_total binary64 cr [x]) as (v & Hv). exists (Ok (Some v)), (Ok (Some cr)). eauto.
  - intros r (k & Hk & HK). assert (CO : exists cr, In cr crs /\ in_poly (cr_poly cr) [x]).
    { destruct (Rle_dec x 0) as [H|H].
      + eexists. split; [left; reflexivity|]. split; [reflexivity|]. split; [|constructor]. cbn. apply Forall2_cons; [cbn; lra|constructor].
      + eexists. split; [right; left; reflexivity|]. split; [reflexivity|]. split; [|constructor]. cbn. apply Forall2_cons; [cbn; lra|constructor]. }
    destruct CO as (cr & Icr & Hcr). destruct (fl_lookup_covered u64 eta64 binary64 crs [x] (tol7 / 8) 1 cr k binary64_rounding TB eq_refl (fun cr I => proj1 (RB cr I)) ltac:(unfold tol7; lra) Icr Hcr Hk) as (c' & -> & I' & _).
    destruct HK as (v & Hv & ->). destruct (RB c' I') as (_ & B2). specialize (B2 0%nat ltac:(lia)). assert (SH : shape (cr_ux c') 1 1 /\ length (cr_u0 c') = 1%nat) by (destruct I' as [<-|[<-|[]]]; (split; [|reflexivity]); repeat constructor).
    destruct (fl_cr_u_err u64 eta64 binary64 c' [x] v 1 1 binary64_rounding (proj1 SH) (proj2 SH) eq_refl Hv) as (Lv & HV). specialize (HV 0%nat ltac:(lia)). destruct v as [|v [|]]; try discriminate Lv. exists v. split; [reflexivity|]. cbn [nth] in HV.
    destruct I' as [<-|[<-|[]]]; [left|right]; (eapply Rle_trans; [|exact B2]); (eapply Rle_trans; [|exact HV]); right; f_equal; unfold cr_u; cbn; ring.
Qed.
