(** * DrakeThms: the drake wrappers (C65-C67), proofs *)
From Coq Require Import Classical.
From Verif Require Import Arr ArrFacts Spec SpecProg SpecKkt Numpy Pnnls PnnlsFacts QpFacts Oracle SolverThms Mpqp MpqpThms GeomThms Gurobi ProgThms Drake.

(** ** The program built *)
Lemma k_ev_from r k x : k_ev x (combine r (seq k (length r))) = dot r (skipn k x).
Proof.
  unfold k_ev. revert k. induction r as [|a r IH]; intros k; [reflexivity|]. cbn [length seq combine fold_right fst snd]. rewrite IH.
  destruct (Nat.lt_ge_cases k (length x)) as [L|L].
  - rewrite (nth_skipn_cons x k 0 L). reflexivity.
  - rewrite !skipn_le_nil by lia. rewrite !dot_nil_r, nth_overflow by lia. ring.
Qed.
Lemma k_ev_dot r x : k_ev x (k_dot r) = dot r x.
Proof. apply (k_ev_from r 0). Qed.
Definition k_quad_val (q : list (R * nat * nat)) (x : vec) : R := fold_right (fun t acc => let '(c, i, j) := t in c * nth i x 0 * nth j x 0 + acc) 0 q.
Lemma k_quad_app q1 q2 x : k_quad_val (q1 ++ q2) x = k_quad_val q1 x + k_quad_val q2 x.
Proof. unfold k_quad_val. induction q1 as [|[[c i] j] q1 IH]; cbn; [ring|]. rewrite IH. ring. Qed.
Lemma k_quad_row i r k x : k_quad_val (map (fun cj : R * nat => (/ 2 * fst cj, i, snd cj)) (combine r (seq k (length r)))) x = / 2 * nth i x 0 * dot r (skipn k x).
Proof.
  unfold k_quad_val. revert k. induction r as [|a r IH]; intros k; [cbn; ring|]. cbn [length seq combine map fold_right fst snd]. rewrite IH.
  destruct (Nat.lt_ge_cases k (length x)) as [L|L].
  - rewrite (nth_skipn_cons x k 0 L). cbn [dot]. ring.
  - rewrite !skipn_le_nil by lia. rewrite !dot_nil_r, (nth_overflow x _ L). ring.
Qed.
Lemma k_quad_rows rs k x : (k + length rs <= length x)%nat ->
  k_quad_val (flat_map (fun ir => map (fun cj => (/ 2 * fst cj, fst ir, snd cj)) (combine (snd ir) (seq 0 (length (snd ir))))) (combine (seq k (length rs)) rs)) x
  = / 2 * dot (skipn k x) (map (fun r => dot r x) rs).
Proof.
  revert k. induction rs as [|r rs IH]; intros k H; [cbn; rewrite dot_nil_r; ring|].
  cbn [length seq combine flat_map map fst snd]. rewrite k_quad_app, k_quad_row. cbn [length] in H. rewrite (nth_skipn_cons x k 0) by lia.
  cbn [dot]. rewrite IH by lia. cbn [skipn]. ring.
Qed.
Definition cost_of (H : option mat) (f x : vec) : R := match H with Some H => qp_cost H f x | None => dot f x end.
Lemma build_objective nb H f A b C d m me n x : prog_data H f A b C d m me n -> length x = n -> k_objective (build nb H f A b C d) x = cost_of H f x.
Proof.
  intros (_ & _ & _ & _ & _ & HH) Lx. unfold k_objective, build. cbn [k_quad k_lin]. rewrite k_ev_dot. destruct H as [H|]; cbn [cost_of].
  - change (fold_right _ 0 (k_form H)) with (k_quad_val (k_form H) x). unfold k_form, nrows. rewrite k_quad_rows by (destruct HH; cbn; lia). reflexivity.
  - cbn. ring.
Qed.
Lemma cons_hold (Q : R -> R -> Prop) A b x : length (rows A) = length b ->
  (Forall (fun c : kexp * R => Q (k_ev x (fst c)) (snd c)) (map (fun i => (k_dot (row A i), nth i b 0)) (seq 0 (nrows A))) <-> Forall2 (fun a bi => Q (dot a x) bi) (rows A) b).
Proof.
  intros L. unfold nrows, row. rewrite (Forall2_nth_rows _ (rows A) b L). rewrite Forall_forall. split; intros H.
  - intros i Hi. specialize (H (k_dot (nth i (rows A) []), nth i b 0)). cbn [fst snd] in H. rewrite k_ev_dot in H. apply H, in_map_iff. exists i. split; [reflexivity|]. apply in_seq. lia.
  - intros c Hc. apply in_map_iff in Hc. destruct Hc as (i & <- & Hi). apply in_seq in Hi. cbn [fst snd]. rewrite k_ev_dot. apply H. lia.
Qed.
Lemma build_feasible nb H f A b C d m me n x : (nb <= n)%nat -> prog_data H f A b C d m me n ->
  (k_feasible (build nb H f A b C d) x <-> miqp_feasible (n - nb) A b C d x).
Proof.
  intros Hnb (SA & Lb & SC & Ld & Lf & _). unfold k_feasible, build. cbn [k_binary k_ineq k_eq].
  rewrite (cons_hold Rle A b x) by (rewrite Lb; apply SA). rewrite (cons_hold eq C d x) by (rewrite Ld; apply SC).
  replace (ncols A) with n by (symmetry; apply SA). rewrite app_length, !repeat_length. unfold miqp_feasible, in_set, ineq_holds, eq_holds.
  replace (ncols A) with n by (symmetry; apply SA).
  replace (repeat false (n - nb) ++ repeat true nb) with (firstn (n - nb) (repeat false n) ++ repeat true (n - (n - nb))).
  2:{ f_equal; [|f_equal; lia]. replace n with ((n - nb) + nb)%nat at 2 by lia. rewrite repeat_app, firstn_app, repeat_length, Nat.sub_diag. cbn [firstn]. rewrite app_nil_r. apply firstn_all2. rewrite repeat_length. lia. }
  replace (n - nb + nb)%nat with n by lia.
  split.
  - intros (Lx & B & I & E). split; [auto|]. apply (binary_entries _ n x Lx), B.
  - intros ((Lx & I & E) & B). split; [auto|]. split; [|auto]. apply (binary_entries _ n x Lx), B.
Qed.
Lemma binary_all n (x : vec) : length x = n -> binary_from n x.
Proof. intros L. unfold binary_from. rewrite skipn_le_nil by lia. constructor. Qed.
Lemma build_feasible0 H f A b C d m me n x : prog_data H f A b C d m me n -> (k_feasible (build 0 H f A b C d) x <-> in_set A b C d x).
Proof.
  intros HD. rewrite (build_feasible 0 H f A b C d m me n x) by (auto; lia). unfold miqp_feasible. split; [tauto|]. intros I. split; [exact I|].
  rewrite Nat.sub_0_r. apply binary_all. destruct I as (Lx & _). rewrite Lx. apply HD.
Qed.
Lemma drake_solves H f A b C d m me n r : prog_data H f A b C d m me n -> k_ok (build 0 H f A b C d) r ->
  match r with
  | Some x => in_set A b C d x /\ forall y, in_set A b C d y -> cost_of H f x <= cost_of H f y
  | None => ~ exists x, in_set A b C d x /\ forall y, in_set A b C d y -> cost_of H f x <= cost_of H f y
  end.
Proof.
  intros HD K. assert (NC : ncols A = n) by apply HD.
  assert (O : forall y, in_set A b C d y -> k_objective (build 0 H f A b C d) y = cost_of H f y). { intros y (Ly & _). apply (build_objective 0 H f A b C d m me n); [exact HD|lia]. }
  destruct r as [x|]; cbn [k_ok] in K.
  - destruct K as (F & B). apply (build_feasible0 H f A b C d m me n x HD) in F. split; [exact F|]. intros y Hy. rewrite <- !O by assumption. apply B.
    apply (build_feasible0 H f A b C d m me n y HD), Hy.
  - intros (x & F & B). apply K. exists x. split; [apply (build_feasible0 H f A b C d m me n x HD), F|]. intros y Hy. apply (build_feasible0 H f A b C d m me n y HD) in Hy.
    rewrite !O by assumption. apply B, Hy.
Qed.

(** ** Multipliers of optimal points *)
Lemma lp_multipliers f A b C d m me n x : shape A m n -> length b = m -> shape C me n -> length d = me -> length f = n -> lp_optimal f A b C d x ->
  exists l v, length l = m /\ length v = me /\ multipliers f A b C l v x n.
Proof.
  intros SA Lb SC Ld Lf (F & B). pose proof np0_ok as (NN & PI & _).
  destruct (lp_core_solvable np0 tol7 f A b C d m me n NN PI ltac:(unfold tol7; lra) SA Lb SC Ld Lf) as (x' & l & v & _ & (F' & B') & _ & Ll & Lv & P & S & _ & G).
  { split; [exists x; exact F|]. exists (dot f x). exact B. }
  exists l, v. split; [exact Ll|]. split; [exact Lv|]. split; [exact P|]. split; [exact S|].
  apply (kkt_lp f A b C d m me n x l v SA Lb SC Ld Lf Ll Lv P F S). pose proof (B x' F'). pose proof (B' x F). lra.
Qed.
(** the first-order condition *)
Lemma qp_first_order H f A b C d m me n x : shape H n n -> psd H n -> shape A m n -> length b = m -> shape C me n -> length d = me -> length f = n ->
  qp_optimal H f A b C d x -> lp_optimal (vadd (mv H x) f) A b C d x.
Proof.
  intros SH PH SA Lb SC Ld Lf (F & B). split; [exact F|]. intros y Fy.
  assert (NC : ncols A = n) by apply SA.
  pose proof F as F1. pose proof Fy as Fy1. apply in_set_vle in F1, Fy1. destruct F1 as (Lx & I & E), Fy1 as (Ly & Iy & Ey). rewrite NC in Lx, Ly.
  set (w := vsub y x). assert (Lw : length w = n) by (unfold w; len).
  set (g := vadd (mv H x) f). assert (Lh : forall z, length (mv H z) = n) by (intros z; rewrite mv_length; apply SH). assert (Lg : length g = n) by (unfold g; rewrite vadd_length, Lh; lia).
  assert (D : dot g y = dot g x + dot g w). { unfold w. rewrite dot_vsub_r by lia. ring. }
  rewrite D. destruct (Rle_lt_dec 0 (dot g w)) as [P|N]; [lra|exfalso].
  set (q := dot w (mv H w)). assert (Q : 0 <= q) by (apply PH; exact Lw).
  set (t := Rmin 1 (- dot g w / (q + 1))).
  assert (T0 : 0 < t). { unfold t. apply Rmin_glb_lt; [lra|]. apply Rdiv_lt_0_compat; lra. }
  assert (T1 : t <= 1) by apply Rmin_l.
  assert (T2 : t * (q + 1) <= - dot g w). { apply (Rmult_le_reg_r (/ (q + 1))); [apply Rinv_0_lt_compat; lra|]. rewrite Rmult_assoc, Rinv_r, Rmult_1_r by lra. apply Rmin_r. }
  set (z := vadd x (vscale t w)). assert (Lz : length z = n) by (unfold z; len).
  assert (Hz : forall a, length a = n -> dot a z = (1 - t) * dot a x + t * dot a y).
  { intros a La. unfold z, w. rewrite dot_vadd_r, dot_vscale_r, dot_vsub_r by len. ring. }
  assert (Fz : in_set A b C d z).
  { destruct F as (_ & I1 & E1), Fy as (_ & I2 & E2). split; [lia|]. assert (LA : length (rows A) = length b) by (rewrite Lb; apply SA). assert (LC : length (rows C) = length d) by (rewrite Ld; apply SC).
    split.
    - unfold ineq_holds in *. apply (Forall2_nth_rows _ _ _ LA). intros i Hi.
      pose proof (proj1 (Forall2_nth_rows _ _ _ LA) I1 i Hi) as J1. pose proof (proj1 (Forall2_nth_rows _ _ _ LA) I2 i Hi) as J2. cbv beta in J1, J2.
      rewrite Hz by (apply (shape_In A m n); [exact SA|apply nth_In; lia]). nra.
    - unfold eq_holds in *. apply (Forall2_nth_rows _ _ _ LC). intros i Hi.
      pose proof (proj1 (Forall2_nth_rows _ _ _ LC) E1 i Hi) as J1. pose proof (proj1 (Forall2_nth_rows _ _ _ LC) E2 i Hi) as J2. cbv beta in J1, J2.
      rewrite Hz by (apply (shape_In C me n); [exact SC|apply nth_In; lia]). rewrite J1, J2. ring. }
  specialize (B z Fz). unfold qp_cost in B.
  assert (K : / 2 * dot z (mv H z) + dot f z = / 2 * dot x (mv H x) + dot f x + t * dot g w + / 2 * t * t * q).
  { unfold z. rewrite (mv_vadd H n n) by (auto; len). rewrite mv_vscale. rewrite !dot_vadd_l, !dot_vadd_r, !dot_vscale_l, !dot_vscale_r by (len; rewrite ?Lh; len).
    assert (S : dot w (mv H x) = dot x (mv H w)). { rewrite <- (proj1 PH) at 2. rewrite (dot_mv_tr_r H n n) by auto. apply dot_comm. }
    unfold g. rewrite dot_vadd_l by (rewrite Lh; lia). rewrite (dot_comm (mv H x) w). fold q. rewrite S. field. }
  rewrite K in B. assert (t * t * q <= t * (- dot g w)) by nra. nra.
Qed.
Lemma qp_multipliers H f A b C d m me n x : shape H n n -> psd H n -> shape A m n -> length b = m -> shape C me n -> length d = me -> length f = n ->
  qp_optimal H f A b C d x -> exists l v, length l = m /\ length v = me /\ multipliers (vadd (mv H x) f) A b C l v x n.
Proof.
  intros SH PH SA Lb SC Ld Lf O. assert (Lg : length (vadd (mv H x) f) = n). { rewrite vadd_length, mv_length. destruct SH. lia. }
  apply (lp_multipliers (vadd (mv H x) f) A b C d m me n x); auto. apply (qp_first_order H f A b C d m me n); auto.
Qed.

(** ** The active set *)
Lemma active_spec tol A b x m n : shape A m n -> length b = m -> nearly_active A b x tol (active tol A b x).
Proof.
  intros SA Lb. assert (Lm : length (mv A x) = m) by (rewrite mv_length; apply SA). unfold active. rewrite (where_seq _ 0). split; [apply NoDup_filter, seq_NoDup|].
  intros i. rewrite filter_In, in_seq, vsub_length, Lm, Lb, Nat.min_id. split.
  - intros (Hi & E). apply Rltb_true in E. rewrite nth_vsub in E by lia. rewrite nth_mv in E. fold (row A i) in E. split; [lia|lra].
  - intros (Hi & E). split; [lia|]. apply Rltb_true. rewrite nth_vsub by lia. rewrite nth_mv. fold (row A i). lra.
Qed.
(** the stacked rows of the active constraints and the equalities *)
Definition stacked (A C : mat) (act : list nat) : mat := if (0 <? nrows C)%nat then vstack (mtake A act) C else mtake A act.
Lemma stacked_shape A C act m me n : shape A m n -> shape C me n -> (forall i, In i act -> (i < m)%nat) -> shape (stacked A C act) (length act + me) n.
Proof.
  intros SA SC Ha. unfold stacked. pose proof (shape_mtake A m n act SA Ha) as ST. unfold nrows. replace (length (rows C)) with me by (symmetry; apply SC).
  destruct (0 <? me)%nat eqn:E; [exact (shape_vstack _ _ (length act) me n ST SC)|]. apply Nat.ltb_ge in E. replace (length act + me)%nat with (length act) by lia. exact ST.
Qed.
Lemma mv_stacked A C act x : mv (stacked A C act) x = vtake (mv A x) act ++ mv C x.
Proof.
  unfold stacked. destruct (0 <? nrows C)%nat eqn:E; [rewrite mv_vstack, mv_mtake_vtake; reflexivity|]. rewrite mv_mtake_vtake. apply Nat.ltb_ge in E.
  unfold nrows in E. unfold mv at 3. destruct (rows C); [cbn; rewrite app_nil_r; reflexivity|cbn in E; lia].
Qed.
Lemma combine_app_l {X Y} (idx : list X) (u v : list Y) : length u = length idx -> combine idx (u ++ v) = combine idx u.
Proof. revert u. induction idx as [|i idx IH]; intros [|a u] L; try discriminate; [destruct v; reflexivity|]. cbn. rewrite IH by (cbn in L; lia). reflexivity. Qed.
Lemma combine_skip A b C x act l v n m me y tol : shape A m n -> shape C me n -> length b = m -> nearly_active A b x tol act ->
  length y = (length act + me)%nat -> l = scatter (zeros m) act y -> v = skipn (length act) y ->
  (length l = m /\ length v = me /\ (forall i, ~ In i act -> nth i l 0 = 0) /\ (forall k, (k < length act)%nat -> nth (nth k act 0%nat) l 0 = nth k y 0)) /\
  forall z, length z = n -> dot l (mv A z) + dot v (mv C z) = dot y (mv (stacked A C act) z).
Proof.
  intros SA SC Lb (ND & IA) Ly -> ->.
  set (u := firstn (length act) y). set (v := skipn (length act) y). assert (Lu : length u = length act) by (unfold u; rewrite firstn_length; lia).
  assert (Lv : length v = me) by (unfold v; rewrite skipn_length; lia). assert (Ey : y = u ++ v) by (symmetry; apply firstn_skipn).
  assert (ES : scatter (zeros m) act y = scatter (zeros m) act u). { unfold scatter. rewrite Ey, (combine_app_l act u v Lu). reflexivity. }
  assert (Ha : forall i, In i act -> (i < m)%nat). { intros i Hi. apply IA in Hi. lia. }
  assert (Hz : forall i, In i act -> (i < length (zeros m))%nat). { intros i Hi. rewrite zeros_length. auto. }
  rewrite ES. split; [split; [rewrite scatter_length; apply zeros_length|]; split; [exact Lv|]; split|].
  - intros i Hi. rewrite nth_scatter_out by exact Hi. apply nth_zeros.
  - intros k Hk. rewrite (nth_scatter_in act 0 0 ND) by (auto; lia). rewrite Ey, app_nth1 by lia. reflexivity.
  - intros z Lz. rewrite mv_stacked, Ey, dot_app by (unfold vtake; rewrite map_length; lia). f_equal. rewrite dot_scatter; auto.
    + rewrite dot_zeros_l. ring.
    + rewrite zeros_length, mv_length. symmetry. apply SA.
    + intros. apply nth_zeros.
Qed.
Lemma pack A b C x act tol l v n m me : shape A m n -> shape C me n -> length b = m -> nearly_active A b x tol act ->
  length l = m -> length v = me -> (forall i, ~ In i act -> nth i l 0 = 0) ->
  scatter (zeros m) act (vtake l act ++ v) = l /\ skipn (length act) (vtake l act ++ v) = v.
Proof.
  intros SA SC Lb (ND & IA) Ll Lv Z. assert (LT : length (vtake l act) = length act) by apply map_length.
  assert (Ha : forall i, In i act -> (i < m)%nat). { intros i Hi. apply IA in Hi. lia. }
  split.
  - unfold scatter. rewrite (combine_app_l act _ v LT). fold (scatter (zeros m) act (vtake l act)). apply (nth_ext _ _ 0 0); [rewrite scatter_length, zeros_length; lia|].
    intros i _. destruct (in_dec Nat.eq_dec i act) as [I|I].
    + destruct (In_nth _ _ 0%nat I) as (k & Hk & <-). rewrite (nth_scatter_in act 0 0 ND) by (auto; intros j Hj; rewrite zeros_length; auto).
      unfold vtake. rewrite (nth_indep _ 0 (nth 0 l 0)) by (rewrite map_length; lia). rewrite (map_nth (fun i => nth i l 0)). reflexivity.
    + rewrite nth_scatter_out, nth_zeros, Z by exact I. reflexivity.
  - rewrite <- LT, skipn_app, skipn_all, Nat.sub_diag. reflexivity.
Qed.
(** multipliers vanish on constraints that are not nearly active *)
Lemma support gr A b C l v x n tol act m : 0 < tol -> length b = m -> length l = m -> multipliers gr A b C l v x n -> nearly_active A b x tol act ->
  forall i, ~ In i act -> nth i l 0 = 0.
Proof.
  intros T Lb Ll (_ & _ & S) (_ & IA) i Hi. destruct (Nat.lt_ge_cases i m) as [I|I]; [|apply nth_overflow; lia].
  specialize (S i ltac:(lia)). destruct (Rle_lt_dec tol (nth i b 0 - dot (row A i) x)) as [B|B]; [|destruct Hi; apply IA; split; [lia|exact B]].
  apply Rmult_integral in S. destruct S as [S|S]; lra.
Qed.
Lemma dots_zero u n : length u = n -> (forall z, length z = n -> dot u z = 0) -> u = zeros n.
Proof. intros L H. specialize (H u L). apply dot_self_zero in H. rewrite H. f_equal. exact L. Qed.
Lemma rank_act A C act m me n : shape A m n -> shape C me n -> (forall i, In i act -> (i < m)%nat) -> forall y z, length y = (length act + me)%nat ->
  dot (mv (tr (stacked A C act)) y) z = dot y (mv (stacked A C act) z).
Proof. intros SA SC Ha y z Ly. apply (dot_mv_tr _ (length act + me) n); [apply (stacked_shape A C act m me n); auto|exact Ly]. Qed.
(** hstack of the transposes acts as the transpose of the stack *)
Lemma mv_columns A C act m me n y : shape A m n -> shape C me n -> (forall i, In i act -> (i < m)%nat) -> length y = (length act + me)%nat ->
  mv (if (0 <? nrows C)%nat then hstack (tr (mtake A act)) (tr C) else tr (mtake A act)) y = mv (tr (stacked A C act)) y.
Proof.
  intros SA SC Ha Ly. unfold stacked, nrows. replace (length (rows C)) with me by (symmetry; apply SC).
  destruct (0 <? me)%nat; [|reflexivity]. pose proof (shape_mtake A m n act SA Ha) as ST. pose proof (shape_vstack _ _ _ _ _ ST SC) as SV.
  rewrite <- (firstn_skipn (length act) y). set (u := firstn (length act) y). set (v := skipn (length act) y).
  assert (Lu : length u = length act) by (unfold u; rewrite firstn_length; lia). assert (Lv : length v = me) by (unfold v; rewrite skipn_length; lia).
  rewrite (mv_hstack _ _ n (length act) me) by auto with shp.
  assert (L1 : length (mv (tr (mtake A act)) u) = n) by (rewrite mv_length; apply (shape_tr _ _ _ ST)).
  assert (L2 : length (mv (tr C) v) = n) by (rewrite mv_length; apply (shape_tr _ _ _ SC)).
  assert (L3 : length (mv (tr (vstack (mtake A act) C)) (u ++ v)) = n) by (rewrite mv_length; apply (shape_tr _ _ _ SV)).
  assert (Z : vsub (vadd (mv (tr (mtake A act)) u) (mv (tr C) v)) (mv (tr (vstack (mtake A act) C)) (u ++ v)) = zeros n).
  { apply dots_zero; [len|]. intros z Lz. rewrite dot_vsub_l, dot_vadd_l by len. rewrite (dot_mv_tr _ (length act) n) by auto. rewrite (dot_mv_tr _ me n) by auto.
    rewrite (dot_mv_tr _ (length act + me) n) by (auto; len). rewrite mv_vstack, dot_app by (rewrite mv_length; destruct ST; lia). ring. }
  apply (vsub_zero_eq _ _ n) in Z; [exact Z|len|len].
Qed.
Lemma columns_shape A C act m me n : shape A m n -> shape C me n -> (forall i, In i act -> (i < m)%nat) ->
  shape (if (0 <? nrows C)%nat then hstack (tr (mtake A act)) (tr C) else tr (mtake A act)) n (length act + me).
Proof.
  intros SA SC Ha. pose proof (shape_mtake A m n act SA Ha) as ST. unfold nrows. replace (length (rows C)) with me by (symmetry; apply SC).
  destruct (0 <? me)%nat eqn:E; [apply (shape_hstack _ _ n (length act) me); auto with shp|]. apply Nat.ltb_ge in E. replace (length act + me)%nat with (length act) by lia. auto with shp.
Qed.
Lemma indep_iff A b C x tol act m me n : shape A m n -> shape C me n -> length b = m -> nearly_active A b x tol act ->
  (independent A C act m me n <-> forall y, length y = (length act + me)%nat -> (forall z, length z = n -> dot y (mv (stacked A C act) z) = 0) -> y = zeros (length act + me)).
Proof.
  intros SA SC Lb NA. split; intros H.
  - intros y Ly Z. destruct (combine_skip A b C x act _ _ n m me y tol SA SC Lb NA Ly eq_refl eq_refl) as ((L1 & L2 & O & I) & D).
    destruct (H _ _ L1 L2 O) as (E1 & E2). { intros z Lz. rewrite (D z Lz). apply Z, Lz. }
    apply (nth_ext _ _ 0 0); [rewrite zeros_length; exact Ly|]. intros k Hk. rewrite nth_zeros.
    destruct (Nat.lt_ge_cases k (length act)) as [K|K].
    + rewrite <- (I k K), E1. apply nth_zeros.
    + replace k with (length act + (k - length act))%nat by lia. rewrite <- nth_skipn', E2. apply nth_zeros.
  - intros l v Ll Lv O Z. destruct (pack A b C x act tol l v n m me SA SC Lb NA Ll Lv O) as (P1 & P2).
    assert (Ly : length (vtake l act ++ v) = (length act + me)%nat) by (rewrite app_length; unfold vtake; rewrite map_length; lia).
    destruct (combine_skip A b C x act _ _ n m me _ tol SA SC Lb NA Ly eq_refl eq_refl) as (_ & D). rewrite P1, P2 in D.
    assert (E : vtake l act ++ v = zeros (length act + me)). { apply H; [exact Ly|]. intros z Lz. rewrite <- (D z Lz). apply Z, Lz. }
    split.
    + rewrite <- P1, E. apply (nth_ext _ _ 0 0); [rewrite scatter_length; reflexivity|]. intros i _. rewrite nth_zeros.
      destruct (in_dec Nat.eq_dec i act) as [I|I]; [|rewrite nth_scatter_out by exact I; apply nth_zeros].
      destruct (In_nth _ _ 0%nat I) as (k & Hk & <-).
      destruct (combine_skip A b C x act _ _ n m me (zeros (length act + me)) tol SA SC Lb NA ltac:(apply zeros_length) eq_refl eq_refl) as ((_ & _ & _ & J) & _).
      rewrite (J k Hk). apply nth_zeros.
    + rewrite <- P2, E. apply (nth_ext _ _ 0 0); [rewrite skipn_length, !zeros_length; lia|]. intros i _. rewrite nth_skipn', !nth_zeros. reflexivity.
Qed.

Lemma equalities_ok A n m Co d_o C d : shape A m n -> eq_args n Co d_o C d -> equalities A Co d_o = Ok (C, d).
Proof. intros SA [(-> & ->)|(-> & -> & -> & ->)]; [reflexivity|]. cbn. replace (ncols A) with n by (symmetry; apply SA). reflexivity. Qed.

(*@ Theorem C65_drake_lp : With an exact drake, the wrapper for linear programs returns a minimizer, its cost, the constraints with slack below tol as active set, and multipliers supported on them that make the Lagrangian stationary; if the active constraints and the equalities are independent, the multipliers are nonnegative and complementary.  Without a minimizer it returns None everywhere. *)
Lemma drake_lp np drake tol f A b Co d_o C d m me n : pinv_ok np -> 0 < tol -> prog_data None f A b C d m me n -> eq_args n Co d_o C d ->
  k_ok (build 0 None f A b C d) (drake (build 0 None f A b C d)) ->
  (exists s x l v act, Drake.linear_program np drake tol f A b Co d_o = Ok s /\ s_argmin s = Some x /\ s_min s = Some (dot f x) /\ lp_optimal f A b C d x /\
     s_active_set s = Some act /\ nearly_active A b x tol act /\
     s_multiplier_inequality s = Some l /\ s_multiplier_equality s = (if (0 <? me)%nat then Some v else None) /\ length l = m /\ length v = me /\
     stationary f A l C v n /\ (forall i, ~ In i act -> nth i l 0 = 0) /\
     (independent A C act m me n -> multipliers f A b C l v x n)) \/
  (Drake.linear_program np drake tol f A b Co d_o = Ok sol_none /\ ~ exists x, lp_optimal f A b C d x).
Proof.
  intros PI T HD HE K. pose proof (drake_solves None f A b C d m me n _ HD K) as P. destruct HD as (SA & Lb & SC & Ld & Lf & _).
  unfold Drake.linear_program. rewrite (equalities_ok A n m Co d_o C d SA HE). cbn [bind]. cbv beta iota.
  destruct (drake (build 0 None f A b C d)) as [x|]; [left|right; split; [reflexivity|exact P]].
  assert (O : lp_optimal f A b C d x) by exact P. clear P.
  pose proof (active_spec tol A b x m n SA Lb) as NA. set (act := active tol A b x) in *.
  assert (Ha : forall i, In i act -> (i < m)%nat). { intros i Hi. apply (proj2 NA) in Hi. lia. }
  destruct (lp_multipliers f A b C d m me n x SA Lb SC Ld Lf O) as (l0 & v0 & Ll0 & Lv0 & M0).
  pose proof (support f A b C l0 v0 x n tol act m T Lb Ll0 M0 NA) as S0.
  destruct (pack A b C x act tol l0 v0 n m me SA SC Lb NA Ll0 Lv0 S0) as (P1 & P2).
  set (k := vtake l0 act ++ v0) in *. assert (Lk : length k = (length act + me)%nat) by (unfold k; rewrite app_length; unfold vtake; rewrite map_length; lia).
  destruct (combine_skip A b C x act _ _ n m me k tol SA SC Lb NA Lk eq_refl eq_refl) as (_ & Dk). rewrite P1, P2 in Dk.
  cbv zeta. set (M := if (0 <? nrows C)%nat then hstack (tr (mtake A act)) (tr C) else tr (mtake A act)).
  assert (SM : shape M n (length act + me)) by (apply (columns_shape A C act m me n); auto).
  assert (EM : forall y, length y = (length act + me)%nat -> mv M y = mv (tr (stacked A C act)) y) by (intros; apply (mv_columns A C act m me n); auto).
  destruct (PI M n (length act + me)%nat SM) as (SP & PM & _).
  set (y := vneg (mv (np_pinv np M) f)). assert (Ly : length y = (length act + me)%nat) by (unfold y; rewrite vneg_length, mv_length; apply SP).
  assert (Fk : f = vneg (mv M k)).
  { rewrite EM by exact Lk. pose proof (stacked_shape A C act m me n SA SC Ha) as SS.
    assert (LS : length (mv (tr (stacked A C act)) k) = n) by (rewrite mv_length; apply (shape_tr _ _ _ SS)).
    assert (Z : vadd f (mv (tr (stacked A C act)) k) = zeros n).
    { apply dots_zero; [len|]. intros z Lz. rewrite dot_vadd_l by lia. rewrite (rank_act A C act m me n SA SC Ha k z Lk), <- (Dk z Lz). destruct M0 as (_ & St & _). specialize (St z Lz). lra. }
    apply vec_ext; [rewrite vneg_length; lia|]. intros i _. pose proof (f_equal (fun u => nth i u 0) Z) as Zi. cbv beta in Zi. rewrite nth_vadd in Zi by lia. rewrite nth_zeros in Zi. rewrite nth_vneg. lra. }
  assert (My : mv M y = mv M k).
  { unfold y. rewrite Fk at 1. rewrite !mv_vneg. rewrite <- (mv_mm (np_pinv np M) M n (length act + me)) by exact SM.
    rewrite <- (mv_mm M _ (length act + me) (length act + me)) by (apply (shape_mm _ _ _ n); assumption).
    rewrite (mm_assoc M (np_pinv np M) M n (length act + me) n (length act + me)) by assumption. rewrite PM. apply vneg_vneg. }
  destruct (combine_skip A b C x act _ _ n m me y tol SA SC Lb NA Ly eq_refl eq_refl) as ((L1 & L2 & Oy & _) & Dy).
  set (l := scatter (zeros m) act y) in *. set (v := skipn (length act) y) in *.
  assert (Eyk : forall z, length z = n -> dot y (mv (stacked A C act) z) = dot k (mv (stacked A C act) z)).
  { intros z Lz. rewrite <- !(rank_act A C act m me n SA SC Ha) by assumption. rewrite <- !EM by assumption. rewrite My. reflexivity. }
  unfold with_multipliers, nrows. replace (length (rows A)) with m by (symmetry; apply SA). replace (length (rows C)) with me by (symmetry; apply SC).
  exists (Sol (Some (dot f x)) (Some x) (Some act) (Some l) (if (0 <? me)%nat then Some v else None)), x, l, v, act.
  split; [reflexivity|]. cbn [s_argmin s_min s_active_set s_multiplier_inequality s_multiplier_equality].
  do 3 (split; [first [reflexivity|exact O]|]). split; [reflexivity|]. split; [exact NA|]. do 2 (split; [reflexivity|]). split; [exact L1|]. split; [exact L2|].
  assert (ST : stationary f A l C v n). { intros z Lz. pose proof (proj1 (proj2 M0) z Lz) as St. specialize (Dk z Lz). specialize (Dy z Lz). specialize (Eyk z Lz). lra. }
  split; [exact ST|]. split; [exact Oy|]. intros Ind.
  assert (E : y = k).
  { assert (Z : vsub y k = zeros (length act + me)).
    { apply (proj1 (indep_iff A b C x tol act m me n SA SC Lb NA) Ind); [len|]. intros z Lz. rewrite dot_vsub_l by lia. rewrite (Eyk z Lz). ring. }
    apply (vsub_zero_eq _ _ (length act + me)) in Z; [exact Z|lia|lia]. }
  unfold l, v. rewrite E, P1, P2. exact M0.
Qed.

(** ** Quadratic programs *)
Lemma gram_zero H Hi L k n y : shape H n n -> pd H n -> shape Hi n n -> mm H Hi = eye n -> shape L k n -> length y = k ->
  mv (mm (mm L Hi) (tr L)) y = zeros k -> mv (tr L) y = zeros n.
Proof.
  intros SH PH SI I1 SL Ly E. pose proof (shape_tr _ _ _ SL) as ST. set (z := mv (tr L) y). assert (Lz : length z = n) by (unfold z; rewrite mv_length; apply ST).
  set (w := mv Hi z). assert (Lw : length w = n) by (unfold w; rewrite mv_length; apply SI).
  assert (Z : z = mv H w). { unfold w. rewrite <- (mv_mm H Hi n n) by exact SI. rewrite I1. symmetry. apply mv_eye. exact Lz. }
  rewrite (mv_mm _ _ n k) in E by exact ST. rewrite (mv_mm _ _ n n) in E by exact SI. fold z w in E.
  assert (D : dot w z = 0). { rewrite dot_comm. unfold z at 1. rewrite (dot_mv_tr L k n) by auto. rewrite E. apply dot_zeros_r. }
  destruct (list_eq_dec Req_EM_T w (zeros n)) as [W|W].
  - rewrite Z, W, mv_zeros. f_equal. apply SH.
  - exfalso. pose proof (proj2 PH w Lw W) as Q. rewrite <- Z in Q. lra.
Qed.
Lemma pd_kernel H n x : pd H n -> length x = n -> mv H x = zeros n -> x = zeros n.
Proof. intros (_ & P) L E. destruct (list_eq_dec Req_EM_T x (zeros n)) as [Z|Z]; [exact Z|]. exfalso. specialize (P x L Z). rewrite E, dot_zeros_r in P. lra. Qed.
Lemma pd_psd' H n : pd H n -> psd H n.
Proof.
  intros (S & P). split; [exact S|]. intros x L. destruct (list_eq_dec Req_EM_T x (zeros n)) as [Z|Z]; [|apply Rlt_le, P; assumption].
  subst x. rewrite dot_zeros_l. lra.
Qed.

(*@ Theorem C66_drake_qp : With an exact drake, on strictly convex quadratic programs that have a minimizer x the wrapper for quadratic programs raises LinAlgError if the constraints with slack below tol and the equalities are dependent, and otherwise returns x, its cost, these constraints as active set, and the multipliers of the program in which they are all equalities; if all of them hold with equality at x, these are Lagrange multipliers of the program at x.  Without a minimizer it returns None everywhere. *)
Lemma drake_qp np drake tol H f A b Co d_o C d m me n : inv_ok np -> 0 < tol -> prog_data (Some H) f A b C d m me n -> pd H n -> eq_args n Co d_o C d ->
  k_ok (build 0 (Some H) f A b C d) (drake (build 0 (Some H) f A b C d)) ->
  (exists x act, qp_optimal H f A b C d x /\ nearly_active A b x tol act /\
    ((independent A C act m me n /\ exists s l v, Drake.quadratic_program np drake tol H f A b Co d_o = Ok s /\ s_argmin s = Some x /\ s_min s = Some (qp_cost H f x) /\ s_active_set s = Some act /\
       s_multiplier_inequality s = Some l /\ s_multiplier_equality s = (if (0 <? me)%nat then Some v else None) /\ length l = m /\ length v = me /\
       (forall i, ~ In i act -> nth i l 0 = 0) /\
       (exists x', length x' = n /\ (forall i, In i act -> dot (row A i) x' = nth i b 0) /\ eq_holds C d x' /\ stationary (vadd (mv H x') f) A l C v n) /\
       ((forall i, In i act -> dot (row A i) x = nth i b 0) -> multipliers (vadd (mv H x) f) A b C l v x n)) \/
     (~ independent A C act m me n /\ Drake.quadratic_program np drake tol H f A b Co d_o = Err LinAlgError))) \/
  (Drake.quadratic_program np drake tol H f A b Co d_o = Ok sol_none /\ ~ exists x, qp_optimal H f A b C d x).
Proof.
  intros IO T HD PH HE K. pose proof (drake_solves (Some H) f A b C d m me n _ HD K) as P. destruct HD as (SA & Lb & SC & Ld & Lf & SH).
  unfold Drake.quadratic_program. rewrite (equalities_ok A n m Co d_o C d SA HE). cbn [bind]. cbv beta iota.
  destruct (drake (build 0 (Some H) f A b C d)) as [x|]; [left|right; split; [reflexivity|exact P]].
  assert (O : qp_optimal H f A b C d x) by exact P. clear P.
  pose proof (active_spec tol A b x m n SA Lb) as NA. set (act := active tol A b x) in *.
  assert (Ha : forall i, In i act -> (i < m)%nat). { intros i Hi. apply (proj2 NA) in Hi. lia. }
  pose proof (stacked_shape A C act m me n SA SC Ha) as SS. pose proof (shape_tr _ _ _ SS) as SST.
  exists x, act. split; [exact O|]. split; [exact NA|]. cbv zeta.
  change (if (0 <? nrows C)%nat then vstack (mtake A act) C else mtake A act) with (stacked A C act).
  set (L := stacked A C act) in *. set (k := (length act + me)%nat) in *.
  assert (ER : (if (0 <? nrows C)%nat then vtake b act ++ d else vtake b act) = vtake b act ++ d).
  { destruct (0 <? nrows C)%nat eqn:E; [reflexivity|]. apply Nat.ltb_ge in E. unfold nrows in E. replace (length (rows C)) with me in E by (symmetry; apply SC). destruct d; [rewrite app_nil_r; reflexivity|cbn in Ld; lia]. }
  rewrite ER. set (rhs := vtake b act ++ d) in *. assert (Lr : length rhs = k) by (unfold rhs, k; rewrite app_length; unfold vtake; rewrite map_length; lia).
  destruct (IO H n SH) as [(_ & Hi & EH & SI & I1 & I2)|((z & Lz & Nz & Ez) & _)]; [|destruct Nz; apply (pd_kernel H n); assumption].
  rewrite EH. cbn [bind]. assert (SM : shape (mm (mm L Hi) (tr L)) k k). { apply (shape_mm _ _ _ n); [apply (shape_mm _ _ _ n); assumption|exact SST]. }
  destruct (IO _ k SM) as [(TK & Mi & EM & SMi & J1 & J2)|((z & Lz & Nz & Ez) & EM)]; rewrite EM; cbn [bind].
  2:{ right. split; [|reflexivity]. intros Ind. apply Nz. apply (proj1 (indep_iff A b C x tol act m me n SA SC Lb NA) Ind); [exact Lz|].
      intros t Lt. fold L. rewrite <- (dot_mv_tr L k n) by auto. rewrite (gram_zero H Hi L k n z) by assumption. apply dot_zeros_l. }
  left. split.
  { apply (proj2 (indep_iff A b C x tol act m me n SA SC Lb NA)). intros y Ly Z. fold k in Ly. apply TK; [exact Ly|].
    rewrite (mv_mm _ _ n k) by exact SST. assert (E : mv (tr L) y = zeros n).
    { apply dots_zero; [rewrite mv_length; apply SST|]. intros z Lz. rewrite (dot_mv_tr L k n) by auto. apply Z, Lz. }
    rewrite E, mv_zeros. f_equal. apply (shape_mm L Hi k n n); assumption. }
  set (g0 := vadd (mv (mm L Hi) f) rhs). assert (Lg : length g0 = k). { unfold g0. rewrite vadd_length, mv_length, Lr. rewrite (shape_rows _ k n); [lia|]. apply (shape_mm _ _ _ n); assumption. }
  set (y := vneg (mv Mi g0)). assert (Ly : length y = k) by (unfold y; rewrite vneg_length, mv_length; apply SMi).
  destruct (combine_skip A b C x act _ _ n m me y tol SA SC Lb NA Ly eq_refl eq_refl) as ((L1 & L2 & Oy & _) & Dy). fold L in Dy.
  set (l := scatter (zeros m) act y) in *. set (v := skipn (length act) y) in *.
  unfold with_multipliers, nrows. replace (length (rows A)) with m by (symmetry; apply SA). replace (length (rows C)) with me by (symmetry; apply SC).
  exists (Sol (Some (qp_cost H f x)) (Some x) (Some act) (Some l) (if (0 <? me)%nat then Some v else None)), l, v.
  split; [reflexivity|]. cbn [s_argmin s_min s_active_set s_multiplier_inequality s_multiplier_equality].
  do 5 (split; [reflexivity|]). split; [exact L1|]. split; [exact L2|]. split; [exact Oy|].
  (* the point of the equality-constrained program *)
  assert (EY : mv (mm (mm L Hi) (tr L)) y = vneg g0).
  { unfold y. rewrite mv_vneg. rewrite <- (mv_mm _ Mi k k) by exact SMi. rewrite J1. rewrite mv_eye by exact Lg. reflexivity. }
  set (x' := vneg (mv Hi (vadd f (mv (tr L) y)))).
  assert (LT : forall u, length (mv (tr L) u) = n) by (intros u; rewrite mv_length; apply SST).
  assert (LHi : forall u, length (mv Hi u) = n) by (intros u; rewrite mv_length; apply SI).
  assert (LH : forall u, length (mv H u) = n) by (intros u; rewrite mv_length; apply SH).
  assert (LL : forall u, length (mv L u) = k) by (intros u; rewrite mv_length; apply SS).
  assert (Lx' : length x' = n) by (unfold x'; rewrite vneg_length; apply LHi).
  assert (Hx' : mv H x' = vneg (vadd f (mv (tr L) y))).
  { unfold x'. rewrite mv_vneg, <- (mv_mm H Hi n n) by exact SI. rewrite I1, mv_eye; [reflexivity|]. rewrite vadd_length, LT. lia. }
  assert (Ex' : mv L x' = rhs).
  { unfold x'. rewrite (mv_vadd Hi n n) by (auto; lia). rewrite mv_vneg, (mv_vadd L k n) by auto.
    rewrite (mv_mm _ _ n k) in EY by exact SST. rewrite (mv_mm L Hi n n) in EY by exact SI. rewrite EY. unfold g0. rewrite (mv_mm L Hi n n) by exact SI.
    apply vec_ext; [rewrite vneg_length, vadd_length, vneg_length, vadd_length, !LL, Lr; lia|]. intros i _.
    rewrite nth_vneg, nth_vadd by (rewrite vneg_length, vadd_length, !LL, Lr; lia). rewrite nth_vneg, nth_vadd by (rewrite LL, Lr; lia). ring. }
  assert (Act' : forall u, mv L u = rhs <-> (forall i, In i act -> dot (row A i) u = nth i b 0) /\ mv C u = d).
  { intros u. unfold L, rhs. rewrite mv_stacked. split.
    - intros E. apply app_inj_iff in E; [|unfold vtake; rewrite !map_length; reflexivity]. destruct E as (E1 & E2). split; [|exact E2]. intros i Hi'.
      destruct (In_nth _ _ 0%nat Hi') as (j & Hj & <-). unfold vtake in E1. pose proof (f_equal (fun u => nth j u 0) E1) as Ej. cbv beta in Ej.
      rewrite (nth_indep _ 0 (nth 0 (mv A u) 0)) in Ej by (rewrite map_length; lia). rewrite (map_nth (fun i => nth i (mv A u) 0)) in Ej.
      rewrite (nth_indep (map _ act) 0 (nth 0 b 0)) in Ej by (rewrite map_length; lia). rewrite (map_nth (fun i => nth i b 0)) in Ej. rewrite nth_mv in Ej. exact Ej.
    - intros (E1 & E2). rewrite E2. f_equal. unfold vtake. apply map_ext_in. intros i Hi'. rewrite nth_mv. apply E1, Hi'. }
  destruct (proj1 (Act' x') Ex') as (Ax' & Cx').
  assert (St' : stationary (vadd (mv H x') f) A l C v n).
  { intros z Lz. pose proof (Dy z Lz) as Dz. rewrite Rplus_assoc, Dz. rewrite Hx', dot_vadd_l, dot_vneg_l, dot_vadd_l by (rewrite ?vneg_length, ?vadd_length, ?LT; lia).
    rewrite (dot_mv_tr L k n) by auto. ring. }
  split.
  { exists x'. split; [exact Lx'|]. split; [exact Ax'|]. split; [|exact St']. apply (proj2 (eq_holds_mv C d x')), Cx'. }
  intros Tight. destruct (qp_multipliers H f A b C d m me n x SH (pd_psd' H n PH) SA Lb SC Ld Lf O) as (l0 & v0 & Ll0 & Lv0 & M0).
  pose proof (support _ A b C l0 v0 x n tol act m T Lb Ll0 M0 NA) as S0.
  destruct (pack A b C x act tol l0 v0 n m me SA SC Lb NA Ll0 Lv0 S0) as (P1 & P2).
  set (q := vtake l0 act ++ v0) in *. assert (Lq : length q = k) by (unfold q, k; rewrite app_length; unfold vtake; rewrite map_length; lia).
  destruct (combine_skip A b C x act _ _ n m me q tol SA SC Lb NA Lq eq_refl eq_refl) as (_ & Dq). rewrite P1, P2 in Dq. fold L in Dq.
  assert (Fx : length x = n /\ mv C x = d). { destruct O as (F & _). apply in_set_vle in F. destruct F as (Lx & _ & E). split; [rewrite Lx; apply SA|exact E]. }
  destruct Fx as (Lx & Cx). assert (Ex : mv L x = rhs) by (apply Act'; auto).
  assert (Eq : q = y).
  { set (w := vsub x x'). assert (Lw : length w = n) by (unfold w; rewrite vsub_length; lia).
    assert (Kw : mv L w = zeros k). { unfold w. rewrite (mv_vsub L k n) by auto. rewrite Ex, Ex', vsub_self. f_equal. exact Lr. }
    assert (G : forall z, length z = n -> dot (mv H w) z + dot (vsub q y) (mv L z) = 0).
    { intros z Lz. pose proof (proj1 (proj2 M0) z Lz) as St. pose proof (St' z Lz) as St2. pose proof (Dq z Lz) as D1. pose proof (Dy z Lz) as D2.
      unfold w. rewrite (mv_vsub H n n) by auto. rewrite dot_vsub_l, dot_vsub_l by (rewrite ?LH; lia).
      rewrite dot_vadd_l in St by (rewrite LH; lia). rewrite dot_vadd_l in St2 by (rewrite LH; lia). lra. }
    assert (W : w = zeros n).
    { destruct (list_eq_dec Req_EM_T w (zeros n)) as [W|W]; [exact W|]. exfalso. pose proof (proj2 PH w Lw W) as Q. pose proof (G w Lw) as Gw. rewrite Kw, dot_zeros_r, dot_comm in Gw. lra. }
    assert (Z : vsub q y = zeros k).
    { apply TK; [rewrite vsub_length; lia|]. rewrite (mv_mm _ _ n k) by exact SST. assert (E : mv (tr L) (vsub q y) = zeros n).
      { apply dots_zero; [apply LT|]. intros z Lz. rewrite (dot_mv_tr L k n) by (auto; rewrite vsub_length; lia). pose proof (G z Lz) as Gz. rewrite W, mv_zeros, dot_zeros_l in Gz. lra. }
      rewrite E, mv_zeros. f_equal. apply (shape_mm L Hi k n n); assumption. }
    apply (vsub_zero_eq _ _ k) in Z; auto. }
  unfold l, v. rewrite <- Eq, P1, P2. exact M0.
Qed.

(*@ Theorem C67_drake_miqp : With an exact drake, the wrapper for mixed-integer programs returns a minimizer over the points whose entries from number nc on are binary, and its cost; or None, None if there is no minimizer. *)
Lemma drake_miqp drake nc H f A b Co d_o C d m me n : (nc <= n)%nat -> prog_data (Some H) f A b C d m me n -> eq_args n Co d_o C d ->
  k_ok (build (n - nc) (Some H) f A b C d) (drake (build (n - nc) (Some H) f A b C d)) ->
  (exists x, Drake.mixed_integer_quadratic_program drake nc H f A b Co d_o = Ok (Some (qp_cost H f x), Some x) /\ miqp_optimal nc H f A b C d x) \/
  (Drake.mixed_integer_quadratic_program drake nc H f A b Co d_o = Ok (None, None) /\ ~ exists x, miqp_optimal nc H f A b C d x).
Proof.
  intros Hn HD HE K. assert (SA : shape A m n) by apply HD. assert (NC : ncols A = n) by apply SA. unfold Drake.mixed_integer_quadratic_program.
  rewrite (equalities_ok A n m Co d_o C d SA HE). cbn [bind]. cbv beta iota. rewrite NC.
  assert (F : forall x, k_feasible (build (n - nc) (Some H) f A b C d) x <-> miqp_feasible nc A b C d x).
  { intros x. rewrite (build_feasible (n - nc) (Some H) f A b C d m me n x) by (auto; lia). replace (n - (n - nc))%nat with nc by lia. tauto. }
  assert (O : forall y, miqp_feasible nc A b C d y -> k_objective (build (n - nc) (Some H) f A b C d) y = qp_cost H f y).
  { intros y ((Ly & _) & _). apply (build_objective (n - nc) (Some H) f A b C d m me n); [exact HD|lia]. }
  destruct (drake _) as [x|]; cbn [k_ok] in K.
  - left. destruct K as (Fx & B). apply F in Fx. exists x. split; [reflexivity|]. split; [exact Fx|]. intros y Hy. rewrite <- !O by assumption. apply B, F, Hy.
  - right. split; [reflexivity|]. intros (x & Fx & B). apply K. exists x. split; [apply F, Fx|]. intros y Hy. apply F in Hy. rewrite !O by assumption. apply B, Hy.
Qed.
(*@ Theorem C67_lone_equalities : Giving only one of C and d raises ValueError in all three wrappers. *)
Lemma drake_lone np drake tol nc H f A b C d :
  Drake.linear_program np drake tol f A b (Some C) None = Err ValueError /\ Drake.linear_program np drake tol f A b None (Some d) = Err ValueError /\
  Drake.quadratic_program np drake tol H f A b (Some C) None = Err ValueError /\ Drake.quadratic_program np drake tol H f A b None (Some d) = Err ValueError /\
  Drake.mixed_integer_quadratic_program drake nc H f A b (Some C) None = Err ValueError /\ Drake.mixed_integer_quadratic_program drake nc H f A b None (Some d) = Err ValueError.
Proof. do 5 (split; [reflexivity|]). reflexivity. Qed.

(** ** Examples *)
Lemma k_ok_intro H f A b C d m me n x : prog_data H f A b C d m me n -> in_set A b C d x -> (forall y, in_set A b C d y -> cost_of H f x <= cost_of H f y) ->
  k_ok (build 0 H f A b C d) (Some x).
Proof.
  intros HD F B. assert (NC : ncols A = n) by apply HD.
  assert (O : forall y, in_set A b C d y -> k_objective (build 0 H f A b C d) y = cost_of H f y). { intros y (Ly & _). apply (build_objective 0 H f A b C d m me n); [exact HD|lia]. }
  split; [apply (build_feasible0 H f A b C d m me n x HD), F|]. intros y Hy. apply (build_feasible0 H f A b C d m me n y HD) in Hy. rewrite !O by assumption. apply B, Hy.
Qed.
Lemma in_set_1 A b y m : shape A m 1 -> in_set A b (Mat 1 []) [] y -> exists t, y = [t] /\ Forall2 (fun a bi => dot a [t] <= bi) (rows A) b.
Proof. intros SA (L & I & _). assert (NC : ncols A = 1%nat) by apply SA. rewrite NC in L. destruct y as [|t [|? ?]]; try discriminate L. exists t. split; [reflexivity|exact I]. Qed.

(** X is the Moore-Penrose inverse of the m x n matrix M *)
Definition moore_penrose (M X : mat) (m n : nat) : Prop :=
  shape X n m /\ mm (mm M X) M = M /\ mm (mm X M) X = X /\ tr (mm M X) = mm M X /\ tr (mm X M) = mm X M.
Lemma shape_11 a : shape (Mat 1 [[a]]) 1 1.
Proof. split; [reflexivity|]. split; [reflexivity|]. constructor; [reflexivity|constructor]. Qed.
Lemma shape_21 a c : shape (Mat 1 [[a]; [c]]) 2 1.
Proof. split; [reflexivity|]. split; [reflexivity|]. constructor; [reflexivity|]. constructor; [reflexivity|constructor]. Qed.

(*@ Theorem C65_multipliers_refuted : min x s.t. -x <= 0, x <= 5e-6: for every exact drake and every numpy that returns the Moore-Penrose inverse of [-1, 1] the multipliers returned at the minimizer 0 are 1/2 and -1/2: the second is negative, and its constraint is not active. *)
Lemma lp_refuted : let A := Mat 1 [[-1]; [1]] in let b := [0; 5 / 10 ^ 6] in
  prog_data None [1] A b (Mat 1 []) [] 2 0 1 /\ (exists drake np, k_ok (build 0 None [1] A b (Mat 1 []) []) (drake (build 0 None [1] A b (Mat 1 []) [])) /\ moore_penrose (Mat 2 [[-1; 1]]) (np_pinv np (Mat 2 [[-1; 1]])) 1 2) /\
  forall np drake, k_ok (build 0 None [1] A b (Mat 1 []) []) (drake (build 0 None [1] A b (Mat 1 []) [])) -> moore_penrose (Mat 2 [[-1; 1]]) (np_pinv np (Mat 2 [[-1; 1]])) 1 2 ->
  exists s l, Drake.linear_program np drake (/ 10 ^ 5) [1] A b None None = Ok s /\ s_argmin s = Some [0] /\ s_active_set s = Some [0; 1]%nat /\ s_multiplier_inequality s = Some l /\
    nth 0 l 0 = / 2 /\ nth 1 l 0 = - / 2.
Proof.
  intros A b. assert (HD : prog_data None [1] A b (Mat 1 []) [] 2 0 1).
  { split; [apply shape_21|]. split; [reflexivity|]. split; [split; [reflexivity|]; split; [reflexivity|constructor]|]. split; [reflexivity|]. split; [reflexivity|exact I]. }
  split; [exact HD|].
  assert (I0 : in_set A b (Mat 1 []) [] [0]).
  { split; [reflexivity|]. split; [|constructor]. unfold ineq_holds, A, b. cbn [rows]. constructor; [unfold dot; cbn; lra|]. constructor; [unfold dot; cbn; lra|constructor]. }
  assert (O0 : forall y, in_set A b (Mat 1 []) [] y -> cost_of None [1] [0] <= cost_of None [1] y).
  { intros y Hy. apply (in_set_1 A b y 2 (shape_21 _ _)) in Hy. destruct Hy as (t & -> & F). unfold A, b in F. cbn [rows] in F. inv2 F. unfold dot in *. cbn in *. lra. }
  split.
  { exists (fun _ => Some [0]). exists (Numpy (np_nnls np0) (fun _ => Mat 1 [[- / 2]; [/ 2]]) (np_chol np0) (np_inv np0) (np_solve np0) (np_rank np0) (np_svd_vt np0) (np_qr_r np0) (np_eig_max np0) (np_expm np0) (np_dare np0) (np_rand np0) (np_halfspaces np0) (np_hull np0)).
    split; [apply (k_ok_intro None [1] A b (Mat 1 []) [] 2 0 1); assumption|]. cbn [np_pinv]. split; [apply shape_21|].
    split; [unfold mm, tr, mv, dot; cbn; repeat (f_equal; try lra)|]. split; [unfold mm, tr, mv, dot; cbn; repeat (f_equal; try lra)|].
    split; [unfold mm, tr, mv, dot; cbn; repeat (f_equal; try lra)|]. unfold mm, tr, mv, dot; cbn; repeat (f_equal; try lra). }
  intros np drake K (SP & P1 & _ & _ & P4).
  pose proof (drake_solves None [1] A b (Mat 1 []) [] 2 0 1 _ HD K) as P. unfold Drake.linear_program. cbn [equalities bind]. change (Mat (ncols A) []) with (Mat 1 []). cbv beta iota.
  destruct (drake (build 0 None [1] A b (Mat 1 []) [])) as [x|]; [|destruct P; exists [0]; split; assumption].
  destruct P as (F & B). apply (in_set_1 A b x 2 (shape_21 _ _)) in F. destruct F as (t & -> & F). 
  assert (E0 : t = 0). { unfold A, b in F. cbn [rows] in F. inv2 F. specialize (B [0] I0). unfold cost_of in B. unfold dot in *. cbn in *. lra. }
  clear F B. subst t.
  assert (EA : active (/ 10 ^ 5) A b [0] = [0; 1]%nat).
  { unfold active, A, b, where_. cbn. rewrite !(proj2 (Rltb_true _ _)) by lra. reflexivity. }
  cbv zeta. rewrite EA. cbn [nrows rows length Nat.ltb Nat.leb]. change (tr (mtake A [0; 1]%nat)) with (Mat 2 [[-1; 1]]).
  destruct (np_pinv np (Mat 2 [[-1; 1]])) as [c X]. destruct SP as (SP1 & SP2 & SP3). cbn in SP1, SP2, SP3. subst c.
  destruct X as [|r1 [|r2 [|? ?]]]; try discriminate SP1. pose proof (Forall_inv SP3) as R1. pose proof (Forall_inv (Forall_inv_tail SP3)) as R2. destruct r1 as [|p [|? ?]]; try discriminate R1. destruct r2 as [|q [|? ?]]; try discriminate R2.
  unfold mm, tr, mv, dot in P1, P4. cbn in P1, P4. injection P1 as Q1 Q2. injection P4 as Q3 Q4.
  eexists. eexists. split; [reflexivity|]. split; [reflexivity|]. split; [reflexivity|]. split; [reflexivity|]. cbn. split; lra.
Qed.

Lemma inv_11 np h : inv_ok np -> h <> 0 -> np_inv np (Mat 1 [[h]]) = Ok (Mat 1 [[/ h]]).
Proof.
  intros IO Hh. destruct (IO (Mat 1 [[h]]) 1%nat (shape_11 h)) as [(_ & X & E & (S1 & S2 & S3) & I1 & _)|((x & Lx & Nx & Ex) & _)].
  - rewrite E. f_equal. destruct X as [c X]. cbn in S1, S2, S3. subst c. destruct X as [|r [|? ?]]; try discriminate S1. pose proof (Forall_inv S3) as R1. destruct r as [|p [|? ?]]; try discriminate R1.
    unfold mm, tr, mv, dot in I1. cbn in I1. injection I1 as Q. f_equal. f_equal. f_equal. field_simplify_eq; [|exact Hh]. lra.
  - exfalso. destruct x as [|t [|? ?]]; try discriminate Lx. unfold mv, dot in Ex. cbn in Ex. injection Ex as Q. apply Nx. cbn. f_equal. assert (h * t = 0) by lra. apply Rmult_integral in H. tauto.
Qed.
Lemma nil_1 : shape (Mat 1 []) 0 1.
Proof. split; [reflexivity|]. split; [reflexivity|constructor]. Qed.

(*@ Theorem C66_near_active_refuted : min 1/2 10^6 x^2 s.t. x <= 5e-6: for every exact drake and numpy the minimizer 0 is returned with the multiplier -5 instead of 0: it is negative, it does not make the Lagrangian stationary and its constraint is not active. *)
Lemma near_refuted : let H := Mat 1 [[10 ^ 6]] in let A := Mat 1 [[1]] in let b := [5 / 10 ^ 6] in
  prog_data (Some H) [0] A b (Mat 1 []) [] 1 0 1 /\ pd H 1 /\ (exists drake, k_ok (build 0 (Some H) [0] A b (Mat 1 []) []) (drake (build 0 (Some H) [0] A b (Mat 1 []) []))) /\
  forall np drake, inv_ok np -> k_ok (build 0 (Some H) [0] A b (Mat 1 []) []) (drake (build 0 (Some H) [0] A b (Mat 1 []) [])) ->
  exists s l, Drake.quadratic_program np drake (/ 10 ^ 5) H [0] A b None None = Ok s /\ s_argmin s = Some [0] /\ s_active_set s = Some [0%nat] /\ s_multiplier_inequality s = Some l /\ nth 0 l 0 = - 5 /\
    ~ stationary (vadd (mv H [0]) [0]) A l (Mat 1 []) [] 1.
Proof.
  intros H A b. assert (HD : prog_data (Some H) [0] A b (Mat 1 []) [] 1 0 1).
  { split; [apply shape_11|]. split; [reflexivity|]. split; [apply nil_1|]. split; [reflexivity|]. split; [reflexivity|apply shape_11]. }
  split; [exact HD|]. split.
  { split; [reflexivity|]. intros x Lx Nx. destruct x as [|t [|? ?]]; try discriminate Lx. unfold H, mv, dot. cbn. assert (t <> 0) by (intros ->; apply Nx; reflexivity). nra. }
  assert (I0 : in_set A b (Mat 1 []) [] [0]).
  { split; [reflexivity|]. split; [|constructor]. unfold ineq_holds, A, b. cbn [rows]. constructor; [unfold dot; cbn; lra|constructor]. }
  assert (O0 : forall y, in_set A b (Mat 1 []) [] y -> cost_of (Some H) [0] [0] <= cost_of (Some H) [0] y).
  { intros y Hy. apply (in_set_1 A b y 1 (shape_11 _)) in Hy. destruct Hy as (t & -> & _). unfold cost_of, qp_cost, H, mv, dot. cbn. nra. }
  split; [exists (fun _ => Some [0]); apply (k_ok_intro (Some H) [0] A b (Mat 1 []) [] 1 0 1); assumption|].
  intros np drake IO K.
  pose proof (drake_solves (Some H) [0] A b (Mat 1 []) [] 1 0 1 _ HD K) as P. unfold Drake.quadratic_program. cbn [equalities bind]. change (Mat (ncols A) []) with (Mat 1 []). cbv beta iota.
  destruct (drake (build 0 (Some H) [0] A b (Mat 1 []) [])) as [x|]; [|destruct P; exists [0]; split; assumption].
  destruct P as (F & B). apply (in_set_1 A b x 1 (shape_11 _)) in F. destruct F as (t & -> & F).
  assert (E0 : t = 0). { specialize (B [0] I0). unfold cost_of, qp_cost, H, mv, dot in B. cbn in B. nra. }
  clear F B. subst t.
  assert (EA : active (/ 10 ^ 5) A b [0] = [0%nat]). { unfold active, A, b, where_. cbn. rewrite !(proj2 (Rltb_true _ _)) by lra. reflexivity. }
  cbv zeta. rewrite EA. cbn [nrows rows length Nat.ltb Nat.leb]. unfold H at 1. rewrite (inv_11 np (10 ^ 6) IO) by lra. cbn [bind].
  assert (EM : mm (mm (mtake A [0%nat]) (Mat 1 [[/ 10 ^ 6]])) (tr (mtake A [0%nat])) = Mat 1 [[/ 10 ^ 6]]). { unfold mm, tr, mtake, A, mv, dot. cbn. f_equal. f_equal. f_equal. lra. }
  rewrite EM. rewrite (inv_11 np (/ 10 ^ 6) IO) by (apply Rinv_neq_0_compat; lra). cbn [bind].
  assert (EL : nth 0 (scatter (zeros 1) [0%nat] (vneg (mv (Mat 1 [[/ / 10 ^ 6]]) (vadd (mv (mm (mtake A [0%nat]) (Mat 1 [[/ 10 ^ 6]])) [0]) (vtake b [0%nat]))))) 0 = - 5).
  { rewrite Rinv_inv. unfold mm, mtake, vtake, A, b, mv, dot, scatter. cbn. field. }
  eexists. eexists. split; [reflexivity|]. split; [reflexivity|]. split; [reflexivity|]. split; [reflexivity|]. split; [exact EL|].
  set (l := scatter _ _ _) in *. assert (Ll : length l = 1%nat) by reflexivity. clearbody l. destruct l as [|l0 [|? ?]]; try discriminate Ll. cbn [nth] in EL. subst l0.
  intros S. specialize (S [1] eq_refl). unfold H, A, mv, dot in S. cbn in S. lra.
Qed.

(*@ Theorem C66_dependent_refuted : min 1/2 x^2 + x s.t. -x <= 0, -x <= 0: for every exact drake and numpy the wrapper raises LinAlgError although 0 is the minimizer. *)
Lemma dependent_refuted : let H := Mat 1 [[1]] in let A := Mat 1 [[-1]; [-1]] in let b := [0; 0] in
  prog_data (Some H) [1] A b (Mat 1 []) [] 2 0 1 /\ pd H 1 /\ qp_optimal H [1] A b (Mat 1 []) [] [0] /\
  forall np drake, inv_ok np -> k_ok (build 0 (Some H) [1] A b (Mat 1 []) []) (drake (build 0 (Some H) [1] A b (Mat 1 []) [])) ->
  Drake.quadratic_program np drake (/ 10 ^ 5) H [1] A b None None = Err LinAlgError.
Proof.
  intros H A b. assert (HD : prog_data (Some H) [1] A b (Mat 1 []) [] 2 0 1).
  { split; [apply shape_21|]. split; [reflexivity|]. split; [apply nil_1|]. split; [reflexivity|]. split; [reflexivity|apply shape_11]. }
  split; [exact HD|]. assert (PH : pd H 1).
  { split; [reflexivity|]. intros x Lx Nx. destruct x as [|t [|? ?]]; try discriminate Lx. unfold H, mv, dot. cbn. assert (t <> 0) by (intros ->; apply Nx; reflexivity). nra. }
  split; [exact PH|]. assert (O0 : qp_optimal H [1] A b (Mat 1 []) [] [0]).
  { split.
    - split; [reflexivity|]. split; [|constructor]. unfold ineq_holds, A, b. cbn [rows]. constructor; [unfold dot; cbn; lra|]. constructor; [unfold dot; cbn; lra|constructor].
    - intros y Hy. apply (in_set_1 A b y 2 (shape_21 _ _)) in Hy. destruct Hy as (t & -> & F). unfold A, b in F. cbn [rows] in F. inv2 F. unfold qp_cost, H, mv, dot in *. cbn in *. nra. }
  split; [exact O0|]. intros np drake IO K.
  destruct (drake_qp np drake (/ 10 ^ 5) H [1] A b None None (Mat 1 []) [] 2 0 1 IO ltac:(lra) HD PH ltac:(right; auto) K) as [(x & act & O & NA & D)|(_ & N)]; [|destruct N; exists [0]; exact O0].
  destruct D as [(Ind & _)|(_ & E)]; [exfalso|exact E].
  assert (Ex : exists t, x = [t] /\ t = 0).
  { destruct O as (F & B). specialize (B [0] (proj1 O0)). apply (in_set_1 A b x 2 (shape_21 _ _)) in F. destruct F as (t & -> & F). exists t. split; [reflexivity|].
    unfold A, b in F. cbn [rows] in F. inv2 F. unfold qp_cost, H, mv, dot in *. cbn in *. nra. }
  destruct Ex as (t & -> & ->).
  assert (N0 : In 0%nat act). { apply (proj2 NA). split; [cbn; lia|]. unfold A, b, row, dot. cbn. lra. }
  assert (N1 : In 1%nat act). { apply (proj2 NA). split; [cbn; lia|]. unfold A, b, row, dot. cbn. lra. }
  destruct (Ind [1; -1] []) as (E & _); try reflexivity.
  - intros i Hi. destruct i as [|[|i]]; [tauto|tauto|destruct i; reflexivity].
  - intros z Lz. destruct z as [|t [|? ?]]; try discriminate Lz. unfold A, mv, dot. cbn. ring.
  - cbn in E. injection E as Q1 Q2. lra.
Qed.

(*@ Example C66_example : min 1/2 x^2 - 2x s.t. x <= 1: with a drake that answers it, the hypotheses of C66_drake_qp hold, the constraint is active and independent, and the multiplier returned is 1. *)
Lemma drake_example : let H := Mat 1 [[1]] in let A := Mat 1 [[1]] in let drake := fun _ : kprog => Some [1] in
  prog_data (Some H) [-2] A [1] (Mat 1 []) [] 1 0 1 /\ pd H 1 /\ eq_args 1 None None (Mat 1 []) [] /\ k_ok (build 0 (Some H) [-2] A [1] (Mat 1 []) []) (drake (build 0 (Some H) [-2] A [1] (Mat 1 []) [])) /\
  independent A (Mat 1 []) [0%nat] 1 0 1 /\
  forall np, inv_ok np -> exists s l, Drake.quadratic_program np drake (/ 10 ^ 5) H [-2] A [1] None None = Ok s /\ s_argmin s = Some [1] /\ s_active_set s = Some [0%nat] /\ s_multiplier_inequality s = Some l /\ nth 0 l 0 = 1.
Proof.
  intros H A drake. assert (HD : prog_data (Some H) [-2] A [1] (Mat 1 []) [] 1 0 1).
  { split; [apply shape_11|]. split; [reflexivity|]. split; [apply nil_1|]. split; [reflexivity|]. split; [reflexivity|apply shape_11]. }
  split; [exact HD|]. split.
  { split; [reflexivity|]. intros x Lx Nx. destruct x as [|t [|? ?]]; try discriminate Lx. unfold H, mv, dot. cbn. assert (t <> 0) by (intros ->; apply Nx; reflexivity). nra. }
  split; [right; auto|]. split.
  { apply (k_ok_intro (Some H) [-2] A [1] (Mat 1 []) [] 1 0 1 _ HD).
    - split; [reflexivity|]. split; [|constructor]. unfold ineq_holds, A. cbn [rows]. constructor; [unfold dot; cbn; lra|constructor].
    - intros y Hy. apply (in_set_1 A [1] y 1 (shape_11 _)) in Hy. destruct Hy as (t & -> & F). unfold A in F. cbn [rows] in F. inv2 F. unfold cost_of, qp_cost, H, mv, dot in *. cbn in *. nra. }
  split.
  { intros l v Ll Lv _ Z. destruct l as [|l0 [|? ?]]; try discriminate Ll. destruct v; try discriminate Lv. specialize (Z [1] eq_refl). unfold A, mv, dot in Z. cbn in Z. split; [cbn; f_equal; lra|reflexivity]. }
  intros np IO. unfold Drake.quadratic_program, drake. cbn [equalities bind]. cbv beta iota.
  assert (EA : active (/ 10 ^ 5) A [1] [1] = [0%nat]). { unfold active, A, where_. cbn. rewrite !(proj2 (Rltb_true _ _)) by lra. reflexivity. }
  cbv zeta. rewrite EA. cbn [nrows rows length Nat.ltb Nat.leb]. unfold H at 1. rewrite (inv_11 np 1 IO) by lra. cbn [bind].
  assert (EM : mm (mm (mtake A [0%nat]) (Mat 1 [[/ 1]])) (tr (mtake A [0%nat])) = Mat 1 [[1]]). { unfold mm, tr, mtake, A, mv, dot. cbn. f_equal. f_equal. f_equal. lra. }
  rewrite EM. rewrite (inv_11 np 1 IO) by lra. cbn [bind].
  eexists. eexists. split; [reflexivity|]. split; [reflexivity|]. split; [reflexivity|]. split; [reflexivity|].
  unfold mm, mtake, vtake, A, mv, dot, scatter. cbn. lra.
Qed.
(*@ Example C67_example : min 1/2 x^2 + 1/2 y^2 - 1/3 x - 2/3 y with y binary and x <= 1/4: with a drake that answers (1/4, 1) the hypotheses of C67_drake_miqp hold. *)
Lemma drake_miqp_example : let H := eye 2 in let f := [- / 3; - (2 / 3)] in let A := Mat 2 [[1; 0]] in let b := [/ 4] in let drake := fun _ : kprog => Some [/ 4; 1] in
  prog_data (Some H) f A b (Mat 2 []) [] 1 0 2 /\ k_ok (build (2 - 1) (Some H) f A b (Mat 2 []) []) (drake (build (2 - 1) (Some H) f A b (Mat 2 []) [])) /\
  Drake.mixed_integer_quadratic_program drake 1 H f A b None None = Ok (Some (qp_cost H f [/ 4; 1]), Some [/ 4; 1]).
Proof.
  intros H f A b drake. assert (HD : prog_data (Some H) f A b (Mat 2 []) [] 1 0 2).
  { split; [split; [reflexivity|]; split; [reflexivity|]; constructor; [reflexivity|constructor]|]. split; [reflexivity|]. split; [split; [reflexivity|]; split; [reflexivity|constructor]|]. split; [reflexivity|]. split; [reflexivity|]. apply shape_eye. }
  split; [exact HD|]. split; [|reflexivity]. unfold drake. split.
  - apply (build_feasible (2 - 1) (Some H) f A b (Mat 2 []) [] 1 0 2); [lia|exact HD|]. split.
    + split; [reflexivity|]. split; [|constructor]. unfold ineq_holds, A, b. cbn [rows]. constructor; [unfold dot; cbn; lra|constructor].
    + cbn. constructor; [right; reflexivity|constructor].
  - intros y Hy. apply (build_feasible (2 - 1) (Some H) f A b (Mat 2 []) [] 1 0 2) in Hy; [|lia|exact HD]. destruct Hy as ((Ly & I & _) & B). cbn in Ly.
    rewrite !(build_objective (2 - 1) (Some H) f A b (Mat 2 []) [] 1 0 2) by (auto). destruct y as [|t [|w [|? ?]]]; try discriminate Ly.
    unfold ineq_holds, A, b in I. cbn [rows] in I. inv2 I. cbn in B. apply Forall_inv in B. unfold cost_of, qp_cost, H, f, mv, dot in *. cbn in *. destruct B as [-> | ->]; nra.
Qed.
(*@ Example C65_example : min -x s.t. x <= 1, 0 <= x: with a drake that answers 1 the hypotheses of C65_drake_lp hold, the active constraint is independent and the multiplier returned for it is 1. *)
Lemma drake_lp_example : let A := Mat 1 [[1]; [-1]] in let b := [1; 0] in let drake := fun _ : kprog => Some [1] in
  prog_data None [-1] A b (Mat 1 []) [] 2 0 1 /\ eq_args 1 None None (Mat 1 []) [] /\ k_ok (build 0 None [-1] A b (Mat 1 []) []) (drake (build 0 None [-1] A b (Mat 1 []) [])) /\
  independent A (Mat 1 []) [0%nat] 2 0 1 /\
  forall np, pinv_ok np -> exists s l, Drake.linear_program np drake (/ 10 ^ 5) [-1] A b None None = Ok s /\ s_argmin s = Some [1] /\ s_active_set s = Some [0%nat] /\ s_multiplier_inequality s = Some l /\ nth 0 l 0 = 1 /\ nth 1 l 0 = 0.
Proof.
  intros A b drake. assert (HD : prog_data None [-1] A b (Mat 1 []) [] 2 0 1).
  { split; [apply shape_21|]. split; [reflexivity|]. split; [apply nil_1|]. split; [reflexivity|]. split; [reflexivity|exact I]. }
  split; [exact HD|]. split; [right; auto|]. assert (K : k_ok (build 0 None [-1] A b (Mat 1 []) []) (drake (build 0 None [-1] A b (Mat 1 []) []))).
  { apply (k_ok_intro None [-1] A b (Mat 1 []) [] 2 0 1 _ HD).
    - split; [reflexivity|]. split; [|constructor]. unfold ineq_holds, A, b. cbn [rows]. constructor; [unfold dot; cbn; lra|]. constructor; [unfold dot; cbn; lra|constructor].
    - intros y Hy. apply (in_set_1 A b y 2 (shape_21 _ _)) in Hy. destruct Hy as (t & -> & F). unfold A, b in F. cbn [rows] in F. inv2 F. unfold cost_of, dot in *. cbn in *. lra. }
  split; [exact K|]. assert (Ind : independent A (Mat 1 []) [0%nat] 2 0 1).
  { intros l v Ll Lv O Z. destruct l as [|l0 [|l1 [|? ?]]]; try discriminate Ll. destruct v; try discriminate Lv. specialize (Z [1] eq_refl). unfold A, mv, dot in Z. cbn in Z.
    assert (l1 = 0) by (apply (O 1%nat); cbn; lia). split; [|reflexivity]. cbn. f_equal; [lra|]. f_equal. lra. }
  split; [exact Ind|]. intros np PI.
  destruct (drake_lp np drake (/ 10 ^ 5) [-1] A b None None (Mat 1 []) [] 2 0 1 PI ltac:(lra) HD ltac:(right; auto) K) as [(s & x & l & v & act & E & Ex & _ & _ & Ea & NA & El & _ & Ll & Lv & St & Sp & _)|(E & _)].
  2:{ exfalso. unfold Drake.linear_program, drake in E. cbn [equalities bind] in E. discriminate E. }
  assert (X : s_argmin s = Some [1] /\ s_active_set s = Some (active (/ 10 ^ 5) A b [1])).
  { unfold Drake.linear_program, drake in E. cbn [equalities bind] in E. injection E as <-. split; reflexivity. }
  destruct X as (X1 & X2).
  assert (EA : active (/ 10 ^ 5) A b [1] = [0%nat]).
  { unfold active, A, b, where_. cbn. rewrite (proj2 (Rltb_true (- _) (1 * 1 + 0 - 1))) by lra. rewrite (proj2 (Rltb_false (- _) (-1 * 1 + 0 - 0))) by lra. reflexivity. }
  rewrite EA in X2. rewrite X2 in Ea. injection Ea as <-.
  exists s, l. split; [exact E|]. split; [exact X1|]. split; [exact X2|]. split; [exact El|].
  destruct l as [|l0 [|l1 [|? ?]]]; try discriminate Ll. assert (l1 = 0) by (apply (Sp 1%nat); cbn; lia). specialize (St [1] eq_refl). destruct v; try discriminate Lv. unfold A, mv, dot in St. cbn in St |- *. split; lra.
Qed.
