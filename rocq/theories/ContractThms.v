(** * ContractThms: libraries with the contracts of qr and of Gurobi exist for all data (C53, C60), proofs *)
From Coq Require Import ZArith Classical.
From Verif Require Import Arr ArrFacts Spec SpecProg Numpy Pnnls PnnlsFacts QpFacts Oracle NullFacts SolverThms Gurobi Programs ProgThms GeomThms.

(** ** QR *)
Lemma orth_step n Q v : vecs n Q -> orth Q -> (length Q < n)%nat -> length v = n ->
  exists q, length q = n /\ orth (Q ++ [q]) /\
    forall x, length x = n -> (forall q', In q' (Q ++ [q]) -> dot q' x = 0) -> dot v x = 0.
Proof.
  intros HQ O LQ Lv. destruct (gs n [v] Q HQ O) as (Q' & A1 & A2 & A3 & A4 & _). { constructor; [exact Lv|constructor]. }
  destruct Q' as [|q [|q' Q']].
  - rewrite app_nil_r in A4.
    destruct (wide_kernel (Mat n Q) (length Q) n) as (w & Lw & Nw & Kw); [repeat split; auto|exact LQ|].
    assert (Pw : 0 < dot w w). { destruct (Req_EM_T (dot w w) 0) as [Z|Z]; [|pose proof (dot_self_nonneg w); lra]. apply dot_self_zero in Z. rewrite Lw in Z. contradiction. }
    assert (Nn : 0 < norm w) by (now apply sqrt_lt_R0).
    exists (vscale (/ norm w) w). split; [len|]. split.
    + apply (orth_snoc n); auto; [len| |].
      * rewrite dot_vscale_l, dot_vscale_r, <- norm_sqr. field. lra.
      * intros q Hq. apply (In_nth Q q []) in Hq. destruct Hq as (i & Hi & <-). rewrite dot_vscale_r.
        change Q with (rows (Mat n Q)) at 1. rewrite <- nth_mv, Kw, nth_zeros. ring.
    + intros x Lx Hx. apply (A4 v x); [now left|exact Lx|]. intros q Hq. apply Hx, in_or_app. now left.
  - exists q. assert (HV : vecs n (Q ++ [q])) by exact A1. apply Forall_app in HV. destruct HV as (_ & HV). split; [now inversion HV|]. split; [exact A2|].
    intros x Lx Hx. apply (A4 v x); [now left|exact Lx|exact Hx].
  - cbn in A3. lia.
Qed.
Lemma gs_steps n vs : vecs n vs -> (length vs <= n)%nat ->
  exists Q, vecs n Q /\ orth Q /\ length Q = length vs /\
    forall j x, (j < length vs)%nat -> length x = n -> (forall i, (i <= j)%nat -> dot (nth i Q []) x = 0) -> dot (nth j vs []) x = 0.
Proof.
  induction vs as [|v vs IH] using rev_ind; intros HV L.
  - exists []. split; [constructor|]. split; [intros i j Hi; cbn in Hi; lia|]. split; [reflexivity|]. intros j x Hj. cbn in Hj. lia.
  - rewrite app_length in L. cbn in L. apply Forall_app in HV. destruct HV as (HV & Hv). assert (Lv : length v = n) by now inversion Hv.
    destruct (IH HV ltac:(lia)) as (Q & HQ & O & LQ & D). destruct (orth_step n Q v HQ O ltac:(lia) Lv) as (q & Lq & O' & D').
    exists (Q ++ [q]). split; [apply Forall_app; split; auto|]. split; [exact O'|]. split; [rewrite !app_length; cbn; lia|].
    intros j x Hj Lx Hx. rewrite app_length in Hj. cbn in Hj. destruct (Nat.eq_dec j (length vs)) as [->|Nj].
    + rewrite app_nth2, Nat.sub_diag by lia. cbn [nth]. apply D'; [exact Lx|]. intros q' Hq. apply (In_nth _ _ []) in Hq. destruct Hq as (i & Hi & <-).
      rewrite app_length in Hi. cbn in Hi. apply Hx. lia.
    + rewrite app_nth1 by lia. apply D; [lia|exact Lx|]. intros i Hi. specialize (Hx i Hi). rewrite app_nth1 in Hx by lia. exact Hx.
Qed.
Lemma qr_exists M n m : shape M n m -> exists Q Rm, shape Q n (Nat.min n m) /\ mm (tr Q) Q = eye (Nat.min n m) /\ shape Rm (Nat.min n m) m /\ mm Q Rm = M /\
  forall i j, (j < i < Nat.min n m)%nat -> nth j (row Rm i) 0 = 0.
Proof.
  intros HM. set (k := Nat.min n m). pose proof (shape_tr _ _ _ HM) as HT. assert (LT : length (rows (tr M)) = m) by apply HT.
  set (vs := firstn k (rows (tr M))). assert (Lvs : length vs = k) by (unfold vs; rewrite firstn_length; lia).
  assert (HV : vecs n (rows (tr M))) by apply HT.
  destruct (gs_steps n vs) as (Q & HQ & O & LQ & D). { rewrite <- (firstn_skipn k (rows (tr M))) in HV. apply Forall_app in HV. apply HV. } { lia. }
  rewrite Lvs in *.
  assert (SQ : shape (Mat n Q) k n) by (repeat split; auto). pose proof (shape_tr _ _ _ SQ) as ST.
  assert (LLQ : length (rows (Mat n Q)) = k) by exact LQ.
  assert (Full : k = n -> forall x, length x = n -> (forall i, (i < k)%nat -> dot (nth i Q []) x = 0) -> x = zeros n).
  { intros E x Lx Hx. destruct (orth_mm n Q HQ O ltac:(lia)) as (HS & _ & E2). rewrite <- (mv_eye n x Lx), <- E2, (mv_mm _ _ n n) by exact HS.
    replace (mv (Mat n Q) x) with (zeros n); [rewrite mv_zeros; f_equal; apply (shape_tr _ _ _ HS)|].
    apply vec_ext; [len|]. intros i Hi. lenh Hi. rewrite nth_mv, nth_zeros. symmetry. apply Hx. lia. }
  exists (tr (Mat n Q)), (mm (Mat n Q) M).
  assert (Ecol : forall j, (j < m)%nat -> length (nth j (rows (tr M)) []) = n). { intros j Hj. apply (proj1 (Forall_forall _ _) HV), nth_In. lia. }
  split; [exact ST|]. split; [|split; [eauto with shp|split]].
  - rewrite (tr_tr _ _ _ SQ). apply (mat_ext _ _ k k); eauto with shp. intros x Lx. rewrite (mv_mm (Mat n Q) (tr (Mat n Q)) n k), mv_eye by auto.
    rewrite (mv_tr _ k n) by auto. apply vec_ext; [len|]. intros i Hi. lenh Hi. rewrite nth_mv. unfold vm. cbn [rows ncols]. rewrite dot_comm. apply orth_comb; auto; lia.
  - (* columns of M are in the span *)
    apply (mat_ext _ _ n m); [eauto with shp|exact HM|]. intros x Lx. rewrite (mv_mm _ _ k m), (mv_mm _ _ n m) by eauto with shp.
    rewrite (mv_tr _ k n) by (auto; len). set (y := mv M x).
    assert (Ly : length y = n). { unfold y. len. apply HM. }
    set (r := vsub y (vm (mv (Mat n Q) y) (Mat n Q))).
    assert (Lw : length (vm (mv (Mat n Q) y) (Mat n Q)) = n) by (erewrite vm_length by eauto; reflexivity).
    assert (Lr : length r = n) by (unfold r; len).
    assert (Or : forall i, (i < k)%nat -> dot (nth i Q []) r = 0).
    { intros i Hi. unfold r. rewrite dot_vsub_r by lia. rewrite (dot_comm _ (vm _ _)). unfold vm. cbn [rows ncols]. rewrite orth_comb by (auto; len).
      rewrite nth_mv. cbn [rows]. ring. }
    assert (Zr : r = zeros n).
    { destruct (Nat.eq_dec k n) as [E|N]; [apply Full; auto|]. assert (Ek : k = m) by lia.
      assert (Zy : dot y r = 0).
      { unfold y. rewrite <- (dot_mv_tr_r M n m) by (auto; lia). replace (mv (tr M) r) with (zeros m); [apply dot_zeros_r|].
        apply vec_ext; [len; lia|]. intros j Hj. lenh Hj. rewrite nth_mv, nth_zeros. symmetry.
        assert (Ev : nth j (rows (tr M)) [] = nth j vs []). { unfold vs. rewrite <- (firstn_skipn k (rows (tr M))) at 1. rewrite app_nth1; [reflexivity|]. rewrite firstn_length. lia. }
        rewrite Ev. apply D; [lia|exact Lr|]. intros i Hi. apply Or. lia. }
      assert (Zz : dot r r = 0).
      { unfold r at 1. rewrite dot_vsub_l by lia. rewrite Zy. rewrite (dot_vm _ _ k n) by exact SQ.
        replace (mv (Mat n Q) r) with (zeros k); [rewrite dot_zeros_r; ring|]. apply vec_ext; [len|]. intros i Hi. lenh Hi. rewrite nth_mv, nth_zeros. symmetry. apply Or. lia. }
      apply dot_self_zero in Zz. rewrite Lr in Zz. exact Zz. }
    apply vec_ext; [lia|]. intros i Hi. apply (f_equal (fun v => nth i v 0)) in Zr. unfold r in Zr. rewrite nth_vsub, nth_zeros in Zr by lia. lra.
  - intros i j Hij. unfold row, mm. cbn [rows]. rewrite (nth_indep _ [] (vm [] M)) by (rewrite map_length; lia). rewrite (map_nth (fun r => vm r M)).
    assert (Lq : length (nth i Q []) = n) by (apply (proj1 (Forall_forall _ _) HQ), nth_In; lia).
    rewrite <- (mv_tr M n m) by auto. rewrite nth_mv.
    assert (Ev : nth j (rows (tr M)) [] = nth j vs []). { unfold vs. rewrite <- (firstn_skipn k (rows (tr M))) at 1. rewrite app_nth1; [reflexivity|]. rewrite firstn_length. lia. }
    rewrite Ev. apply D; [lia|exact Lq|]. intros i' Hi'. rewrite O by lia. destruct (Nat.eqb_spec i' i); [lia|reflexivity].
Qed.

(*@ Theorem C53_contract : the contract of qr assumed by the theorems of C53 can be met for every matrix: it has a factorization with orthonormal columns Q and upper triangular R *)
Lemma qr_contract np M n m : shape M n m -> exists Rm, qr_ok (np_qr np Rm) M n m.
Proof. intros HM. destruct (qr_exists M n m HM) as (Q & Rm & H). exists Rm, Q. exact H. Qed.

(** ** Gurobi *)
Definition uvec (n j : nat) : vec := if (j <? n)%nat then unit n j else zeros n.
Lemma uvec_length n j : length (uvec n j) = n. Proof. unfold uvec. destruct (j <? n)%nat; len. Qed.
Lemma dot_uvec n j v : length v = n -> dot (uvec n j) v = nth j v 0.
Proof.
  intros L. unfold uvec. destruct (Nat.ltb_spec j n) as [H|H]; [now apply dot_unit|]. rewrite dot_zeros_l, nth_overflow by lia. reflexivity.
Qed.
Fixpoint tvec (n : nat) (ts : list (R * nat)) : vec :=
  match ts with [] => zeros n | t :: ts => vadd (vscale (fst t) (uvec n (snd t))) (tvec n ts) end.
Lemma tvec_length n ts : length (tvec n ts) = n.
Proof. induction ts as [|t ts IH]; cbn [tvec]; [len|]. pose proof (uvec_length n (snd t)). len. Qed.
Lemma dot_tvec n ts v : length v = n -> dot (tvec n ts) v = le_val (LinExpr ts 0) v.
Proof.
  intros L. induction ts as [|t ts IH]; [apply dot_zeros_l|]. cbn [tvec]. pose proof (uvec_length n (snd t)). pose proof (tvec_length n ts).
  rewrite dot_vadd_l by len. rewrite dot_vscale_l, dot_uvec by exact L. rewrite IH. reflexivity.
Qed.
Fixpoint gvec (n : nat) (x : vec) (q : list (nat * R * nat)) : vec :=
  match q with [] => zeros n | (i, c, j) :: q => vadd (vscale c (vadd (vscale (nth i x 0) (uvec n j)) (vscale (nth j x 0) (uvec n i)))) (gvec n x q) end.
Lemma gvec_length n x q : length (gvec n x q) = n.
Proof. induction q as [|[[i c] j] q IH]; cbn [gvec]; [len|]. pose proof (uvec_length n i). pose proof (uvec_length n j). len. Qed.
Lemma dot_gvec n x q v : length v = n ->
  dot (gvec n x q) v = fold_right (fun t acc => let '(i, c, j) := t in c * (nth i x 0 * nth j v 0 + nth i v 0 * nth j x 0) + acc) 0 q.
Proof.
  intros L. induction q as [|[[i c] j] q IH]; [apply dot_zeros_l|]. cbn [gvec fold_right]. pose proof (uvec_length n i). pose proof (uvec_length n j). pose proof (gvec_length n x q).
  rewrite dot_vadd_l by len. rewrite dot_vscale_l, dot_vadd_l by len. rewrite !dot_vscale_l, !dot_uvec by exact L. rewrite IH. ring.
Qed.
Definition grad_vec (M : gmodel) (n : nat) (x : vec) : vec := vadd (vscale (/ 2) (gvec n x (g_quad M))) (tvec n (le_terms (g_lin M))).
Lemma grad_vec_length M n x : length (grad_vec M n x) = n.
Proof. unfold grad_vec. pose proof (gvec_length n x (g_quad M)). pose proof (tvec_length n (le_terms (g_lin M))). len. Qed.
Lemma dot_grad M n x v : length v = n -> dot (grad_vec M n x) v = g_gradient M x v.
Proof.
  intros L. unfold grad_vec. pose proof (gvec_length n x (g_quad M)). pose proof (tvec_length n (le_terms (g_lin M))).
  rewrite dot_vadd_l by len. rewrite dot_vscale_l, dot_gvec, dot_tvec by exact L. reflexivity.
Qed.

Lemma le_val_step e x v t : length x = length v -> le_val e (vadd x (vscale t v)) = le_val e x + t * le_lin e v.
Proof.
  intros L. unfold le_lin, le_val. destruct e as [ts c]. cbn [le_terms le_const]. induction ts as [|[a j] ts IH]; cbn [fold_right fst snd]; [ring|].
  rewrite IH, nth_vadd, nth_vscale by len. ring.
Qed.
Lemma qe_val_scale q v t : qe_val q (vscale t v) = t * t * qe_val q v.
Proof. unfold qe_val. induction q as [|[[i c] j] q IH]; cbn [fold_right]; [ring|]. rewrite IH, !nth_vscale. ring. Qed.
Lemma objective_step M x v t : length x = length v ->
  g_objective M (vadd x (vscale t v)) = g_objective M x + t * g_gradient M x v + t * t / 2 * qe_val (g_quad M) v.
Proof.
  intros L. unfold g_objective, g_gradient. rewrite le_val_step by exact L.
  assert (E : qe_val (g_quad M) (vadd x (vscale t v)) = qe_val (g_quad M) x + t * t * qe_val (g_quad M) v
    + t * fold_right (fun t acc => let '(i, c, j) := t in c * (nth i x 0 * nth j v 0 + nth i v 0 * nth j x 0) + acc) 0 (g_quad M)).
  { unfold qe_val. generalize (g_quad M). intros q. induction q as [|[[i c] j] q IH]; cbn [fold_right]; [ring|].
    rewrite IH, !nth_vadd, !nth_vscale by len. ring. }
  rewrite E. field.
Qed.
(** small steps along a direction that no active constraint forbids stay feasible *)
Lemma small_steps (es : list linexpr) x v : length x = length v -> Forall (fun e => le_val e x <= 0) es ->
  (forall e, In e es -> le_val e x = 0 -> le_lin e v <= 0) ->
  exists t0, 0 < t0 /\ forall t, 0 <= t <= t0 -> Forall (fun e => le_val e (vadd x (vscale t v)) <= 0) es.
Proof.
  intros L. induction es as [|e es IH]; intros F A; [exists 1; split; [lra|constructor]|].
  inversion F as [|? ? F1 F2]; subst. destruct IH as (t0 & P & H); [exact F2|intros; apply A; [now right|assumption]|].
  assert (exists t1, 0 < t1 /\ forall t, 0 <= t <= t1 -> le_val e x + t * le_lin e v <= 0) as (t1 & P1 & H1).
  { destruct (Req_EM_T (le_val e x) 0) as [Z|N].
    - exists 1. split; [lra|]. intros t Ht. pose proof (A e (or_introl eq_refl) Z). rewrite Z. nra.
    - assert (0 < 1 + Rabs (le_lin e v)) by (pose proof (Rabs_pos (le_lin e v)); lra).
      exists (- le_val e x / (1 + Rabs (le_lin e v))). split; [apply Rdiv_lt_0_compat; lra|]. intros t (T0 & T1).
      assert (t * (1 + Rabs (le_lin e v)) <= - le_val e x). { apply (Rmult_le_compat_r (1 + Rabs (le_lin e v))) in T1; [|lra]. unfold Rdiv in T1. rewrite Rmult_assoc, Rinv_l in T1 by lra. lra. }
      pose proof (Rle_abs (le_lin e v)). nra. }
  exists (Rmin t0 t1). split; [apply Rmin_pos; assumption|]. intros t (T0 & T1). pose proof (Rmin_l t0 t1). pose proof (Rmin_r t0 t1).
  constructor; [rewrite le_val_step by exact L; apply H1; lra|apply H; lra].
Qed.
Definition active_vec (n : nat) (x : vec) (e : linexpr) : vec := if Req_EM_T (le_val e x) 0 then tvec n (le_terms e) else zeros n.
Definition active_pi (x : vec) (e : linexpr) (l : R) : R := if Req_EM_T (le_val e x) 0 then - l else 0.
Lemma active_dot n x v es : length v = n -> forall l, length l = length es ->
  dot (map2 (active_pi x) es l) (map (fun e => le_lin e v) es) = - dot l (map (fun r => dot r v) (map (active_vec n x) es)).
Proof.
  intros L. induction es as [|e es IH]; intros [|a l] Ll; try discriminate; [cbn; ring|]. injection Ll as Ll. cbn [map2 map]. cbn [dot]. rewrite IH by exact Ll.
  unfold active_pi, active_vec. destruct (Req_EM_T (le_val e x) 0).
  - rewrite dot_tvec by exact L. unfold le_lin. ring.
  - rewrite dot_zeros_l. ring.
Qed.
(** the multipliers of a minimizer of a model with continuous, free variables *)
Lemma model_kkt M n x : g_lb M = repeat None n -> g_binary M = repeat false n ->
  g_feasible M x -> (forall y, g_feasible M y -> g_objective M x <= g_objective M y) ->
  exists pi nu, length pi = length (g_ineq M) /\ length nu = length (g_eq M) /\ Forall (fun a => a <= 0) pi /\
    (forall v, length v = n -> g_gradient M x v = dot pi (map (fun e => le_lin e v) (g_ineq M)) + dot nu (map (fun e => le_lin e v) (g_eq M))) /\
    (forall i e, nth_error (g_ineq M) i = Some e -> nth i pi 0 * le_val e x = 0).
Proof.
  intros EL EB (Lx & _ & _ & FI & FE) MIN. rewrite EL, repeat_length in Lx.
  set (A := Mat n (map (active_vec n x) (g_ineq M))). set (C := Mat n (map (fun e => tvec n (le_terms e)) (g_eq M))).
  set (m := length (g_ineq M)). set (me := length (g_eq M)).
  assert (HA : shape A m n). { split; [unfold A; cbn; apply map_length|]. split; [reflexivity|]. unfold A; cbn [rows]. apply Forall_map. rewrite Forall_forall. intros e _. unfold active_vec. destruct (Req_EM_T _ _); [apply tvec_length|len]. }
  assert (HC : shape C me n). { split; [unfold C; cbn; apply map_length|]. split; [reflexivity|]. unfold C; cbn [rows]. apply Forall_map. rewrite Forall_forall. intros e _. apply tvec_length. }
  assert (LA : length (rows A) = m) by apply HA. assert (LC : length (rows C) = me) by apply HC.
  assert (POS : forall v, in_set A (zeros m) C (zeros me) v -> 0 <= dot (grad_vec M n x) v).
  { intros v Hv. apply in_set_vle in Hv. destruct Hv as (Lv & HI & HE). replace (ncols A) with n in Lv by reflexivity. rewrite dot_grad by exact Lv.
    assert (LXV : length x = length v) by lia.
    destruct (small_steps (g_ineq M) x v LXV FI) as (t0 & P & H).
    { intros e He Z. apply (In_nth _ _ (LinExpr [] 0)) in He. destruct He as (i & Hi & <-). apply vle_nth in HI. destruct HI as (_ & HI). specialize (HI i). rewrite nth_mv, nth_zeros in HI.
      unfold A in HI. cbn [rows] in HI. rewrite (nth_indep _ [] (active_vec n x (LinExpr [] 0))) in HI by (rewrite map_length; exact Hi).
      rewrite (map_nth (active_vec n x)) in HI.
      assert (EV : active_vec n x (nth i (g_ineq M) (LinExpr [] 0)) = tvec n (le_terms (nth i (g_ineq M) (LinExpr [] 0)))) by (unfold active_vec; destruct (Req_EM_T _ _); [reflexivity|contradiction]). rewrite EV in HI. rewrite dot_tvec in HI by exact Lv. apply HI. len. }
    assert (EQ : forall t, Forall (fun e => le_val e (vadd x (vscale t v)) = 0) (g_eq M)).
    { intros t. rewrite Forall_forall in *. intros e He. rewrite le_val_step by exact LXV. rewrite (FE e He).
      apply (In_nth _ _ (LinExpr [] 0)) in He. destruct He as (i & Hi & <-). apply (f_equal (fun w => nth i w 0)) in HE. rewrite nth_mv, nth_zeros in HE.
      unfold C in HE. cbn [rows] in HE. rewrite (nth_indep _ [] (tvec n (le_terms (LinExpr [] 0)))) in HE by (rewrite map_length; exact Hi).
      rewrite (map_nth (fun e => tvec n (le_terms e))) in HE. rewrite dot_tvec in HE by exact Lv. unfold le_lin. rewrite HE. ring. }
    assert (ST : forall t, 0 < t <= t0 -> 0 <= g_gradient M x v + t / 2 * qe_val (g_quad M) v).
    { intros t Ht. assert (FF : g_feasible M (vadd x (vscale t v))).
      { split; [rewrite EL, repeat_length; len|]. split; [intros i l Hi; rewrite EL in Hi; apply nth_error_repeat_in in Hi; discriminate|].
        split; [intros i Hi; rewrite EB in Hi; apply nth_error_repeat_in in Hi; discriminate|]. split; [apply H; lra|apply EQ]. }
      apply MIN in FF. rewrite objective_step in FF by exact LXV. assert (0 <= t * (g_gradient M x v + t / 2 * qe_val (g_quad M) v)) by nra.
      destruct (Rle_or_lt 0 (g_gradient M x v + t / 2 * qe_val (g_quad M) v)); [assumption|nra]. }
    destruct (Rle_or_lt 0 (g_gradient M x v)) as [|Neg]; [assumption|exfalso].
    set (q := qe_val (g_quad M) v) in *. set (g := g_gradient M x v) in *. assert (Pq : 0 < 1 + Rabs q) by (pose proof (Rabs_pos q); lra).
    set (t := Rmin t0 (- g / (1 + Rabs q))). assert (Pt : 0 < - g / (1 + Rabs q)) by (apply Rdiv_lt_0_compat; lra).
    assert (T1 : 0 < t) by (apply Rmin_pos; assumption). assert (T2 : t <= t0) by apply Rmin_l. assert (T3 : t <= - g / (1 + Rabs q)) by apply Rmin_r.
    specialize (ST t (conj T1 T2)). assert (T4 : t * (1 + Rabs q) <= - g). { apply (Rmult_le_compat_r (1 + Rabs q)) in T3; [|lra]. unfold Rdiv in T3. rewrite Rmult_assoc, Rinv_l in T3 by lra. lra. }
    pose proof (Rle_abs q). nra. }
  destruct (lp_core_solvable (exact_numpy (fun M => M) (fun _ => 0) (fun M => M) (fun M _ _ _ => M) (fun _ n => zeros n) (fun _ _ _ => Ok []) (fun _ => Err QhullError)) 1 (grad_vec M n x) A (zeros m) C (zeros me) m me n) as (z & l & nu & _ & _ & _ & Ll & Lnu & Pl & SS & _ & _); auto.
  { apply exact_nnls_ok. } { apply exact_pinv_ok. } { lra. } { len. } { len. } { apply grad_vec_length. }
  { split; [|exists 0; exact POS]. exists (zeros n). apply in_set_vle. split; [apply zeros_length|]. rewrite !mv_zeros, LA, LC. split; [|reflexivity]. apply vle_nth. split; [len|]. intros. rewrite !nth_zeros. lra. }
  exists (map2 (active_pi x) (g_ineq M) l), (vneg nu).
  split; [rewrite map2_length; fold m; lia|]. split; [len|]. split; [|split].
  - unfold nonneg in Pl. clear - Pl. revert l Pl. induction (g_ineq M) as [|e es IH]; intros [|a l] P; cbn [map2]; try constructor; inversion P; subst; [|apply IH; assumption].
    unfold active_pi. destruct (Req_EM_T _ _); lra.
  - intros v Lv. specialize (SS v Lv). rewrite dot_grad in SS by exact Lv. rewrite (active_dot n) by (auto; fold m; lia). rewrite dot_vneg_l.
    change (map (fun r => dot r v) (map (active_vec n x) (g_ineq M))) with (mv A v).
    replace (map (fun e => le_lin e v) (g_eq M)) with (mv C v); [lra|]. unfold mv, C. cbn [rows]. rewrite map_map. apply map_ext. intros e. apply dot_tvec. exact Lv.
  - intros i e He. assert (Hi : (i < m)%nat) by (apply nth_error_Some; congruence). 
    assert (E : nth_error (map2 (active_pi x) (g_ineq M) l) i = Some (active_pi x e (nth i l 0))). { apply nth_error_map2; [exact He|]. apply nth_error_nth'. lia. }
    rewrite (nth_error_nth _ _ 0 E). unfold active_pi. destruct (Req_EM_T _ _) as [->|]; ring.
Qed.
Lemma model_answer M n : g_lb M = repeat None n -> g_binary M = repeat false n ->
  exists g, gsol_ok M g /\ gsol_duals M g /\ gsol_basis M g.
Proof.
  intros EL EB. destruct (classic (exists x, g_feasible M x /\ forall y, g_feasible M y -> g_objective M x <= g_objective M y)) as [(x & Fx & MIN)|N].
  - destruct (model_kkt M n x EL EB Fx MIN) as (pi & nu & L1 & L2 & P & G & CS).
    exists (GSol true (g_objective M x) x pi nu []). split; [|split].
    + split; [exact Fx|]. split; [reflexivity|exact MIN].
    + intros _. cbn [gs_pi_ineq gs_pi_eq gs_x]. rewrite EL, repeat_length. auto.
    + intros _ i e _ H. destruct i; discriminate H.
  - exists (GSol false 0 [] [] [] []). split; [exact N|]. split; intros H; discriminate H.
Qed.
(*@ Theorem C60_contract : what C60 assumes of Gurobi can be met for every program, with any arrays: some optimizer gives, on the model built for it, a minimizer with its prices and a consistent basis, or reports failure if there is no minimizer *)
Lemma gurobi_contract H f A b Co d_o : exists grb, gurobi_exact grb H f A b Co d_o.
Proof.
  unfold gurobi_exact. destruct (build_model H f A b Co d_o) as [M|e] eqn:E; [|exists (fun _ => GSol false 0 [] [] [] []); intros M Q; discriminate].
  assert (B : g_lb M = repeat None (length f) /\ g_binary M = repeat false (length f)).
  { unfold build_model in E. destruct (linear_expression _ A _ _) as [i|]; [|discriminate]. cbn [bind] in E.
    destruct (match Co, d_o with Some C, Some d => _ | _, _ => _ end) as [q|]; [|discriminate]. cbn [bind] in E.
    destruct (match H with Some H => _ | None => _ end) as [q'|]; [|discriminate]. cbn [bind] in E.
    destruct (linear_expression _ (rowmat f) _ _) as [[|e0 es]|]; cbn [bind] in E; try discriminate. injection E as <-. auto. }
  destruct (model_answer M (length f)) as (g & G); [apply B|apply B|]. exists (fun _ => g). intros M' Q. injection Q as <-. exact G.
Qed.
(*@ Theorem C60_integer_contract : and what it assumes of Gurobi on mixed-integer programs can be met for every program *)
Lemma gurobi_integer_contract nc H f A b Co d_o : exists grb, forall M, build_model H f A b Co d_o = Ok M -> gsol_ok (set_binary nc M) (grb (set_binary nc M)).
Proof.
  destruct (build_model H f A b Co d_o) as [M|e] eqn:E; [|exists (fun _ => GSol false 0 [] [] [] []); intros M Q; discriminate].
  set (B := set_binary nc M). destruct (classic (exists x, g_feasible B x /\ forall y, g_feasible B y -> g_objective B x <= g_objective B y)) as [(x & Fx & MIN)|N].
  - exists (fun _ => GSol true (g_objective B x) x [] [] []). intros M' Q. injection Q as <-. split; [exact Fx|]. split; [reflexivity|exact MIN].
  - exists (fun _ => GSol false 0 [] [] [] []). intros M' Q. injection Q as <-. exact N.
Qed.
