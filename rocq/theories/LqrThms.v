(** * LqrThms: controllability and linear quadratic regulation (C32, C33), proofs *)
From Coq Require Import ZArith Classical.
From Verif Require Import Arr ArrFacts Spec SpecDyn Numpy Pnnls PnnlsFacts QpFacts GeomUtils Polyhedron PolyThms Oracle SolverThms NullFacts PolySolveThms PolySetThms PolyMore Dynamics DynThms CondenseThms.

(** ** C33 *)
Lemma state_length A B nx nu x0 u t : shape A nx nx -> shape B nx nu -> length x0 = nx -> length (state A B x0 u t) = nx.
Proof. intros HA HB L. destruct t; cbn [state]; [exact L|]. assert (length (rows A) = nx) by apply HA. assert (length (rows B) = nx) by apply HB. len. Qed.
Lemma state_sum A B nx nu x0 u t : shape A nx nx -> shape B nx nu -> length x0 = nx -> (forall k, length (u k) = nu) ->
  state A B x0 u t = vadd (mv (mpow A t) x0) (vsums nx (map (fun i => mv (mm (mpow A i) B) (u (t - 1 - i)%nat)) (seq 0 t))).
Proof.
  intros HA HB L Lu. assert (RA : length (rows A) = nx) by apply HA. assert (RB : length (rows B) = nx) by apply HB.
  assert (SP : forall i, shape (mpow A i) nx nx) by (intros; auto with shp).
  assert (RP : forall i, length (rows (mpow A i)) = nx) by (intros; apply SP).
  induction t as [|t IH].
  - cbn [state seq map]. rewrite (mv_mpow_0 A nx) by auto. change (vsums nx []) with (zeros nx). symmetry. apply vadd_zeros_r. exact L.
  - cbn [state]. rewrite IH. change (seq 0 (S t)) with (0%nat :: seq 1 t). rewrite <- seq_shift. cbn [map]. rewrite map_map. match goal with |- _ = vadd _ (vsums nx (?a :: ?b)) => change (vsums nx (a :: b)) with (vadd a (vsums nx b)) end.
    set (l := map _ (seq 0 t)). set (l' := map _ (seq 0 t)).
    assert (FL : Forall (fun v => length v = nx) l).
    { unfold l. rewrite Forall_map. apply Forall_forall. intros i _. assert (shape (mm (mpow A i) B) nx nu) by eauto with shp. rewrite mv_length. apply H. }
    assert (EL : mv A (vsums nx l) = vsums nx l').
    { rewrite (mv_vsums A nx nx l HA FL). f_equal. unfold l, l'. rewrite map_map. apply map_ext. intros i.
      replace (S t - 1 - S i)%nat with (t - 1 - i)%nat by lia.
      rewrite !(mv_mm _ B nx nu) by auto. rewrite (mv_mpow_S A nx) by (auto; rewrite mv_length; exact RB). reflexivity. }
    assert (LS : length (vsums nx l) = nx) by (apply vsums_length; exact FL).
    assert (LM : length (mv (mpow A t) x0) = nx) by (rewrite mv_length; apply RP).
    rewrite (mv_vadd A nx nx) by auto. rewrite EL, (mv_mpow_S A nx) by auto.
    replace (S t - 1 - 0)%nat with t by lia. rewrite (mv_mm _ B nx nu) by auto. rewrite (mv_mpow_0 A nx) by (auto; len).
    assert (LS' : length (vsums nx l') = nx) by (rewrite <- EL; len).
    vring.
Qed.
Lemma chunks nu k w : length w = (k * nu)%nat -> exists us : list vec, length us = k /\ Forall (fun u => length u = nu) us /\ List.concat us = w.
Proof.
  revert w. induction k as [|k IH]; intros w L.
  - exists []. destruct w; [auto|discriminate].
  - destruct (IH (skipn nu w)) as (us & L1 & F & E); [rewrite skipn_length; cbn in L; lia|].
    exists (firstn nu w :: us). split; [cbn; lia|]. split; [constructor; [rewrite firstn_length; cbn in L; lia|exact F]|].
    cbn [List.concat]. rewrite E. apply firstn_skipn.
Qed.
Lemma concat_length_const (us : list vec) nu : Forall (fun u => length u = nu) us -> length (List.concat us) = (length us * nu)%nat.
Proof. induction 1 as [|u us H F IH]; [reflexivity|]. cbn [List.concat length]. rewrite app_length, IH. lia. Qed.
Section Reach.
Variables (A B : mat) (nx nu : nat).
Hypothesis HA : shape A nx nx.
Hypothesis HB : shape B nx nu.
Hypothesis Hn : (0 < nx)%nat.
Let l := map (fun i => mm (mpow A i) B) (seq 0 nx).
Lemma reach_blocks : Forall (fun M => shape M nx nu) l.
Proof. unfold l. rewrite Forall_map. apply Forall_forall. intros i _. assert (shape (mpow A i) nx nx) by auto with shp. eauto with shp. Qed.
Lemma reach_len : length l = nx. Proof. unfold l. now rewrite map_length, seq_length. Qed.
Lemma reach_ne : l <> []. Proof. intros E. pose proof reach_len as L. rewrite E in L. cbn in L. lia. Qed.
Lemma reach_ok : reachability A B nx = Ok (hstack_list l) /\ shape (hstack_list l) nx (nx * nu).
Proof.
  split.
  - unfold reachability, np_hstack_list. fold l. pose proof reach_ne. destruct l; congruence.
  - rewrite <- reach_len at 2. apply shape_hstack_list; [apply reach_ne|apply reach_blocks].
Qed.
(** the reachability matrix maps the stacked inputs, last one first, to the reached state *)
Lemma reach_state us x0 u : length us = nx -> Forall (fun u => length u = nu) us -> length x0 = nx -> (forall t, length (u t) = nu) ->
  (forall i, (i < nx)%nat -> u (nx - 1 - i)%nat = nth i us []) ->
  state A B x0 u nx = vadd (mv (mpow A nx) x0) (mv (hstack_list l) (List.concat us)).
Proof.
  intros Lus Fus L Lu E. rewrite (state_sum A B nx nu) by auto. f_equal.
  rewrite (mv_hstack_list l us nx nu); [|apply reach_ne|rewrite reach_len; auto|apply reach_blocks|exact Fus]. f_equal.
  unfold l. rewrite (list_as_map us []) at 1. rewrite Lus, map2_map_l, map2_map_r, map2_same. apply map_ext_in. intros i Hi. apply in_seq in Hi. rewrite E by lia. reflexivity.
Qed.
Lemma steerable_onto : steerable A B nx nu nx <-> forall b, length b = nx -> exists w, length w = (nx * nu)%nat /\ mv (hstack_list l) w = b.
Proof.
  assert (RP : length (rows (mpow A nx)) = nx) by (assert (shape (mpow A nx) nx nx) by auto with shp; apply H).
  split.
  - intros H b Lb. destruct (H (zeros nx) b) as (u & Lu & E); [len|exact Lb|].
    set (us := map (fun i => u (nx - 1 - i)%nat) (seq 0 nx)). exists (List.concat us).
    assert (Lus : length us = nx) by (unfold us; now rewrite map_length, seq_length).
    assert (Fus : Forall (fun u => length u = nu) us) by (unfold us; rewrite Forall_map; apply Forall_forall; auto).
    split; [rewrite (concat_length_const us nu) by auto; now rewrite Lus|].
    rewrite (reach_state us (zeros nx) u) in E; auto; [|len|].
    + rewrite mv_zeros, RP in E. rewrite <- E. symmetry. apply vadd_zeros_l.
      assert (length (rows (hstack_list l)) = nx) by apply reach_ok. len.
    + intros i Hi. unfold us. rewrite (nth_indep _ [] (u (nx - 1 - 0)%nat)) by (rewrite map_length, seq_length; exact Hi).
      rewrite (map_nth (fun i => u (nx - 1 - i)%nat)), seq_nth by exact Hi. reflexivity.
  - intros H x0 xf L0 Lf. destruct (H (vsub xf (mv (mpow A nx) x0))) as (w & Lw & E); [len|].
    destruct (chunks nu nx w Lw) as (us & Lus & Fus & Ec). subst w.
    set (u := fun t => if (t <? nx)%nat then nth (nx - 1 - t) us [] else zeros nu).
    assert (Lu : forall t, length (u t) = nu).
    { intros t. unfold u. destruct (t <? nx)%nat eqn:Et; [|len]. apply Nat.ltb_lt in Et. rewrite Forall_forall in Fus. apply Fus, nth_In. lia. }
    exists u. split; [exact Lu|]. rewrite (reach_state us x0 u); auto.
    + rewrite E. vring.
    + intros i Hi. unfold u. replace (nx - 1 - i <? nx)%nat with true by (symmetry; apply Nat.ltb_lt; lia). f_equal. lia.
Qed.
End Reach.

(** numpy's rank and singular vectors: a matrix is onto iff its rank is the number of its rows *)
Lemma onto_rank np M m n : svd_ok np -> inv_ok np -> shape M m n ->
  (np_rank np M = m <-> forall b, length b = m -> exists w, length w = n /\ mv M w = b).
Proof.
  intros Hs Hi HM. assert (LM : length (rows M) = m) by apply HM. split.
  - intros Er b Lb. destruct (Hs M m n HM) as (SV & V1 & V2 & R1 & R2 & K1 & K2). set (V := np_svd_vt np M) in *. rewrite Er in *.
    assert (LV : length (rows V) = n) by apply SV. assert (ST : shape (tr V) n n) by auto with shp.
    assert (LT : length (rows (tr V)) = n) by apply ST.
    assert (SC : shape (cols_to (tr V) m) n m) by (eapply shape_cols_to; eauto).
    assert (EC : forall y, length y = m -> mv (cols_to (tr V) m) y = mv (tr V) (y ++ zeros (n - m))).
    { intros y Ly. rewrite (mv_cols_split (tr V) n n m) by auto. rewrite mv_zeros, (shape_rows _ _ _ (shape_cols_from _ _ _ m ST)).
      rewrite vadd_zeros_r; [reflexivity|]. rewrite mv_length. apply SC. }
    set (W := mm M (cols_to (tr V) m)). assert (SW : shape W m m) by (unfold W; eauto with shp).
    assert (WV : forall y, length y = m -> mv W y = mv M (mv (cols_to (tr V) m) y)).
    { intros y Ly. unfold W. apply (mv_mm _ _ n m); auto. }
    destruct (Hi W m SW) as [(_ & X & EX & SX & X1 & _)|((y & Ly & Ny & Ey) & _)].
    + assert (LX : length (rows X) = m) by apply SX. exists (mv (cols_to (tr V) m) (mv X b)). split; [rewrite mv_length; apply SC|].
      rewrite <- WV by len. rewrite <- (mv_mm W X m m) by auto. rewrite X1. apply mv_eye. exact Lb.
    + exfalso. apply Ny. rewrite (WV y Ly), (EC y Ly) in Ey. apply vec_ext; [len|]. intros k Hk. rewrite Ly in Hk. rewrite nth_zeros.
      assert (K : dot (row V k) (mv (tr V) (y ++ zeros (n - m))) = 0) by (apply K2; [len|exact Ey|exact Hk]).
      unfold row in K. rewrite <- nth_mv, <- (mv_mm V (tr V) n n) in K by auto. rewrite V1, mv_eye in K by len.
      rewrite app_nth1 in K by lia. exact K.
  - intros Onto. apply (rank_indep np M m n Hs HM). intros y Ly Ey. destruct (Onto y Ly) as (w & Lw & Ew).
    rewrite <- Ly. apply dot_self_zero. rewrite <- Ew at 2. rewrite <- (dot_mv_tr M m n) by auto. rewrite Ey. apply dot_zeros_l.
Qed.
(*@ Theorem C33_controllable : On a fresh system controllable is True iff every state can be steered to every state in nx steps; the answer is cached. *)
Lemma controllable_ok np S nx nu : exact_np np -> shape (lA S) nx nx -> shape (lB S) nx nu -> (0 < nx)%nat -> l_controllable S = None ->
  exists b, get_controllable np S = (Ok b, LSys (lA S) (lB S) (Some b)) /\
    get_controllable np (LSys (lA S) (lB S) (Some b)) = (Ok b, LSys (lA S) (lB S) (Some b)) /\
    (b = true <-> steerable (lA S) (lB S) nx nu nx).
Proof.
  intros (_ & _ & _ & Hi & _ & Hs) SA SB Hn F. unfold get_controllable at 1. rewrite F.
  assert (L : lnx S = nx) by (unfold lnx; apply (nrows_shape _ _ _ SB)). rewrite L.
  destruct (reach_ok (lA S) (lB S) nx nu SA SB Hn) as (E & SR). rewrite E. eexists. split; [reflexivity|]. split; [reflexivity|].
  rewrite Nat.eqb_eq. rewrite (onto_rank np _ nx (nx * nu) Hs Hi SR). symmetry. apply steerable_onto; auto.
Qed.
Lemma two_vec (x : vec) : length x = 2%nat -> exists a b, x = [a; b].
Proof. destruct x as [|a [|b [|]]]; try discriminate. eauto. Qed.
(*@ Example C33_example : x1+ = x1 + x2, x2+ = x2 + u is controllable; with x1+ = x1 + x2 + u, x2+ = x2 it is not. *)
Lemma controllable_example :
  fst (get_controllable np0 (LSys (Mat 2 [[1; 1]; [0; 1]]) (Mat 1 [[0]; [1]]) None)) = Ok true /\
  fst (get_controllable np0 (LSys (Mat 2 [[1; 1]; [0; 1]]) (Mat 1 [[1]; [0]]) None)) = Ok false.
Proof.
  assert (SA : shape (Mat 2 [[1; 1]; [0; 1]]) 2 2) by (repeat split; repeat constructor).
  assert (SB : forall a b, shape (Mat 1 [[a]; [b]]) 2 1) by (repeat split; repeat constructor). split.
  - destruct (controllable_ok np0 (LSys (Mat 2 [[1; 1]; [0; 1]]) (Mat 1 [[0]; [1]]) None) 2 1 np0_exact SA (SB _ _)) as (b & E & _ & Hb); [lia|reflexivity|].
    rewrite E. cbn [fst]. f_equal. apply Hb. intros x0 xf L0 Lf.
    destruct (two_vec _ L0) as (a & v & ->). destruct (two_vec _ Lf) as (p & q & ->).
    exists (fun t => match t with O => [p - a - 2 * v] | _ => [q - v - (p - a - 2 * v)] end). split; [intros [|t]; reflexivity|].
    cbn. f_equal; [ring|f_equal; ring].
  - destruct (controllable_ok np0 (LSys (Mat 2 [[1; 1]; [0; 1]]) (Mat 1 [[1]; [0]]) None) 2 1 np0_exact SA (SB _ _)) as (b & E & _ & Hb); [lia|reflexivity|].
    rewrite E. cbn [fst]. f_equal. destruct b; [exfalso|reflexivity]. destruct (proj1 Hb eq_refl [0; 0] [0; 1] eq_refl eq_refl) as (u & Lu & Eu).
    pose proof (Lu 0%nat) as L0. pose proof (Lu 1%nat) as L1. cbn in Eu. destruct (u 0%nat) as [|u0 [|]]; try discriminate L0. destruct (u 1%nat) as [|u1 [|]]; try discriminate L1.
    cbn in Eu. injection Eu as _ E2. lra.
Qed.

(** ** C32 *)
Section Lqr.
Variable np : numpy.
Hypothesis Hnp : exact_np np.
Variables (A B Q Rm P : mat) (nx nu : nat).
Hypothesis HA : shape A nx nx.
Hypothesis HB : shape B nx nu.
Hypothesis HQ : shape Q nx nx.
Hypothesis HR : shape Rm nu nu.
Hypothesis PR : Spec.pd Rm nu.
Hypothesis RP : riccati A B Q Rm P nx nu.
Hypothesis PP : psd P nx.
Let M := madd (mm (mm (tr B) P) B) Rm.
Lemma M_shape : shape M nu nu.
Proof. unfold M. destruct RP as (SP & _). apply shape_madd; [|exact HR]. eauto with shp. Qed.
Lemma M_form u w : length u = nu -> length w = nu -> dot u (mv M w) = dot u (mv Rm w) + dot (mv B u) (mv P (mv B w)).
Proof.
  intros Lu Lw. destruct RP as (SP & _). assert (LB : length (rows B) = nx) by apply HB. assert (LR : length (rows Rm) = nu) by apply HR.
  assert (S1 : shape (mm (tr B) P) nu nx) by eauto with shp.
  assert (S2 : shape (mm (mm (tr B) P) B) nu nu) by eauto with shp.
  assert (LP : length (rows P) = nx) by apply SP. assert (LT : length (rows (tr B)) = nu) by (apply (shape_tr B nx nu HB)).
  unfold M. rewrite (mv_madd _ _ nu nu) by auto. rewrite (mv_mm _ B nx nu) by auto. rewrite (mv_mm (tr B) P nx nx) by auto.
  rewrite dot_vadd_r by (rewrite !mv_length; lia).
  rewrite (dot_mv_tr_r B nx nu) by (auto; len). ring.
Qed.
Lemma M_pd : Spec.pd M nu.
Proof.
  destruct RP as (SP & _). split.
  - unfold M. rewrite (tr_madd _ _ nu nu) by (auto; eauto with shp). f_equal; [|apply PR].
    assert (ST : shape (tr B) nu nx) by auto with shp. assert (S1 : shape (mm (tr B) P) nu nx) by eauto with shp.
    rewrite (tr_mm (mm (tr B) P) B nu nx nu) by auto. rewrite (tr_mm (tr B) P nu nx nx) by auto. rewrite (tr_tr B nx nu HB).
    rewrite (proj1 PP). apply (mm_assoc (tr B) P B nu nx nx nu); auto.
  - intros x Lx Nx. rewrite M_form by auto. assert (LB : length (rows B) = nx) by apply HB.
    pose proof (proj2 PR x Lx Nx). pose proof (proj2 PP (mv B x) ltac:(len)). lra.
Qed.
Lemma M_inv : exists Mi, np_inv np M = Ok Mi /\ shape Mi nu nu /\ mm M Mi = eye nu /\ mm Mi M = eye nu.
Proof.
  destruct Hnp as (_ & _ & _ & Hi & _). destruct (Hi M nu M_shape) as [(_ & X & E & H)|((x & Lx & Nx & Ex) & _)]; [eauto|exfalso].
  pose proof (proj2 M_pd x Lx Nx) as H. rewrite Ex in H. autorewrite with dotx in H. lra.
Qed.
Section Gain.
Variable Mi : mat.
Hypothesis SMi : shape Mi nu nu.
Hypothesis MM1 : mm M Mi = eye nu.
Hypothesis MM2 : mm Mi M = eye nu.
Let K := mm (mm (mm (mneg Mi) (tr B)) P) A.
Lemma K_shape : shape K nu nx.
Proof. destruct RP as (SP & _). unfold K. assert (shape (mneg Mi) nu nu) by auto with shp. assert (shape (tr B) nu nx) by auto with shp. eauto with shp. Qed.
(** completion of squares *)
Lemma dare_identity x u : length x = nx -> length u = nu ->
  dot x (mv Q x) + dot u (mv Rm u) + dot (vadd (mv A x) (mv B u)) (mv P (vadd (mv A x) (mv B u))) =
  dot x (mv P x) + dot (vsub u (mv K x)) (mv M (vsub u (mv K x))).
Proof.
  intros Lx Lu. pose proof RP as (SP & EQ). specialize (EQ Mi SMi MM2).
  assert (LA : length (rows A) = nx) by apply HA. assert (LB : length (rows B) = nx) by apply HB. assert (LQ : length (rows Q) = nx) by apply HQ.
  assert (LR : length (rows Rm) = nu) by apply HR. assert (LP : length (rows P) = nx) by apply SP. assert (LMi : length (rows Mi) = nu) by apply SMi.
  assert (SM := M_shape). assert (LM : length (rows M) = nu) by apply SM. assert (SK := K_shape). assert (LK : length (rows K) = nu) by apply SK.
  assert (STB : shape (tr B) nu nx) by auto with shp. assert (LTB : length (rows (tr B)) = nu) by apply STB.
  assert (STA : shape (tr A) nx nx) by auto with shp. assert (LTA : length (rows (tr A)) = nx) by apply STA.
  assert (SNM : shape (mneg Mi) nu nu) by auto with shp.
  set (a := mv A x). set (w := mv (tr B) (mv P a)). assert (La : length a = nx) by (unfold a; len). assert (Lw : length w = nu) by (unfold w; len).
  assert (EK : mv K x = vneg (mv Mi w)).
  { unfold K. rewrite (mv_mm _ A nx nx) by auto. rewrite (mv_mm _ P nx nx) by auto. rewrite (mv_mm _ (tr B) nu nx) by auto.
    rewrite mv_mneg. reflexivity. }
  assert (MK : mv M (mv K x) = vneg w).
  { rewrite EK. replace (vneg (mv Mi w)) with (mv Mi (vneg w)) by (apply mv_vneg). rewrite <- (mv_mm M Mi nu nu) by auto. rewrite MM1. apply mv_eye. len. }
  (* the quadratic form of the Riccati equation *)
  assert (XP : dot x (mv P x) = dot a (mv P a) - dot w (mv Mi w) + dot x (mv Q x)).
  { rewrite <- EQ at 1. assert (S1 : shape (mm (tr A) P) nx nx) by eauto with shp. assert (S2 : shape (mm (mm (tr A) P) A) nx nx) by eauto with shp.
    assert (S3 : shape (mm (tr B) P) nu nx) by eauto with shp. assert (S4 : shape (mm (mm (tr B) P) A) nu nx) by eauto with shp.
    assert (S5 : shape (mm (mm (tr A) P) B) nx nu) by eauto with shp. assert (S6 : shape (mm (mm (mm (tr A) P) B) Mi) nx nu) by eauto with shp.
    assert (S7 : shape (mm (mm (mm (mm (tr A) P) B) Mi) (mm (mm (tr B) P) A)) nx nx) by eauto with shp.
    rewrite (mv_madd _ _ nx nx) by (auto with shp). rewrite (mv_msub _ _ nx nx) by auto.
    rewrite !(mv_mm _ A nx nx) by auto. rewrite (mv_mm _ (mm (mm (tr B) P) A) nu nx) by auto. rewrite !(mv_mm _ A nx nx) by auto.
    rewrite !(mv_mm _ P nx nx) by auto. fold a. fold w. rewrite (mv_mm _ Mi nu nu) by auto. rewrite (mv_mm _ B nx nu) by auto. rewrite (mv_mm _ P nx nx) by auto.
    rewrite dot_vadd_r by len. rewrite dot_vsub_r by len. rewrite !(dot_mv_tr_r A nx nx) by (auto; len). fold a.
    replace (dot a (mv P (mv B (mv Mi w)))) with (dot w (mv Mi w)); [ring|].
    rewrite (sym_dot P nx a (mv B (mv Mi w))) by (auto; try len; apply PP). unfold w at 1. rewrite (dot_mv_tr B nx nu) by (auto; len). apply dot_comm. }
  rewrite XP. fold a. set (bu := mv B u). assert (Lbu : length bu = nx) by (unfold bu; len).
  rewrite (mv_vadd P nx nx) by auto. rewrite (mv_vsub M nu nu) by (auto; len). rewrite MK.
  rewrite dot_vadd_l by len. rewrite !dot_vadd_r by len. rewrite dot_vsub_l by len. rewrite !dot_vsub_r by len.
  rewrite (M_form u u) by auto. fold bu.
  rewrite (sym_dot P nx a bu) by (auto; apply PP).
  assert (UW : dot u w = dot bu (mv P a)). { unfold w. rewrite (dot_mv_tr_r B nx nu) by (auto; len). reflexivity. }
  assert (KM : dot (mv K x) (mv M u) = - dot u w).
  { rewrite (sym_dot M nu (mv K x) u); [|exact SM|apply M_pd|len|exact Lu]. rewrite MK. autorewrite with dotx. reflexivity. }
  rewrite KM. autorewrite with dotx. rewrite UW. rewrite EK. autorewrite with dotx. rewrite (dot_comm (mv Mi w) w).
  ring.
Qed.
(** telescoping over the horizon *)
Fixpoint deviation (x0 : vec) (u : nat -> vec) (N : nat) : R :=
  match N with
  | O => 0
  | S N' => deviation x0 u N' + / 2 * dot (vsub (u N') (mv K (state A B x0 u N'))) (mv M (vsub (u N') (mv K (state A B x0 u N'))))
  end.
Lemma cost_telescope x0 u N : length x0 = nx -> (forall t, length (u t) = nu) ->
  lq_cost A B Q Rm x0 u N = / 2 * dot x0 (mv P x0) - / 2 * dot (state A B x0 u N) (mv P (state A B x0 u N)) + deviation x0 u N.
Proof.
  intros L Lu. induction N as [|N IH]; [cbn; ring|]. cbn [lq_cost deviation state]. rewrite IH.
  pose proof (dare_identity (state A B x0 u N) (u N) (state_length A B nx nu x0 u N HA HB L) (Lu N)). lra.
Qed.
Lemma deviation_nonneg x0 u N : length x0 = nx -> (forall t, length (u t) = nu) -> 0 <= deviation x0 u N /\
  (deviation x0 u N = 0 <-> forall t, (t < N)%nat -> u t = mv K (state A B x0 u t)).
Proof.
  intros L Lu. assert (LK : length (rows K) = nu) by apply K_shape.
  assert (S : forall t, 0 <= / 2 * dot (vsub (u t) (mv K (state A B x0 u t))) (mv M (vsub (u t) (mv K (state A B x0 u t)))) /\
    (/ 2 * dot (vsub (u t) (mv K (state A B x0 u t))) (mv M (vsub (u t) (mv K (state A B x0 u t)))) = 0 <-> u t = mv K (state A B x0 u t))).
  { intros t. pose proof (Lu t) as Lt. set (d := vsub (u t) (mv K (state A B x0 u t))).
    assert (Ld : length d = nu) by (unfold d; len).
    assert (Ez : u t = mv K (state A B x0 u t) <-> d = zeros nu).
    { unfold d. split; intros E.
      - rewrite E, vsub_self. f_equal. len.
      - apply vec_ext; [len|]. intros i Hi. apply (f_equal (fun v => nth i v 0)) in E. rewrite nth_zeros, nth_vsub in E by len. lra. }
    rewrite Ez. destruct (list_eq_dec Req_EM_T d (zeros nu)) as [E|N'].
    - rewrite E. assert (Z : dot (zeros nu) (mv M (zeros nu)) = 0) by (autorewrite with dotx; reflexivity). rewrite Z. split; [lra|]. split; [auto|intros _; lra].
    - pose proof (proj2 M_pd d Ld N'). split; [lra|]. split; [lra|contradiction]. }
  induction N as [|N IH].
  - cbn. split; [lra|]. split; [intros; lia|auto].
  - cbn [deviation]. destruct (S N) as (S1 & S2). destruct IH as (I1 & I2). split; [lra|]. split.
    + intros E t Ht. destruct (Nat.eq_dec t N) as [->|NE]; [apply S2; lra|]. apply I2; [lra|lia].
    + intros H. rewrite (proj2 I2), (proj2 S2); [lra|apply H; lia|]. intros t Ht. apply H. lia.
Qed.
End Gain.
(** x' P x <= c x' Q x when Q is positive definite *)
Lemma norm_mv_bound F m n : shape F m n -> exists c, 0 <= c /\ forall x, length x = n -> dot (mv F x) (mv F x) <= c * dot x x.
Proof.
  intros (L & C & HF). destruct F as [nc rs]. cbn [rows ncols] in *. clear L C. revert HF. induction rs as [|r rs IH]; intros HF.
  - exists 0. split; [lra|]. intros x _. unfold mv. cbn. lra.
  - inversion HF as [|? ? H1 H2]; subst. destruct (IH H2) as (c & C0 & Hc). exists (dot r r + c). pose proof (dot_self_nonneg r). split; [lra|].
    intros x Lx. specialize (Hc x Lx). unfold mv in *. cbn [rows map] in *. 
    change (dot (dot r x :: map (fun r0 => dot r0 x) rs) (dot r x :: map (fun r0 => dot r0 x) rs)) with (dot r x * dot r x + dot (map (fun r0 => dot r0 x) rs) (map (fun r0 => dot r0 x) rs)).
    pose proof (cauchy_schwarz r x) as CS. unfold Rsqr in CS. lra.
Qed.
Lemma form_domination Pm Qm n : shape Pm n n -> shape Qm n n -> Spec.pd Qm n -> exists c, 0 <= c /\ forall x, length x = n -> dot x (mv Pm x) <= c * dot x (mv Qm x).
Proof.
  intros SPm SQm PQ. destruct Hnp as (_ & _ & Hc & Hi & _).
  destruct (chol_inv np Qm n Hc Hi SQm PQ) as (L & Li & _ & _ & SL & SLi & EQ & I1 & I2).
  assert (ST : shape (tr L) n n) by auto with shp. assert (STi : shape (tr Li) n n) by auto with shp.
  assert (LT : length (rows (tr L)) = n) by apply ST. assert (LPm : length (rows Pm) = n) by apply SPm. assert (LTi : length (rows (tr Li)) = n) by apply STi.
  destruct (norm_mv_bound (tr Li) n n STi) as (c1 & C1 & H1). destruct (norm_mv_bound Pm n n SPm) as (c2 & C2 & H2).
  exists (((1 + c2) / 2) * c1). split; [apply Rmult_le_pos; lra|]. intros x Lx.
  assert (Ex : mv (tr Li) (mv (tr L) x) = x).
  { rewrite <- (mv_mm (tr Li) (tr L) n n) by auto. rewrite <- (tr_mm L Li n n n) by auto. rewrite I1. rewrite tr_eye. apply mv_eye. exact Lx. }
  assert (Eq : dot x (mv Qm x) = dot (mv (tr L) x) (mv (tr L) x)).
  { rewrite <- EQ. rewrite (mv_mm L (tr L) n n) by auto. symmetry. rewrite (dot_mv_tr L n n) by auto. reflexivity. }
  rewrite Eq. specialize (H1 (mv (tr L) x) ltac:(len)). rewrite Ex in H1. specialize (H2 x Lx).
  assert (dot x (mv Pm x) <= (dot x x + dot (mv Pm x) (mv Pm x)) / 2).
  { pose proof (dot_self_nonneg (vsub x (mv Pm x))) as D. rewrite dot_vsub_l in D by len. rewrite !dot_vsub_r in D by len. rewrite (dot_comm (mv Pm x) x) in D. lra. }
  assert (dot x (mv Pm x) <= (1 + c2) / 2 * dot x x) by lra.
  apply Rle_trans with (1 := H0). rewrite Rmult_assoc. apply Rmult_le_compat_l; [lra|exact H1].
Qed.
End Lqr.
(** ** What solve_dare returns *)
Section Dare.
Variable np : numpy.
Hypothesis Hnp : exact_np np.
Variables (S : lsys) (Q Rm : mat) (nx nu : nat).
Hypothesis HA : shape (lA S) nx nx.
Hypothesis HB : shape (lB S) nx nu.
Hypothesis HQ : shape Q nx nx.
Hypothesis HR : shape Rm nu nu.
Hypothesis Hn : (0 < nx)%nat.
Hypothesis F : l_controllable S = None.
Let P := np_dare np (lA S) (lB S) Q Rm.
Hypothesis PR : Spec.pd Rm nu.
Hypothesis RP : riccati (lA S) (lB S) Q Rm P nx nu.
Hypothesis PP : psd P nx.
Lemma dare_returns : (steerable (lA S) (lB S) nx nu nx -> exists K, fst (solve_dare np S Q Rm) = Ok (P, K)) /\
  (~ steerable (lA S) (lB S) nx nu nx -> fst (solve_dare np S Q Rm) = Err ValueError) /\
  (forall P' K, fst (solve_dare np S Q Rm) = Ok (P', K) -> P' = P /\
     exists Mi, shape Mi nu nu /\ mm (madd (mm (mm (tr (lB S)) P) (lB S)) Rm) Mi = eye nu /\ mm Mi (madd (mm (mm (tr (lB S)) P) (lB S)) Rm) = eye nu /\
       K = mm (mm (mm (mneg Mi) (tr (lB S))) P) (lA S)).
Proof.
  destruct (M_inv np Hnp (lA S) (lB S) Q Rm P nx nu HB HR PR RP PP) as (Mi & E & SMi & M1 & M2).
  destruct (controllable_ok np S nx nu Hnp HA HB Hn F) as (b & Ec & _ & Hb).
  assert (EM : np_madd (mm (mm (tr (lB S)) P) (lB S)) Rm = Ok (madd (mm (mm (tr (lB S)) P) (lB S)) Rm)).
  { apply (np_madd_ok _ _ nu nu); [|exact HR]. destruct RP as (SP & _). eauto with shp. }
  unfold solve_dare. rewrite Ec. fold P. destruct b.
  - rewrite EM. cbn [bind]. rewrite E. cbn [bind fst]. repeat match goal with |- _ /\ _ => split end.
    + intros _. eexists. reflexivity.
    + intros N. exfalso. apply N, Hb. reflexivity.
    + intros P' K [= <- <-]. split; [reflexivity|]. exists Mi. auto.
  - repeat match goal with |- _ /\ _ => split end; cbn [fst].
    + intros H. apply Hb in H. discriminate.
    + reflexivity.
    + intros P' K H. discriminate.
Qed.
End Dare.

(*@ Theorem C32_solve_dare : If scipy returns a symmetric positive semidefinite solution of the Riccati equation, solve_dare succeeds iff the system is controllable (ValueError otherwise), and for the returned P, K the cost of every N-step input sequence is 1/2 x0'P x0 - 1/2 xN'P xN plus a nonnegative term that vanishes iff u(t) = K x(t) for all t < N. *)
Lemma solve_dare_ok np S Q Rm nx nu : exact_np np -> shape (lA S) nx nx -> shape (lB S) nx nu -> shape Q nx nx -> shape Rm nu nu -> (0 < nx)%nat ->
  l_controllable S = None -> Spec.pd Rm nu ->
  riccati (lA S) (lB S) Q Rm (np_dare np (lA S) (lB S) Q Rm) nx nu -> psd (np_dare np (lA S) (lB S) Q Rm) nx ->
  (steerable (lA S) (lB S) nx nu nx -> exists P K, fst (solve_dare np S Q Rm) = Ok (P, K)) /\
  (~ steerable (lA S) (lB S) nx nu nx -> fst (solve_dare np S Q Rm) = Err ValueError) /\
  (forall P K, fst (solve_dare np S Q Rm) = Ok (P, K) -> shape K nu nx /\ forall x0 u N, length x0 = nx -> (forall t, length (u t) = nu) ->
     exists e, lq_cost (lA S) (lB S) Q Rm x0 u N =
       / 2 * dot x0 (mv P x0) - / 2 * dot (state (lA S) (lB S) x0 u N) (mv P (state (lA S) (lB S) x0 u N)) + e /\
       0 <= e /\ (e = 0 <-> forall t, (t < N)%nat -> u t = mv K (state (lA S) (lB S) x0 u t))).
Proof.
  intros Hnp HA HB HQ HR Hn F PR RP PP. destruct (dare_returns np Hnp S Q Rm nx nu HA HB HR Hn F PR RP PP) as (H1 & H2 & H3).
  split; [intros H; destruct (H1 H) as (K & E); eauto|]. split; [exact H2|].
  intros P K E. destruct (H3 P K E) as (-> & Mi & SMi & M1 & M2 & ->). clear H1 H2 H3.
  set (P := np_dare np (lA S) (lB S) Q Rm) in *. split; [apply (K_shape (lA S) (lB S) Q Rm P nx nu HA HB RP Mi SMi)|].
  intros x0 u N L Lu.
  exists (deviation (lA S) (lB S) Rm P Mi x0 u N). split; [|].
  - apply (cost_telescope (lA S) (lB S) Q Rm P nx nu); auto.
  - apply (deviation_nonneg (lA S) (lB S) Q Rm P nx nu); auto.
Qed.
(*@ Theorem C32_optimal_partial : If moreover Q is positive definite, K is optimal over infinite horizons with optimal cost 1/2 x0'P x0: under u = K x the cost of every prefix is at most 1/2 x0'P x0, and no input signal whatsoever keeps the costs of its prefixes below a smaller value.
   Missing: Q that is only positive semidefinite, as allowed by the docstring, for which the claim is false (see the refutation). *)
Lemma dare_optimal np S Q Rm nx nu P K : exact_np np -> shape (lA S) nx nx -> shape (lB S) nx nu -> shape Q nx nx -> shape Rm nu nu -> (0 < nx)%nat ->
  l_controllable S = None -> Spec.pd Rm nu -> Spec.pd Q nx ->
  riccati (lA S) (lB S) Q Rm (np_dare np (lA S) (lB S) Q Rm) nx nu -> psd (np_dare np (lA S) (lB S) Q Rm) nx ->
  fst (solve_dare np S Q Rm) = Ok (P, K) ->
  (forall x0 u, length x0 = nx -> (forall t, length (u t) = nu) ->
     (forall t, u t = mv K (state (lA S) (lB S) x0 u t)) -> forall N, lq_cost (lA S) (lB S) Q Rm x0 u N <= / 2 * dot x0 (mv P x0)) /\
  (forall x0 u V, length x0 = nx -> (forall t, length (u t) = nu) ->
     (forall N, lq_cost (lA S) (lB S) Q Rm x0 u N <= V) -> / 2 * dot x0 (mv P x0) <= V).
Proof.
  intros Hnp HA HB HQ HR Hn F PR PQ RP PP E.
  destruct (solve_dare_ok np S Q Rm nx nu Hnp HA HB HQ HR Hn F PR RP PP) as (_ & _ & H3). destruct (H3 P K E) as (_ & H).
  destruct (dare_returns np Hnp S Q Rm nx nu HA HB HR Hn F PR RP PP) as (_ & _ & H4). destruct (H4 P K E) as (EP & _). rewrite <- EP in RP, PP. clear H3 H4.
  assert (Lst : forall x0 u t, length x0 = nx -> length (state (lA S) (lB S) x0 u t) = nx) by (intros; eapply state_length; eauto). split.
  - intros x0 u L Lu Hu N. destruct (H x0 u N L Lu) as (e & -> & _ & He). rewrite (proj2 He) by auto.
    pose proof (proj2 PP (state (lA S) (lB S) x0 u N) (Lst _ _ _ L)). lra.
  - intros x0 u V L Lu HV. destruct (form_domination np Hnp P Q nx) as (c & C0 & Hc); [apply RP|exact HQ|exact PQ|].
    destruct (Rle_lt_dec (/ 2 * dot x0 (mv P x0)) V) as [|G]; [assumption|exfalso].
    set (gap := / 2 * dot x0 (mv P x0) - V). assert (Hg : 0 < gap) by (unfold gap; lra).
    (* the terminal term stays above the gap, so x'Qx stays above 2 gap / (c + 1) and the cost diverges *)
    assert (St : forall t, 2 * gap / (c + 1) <= dot (state (lA S) (lB S) x0 u t) (mv Q (state (lA S) (lB S) x0 u t))).
    { intros t. destruct (H x0 u t L Lu) as (e & Et & He & _). specialize (HV t). rewrite Et in HV. specialize (Hc _ (Lst x0 u t L)).
      set (q := dot (state (lA S) (lB S) x0 u t) (mv Q (state (lA S) (lB S) x0 u t))) in *. unfold gap in *.
      pose proof (proj2 (pd_psd _ _ PQ) (state (lA S) (lB S) x0 u t) (Lst x0 u t L)) as Q0. fold q in Q0.
      apply Rmult_le_reg_r with (c + 1); [lra|]. unfold Rdiv. rewrite Rmult_assoc, Rinv_l by lra. nra. }
    set (s := gap / (c + 1)). assert (Hs : 0 < s) by (apply Rdiv_lt_0_compat; lra).
    assert (Gr : forall N, INR N * s <= lq_cost (lA S) (lB S) Q Rm x0 u N).
    { induction N as [|N IH]; [cbn; lra|]. rewrite S_INR. cbn [lq_cost]. specialize (St N).
      pose proof (proj2 (pd_psd _ _ PR) (u N) (Lu N)). replace (2 * gap / (c + 1)) with (2 * s) in St by (unfold s; field; lra). lra. }
    destruct (Rle_lt_dec V 0) as [Vn|Vp].
    + specialize (Gr 1%nat). specialize (HV 1%nat). cbn [INR] in Gr. lra.
    + destruct (archimed_cor1 (s / V)) as (N & HN & PN); [apply Rdiv_lt_0_compat; lra|]. specialize (Gr N). specialize (HV N).
      assert (0 < INR N) by (apply lt_0_INR; exact PN). assert (V < INR N * s); [|lra].
      apply Rmult_lt_reg_r with (/ INR N * / V); [apply Rmult_lt_0_compat; apply Rinv_0_lt_compat; lra|].
      replace (V * (/ INR N * / V)) with (/ INR N) by (field; lra). replace (INR N * s * (/ INR N * / V)) with (s / V) by (field; lra). exact HN.
Qed.
Lemma scalar_riccati a b q r p : r + b * b * p <> 0 -> p * (r + b * b * p) = a * a * p * (r + b * b * p) - (a * p * b) * (a * p * b) + q * (r + b * b * p) ->
  riccati (Mat 1 [[a]]) (Mat 1 [[b]]) (Mat 1 [[q]]) (Mat 1 [[r]]) (Mat 1 [[p]]) 1 1.
Proof.
  intros N E. split; [repeat split; repeat constructor|]. intros Mi SM HM. destruct Mi as [nc rs]. destruct SM as (L1 & L2 & L3). cbn in L1, L2, L3. subst nc.
  destruct rs as [|v [|]]; try discriminate L1. inversion L3 as [|? ? Lv _]; subst. destruct v as [|mi [|]]; try discriminate Lv.
  cbv -[Rplus Rmult IZR Rminus Ropp] in HM. injection HM as HM.
  assert (Em : mi = / (r + b * b * p)). { apply Rmult_eq_reg_r with (r + b * b * p); [|exact N]. rewrite Rinv_l by exact N. lra. }
  cbv -[Rplus Rmult IZR Rminus Ropp]. f_equal. f_equal. f_equal. rewrite Em.
  apply Rmult_eq_reg_r with (r + b * b * p); [|exact N]. rewrite E. field. exact N.
Qed.
Lemma scalar_psd p : 0 <= p -> psd (Mat 1 [[p]]) 1.
Proof. intros H. split; [reflexivity|]. intros x L. destruct x as [|a [|]]; try discriminate L. cbn. nra. Qed.
Lemma scalar_pd p : 0 < p -> Spec.pd (Mat 1 [[p]]) 1.
Proof. intros H. split; [reflexivity|]. intros x L N. destruct x as [|a [|]]; try discriminate L. cbn. assert (a <> 0) by (intros ->; apply N; reflexivity). pose proof (Rsqr_pos_lt a H0) as Q. unfold Rsqr in Q. pose proof (Rmult_lt_0_compat _ _ H Q). lra. Qed.
Lemma scalar_shape p : shape (Mat 1 [[p]]) 1 1.
Proof. repeat split; repeat constructor. Qed.
Lemma scalar_steerable a b : b <> 0 -> steerable (Mat 1 [[a]]) (Mat 1 [[b]]) 1 1 1.
Proof.
  intros H x0 xf L0 Lf. destruct x0 as [|x [|]]; try discriminate L0. destruct xf as [|y [|]]; try discriminate Lf.
  exists (fun _ => [(y - a * x) / b]). split; [reflexivity|]. cbn. f_equal. field. exact H.
Qed.
Definition np_dare_const (P : mat) : numpy :=
  exact_numpy (fun A => A) (fun _ => 0) (fun A => A) (fun _ _ _ _ => P) (fun _ n => zeros n)
              (fun _ _ _ => Ok []) (fun _ => Err QhullError).
Lemma np_dare_const_exact P : exact_np (np_dare_const P). Proof. split; [exact nnls0_ok|]. split; [exact pinv0_ok|]. split; [exact chol0_ok|]. split; [exact inv0_ok|]. split; [exact solve0_ok|exact svd0_ok]. Qed.
(*@ Example C32_example : x+ = x + u, Q = 1, R = 2: P = 2 solves the Riccati equation, all hypotheses hold, and solve_dare returns P = 2, K = -1/2. *)
Lemma dare_example : let S := LSys (Mat 1 [[1]]) (Mat 1 [[1]]) None in let np := np_dare_const (Mat 1 [[2]]) in
  exact_np np /\ riccati (lA S) (lB S) (Mat 1 [[1]]) (Mat 1 [[2]]) (np_dare np (lA S) (lB S) (Mat 1 [[1]]) (Mat 1 [[2]])) 1 1 /\
  psd (np_dare np (lA S) (lB S) (Mat 1 [[1]]) (Mat 1 [[2]])) 1 /\ Spec.pd (Mat 1 [[1]]) 1 /\ Spec.pd (Mat 1 [[2]]) 1 /\ steerable (lA S) (lB S) 1 1 1 /\
  fst (solve_dare np S (Mat 1 [[1]]) (Mat 1 [[2]])) = Ok (Mat 1 [[2]], Mat 1 [[- (1 / 2)]]).
Proof.
  cbv zeta. set (S := LSys _ _ _). set (np := np_dare_const _).
  assert (H1 : exact_np np) by apply np_dare_const_exact.
  assert (H2 : riccati (lA S) (lB S) (Mat 1 [[1]]) (Mat 1 [[2]]) (np_dare np (lA S) (lB S) (Mat 1 [[1]]) (Mat 1 [[2]])) 1 1) by (apply scalar_riccati; lra).
  assert (H3 : psd (np_dare np (lA S) (lB S) (Mat 1 [[1]]) (Mat 1 [[2]])) 1) by (apply scalar_psd; lra).
  assert (H4 : Spec.pd (Mat 1 [[1]]) 1) by (apply scalar_pd; lra). assert (H5 : Spec.pd (Mat 1 [[2]]) 1) by (apply scalar_pd; lra).
  assert (H6 : steerable (lA S) (lB S) 1 1 1) by (apply scalar_steerable; lra).
  repeat match goal with |- _ /\ _ => split end; auto.
  destruct (dare_returns np H1 S (Mat 1 [[1]]) (Mat 1 [[2]]) 1 1 (scalar_shape _) (scalar_shape _) (scalar_shape _) ltac:(lia) eq_refl H5 H2 H3) as (R1 & _ & R3).
  destruct (R1 H6) as (K & E). destruct (R3 _ _ E) as (_ & Mi & SM & _ & HM & EK). rewrite E, EK. f_equal. f_equal.
  destruct Mi as [nc rs]. destruct SM as (L1 & L2 & L3). cbn in L1, L2, L3. subst nc.
  destruct rs as [|v [|]]; try discriminate L1. inversion L3 as [|? ? Lv _]; subst. destruct v as [|mi [|]]; try discriminate Lv.
  cbv -[Rplus Rmult IZR Rminus Ropp] in HM. injection HM as HM. assert (mi = / 4) by lra. subst mi.
  cbv -[Rplus Rmult IZR Rminus Ropp Rdiv Rinv]. f_equal. f_equal. f_equal. field.
Qed.
(*@ Theorem C32_semidefinite_refuted : For x+ = 2x + u, Q = 0 (positive semidefinite), R = 1 the only solution of the Riccati equation with a stable closed loop is P = 3; solve_dare then returns P = 3, but u = 0 costs 0 < 3/2 x0^2. *)
Lemma semidefinite_refuted : exists S Q Rm x0 u, psd Q 1 /\ Spec.pd Rm 1 /\ length x0 = 1%nat /\ (forall t, length (u t) = 1%nat) /\
  (exists np, exact_np np /\ exists p, np_dare np (lA S) (lB S) Q Rm = Mat 1 [[p]] /\ riccati (lA S) (lB S) Q Rm (Mat 1 [[p]]) 1 1 /\ 0 <= p /\ Rabs (2 - 2 * p / (1 + p)) < 1) /\
  forall np, exact_np np ->
    (exists p, np_dare np (lA S) (lB S) Q Rm = Mat 1 [[p]] /\ riccati (lA S) (lB S) Q Rm (Mat 1 [[p]]) 1 1 /\ 0 <= p /\ Rabs (2 - 2 * p / (1 + p)) < 1) ->
    exists P K, fst (solve_dare np S Q Rm) = Ok (P, K) /\ forall N, lq_cost (lA S) (lB S) Q Rm x0 u N = 0 /\ 0 < / 2 * dot x0 (mv P x0).
Proof.
  exists (LSys (Mat 1 [[2]]) (Mat 1 [[1]]) None), (Mat 1 [[0]]), (Mat 1 [[1]]), [1], (fun _ => [0]).
  split; [apply scalar_psd; lra|]. split; [apply scalar_pd; lra|]. split; [reflexivity|]. split; [reflexivity|].
  split.
  { exists (np_dare_const (Mat 1 [[3]])). split; [apply np_dare_const_exact|]. exists 3. split; [reflexivity|]. split; [apply scalar_riccati; lra|]. split; [lra|].
    replace (2 - 2 * 3 / (1 + 3)) with (/ 2) by field. rewrite Rabs_right; lra. }
  intros np Hnp (p & Ep & RP & Pp & St). cbn [lA lB] in *.
  assert (p = 3 \/ p = 0) as [-> | ->].
  { destruct RP as (_ & RP). specialize (RP (Mat 1 [[/ (1 + p)]]) (scalar_shape _)).
    assert (E : mm (Mat 1 [[/ (1 + p)]]) (madd (mm (mm (tr (Mat 1 [[1]])) (Mat 1 [[p]])) (Mat 1 [[1]])) (Mat 1 [[1]])) = eye 1).
    { cbv -[Rplus Rmult IZR Rminus Ropp Rdiv Rinv]. mateq. }
    specialize (RP E). cbv -[Rplus Rmult IZR Rminus Ropp Rdiv Rinv] in RP. injection RP as RP.
    assert (Q : p * (p - 3) = 0).
    { assert (W : (1 + p) * / (1 + p) = 1) by (field; lra). set (w := / (1 + p)) in *. 
      assert (Z : (1 + p) * (3 * p - 4 * p * p * w) = 0) by (replace (3 * p - 4 * p * p * w) with 0 by lra; ring).
      replace ((1 + p) * (3 * p - 4 * p * p * w)) with ((1 + p) * (3 * p) - 4 * p * p * ((1 + p) * w)) in Z by ring. rewrite W in Z. lra. }
    apply Rmult_integral in Q as [Q|Q]; [right|left]; lra. }
  2:{ exfalso. replace (2 - 2 * 0 / (1 + 0)) with 2 in St by field. rewrite Rabs_right in St; lra. }
  destruct (dare_returns np Hnp (LSys (Mat 1 [[2]]) (Mat 1 [[1]]) None) (Mat 1 [[0]]) (Mat 1 [[1]]) 1 1 (scalar_shape _) (scalar_shape _) (scalar_shape _) ltac:(lia) eq_refl) as (R1 & _ & R3).
  { apply scalar_pd; lra. } { cbn [lA lB]. rewrite Ep. exact RP. } { cbn [lA lB]. rewrite Ep. apply scalar_psd. lra. }
  destruct R1 as (K & E). { apply scalar_steerable. lra. } cbn [lA lB] in E. rewrite Ep in E.
  exists (Mat 1 [[3]]), K. split; [exact E|]. intros N. split; [|cbn; lra].
  assert (Ls : forall t, length (state (Mat 1 [[2]]) (Mat 1 [[1]]) [1] (fun _ => [0]) t) = 1%nat) by (intros; eapply state_length; try apply scalar_shape; reflexivity).
  induction N as [|N IH]; [reflexivity|]. cbn [lq_cost]. rewrite IH. specialize (Ls N).
  destruct (state (Mat 1 [[2]]) (Mat 1 [[1]]) [1] (fun _ => [0]) N) as [|s [|]]; try discriminate Ls. cbn. ring.
Qed.
