(** * SpectralThms: eigenvalues, spectral radius and the stability test of mcais (C92), proofs *)
From Coq Require Import ZArith String Classical.
From Verif Require DareThms.
From Verif Require Import Arr ArrFacts Spec SpecMpc SpecLoop Numpy Pnnls PnnlsFacts QpFacts GeomUtils Polyhedron PolyThms Oracle SolverThms NullFacts PolySolveThms PolyMore PolyBoundThms GeomThms SpecDyn Dynamics DynThms CondenseThms LqrThms McaisThms Mpqp MpqpThms Controllers CtrlThms Gurobi Programs ProgThms Hybrid HybridThms HybridOptThms HybridLoopThms WorkThms Notebooks NoteThms Walls WallThms SpecEig FtaThms EigThms.
Local Open Scope list_scope.

(*@ Theorem C92_spectral_radius : Every real square matrix has an eigenvalue, real or complex; the largest modulus of its eigenvalues exists and is unique. *)
Lemma spectral_unique A n : shape A n n -> (0 < n)%nat -> exists r, spectral_radius A n r /\ forall r', spectral_radius A n r' -> r' = r.
Proof.
  intros SA Hn. destruct (spectral_exists A n SA Hn) as (r & H). exists r. split; [exact H|]. intros r' ((a' & b' & E' & ->) & U'). destruct H as ((a & b & E & ->) & U). apply Rle_antisym; [apply U, E'|apply U', E].
Qed.

(*@ Theorem C92_attractive_iff : All trajectories of x+ = A x converge to the origin iff the spectral radius of A is less than one. *)
Lemma attractive_iff A n r : shape A n n -> spectral_radius A n r -> (attractive A n <-> r < 1).
Proof.
  intros SA ((a & b & E & ->) & U). split.
  - intros AT. destruct (Rlt_le_dec (sqrt (a * a + b * b)) 1) as [|G]; [assumption|exfalso]. apply (eigc_eigenvalue A n SA (Cx a b)) in E. destruct E as (u & Hu & NZ & E). change (sqrt (a * a + b * b)) with (cmod (Cx a b)) in G.
    pose proof (cnorm_pos n u Hu NZ) as P. destruct Hu as (Lv & Lw). destruct (AT (fst u) Lv (cnorm u / 4) ltac:(lra)) as (T1 & H1). destruct (AT (snd u) Lw (cnorm u / 4) ltac:(lra)) as (T2 & H2).
    set (t := Nat.max T1 T2). pose proof (H1 t ltac:(lia)). pose proof (H2 t ltac:(lia)). pose proof (eig_flow A n SA _ u t (conj Lv Lw) E) as Q. pose proof (cnorm_le n (cflow A t u) (wfc_cflow A n SA t u (conj Lv Lw))) as Q2. rewrite Q, cflow_eq in Q2. cbn [fst snd] in Q2.
    assert (1 <= cmod (Cx a b) ^ t) by (apply pow_R1_Rle; exact G). nra.
  - intros L. apply stable_attractive; [exact SA|]. intros a' b' E'. pose proof (U a' b' E'). lra.
Qed.

Lemma unstable_grows A n r d M : shape A n n -> spectral_radius A n r -> 1 < r -> 0 < d -> exists x t, length x = n /\ norm x <= d /\ M < norm (flow A t x).
Proof.
  intros SA ((a & b & E & ->) & _) G Hd. apply (eigc_eigenvalue A n SA (Cx a b)) in E. destruct E as (u & Hu & NZ & E). change (sqrt (a * a + b * b)) with (cmod (Cx a b)) in G.
  pose proof (cnorm_pos n u Hu NZ) as P. set (s := d / cnorm u). assert (S0 : 0 < s) by (apply Rdiv_lt_0_compat; lra). set (u' := cvs (cre s) u). assert (W : wfc n u') by (apply wfc_cvs, Hu).
  assert (E' : sh A (Cx a b) u' = cz n). { unfold u'. rewrite (sh_cvs A n SA) by assumption. rewrite E. unfold cvs, cz. cbn [fst snd]. rewrite !vscale_zeros. rewrite vadd_zeros_l, vsub_zeros_r by apply zeros_length. reflexivity. }
  assert (N' : cnorm u' = d). { unfold u'. rewrite (cnorm_cvs n) by assumption. rewrite cmod_re, Rabs_pos_eq by lra. unfold s. field. lra. }
  destruct (Pow_x_infinity (cmod (Cx a b)) ltac:(rewrite Rabs_pos_eq; [lra|apply cmod_pos]) ((2 * Rabs M + 1) / d)) as (T & HT). pose proof (HT T (le_n T)) as Q. rewrite Rabs_pos_eq in Q by (apply pow_le, cmod_pos).
  assert (Q1 : 2 * Rabs M + 1 <= cmod (Cx a b) ^ T * d). { apply Rge_le in Q. apply (Rmult_le_compat_r d) in Q; [|lra]. replace ((2 * Rabs M + 1) / d * d) with (2 * Rabs M + 1) in Q by (field; lra). exact Q. }
  pose proof (eig_flow A n SA _ u' T W E') as F. rewrite N' in F. pose proof (cnorm_le n (cflow A T u') (wfc_cflow A n SA T u' W)) as Q2. rewrite F, cflow_eq in Q2. cbn [fst snd] in Q2. pose proof (Rle_abs M). destruct W as (Lv & Lw).
  destruct (Rlt_le_dec M (norm (flow A T (fst u')))) as [L|L].
  - exists (fst u'), T. split; [exact Lv|]. split; [|exact L]. rewrite <- N'. apply norm_app_l.
  - exists (snd u'), T. split; [exact Lw|]. split; [rewrite <- N'; apply norm_app_r|]. lra.
Qed.

(*@ Theorem C92_test : Given a polyhedron without equalities that is bounded and contains the origin, and eigenvalues computed exactly: if the spectral radius is larger than one, mcais raises ValueError, and arbitrarily close to the origin there are states whose trajectory leaves the polyhedron, so no set around the origin is invariant and admissible; if it is at most one, mcais does not raise. *)
Lemma mcais_test np A X m n : exact_np np -> shape A n n -> spectral_radius A n (np_eig_max np A) ->
  wf X m 0 n -> (0 < m)%nat -> (0 < n)%nat -> p_empty X = None -> p_bounded X = None -> in_poly X (zeros n) -> bounded_set (in_poly X) ->
  (1 < np_eig_max np A -> (forall fuel, fst (mcais np fuel A X) = Err ValueError) /\
     forall d, 0 < d -> exists x t, length x = n /\ norm x <= d /\ ~ in_poly X (flow A t x)) /\
  (np_eig_max np A <= 1 -> forall fuel, (exists O, fst (mcais np fuel A X) = Ok O) \/ fst (mcais np fuel A X) = Err OutOfFuel).
Proof.
  intros Hnp SA SR WX Hm Hn FE FB H0 BD. split.
  - intros G. split.
    + intros fuel. unfold mcais. rewrite (proj1 SA : nrows A = n), (proj1 (proj2 SA) : ncols A = n), Nat.eqb_refl. replace (Nat.eqb n 0) with false by (symmetry; apply Nat.eqb_neq; lia). cbn. replace (Rltb 1 (np_eig_max np A)) with true by (symmetry; apply Rltb_true; exact G). reflexivity.
    + intros d Hd. destruct BD as (M & HM). destruct (unstable_grows A n _ d M SA SR G Hd) as (x & t & Lx & Nx & Q). exists x, t. split; [exact Lx|]. split; [exact Nx|]. intros I. pose proof (HM _ I). lra.
  - intros L fuel. assert (Acc : accepted np A X m n) by (split; [exact WX|]; repeat (split; [assumption|]); assumption). destruct (mcais_halts np A X m n Hnp Acc) as (_ & H). destruct (H fuel) as [(O & X' & E)|(E & _)]; [left; exists O; rewrite E; reflexivity|right; exact E].
Qed.

Lemma ball_inside p m n : wf p m 0 n -> (forall i, (i < m)%nat -> 0 < nth i (pb p) 0) -> exists d, 0 < d /\ forall x, length x = n -> norm x <= d -> in_poly p x.
Proof.
  intros W Pb. assert (G : forall k, (k <= m)%nat -> exists d, 0 < d /\ forall x, length x = n -> norm x <= d -> forall i, (i < k)%nat -> dot (row (pA p) i) x <= nth i (pb p) 0).
  { induction k as [|k IH]; intros Hk; [exists 1; split; [lra|]; intros; lia|]. destruct IH as (d & D0 & H); [lia|]. pose proof (Pb k ltac:(lia)) as B. set (a := row (pA p) k). pose proof (norm_nonneg a) as N0.
    exists (Rmin d (nth k (pb p) 0 / (norm a + 1))). assert (Q0 : 0 < nth k (pb p) 0 / (norm a + 1)) by (apply Rdiv_lt_0_compat; lra). split; [apply Rmin_case; assumption|]. intros x Lx Nx i Hi.
    pose proof (Rmin_l d (nth k (pb p) 0 / (norm a + 1))). pose proof (Rmin_r d (nth k (pb p) 0 / (norm a + 1))). destruct (Nat.eq_dec i k) as [->|NE]; [|apply H; [exact Lx|lra|lia]].
    fold a. assert (CS : dot a x <= norm a * norm x). { destruct (Rle_lt_dec (dot a x) 0) as [|P]; [pose proof (norm_nonneg x); nra|]. apply Rsqr_incr_0_var; [|apply Rmult_le_pos; apply norm_nonneg]. pose proof (cauchy_schwarz a x) as C. rewrite <- !norm_sqr in C. unfold Rsqr in *. lra. }
    assert (norm a * norm x <= norm a * (nth k (pb p) 0 / (norm a + 1))) by (apply Rmult_le_compat_l; lra).
    replace (norm a * (nth k (pb p) 0 / (norm a + 1))) with (nth k (pb p) 0 - nth k (pb p) 0 / (norm a + 1)) in * by (field; lra). lra. }
  destruct (G m (le_n m)) as (d & D0 & H). exists d. split; [exact D0|]. intros x Lx Nx. apply (in_X p m n W). split; [exact Lx|]. apply vle_nth. destruct W as (WA & Wb & _). rewrite mv_length. split; [rewrite (proj1 WA); auto|]. intros i Hi. rewrite nth_mv. apply H; auto. rewrite <- (proj1 WA). exact Hi.
Qed.

(*@ Theorem C92_halts : If the spectral radius is less than one, and the polyhedron is bounded with the origin in its interior (b > 0, no equalities), mcais returns a set that contains a ball around the origin. *)
Lemma mcais_ends np A X m n : exact_np np -> shape A n n -> spectral_radius A n (np_eig_max np A) -> np_eig_max np A < 1 ->
  wf X m 0 n -> (0 < m)%nat -> (0 < n)%nat -> p_empty X = None -> p_bounded X = None -> bounded_set (in_poly X) -> (forall i, (i < m)%nat -> 0 < nth i (pb X) 0) ->
  exists fuel O X', mcais np fuel A X = (Ok O, X') /\ (forall x, McaisThms.admissible A X x -> in_poly O x) /\ exists d, 0 < d /\ forall x, length x = n -> norm x <= d -> in_poly O x.
Proof.
  intros Hnp SA SR L WX Hm Hn FE FB BD Pb.
  assert (H0 : in_poly X (zeros n)). { destruct (ball_inside X m n WX Pb) as (d & D0 & H). apply H; [apply zeros_length|]. rewrite norm_zeros. lra. }
  assert (Acc : accepted np A X m n) by (split; [exact WX|]; repeat (split; [assumption || lra|]); assumption).
  destruct (stable_halts np A X m n Hnp Acc Pb (proj2 (attractive_iff A n _ SA SR) L)) as (fuel & O & X' & E). exists fuel, O, X'. split; [exact E|].
  destruct (mcais_ok np fuel A X m n O X' Hnp Acc E) as (O1 & mO & mf & WO & RF & ADM & EA & EB & EC & ED & RM & IN). split; [exact IN|].
  assert (P1 : forall i, (i < mO)%nat -> 0 < nth i (pb O1) 0) by (intros i Hi; destruct (RF i Hi) as (j & k & Hj & -> & _); apply Pb, Hj).
  destruct (ball_inside O1 mO n WO P1) as (d & D0 & H). exists d. split; [exact D0|]. intros x Lx Nx. apply IN, ADM, H; assumption.
Qed.

Lemma rot0 a b p q : (1 - a) * p = - (b * q) -> (1 - a) * q = b * p -> (1 - a) * (1 - a) + b * b <> 0 -> p = 0 /\ q = 0.
Proof.
  intros H1 H2 D. split; apply (Rmult_eq_reg_l ((1 - a) * (1 - a) + b * b)); try exact D; rewrite Rmult_0_r.
  - replace (((1 - a) * (1 - a) + b * b) * p) with ((1 - a) * ((1 - a) * p) + b * (b * p)) by ring. rewrite H1, <- H2. ring.
  - replace (((1 - a) * (1 - a) + b * b) * q) with ((1 - a) * ((1 - a) * q) + b * (b * q)) by ring. rewrite H2. replace (b * q) with (- ((1 - a) * p)) by lra. ring.
Qed.
Lemma triangular_one c a b : eigenvalue (Mat 2 [[1; c]; [0; 1]]) 2 a b -> a = 1 /\ b = 0.
Proof.
  intros (v & w & Lv & Lw & NZ & E1 & E2). destruct v as [|v1 [|v2 [|]]]; try discriminate. destruct w as [|w1 [|w2 [|]]]; try discriminate. cbn in E1, E2. injection E1 as E1 E3. injection E2 as E2 E4.
  destruct (Req_dec ((1 - a) * (1 - a) + b * b) 0) as [Z|D]; [destruct (Rplus_sqr_eq_0 _ _ Z); split; lra|exfalso].
  destruct (rot0 a b v2 w2) as (-> & ->); [lra|lra|exact D|]. destruct (rot0 a b v1 w1) as (-> & ->); [lra|lra|exact D|]. destruct NZ as [NZ|NZ]; apply NZ; reflexivity.
Qed.
Lemma triangular_radius c r : spectral_radius (Mat 2 [[1; c]; [0; 1]]) 2 r -> r = 1.
Proof. intros ((a & b & E & ->) & _). destruct (triangular_one c a b E) as (-> & ->). replace (1 * 1 + 0 * 0) with 1 by ring. apply sqrt_1. Qed.

Lemma int_undetermined T : (1 <= T)%nat -> ~ determined A_int box2 T.
Proof.
  intros HT D.
  assert (PT : 0 < INR T) by (apply lt_0_INR; lia). assert (P1 : 1 <= INR T) by (replace 1 with (INR 1) by reflexivity; apply le_INR; exact HT).
  assert (IT : 0 < / INR T) by (apply Rinv_0_lt_compat; exact PT). assert (E : INR T * / INR T = 1) by (field; lra).
  assert (IT1 : / INR T <= 1) by nra.
  specialize (D [/ INR T; / INR T]). rewrite flow_int, in_box2 in D. assert (G : -1 <= / INR T + INR T * / INR T <= 1 /\ -1 <= / INR T <= 1); [|lra].
  apply D. intros k Hk. rewrite flow_int, in_box2. assert (INR k + 1 <= INR T) by (rewrite <- S_INR; apply le_INR; lia).
  pose proof (pos_INR k). assert (INR k * / INR T + / INR T <= 1) by (rewrite <- E; nra). assert (0 <= INR k * / INR T) by nra. lra.
Qed.
(*@ Theorem C92_marginal_refuted : A spectral radius of one decides nothing: x1+ = x1 + x2, x2+ = x2 and the identity both have spectral radius one and pass the test with X the unit box; the loop never ends for the first and ends after one iteration for the second. *)
Lemma marginal_spectral np : exact_np np -> (forall A, shape A 2 2 -> spectral_radius A 2 (np_eig_max np A)) ->
  exists A1 A2 X, shape A1 2 2 /\ shape A2 2 2 /\ np_eig_max np A1 = 1 /\ np_eig_max np A2 = 1 /\ (forall fuel, fst (mcais np fuel A1 X) = Err OutOfFuel) /\ exists O X', mcais np 1 A2 X = (Ok O, X').
Proof.
  intros Hnp SR. exists A_int, (eye 2), box2. assert (S1 : shape A_int 2 2) by (repeat split; repeat constructor). assert (S2 : shape (eye 2) 2 2) by auto with shp. split; [exact S1|]. split; [exact S2|].
  pose proof (triangular_radius 1 _ (SR A_int S1)) as R1. pose proof (triangular_radius 0 _ (SR (eye 2) S2)) as R2. split; [exact R1|]. split; [exact R2|]. split.
  - apply (loops_forever np A_int box2 4 2 Hnp); [apply accepted_int; lra|]. intros T HT. apply int_undetermined, HT.
  - destruct (accepted_int np ltac:(lra)) as (WX & Hm & Hn & FE & FB & _ & _ & H0 & BD). assert (Acc : accepted np (eye 2) box2 4 2) by (split; [exact WX|]; repeat (split; [assumption || lra|]); assumption).
    apply (proj1 (mcais_halts np (eye 2) box2 4 2 Hnp Acc) 1%nat (le_n 1)). intros x Hx. pose proof (Hx 0%nat ltac:(lia)) as I. cbn [flow] in *. rewrite (mv_eye 2); [exact I|]. apply (in_X box2 4 2 WX) in I. apply I.
Qed.

(** ** The spectral radius as a function, and libraries that meet every contract *)
Definition moduli (A : mat) (r : R) : Prop := r = 0 \/ exists a b, shape A (ncols A) (ncols A) /\ eigenvalue A (ncols A) a b /\ r = sqrt (a * a + b * b).
Lemma moduli_bound A : Raxioms.bound (moduli A).
Proof.
  destruct (classic (shape A (ncols A) (ncols A) /\ (0 < ncols A)%nat)) as [(SA & Hn)|N].
  - destruct (spectral_exists A _ SA Hn) as (r & ((a & b & _ & Er) & U)). exists r. intros x [->|(a' & b' & _ & E & ->)]; [rewrite Er; apply sqrt_pos|apply U, E].
  - exists 0. intros x [->|(a & b & SA & (v & w & Lv & Lw & NZ & _) & _)]; [lra|exfalso]. apply N. split; [exact SA|]. destruct (ncols A); [|lia]. destruct v, w; try discriminate. destruct NZ as [NZ|NZ]; exfalso; apply NZ; reflexivity.
Qed.
Lemma moduli_some A : exists r, moduli A r.
Proof. exists 0. left. reflexivity. Qed.
Definition spectral (A : mat) : R := proj1_sig (completeness (moduli A) (moduli_bound A) (moduli_some A)).
Lemma spectral_ok A n : shape A n n -> (0 < n)%nat -> spectral_radius A n (spectral A).
Proof.
  intros SA Hn. destruct (spectral_exists A n SA Hn) as (r & H). assert (EN : ncols A = n) by apply SA. enough (spectral A = r) as -> by exact H. destruct H as ((a & b & E & Er) & U). unfold spectral. destruct (completeness _ _ _) as (s & UB & LB). cbn.
  apply Rle_antisym; [|apply UB; right; exists a, b; rewrite EN; auto]. apply LB. intros x [->|(a' & b' & _ & E' & ->)]; [rewrite Er; apply sqrt_pos|]. rewrite EN in E'. apply U, E'.
Qed.
Definition np_spec (P : mat) : numpy := exact_numpy (fun A => A) spectral (fun A => A) (fun _ _ _ _ => P) (fun _ n => zeros n) (fun _ _ _ => Ok []) (fun _ => Err QhullError).
Lemma np_spec_exact P : exact_np (np_spec P).
Proof. split; [exact nnls0_ok|]. split; [exact pinv0_ok|]. split; [exact chol0_ok|]. split; [exact inv0_ok|]. split; [exact solve0_ok|exact svd0_ok]. Qed.
Lemma radius_eig_max np A n : spectral_radius A n (np_eig_max np A) -> eig_max_ok np A n.
Proof.
  intros ((a & b & (v & w & Lv & Lw & NZ & E1 & E2) & Er) & _). set (r := np_eig_max np A) in *.
  assert (P : 0 < dot v v + dot w w).
  { pose proof (dot_self_nonneg v). pose proof (dot_self_nonneg w). destruct NZ as [NZ|NZ].
    - destruct (norm_nonneg v) as [G|G]; [pose proof (norm_sqr v); nra|]. exfalso. apply NZ. rewrite <- Lv. apply norm_zero. auto.
    - destruct (norm_nonneg w) as [G|G]; [pose proof (norm_sqr w); nra|]. exfalso. apply NZ. rewrite <- Lw. apply norm_zero. auto. }
  assert (R0 : 0 <= r) by (rewrite Er; apply sqrt_pos). assert (RR : r * r = a * a + b * b) by (rewrite Er; apply sqrt_sqrt; nra).
  assert (VE : forall x, length x = n -> forall k l m, vscale k (vadd (vscale l x) (vscale m x)) = vscale (k * (l + m)) x). { intros x Lx k l m. apply vec_ext; [len|]. intros i Hi. rewrite nth_vscale, nth_vadd, !nth_vscale by len. ring. }
  destruct R0 as [R0|R0].
  - exists v, w, (a / r), (b / r). split; [exact Lv|]. split; [exact Lw|]. split; [exact P|]. split; [replace (a / r * (a / r) + b / r * (b / r)) with ((a * a + b * b) / (r * r)) by (field; lra); rewrite <- RR; field; lra|].
    cbv zeta. fold r. split; [lra|]. split; [rewrite E1|rewrite E2]; apply vec_ext; try len; intros i Hi; rewrite ?nth_vscale; rewrite ?nth_vsub, ?nth_vadd by len; rewrite !nth_vscale; field; lra.
  - exists v, w, 1, 0. split; [exact Lv|]. split; [exact Lw|]. split; [exact P|]. split; [ring|]. cbv zeta. fold r. split; [lra|]. assert (a = 0 /\ b = 0) as (-> & ->) by nra. rewrite <- R0.
    split; [rewrite E1|rewrite E2]; apply vec_ext; try len; intros i Hi; rewrite ?nth_vscale; rewrite ?nth_vsub, ?nth_vadd by len; rewrite !nth_vscale; ring.
Qed.

(*@ Theorem C92_lqr : With P, K from solve_dare (exact libraries, positive definite Q and R) the spectral radius of A + B K is less than one, so mcais passes its test and ends for every bounded polyhedron D around the origin. *)
Lemma lqr_spectral np S Q Rm nx nu P K : exact_np np -> shape (lA S) nx nx -> shape (lB S) nx nu -> shape Q nx nx -> shape Rm nu nu -> (0 < nx)%nat -> Spec.pd Q nx -> Spec.pd Rm nu -> l_controllable S = None ->
  riccati (lA S) (lB S) Q Rm (np_dare np (lA S) (lB S) Q Rm) nx nu -> psd (np_dare np (lA S) (lB S) Q Rm) nx ->
  fst (solve_dare np S Q Rm) = Ok (P, K) -> (exists r, spectral_radius (A_closed S K) nx r /\ r < 1) /\ forall D m, (forall M, shape M nx nx -> spectral_radius M nx (np_eig_max np M)) -> wf D m 0 (nx + nu) -> (0 < m)%nat -> (forall i, (i < m)%nat -> 0 < nth i (pb D) 0) -> bounded_set (in_poly D) -> exists fuel O, lin_mcais np fuel S K D = Ok O.
Proof.
  intros Hnp SA SB SQ SR Hn PQ PR FC RIC PSD ED.
  assert (HL : lqr_pair np S Q Rm P K nx nu) by (split; [exact Hn|split; [exact FC|split; [exact RIC|split; [exact PSD|exact ED]]]]).
  destruct (lqr_identity np S Q Rm P K nx nu Hnp SA SB SQ SR PR HL) as (SK & _). pose proof (lqr_flow_converges np S Q Rm P K nx nu Hnp SA SB SQ SR PR PQ HL) as CONV.
  assert (SC : shape (A_closed S K) nx nx) by (unfold A_closed; eauto with shp). split.
  - destruct (spectral_exists _ nx SC Hn) as (r & Hr). exists r. split; [exact Hr|]. apply (attractive_iff _ _ _ SC Hr). exact CONV.
  - intros D m EIG WD Hm PB BD. destruct (solve_dare_ok np S Q Rm nx nu Hnp SA SB SQ SR Hn FC PR RIC PSD) as (_ & NS & _). assert (ST : steerable (lA S) (lB S) nx nu nx) by (destruct (classic (steerable (lA S) (lB S) nx nu nx)) as [|N]; [assumption|]; rewrite (NS N) in ED; discriminate).
    destruct (lqr_terminal np S Q Rm nx nu D m) as (P' & K' & fuel & XN & _ & _ & _ & E' & _ & _ & _ & _ & HF & _); auto.
    + unfold lqr_problem. repeat (split; [assumption|]). intros K0 SK0. apply radius_eig_max, EIG. unfold A_closed. eauto with shp.
    + assert (K' = K) by congruence. subst K'. exists fuel, XN. apply HF. lia.
Qed.

(*@ Theorem C92_libraries : The assumptions on the libraries can be met for every controllable system and all positive definite Q and R of any size: there are exact libraries whose dare solves the Riccati equation and whose eig gives the spectral radius of every square matrix. *)
Lemma libraries S Q Rm nx nu : shape (lA S) nx nx -> shape (lB S) nx nu -> shape Q nx nx -> shape Rm nu nu -> (0 < nx)%nat -> Spec.pd Q nx -> Spec.pd Rm nu -> l_controllable S = None -> steerable (lA S) (lB S) nx nu nx ->
  exists np, lqr_problem np S Q Rm nx nu /\ forall M k, shape M k k -> (0 < k)%nat -> spectral_radius M k (np_eig_max np M).
Proof.
  intros SA SB SQ SR Hn PQ PR FC ST. destruct (DareThms.dare_exists (lA S) (lB S) Q Rm nx nu SA SB SQ SR (pd_psd _ _ PQ) PR ST) as (P & RIC & PSD & _). exists (np_spec P). split.
  - split; [apply np_spec_exact|]. do 9 (split; [assumption|]). split; [exact RIC|]. split; [exact PSD|]. intros K SK. apply radius_eig_max. apply spectral_ok; [|exact Hn]. unfold A_closed. eauto with shp.
  - intros M k SM Hk. apply spectral_ok; assumption.
Qed.

(** rotation by a right angle times s *)
Definition turn (s : R) : mat := Mat 2 [[0; - s]; [s; 0]].
Lemma turn_radius s : 0 <= s -> spectral_radius (turn s) 2 s.
Proof.
  intros S0. split.
  - exists 0, s. split.
    + exists [1; 0], [0; - 1]. split; [reflexivity|]. split; [reflexivity|]. split; [left; intros E; injection E as E; lra|]. split; cbn; (apply f_equal2; [ring|apply f_equal2; [ring|reflexivity]]).
    + replace (0 * 0 + s * s) with (s * s) by ring. symmetry. apply sqrt_square, S0.
  - intros a b (v & w & Lv & Lw & NZ & E1 & E2). destruct v as [|v1 [|v2 [|]]]; try discriminate. destruct w as [|w1 [|w2 [|]]]; try discriminate. cbn in E1, E2. injection E1 as E1 E3. injection E2 as E2 E4.
    set (N := v1 * v1 + v2 * v2 + (w1 * w1 + w2 * w2)). assert (EN : (a * a + b * b) * N = s * s * N).
    { replace ((a * a + b * b) * N) with ((a * v1 - b * w1) * (a * v1 - b * w1) + (a * v2 - b * w2) * (a * v2 - b * w2) + ((b * v1 + a * w1) * (b * v1 + a * w1) + (b * v2 + a * w2) * (b * v2 + a * w2))) by (unfold N; ring).
      rewrite <- E1, <- E2, <- E3, <- E4. unfold N. ring. }
    assert (PN : N <> 0). { intros Z. pose proof (Rle_0_sqr v1). pose proof (Rle_0_sqr v2). pose proof (Rle_0_sqr w1). pose proof (Rle_0_sqr w2). unfold Rsqr, N in *. assert (v1 = 0 /\ v2 = 0 /\ w1 = 0 /\ w2 = 0) as (-> & -> & -> & ->) by (repeat split; apply Rsqr_0_uniq; unfold Rsqr; lra). destruct NZ as [NZ|NZ]; apply NZ; reflexivity. }
    apply Rmult_eq_reg_r in EN; [|exact PN]. rewrite EN, sqrt_square; lra.
Qed.
(*@ Example C92_example : Quarter turns scaled by 1/2 and by 2 have the complex eigenvalues i/2, -i/2 and 2i, -2i; with X the unit box the first meets the hypotheses of C92_halts, the second those of the ValueError of C92_test. *)
Lemma spectral_example : let np := np_spec (eye 2) in exact_np np /\ spectral_radius (turn (/ 2)) 2 (np_eig_max np (turn (/ 2))) /\ np_eig_max np (turn (/ 2)) = / 2 /\ spectral_radius (turn 2) 2 (np_eig_max np (turn 2)) /\ np_eig_max np (turn 2) = 2 /\
  shape (turn (/ 2)) 2 2 /\ shape (turn 2) 2 2 /\ wf box2 4 0 2 /\ p_empty box2 = None /\ p_bounded box2 = None /\ in_poly box2 (zeros 2) /\ bounded_set (in_poly box2) /\ (forall i, (i < 4)%nat -> 0 < nth i (pb box2) 0).
Proof.
  intros np. assert (SH : forall s, shape (turn s) 2 2) by (intros; repeat split; repeat constructor). assert (SO : forall s, spectral_radius (turn s) 2 (np_eig_max np (turn s))) by (intros s; apply spectral_ok; [apply SH|lia]).
  assert (EQ : forall s, 0 <= s -> np_eig_max np (turn s) = s). { intros s S0. destruct (spectral_unique (turn s) 2 (SH s) ltac:(lia)) as (r & _ & U). rewrite (U _ (SO s)). symmetry. apply U, turn_radius, S0. }
  split; [apply np_spec_exact|]. split; [apply SO|]. split; [apply EQ; lra|]. split; [apply SO|]. split; [apply EQ; lra|]. split; [apply SH|]. split; [apply SH|]. split; [exact wf_box2|]. split; [reflexivity|]. split; [reflexivity|]. split; [change (zeros 2) with [0; 0]; apply in_box2; lra|]. split; [exact box2_bounded|].
  intros i Hi. do 4 (destruct i as [|i]; [cbn; lra|]). lia.
Qed.
(*@ Example C91_cart_loop_example : The numbers of hybrid_mpc_2.ipynb (Q and R identities, N = 20): there are exact libraries, with eig the spectral radius, for which the hypotheses of C91_cart_loop hold. *)
Lemma cart_loop_example : exists np S1 S2 S3 D1 D2 D3, cart_systems np 1 1 1 1 100 10 (/ 20) = Ok (S1, S2, S3) /\ cart_domains np 1 1 (/ 2) 7 5 100 = Ok (D1, D2, D3) /\ lqr_libraries np S2 (eye 4) (eye 1) 4 1 /\
  shape (eye 4) 4 4 /\ shape (eye 1) 1 1 /\ Spec.pd (eye 4) 4 /\ Spec.pd (eye 1) 1.
Proof.
  set (S2 := cart_S2 1 1 1 10 (/ 20)). assert (S4 : shape (eye 4) 4 4) by auto with shp. assert (S1' : shape (eye 1) 1 1) by auto with shp. pose proof (pd_eye 4) as P4. pose proof (pd_eye 1) as P1.
  assert (SA : shape (lA S2) 4 4) by (repeat split; repeat constructor). assert (SB : shape (lB S2) 4 1) by (repeat split; repeat constructor).
  assert (ST : steerable (lA S2) (lB S2) 4 1 4).
  { apply (proj2 (walls_controllable (np_spec (eye 4)) 1 1 10 100 1 (/ 20) 1 1 ltac:(lra) ltac:(lra) ltac:(lra) ltac:(lra) ltac:(lra)) ltac:(lra) (cart_S1 1 1 1 1 100 10 (/ 20)) S2 (cart_S3 1 1 1 1 100 10 (/ 20))). apply cart_systems_eq. lra. }
  destruct (libraries S2 (eye 4) (eye 1) 4 1 SA SB S4 S1' ltac:(lia) P4 P1 eq_refl ST) as (np & (Hnp & _ & _ & _ & _ & _ & _ & _ & _ & _ & RIC & PSD & EIG) & _).
  do 7 eexists. split; [apply (cart_systems_eq np); lra|]. split; [apply (cart_domains_eq np), Hnp|]. split; [split; [exact Hnp|]; split; [exact RIC|]; split; [exact PSD|exact EIG]|]. auto.
Qed.
