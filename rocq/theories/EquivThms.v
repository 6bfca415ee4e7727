(** * EquivThms: the MPC controller depends on its data only through what they mean: change of coordinates, symmetry, representation of the sets (C82), scaling of the weights (C83), proofs *)
From Verif Require Import Arr ArrFacts Spec SpecMpc Numpy Pnnls PnnlsFacts QpFacts GeomUtils Polyhedron PolyThms Oracle SolverThms SpecDyn Dynamics DynThms CondenseThms LqrThms Mpqp MpqpThms Controllers CtrlThms.

(** T is a bijection of the vectors of length n, with inverse Ti *)
Definition bijection (n : nat) (T Ti : vec -> vec) : Prop :=
  forall x, length x = n -> length (T x) = n /\ length (Ti x) = n /\ Ti (T x) = x /\ T (Ti x) = x.
(** The two control problems are the same up to the coordinates z = T x, w = W u and a factor c of the cost *)
Definition same_problem (T W : vec -> vec) (c : R) (A B Q Rm P : mat) (D XN : vec -> Prop) (A' B' Q' Rm' P' : mat) (D' XN' : vec -> Prop) (nx nu : nat) : Prop :=
  (forall x u, length x = nx -> length u = nu -> linear_step A' B' (T x) (W u) = T (linear_step A B x u)) /\
  (forall x, length x = nx -> dot (T x) (mv Q' (T x)) = c * dot x (mv Q x)) /\
  (forall u, length u = nu -> dot (W u) (mv Rm' (W u)) = c * dot u (mv Rm u)) /\
  (forall x, length x = nx -> dot (T x) (mv P' (T x)) = c * dot x (mv P x)) /\
  (forall x u, length x = nx -> length u = nu -> (D' (T x ++ W u) <-> D (x ++ u))) /\
  (forall x, length x = nx -> (XN' (T x) <-> XN x)).
Lemma bijection_sym n T Ti : bijection n T Ti -> bijection n Ti T.
Proof. intros H x Lx. destruct (H x Lx) as (L1 & L2 & E1 & E2). auto. Qed.
Lemma same_problem_sym T Ti W Wi c A B Q Rm P (D XN : vec -> Prop) A' B' Q' Rm' P' (D' XN' : vec -> Prop) nx nu : c <> 0 -> bijection nx T Ti -> bijection nu W Wi -> shape A nx nx -> shape B nx nu -> shape A' nx nx -> shape B' nx nu ->
  same_problem T W c A B Q Rm P D XN A' B' Q' Rm' P' D' XN' nx nu -> same_problem Ti Wi (/ c) A' B' Q' Rm' P' D' XN' A B Q Rm P D XN nx nu.
Proof.
  intros Hc HT HW SA SB SA' SB' (Hd & HQ & HR & HP & HD & HX). split; [|split; [|split; [|split; [|split]]]].
  - intros x u Lx Lu. destruct (HT x Lx) as (_ & L1 & _ & E1). destruct (HW u Lu) as (_ & L2 & _ & E2). specialize (Hd (Ti x) (Wi u) L1 L2). rewrite E1, E2 in Hd. rewrite Hd.
    symmetry. apply (HT (linear_step A B (Ti x) (Wi u))). apply (step_length A B nx nu); assumption.
  - intros x Lx. destruct (HT x Lx) as (_ & L1 & _ & E1). specialize (HQ (Ti x) L1). rewrite E1 in HQ. rewrite HQ. field. exact Hc.
  - intros u Lu. destruct (HW u Lu) as (_ & L1 & _ & E1). specialize (HR (Wi u) L1). rewrite E1 in HR. rewrite HR. field. exact Hc.
  - intros x Lx. destruct (HT x Lx) as (_ & L1 & _ & E1). specialize (HP (Ti x) L1). rewrite E1 in HP. rewrite HP. field. exact Hc.
  - intros x u Lx Lu. destruct (HT x Lx) as (_ & L1 & _ & E1). destruct (HW u Lu) as (_ & L2 & _ & E2). specialize (HD (Ti x) (Wi u) L1 L2). rewrite E1, E2 in HD. tauto.
  - intros x Lx. destruct (HT x Lx) as (_ & L1 & _ & E1). specialize (HX (Ti x) L1). rewrite E1 in HX. tauto.
Qed.
Lemma nth_map_in (f : vec -> vec) l i : (i < length l)%nat -> nth i (map f l) [] = f (nth i l []).
Proof. revert i. induction l as [|a l IH]; intros [|i] H; cbn in *; try lia; [reflexivity|]. apply IH. lia. Qed.
Section Transport.
Variables (T Ti W Wi : vec -> vec) (c : R) (A B Q Rm P A' B' Q' Rm' P' : mat) (D XN D' XN' : vec -> Prop) (nx nu : nat).
Hypothesis HT : bijection nx T Ti.
Hypothesis HW : bijection nu W Wi.
Hypothesis SA : shape A nx nx.
Hypothesis SB : shape B nx nu.
Hypothesis HS : same_problem T W c A B Q Rm P D XN A' B' Q' Rm' P' D' XN' nx nu.
Lemma transport_admissible N x us xs : length x = nx -> mpc_admissible A B nu N D XN x us xs -> mpc_admissible A' B' nu N D' XN' (T x) (map W us) (map T xs).
Proof.
  intros Lx (Lu & Fu & Tr & S1 & S2). destruct HS as (Hd & _ & _ & _ & HD & HX). pose proof (trajectory_lengths A B nx nu x us xs SA SB Lx Tr) as Fx. rewrite Forall_nth in Fu, Fx. destruct Tr as (L & E0 & ES).
  assert (Nx : forall t, (t <= length us)%nat -> length (nth t xs []) = nx) by (intros t Ht; apply Fx; lia). assert (Nu : forall t, (t < length us)%nat -> length (nth t us []) = nu) by (intros t Ht; apply Fu; lia).
  split; [rewrite map_length; exact Lu|]. split; [apply Forall_map, Forall_nth; intros t d Ht; rewrite (nth_indep _ _ [] Ht); apply (HW (nth t us [])), Nu, Ht|]. split.
  - split; [rewrite !map_length; exact L|]. split; [rewrite nth_map_in by lia; rewrite E0; reflexivity|]. intros t Ht. rewrite map_length in Ht. rewrite !nth_map_in by lia. rewrite ES by exact Ht. symmetry. apply Hd; [apply Nx; lia|apply Nu; lia].
  - split.
    + intros t Ht. rewrite map_length in Ht. rewrite !nth_map_in by lia. apply HD; [apply Nx; lia|apply Nu; lia|apply S1, Ht].
    + rewrite map_length, nth_map_in by lia. apply HX; [apply Nx; lia|exact S2].
Qed.
Lemma transport_cost N x us xs : length x = nx -> mpc_admissible A B nu N D XN x us xs -> trajectory_cost Q' Rm' P' (map W us) (map T xs) = c * trajectory_cost Q Rm P us xs.
Proof.
  intros Lx (Lu & Fu & Tr & _). destruct HS as (_ & HQ & HR & HP & _). pose proof (trajectory_lengths A B nx nu x us xs SA SB Lx Tr) as Fx. rewrite Forall_nth in Fu, Fx. destruct Tr as (L & _).
  unfold trajectory_cost. rewrite map_length, nth_map_in by lia. rewrite HP by (apply Fx; lia). rewrite Rmult_plus_distr_l, <- sum_upto_scale. f_equal; [|ring].
  apply sum_upto_ext. intros t Ht. rewrite !nth_map_in by lia. rewrite HQ by (apply Fx; lia). rewrite HR by (apply Fu; lia). ring.
Qed.
End Transport.
Lemma map_inverse n T Ti l : bijection n T Ti -> Forall (fun v => length v = n) l -> map Ti (map T l) = l.
Proof. intros H F. rewrite map_map. induction F as [|a l La F IH]; [reflexivity|]. cbn. rewrite IH. f_equal. apply (H a La). Qed.
Lemma transport_optimal T Ti W Wi c A B Q Rm P (D XN : vec -> Prop) A' B' Q' Rm' P' (D' XN' : vec -> Prop) nx nu N x us xs : 0 < c -> bijection nx T Ti -> bijection nu W Wi -> shape A nx nx -> shape B nx nu -> shape A' nx nx -> shape B' nx nu ->
  same_problem T W c A B Q Rm P D XN A' B' Q' Rm' P' D' XN' nx nu -> length x = nx -> mpc_optimal A B Q Rm P nu N D XN x us xs ->
  mpc_optimal A' B' Q' Rm' P' nu N D' XN' (T x) (map W us) (map T xs).
Proof.
  intros Hc HT HW SA SB SA' SB' HS Lx (HA & HO). split; [apply (transport_admissible T W Wi c A B Q Rm P A' B' Q' Rm' P' D XN D' XN' nx nu HW SA SB HS N x us xs Lx HA)|].
  intros vs ys HV. assert (HS' := same_problem_sym T Ti W Wi c A B Q Rm P D XN A' B' Q' Rm' P' D' XN' nx nu ltac:(lra) HT HW SA SB SA' SB' HS).
  destruct (HT x Lx) as (LT & _ & EI & _).
  pose proof (transport_admissible Ti Wi W (/ c) A' B' Q' Rm' P' A B Q Rm P D' XN' D XN nx nu (bijection_sym _ _ _ HW) SA' SB' HS' N (T x) vs ys LT HV) as HV'.
  pose proof (transport_cost Ti Wi (/ c) A' B' Q' Rm' P' A B Q Rm P D' XN' D XN nx nu SA' SB' HS' N (T x) vs ys LT HV) as CV.
  rewrite EI in HV'. destruct (HO _ _ HV') as (O1 & O2). rewrite CV in O1, O2.
  rewrite (transport_cost T W c A B Q Rm P A' B' Q' Rm' P' D XN D' XN' nx nu SA SB HS N x us xs Lx HA).
  set (a := trajectory_cost Q Rm P us xs) in *. set (b := trajectory_cost Q' Rm' P' vs ys) in *. assert (Eb : b = c * (/ c * b)) by (field; lra). split.
  - rewrite Eb. apply Rmult_le_compat_l; lra.
  - intros E. rewrite <- (O2 ltac:(rewrite E; field; lra)). symmetry. apply (map_inverse nu Wi W vs (bijection_sym _ _ _ HW)). apply HV.
Qed.
Lemma optimal_unique A B Q Rm P (D XN : vec -> Prop) nu N x us xs us' xs' : mpc_optimal A B Q Rm P nu N D XN x us xs -> mpc_optimal A B Q Rm P nu N D XN x us' xs' -> us = us' /\ xs = xs'.
Proof.
  intros (HA & HO) (HA' & HO'). destruct (HO _ _ HA') as (O1 & O2). destruct (HO' _ _ HA) as (O3 & _). assert (E : us' = us) by (apply O2; lra). subst us'. split; [reflexivity|]. apply (trajectory_unique A B x us); [apply HA|apply HA'].
Qed.

(** ** C82 *)
(*@ Theorem C82_coordinates : If two controllers are built for the same control problem in different coordinates z = T x, w = W u (any bijections), possibly with different exact numerical libraries, then feedforward and feedback of the second at T x return exactly the inputs W u of the first at x, the same cost, and None in the same cases. *)
Lemma mpc_coordinates np np' S S' N Q Rm P D X_N Q' Rm' P' D' X_N' nx nu C C' T Ti W Wi : exact_np np -> exact_np np' -> mpc_data S N Q Rm P D X_N nx nu -> mpc_data S' N Q' Rm' P' D' X_N' nx nu ->
  ModelPredictiveController np S N Q Rm P D X_N = Ok C -> ModelPredictiveController np' S' N Q' Rm' P' D' X_N' = Ok C' ->
  bijection nx T Ti -> bijection nu W Wi -> same_problem T W 1 (lA S) (lB S) Q Rm P (in_poly D) (in_poly X_N) (lA S') (lB S') Q' Rm' P' (in_poly D') (in_poly X_N') nx nu ->
  forall x, length x = nx ->
    (forall us V, feedforward np C x = Ok (Some us, Some V) -> feedforward np' C' (T x) = Ok (Some (map W us), Some V)) /\
    (feedforward np C x = Ok (None, None) -> feedforward np' C' (T x) = Ok (None, None)) /\
    (forall u, feedback np C x = Ok (Some u) -> feedback np' C' (T x) = Ok (Some (W u))) /\
    (feedback np C x = Ok None -> feedback np' C' (T x) = Ok None).
Proof.
  intros Hnp Hnp' HD HD' E E' HT HW HS x Lx. pose proof HD as ((SA & SB & HN & _) & _). pose proof HD' as ((SA' & SB' & _) & _). destruct (HT x Lx) as (LT & _ & EI & _).
  assert (HS0 : same_problem T W 1 (lA S) (lB S) Q Rm P (fun _ => True) (fun _ => True) (lA S') (lB S') Q' Rm' P' (fun _ => True) (fun _ => True) nx nu) by (destruct HS as (G1 & G2 & G3 & G4 & _); unfold same_problem; tauto).
  destruct (mpc_none np S N Q Rm P D X_N nx nu C x Hnp HD E Lx) as (us0 & xs0 & H0 & H1). destruct (mpc_none np' S' N Q' Rm' P' D' X_N' nx nu C' (T x) Hnp' HD' E' LT) as (vs0 & ys0 & G0 & G1).
  pose proof (transport_optimal T Ti W Wi 1 _ _ _ _ _ _ _ _ _ _ _ _ _ _ nx nu N x us0 xs0 Rlt_0_1 HT HW SA SB SA' SB' HS0 Lx H0) as H0'. destruct (optimal_unique _ _ _ _ _ _ _ _ _ _ _ _ _ _ G0 H0') as (-> & ->).
  rewrite (transport_cost T W 1 _ _ _ _ _ _ _ _ _ _ _ _ _ _ nx nu SA SB HS0 N x us0 xs0 Lx (proj1 H0)), Rmult_1_l in G1.
  destruct H1 as [(F1 & F2 & F3)|(us & xs & F1 & F2 & F3 & F4)].
  - destruct G1 as [(G2 & G3 & _)|(vs & ys & _ & _ & G4 & G5)].
    + rewrite F1, F2, G2, G3. repeat split; try discriminate; auto.
    + exfalso. assert (HS' := same_problem_sym T Ti W Wi 1 _ _ _ _ _ _ _ _ _ _ _ _ _ _ nx nu ltac:(lra) HT HW SA SB SA' SB' HS).
      pose proof (transport_admissible Ti Wi W (/ 1) _ _ _ _ _ _ _ _ _ _ _ _ _ _ nx nu (bijection_sym _ _ _ HW) SA' SB' HS' N (T x) vs ys LT (proj1 G4)) as HV.
      pose proof (transport_cost Ti Wi (/ 1) _ _ _ _ _ _ _ _ _ _ _ _ _ _ nx nu SA' SB' HS' N (T x) vs ys LT (proj1 G4)) as CV. rewrite EI in HV. specialize (F3 _ _ HV). rewrite CV in F3. lra.
  - pose proof (transport_optimal T Ti W Wi 1 _ _ _ _ _ _ _ _ _ _ _ _ _ _ nx nu N x us xs Rlt_0_1 HT HW SA SB SA' SB' HS Lx F3) as HO. pose proof (transport_cost T W 1 _ _ _ _ _ _ _ _ _ _ _ _ _ _ nx nu SA SB HS N x us xs Lx (proj1 F3)) as HC. rewrite Rmult_1_l in HC.
    destruct G1 as [(_ & _ & G4)|(vs & ys & G2 & G3 & G4 & G5)].
    + exfalso. specialize (G4 _ _ (proj1 HO)). rewrite HC in G4. lra.
    + destruct (optimal_unique _ _ _ _ _ _ _ _ _ _ _ _ _ _ G4 HO) as (-> & ->). rewrite F1, F2, G2, G3, HC. destruct F3 as ((Lu & _) & _). split; [|split; [|split]]; try discriminate.
      * intros us' V Eq. injection Eq as <- <-. reflexivity.
      * intros u Eq. injection Eq as <-. rewrite nth_map_in by lia. reflexivity.
Qed.
Lemma bijection_id n : bijection n (fun x => x) (fun x => x).
Proof. intros x Lx. auto. Qed.
Lemma vadd_vneg a b : vadd (vneg a) (vneg b) = vneg (vadd a b).
Proof. revert b. unfold vadd, vneg. induction a as [|x a IH]; intros [|y b]; cbn; try reflexivity. rewrite IH. f_equal. ring. Qed.
Lemma bijection_neg n : bijection n vneg vneg.
Proof. intros x Lx. rewrite !vneg_length, !vneg_vneg. auto. Qed.
(*@ Theorem C82_representation : Two controllers built from the same system, weights and horizon, and from domains and terminal sets with the same points (in whatever order, scaling or redundancy of their rows), return the same answers at every state, also with different exact numerical libraries. *)
Lemma mpc_representation np np' S N Q Rm P D X_N D' X_N' nx nu C C' x : exact_np np -> exact_np np' -> mpc_data S N Q Rm P D X_N nx nu -> mpc_data S N Q Rm P D' X_N' nx nu ->
  ModelPredictiveController np S N Q Rm P D X_N = Ok C -> ModelPredictiveController np' S N Q Rm P D' X_N' = Ok C' ->
  (forall z, length z = (nx + nu)%nat -> (in_poly D z <-> in_poly D' z)) -> (forall z, length z = nx -> (in_poly X_N z <-> in_poly X_N' z)) -> length x = nx ->
  feedforward np' C' x = feedforward np C x /\ feedback np' C' x = feedback np C x.
Proof.
  intros Hnp Hnp' HD HD' E E' H1 H2 Lx.
  assert (HS : same_problem (fun x => x) (fun u => u) 1 (lA S) (lB S) Q Rm P (in_poly D) (in_poly X_N) (lA S) (lB S) Q Rm P (in_poly D') (in_poly X_N') nx nu).
  { split; [|split; [|split; [|split; [|split]]]]; intros; try ring; [reflexivity|symmetry; apply H1; rewrite app_length; lia|symmetry; apply H2; assumption]. }
  destruct (mpc_coordinates np np' S S N Q Rm P D X_N Q Rm P D' X_N' nx nu C C' _ _ _ _ Hnp Hnp' HD HD' E E' (bijection_id nx) (bijection_id nu) HS x Lx) as (C1 & C2 & C3 & C4).
  destruct (mpc_none np S N Q Rm P D X_N nx nu C x Hnp HD E Lx) as (us0 & xs0 & _ & [(F1 & F2 & _)|(us & xs & F1 & F2 & _)]); rewrite F1, F2.
  - auto.
  - rewrite (C1 _ _ F1), (C3 _ F2), map_id. auto.
Qed.
(*@ Theorem C82_symmetry : If domain and terminal set are symmetric with respect to the origin, the controller is an odd function with an even cost: at -x it returns the negated inputs of x and the same cost, or None at both. *)
Lemma mpc_symmetry np S N Q Rm P D X_N nx nu C x : exact_np np -> mpc_data S N Q Rm P D X_N nx nu -> ModelPredictiveController np S N Q Rm P D X_N = Ok C ->
  (forall z, in_poly D z -> in_poly D (vneg z)) -> (forall z, in_poly X_N z -> in_poly X_N (vneg z)) -> length x = nx ->
    (forall us V, feedforward np C x = Ok (Some us, Some V) -> feedforward np C (vneg x) = Ok (Some (map vneg us), Some V)) /\
    (feedforward np C x = Ok (None, None) -> feedforward np C (vneg x) = Ok (None, None)) /\
    (forall u, feedback np C x = Ok (Some u) -> feedback np C (vneg x) = Ok (Some (vneg u))) /\
    (feedback np C x = Ok None -> feedback np C (vneg x) = Ok None).
Proof.
  intros Hnp HD E H1 H2 Lx. pose proof HD as ((SA & SB & _) & _).
  apply (mpc_coordinates np np S S N Q Rm P D X_N Q Rm P D X_N nx nu C C vneg vneg vneg vneg Hnp Hnp HD HD E E (bijection_neg nx) (bijection_neg nu)); [|exact Lx].
  split; [|split; [|split; [|split; [|split]]]].
  - intros y u Ly Lu. unfold linear_step. rewrite !mv_vneg. apply vadd_vneg.
  - intros y Ly. rewrite mv_vneg, dot_vneg_l, dot_vneg_r. ring.
  - intros y Ly. rewrite mv_vneg, dot_vneg_l, dot_vneg_r. ring.
  - intros y Ly. rewrite mv_vneg, dot_vneg_l, dot_vneg_r. ring.
  - intros y u Ly Lu. assert (EN : vneg y ++ vneg u = vneg (y ++ u)) by (symmetry; apply vneg_app). rewrite EN. split; intros G; [|apply H1, G]. rewrite <- (vneg_vneg (y ++ u)). apply H1, G.
  - intros y Ly. split; intros G; [|apply H2, G]. rewrite <- (vneg_vneg y). apply H2, G.
Qed.

Definition D_box2 : poly := Poly (Mat 2 [[0; -3]; [2; 0]; [0; 1]; [-1; 0]; [1; 1]]) [3; 2; 1; 1; 5] (Mat 2 []) [] None None None None None.
Definition D_two : poly := Poly (Mat 2 [[1; 0]; [-1; 0]; [0; 1]; [0; -1]]) [2; 2; 2; 2] (Mat 2 []) [] None None None None None.
Definition X_two : poly := Poly (Mat 1 [[1]; [-1]]) [2; 2] (Mat 1 []) [] None None None None None.
Definition I_4 : mat := Mat 1 [[/ 4]].
Lemma len1 (v : vec) : length v = 1%nat -> exists a, v = [a].
Proof. destruct v as [|a [|]]; intros L; try discriminate L. exists a. reflexivity. Qed.
Lemma len2 (v : vec) : length v = 2%nat -> exists a b, v = [a; b].
Proof. destruct v as [|a [|b [|]]]; intros L; try discriminate L. exists a, b. reflexivity. Qed.
Lemma in_D_box2 a b : in_poly D_box2 [a; b] <-> -1 <= a <= 1 /\ -1 <= b <= 1.
Proof.
  split.
  - intros (_ & H' & _). unfold ineq_holds in H'. cbn in H'. inv2 H'. lra.
  - intros H'. split; [reflexivity|]. split; [|constructor]. unfold ineq_holds. cbn [pA pb D_box2 rows]. rows_ok.
Qed.
Lemma in_D_two a b : in_poly D_two [a; b] <-> -2 <= a <= 2 /\ -2 <= b <= 2.
Proof.
  split.
  - intros (_ & H' & _). unfold ineq_holds in H'. cbn in H'. inv2 H'. lra.
  - intros H'. split; [reflexivity|]. split; [|constructor]. unfold ineq_holds. cbn [pA pb D_two rows]. rows_ok.
Qed.
Lemma in_X_two a : in_poly X_two [a] <-> -2 <= a <= 2.
Proof.
  split.
  - intros (_ & H' & _). unfold ineq_holds in H'. cbn in H'. inv2 H'. lra.
  - intros H'. split; [reflexivity|]. split; [|constructor]. unfold ineq_holds. cbn [pA pb X_two rows]. rows_ok.
Qed.
Lemma in_poly_length p z : in_poly p z -> length z = ncols (pA p).
Proof. intros H'. apply H'. Qed.
(*@ Example C82_example : x+ = x + u with Q = R = P = 1, N = 1, |x| <= 1, |u| <= 1: the sets are symmetric, and the box written with scaled, reordered and redundant rows has the same points. In the coordinates z = 2 x, w = 2 u the weights are 1/4 and the sets |z| <= 2, |w| <= 2: the problem is the same. *)
Lemma equiv_example np : exact_np np ->
  mpc_data S_1 1 I_1 I_1 I_1 D_box X_int 1 1 /\ mpc_data S_1 1 I_1 I_1 I_1 D_box2 X_int 1 1 /\ mpc_data S_1 1 I_4 I_4 I_4 D_two X_two 1 1 /\
  (forall z, in_poly D_box z -> in_poly D_box (vneg z)) /\ (forall z, in_poly X_int z -> in_poly X_int (vneg z)) /\
  (forall z, length z = 2%nat -> (in_poly D_box z <-> in_poly D_box2 z)) /\
  bijection 1 (vscale 2) (vscale (/ 2)) /\ same_problem (vscale 2) (vscale 2) 1 (lA S_1) (lB S_1) I_1 I_1 I_1 (in_poly D_box) (in_poly X_int) (lA S_1) (lB S_1) I_4 I_4 I_4 (in_poly D_two) (in_poly X_two) 1 1 /\
  exists C C2, ModelPredictiveController np S_1 1 I_1 I_1 I_1 D_box X_int = Ok C /\ ModelPredictiveController np S_1 1 I_4 I_4 I_4 D_two X_two = Ok C2 /\
    feedforward np C [1] = Ok (Some [[- (1 / 2)]], Some (3 / 4)) /\ feedforward np C2 [2 * 1] = Ok (Some [[2 * - (1 / 2)]], Some (3 / 4)).
Proof.
  intros Hnp.
  assert (M1 : mpc_data S_1 1 I_1 I_1 I_1 D_box X_int 1 1) by (apply mpc_data_1; try lra; [apply wf_D_box|apply wf_X_int]).
  assert (M2 : mpc_data S_1 1 I_1 I_1 I_1 D_box2 X_int 1 1) by (apply mpc_data_1; try lra; [unfold wf; simpl; repeat split; repeat constructor|apply wf_X_int]).
  assert (M3 : mpc_data S_1 1 I_4 I_4 I_4 D_two X_two 1 1) by (apply mpc_data_1; try lra; unfold wf; simpl; repeat split; repeat constructor).
  assert (BJ : bijection 1 (vscale 2) (vscale (/ 2))).
  { intros x Lx. destruct (len1 x Lx) as (a & ->). cbn. repeat split; f_equal; lra. }
  assert (SP : same_problem (vscale 2) (vscale 2) 1 (lA S_1) (lB S_1) I_1 I_1 I_1 (in_poly D_box) (in_poly X_int) (lA S_1) (lB S_1) I_4 I_4 I_4 (in_poly D_two) (in_poly X_two) 1 1).
  { split; [|split; [|split; [|split; [|split]]]].
    - intros x u Lx Lu. destruct (len1 x Lx) as (a & ->). destruct (len1 u Lu) as (b & ->). cbn. f_equal. ring.
    - intros x Lx. destruct (len1 x Lx) as (a & ->). cbn. field.
    - intros x Lx. destruct (len1 x Lx) as (a & ->). cbn. field.
    - intros x Lx. destruct (len1 x Lx) as (a & ->). cbn. field.
    - intros x u Lx Lu. destruct (len1 x Lx) as (a & ->). destruct (len1 u Lu) as (b & ->). cbn [vscale map app]. rewrite in_D_box, in_D_two. split; lra.
    - intros x Lx. destruct (len1 x Lx) as (a & ->). cbn [vscale map]. rewrite in_X_int, in_X_two. split; lra. }
  split; [exact M1|]. split; [exact M2|]. split; [exact M3|].
  split. { intros z Hz. destruct (len2 z (in_poly_length _ _ Hz)) as (a & b & ->). cbn [vneg map]. apply in_D_box in Hz. apply in_D_box. lra. }
  split. { intros z Hz. destruct (len1 z (in_poly_length _ _ Hz)) as (a & ->). cbn [vneg map]. apply in_X_int in Hz. apply in_X_int. lra. }
  split. { intros z Lz. destruct (len2 z Lz) as (a & b & ->). rewrite in_D_box, in_D_box2. tauto. }
  split; [exact BJ|]. split; [exact SP|].
  destruct (mpc_example np Hnp) as (_ & C & EC & EF & _). destruct (feedforward_ok np _ _ _ _ _ _ _ _ _ Hnp M3) as (C2 & EC2 & _). exists C, C2. split; [exact EC|]. split; [exact EC2|]. split; [exact EF|].
  exact (proj1 (mpc_coordinates np np _ _ _ _ _ _ _ _ _ _ _ _ _ _ _ _ _ _ _ _ _ Hnp Hnp M1 M3 EC EC2 BJ BJ SP [1] eq_refl) _ _ EF).
Qed.

(** ** C83: scaling of the weights *)
Lemma tr_mscale k M : tr (mscale k M) = mscale k (tr M).
Proof. unfold tr, mscale. cbn [rows ncols]. rewrite map_length, map_map. f_equal. apply map_ext. intros j. unfold vscale at 2. rewrite !map_map. apply map_ext. intros r. apply nth_vscale. Qed.
Lemma scaled_data c S N Q Rm P D X_N nx nu : 0 < c -> mpc_data S N Q Rm P D X_N nx nu -> mpc_data S N (mscale c Q) (mscale c Rm) (mscale c P) D X_N nx nu.
Proof.
  intros Hc ((SA & SB & HN & SQ & SP & SR & HD') & HD1 & HD2 & (TQ & PQ) & (TP & PP) & (TR & PR)). split; [split; [exact SA|]; split; [exact SB|]; split; [exact HN|]; split; [apply shape_mscale, SQ|]; split; [apply shape_mscale, SP|]; split; [apply shape_mscale, SR|]; exact HD'|]. split; [exact HD1|]. split; [exact HD2|].
  split; [|split]; (split; [rewrite tr_mscale; congruence|]); intros x; rewrite mv_mscale, dot_vscale_r.
  - intros Lx. apply Rmult_le_pos; [lra|apply PQ, Lx].
  - intros Lx. apply Rmult_le_pos; [lra|apply PP, Lx].
  - intros Lx Nx. apply Rmult_lt_0_compat; [lra|apply PR; assumption].
Qed.
Lemma scaled_problem c A B Q Rm P (D XN : vec -> Prop) nx nu : same_problem (fun x => x) (fun u => u) c A B Q Rm P D XN A B (mscale c Q) (mscale c Rm) (mscale c P) D XN nx nu.
Proof. repeat split; intros; try rewrite mv_mscale, dot_vscale_r; auto. Qed.
(*@ Theorem C83_scaling : Multiplying Q, R and P by the same c > 0 does not change the inputs and multiplies the cost by c, at all states at which both controllers return a solution; if c <= 1 the controller with the scaled weights answers wherever the original does; and the scaled controller returns None only if no admissible sequence has a cost below that of the unconstrained optimum plus 5e13 / c. *)
Lemma mpc_scaling np S N Q Rm P D X_N nx nu c C C' x : exact_np np -> mpc_data S N Q Rm P D X_N nx nu -> 0 < c ->
  ModelPredictiveController np S N Q Rm P D X_N = Ok C -> ModelPredictiveController np S N (mscale c Q) (mscale c Rm) (mscale c P) D X_N = Ok C' -> length x = nx ->
  (forall us V us' V', feedforward np C x = Ok (Some us, Some V) -> feedforward np C' x = Ok (Some us', Some V') -> us' = us /\ V' = c * V) /\
  (c <= 1 -> forall us V, feedforward np C x = Ok (Some us, Some V) -> feedforward np C' x = Ok (Some us, Some (c * V))) /\
  exists us0 xs0, mpc_optimal (lA S) (lB S) Q Rm P nu N (fun _ => True) (fun _ => True) x us0 xs0 /\
    (feedforward np C' x = Ok (None, None) <-> forall us xs, mpc_admissible (lA S) (lB S) nu N (in_poly D) (in_poly X_N) x us xs -> trajectory_cost Q Rm P us0 xs0 + (10 ^ 14 - 1) / 2 / c <= trajectory_cost Q Rm P us xs).
Proof.
  intros Hnp HD Hc E E' Lx. pose proof (scaled_data c S N Q Rm P D X_N nx nu Hc HD) as HDc. pose proof HD as ((SA & SB & HN & _) & _).
  pose proof (scaled_problem c (lA S) (lB S) Q Rm P (in_poly D) (in_poly X_N) nx nu) as HS. pose proof (scaled_problem c (lA S) (lB S) Q Rm P (fun _ => True) (fun _ => True) nx nu) as HS0.
  destruct (mpc_none np S N Q Rm P D X_N nx nu C x Hnp HD E Lx) as (us0 & xs0 & H0 & H1). destruct (mpc_none np S N _ _ _ D X_N nx nu C' x Hnp HDc E' Lx) as (vs0 & ys0 & G0 & G1).
  pose proof (transport_optimal _ _ _ _ c _ _ _ _ _ _ _ _ _ _ _ _ _ _ nx nu N x us0 xs0 Hc (bijection_id nx) (bijection_id nu) SA SB SA SB HS0 Lx H0) as H0'. destruct (optimal_unique _ _ _ _ _ _ _ _ _ _ _ _ _ _ G0 H0') as (-> & ->).
  assert (TC : forall D0 XN0 us xs, mpc_admissible (lA S) (lB S) nu N D0 XN0 x us xs -> trajectory_cost (mscale c Q) (mscale c Rm) (mscale c P) us xs = c * trajectory_cost Q Rm P us xs).
  { intros D0 XN0 us xs HA. pose proof (transport_cost _ _ c _ _ _ _ _ _ _ _ _ _ _ _ _ _ nx nu SA SB (scaled_problem c (lA S) (lB S) Q Rm P D0 XN0 nx nu) N x us xs Lx HA) as G. rewrite !map_id in G. exact G. }
  rewrite !map_id in G1. rewrite (TC _ _ _ _ (proj1 H0)) in G1. set (a := trajectory_cost Q Rm P us0 xs0) in *. unfold far in *. set (f := (10 ^ 14 - 1) / 2) in *. assert (Hf : 0 < f) by (unfold f; lra).
  assert (ANS : forall us V us' V', feedforward np C x = Ok (Some us, Some V) -> feedforward np C' x = Ok (Some us', Some V') -> us' = us /\ V' = c * V).
  { intros us V us' V' F F'. destruct H1 as [(F1 & _)|(us1 & xs1 & F1 & _ & F3 & _)]; rewrite F in F1; [discriminate|]. injection F1 as -> ->. destruct G1 as [(G2 & _)|(vs & ys & G2 & _ & G4 & _)]; rewrite F' in G2; [discriminate|]. injection G2 as -> ->.
    pose proof (transport_optimal _ _ _ _ c _ _ _ _ _ _ _ _ _ _ _ _ _ _ nx nu N x us1 xs1 Hc (bijection_id nx) (bijection_id nu) SA SB SA SB HS Lx F3) as HO. rewrite !map_id in HO. destruct (optimal_unique _ _ _ _ _ _ _ _ _ _ _ _ _ _ G4 HO) as (-> & ->). split; [reflexivity|]. apply (TC _ _ _ _ (proj1 F3)). }
  split; [exact ANS|]. split.
  - intros Hc1 us V F. destruct G1 as [(_ & _ & G4)|(vs & ys & G2 & _)].
    + exfalso. destruct H1 as [(F1 & _)|(us1 & xs1 & F1 & _ & F3 & F4)]; rewrite F in F1; [discriminate|]. specialize (G4 _ _ (proj1 F3)). rewrite (TC _ _ _ _ (proj1 F3)) in G4. nra.
    + destruct (ANS _ _ _ _ F G2) as (-> & E3). rewrite G2, E3. reflexivity.
  - exists us0, xs0. split; [exact H0|]. fold a. destruct G1 as [(G2 & _ & G4)|(vs & ys & G2 & _ & G4 & G5)].
    + split; [|intros _; exact G2]. intros _ us xs HA. specialize (G4 _ _ HA). rewrite (TC _ _ _ _ HA) in G4. set (b := trajectory_cost Q Rm P us xs) in *.
      assert (Ef : f = c * (f / c)) by (field; lra). rewrite Ef in G4. apply Rmult_le_reg_l with c; [exact Hc|]. lra.
    + split; [rewrite G2; discriminate|]. intros G. exfalso. specialize (G _ _ (proj1 G4)). rewrite (TC _ _ _ _ (proj1 G4)) in G5. assert (Ef : f = c * (f / c)) by (field; lra). rewrite Ef in G5. nra.
Qed.
(*@ Theorem C83_scaling_refuted : The answers are not invariant under scaling of the weights: x+ = x + u, Q = P = 0, D = {x <= u}, N = 1, x = 2e7: with R = 1 feedforward returns (None, None), with R = 1/100 it returns u = 2e7. *)
Lemma mpc_scaling_refuted : exists S N Q Rm P D X_N c x, mpc_data S N Q Rm P D X_N 1 1 /\ 0 < c /\ length x = 1%nat /\
  forall np, exact_np np -> exists C C' us V, ModelPredictiveController np S N Q Rm P D X_N = Ok C /\ ModelPredictiveController np S N (mscale c Q) (mscale c Rm) (mscale c P) D X_N = Ok C' /\
    feedforward np C x = Ok (None, None) /\ feedforward np C' x = Ok (Some us, Some V).
Proof.
  exists S_1, 1%nat, (Mat 1 [[0]]), (Mat 1 [[1]]), (Mat 1 [[0]]), D_far, X_all, (/ 100), [20000000].
  assert (HD : mpc_data S_1 1 (Mat 1 [[0]]) (Mat 1 [[1]]) (Mat 1 [[0]]) D_far X_all 1 1).
  { apply mpc_data_1; try lra; unfold wf; simpl; repeat split; repeat constructor. }
  split; [exact HD|]. split; [lra|]. split; [reflexivity|]. intros np Hnp. destruct (feedforward_ok np _ _ _ _ _ _ _ _ _ Hnp HD) as (C & EC & HC).
  assert (HDc := scaled_data (/ 100) _ _ _ _ _ _ _ _ _ ltac:(lra) HD). destruct (feedforward_ok np _ _ _ _ _ _ _ _ _ Hnp HDc) as (C' & EC' & HC').
  assert (AZ : mpc_admissible (lA S_1) (lB S_1) 1 1 (fun _ => True) (fun _ => True) [20000000] [[0]] [[20000000]; [20000000 + 0]]) by (apply one_step_admissible; exists 0; auto).
  assert (AF : mpc_admissible (lA S_1) (lB S_1) 1 1 (in_poly D_far) (in_poly X_all) [20000000] [[20000000]] [[20000000]; [20000000 + 20000000]]).
  { apply one_step_admissible. eexists. split; [reflexivity|]. split; [reflexivity|]. split; (split; [reflexivity|]; split; [|constructor]).
    - unfold ineq_holds. cbn [pA pb D_far rows]. rows_ok.
    - constructor. }
  assert (EN : feedforward np C [20000000] = Ok (None, None)).
  { destruct (HC [20000000] eq_refl) as (us0 & xs0 & ((A0 & H0) & [(E & _)|(us & xs & _ & _ & (AO & _) & Hlt)])); [exact E|]. exfalso.
    specialize (H0 _ _ AZ). apply one_step_admissible in A0. destruct A0 as (u0 & -> & -> & _). apply one_step_admissible in AO. destruct AO as (u & -> & -> & (_ & Hd & _) & _).
    unfold ineq_holds in Hd. cbn in Hd. inv2 Hd. rewrite !one_step_cost in *. nra. }
  destruct (HC' [20000000] eq_refl) as (us0 & xs0 & ((A0 & H0) & [(_ & _ & E)|(us & xs & E & _)])).
  - exfalso. specialize (E _ _ AF). apply one_step_admissible in A0. destruct A0 as (u0 & -> & -> & _). change (mscale (/ 100) (Mat 1 [[0]])) with (Mat 1 [[/ 100 * 0]]) in E. change (mscale (/ 100) (Mat 1 [[1]])) with (Mat 1 [[/ 100 * 1]]) in E. rewrite !one_step_cost in E. nra.
  - exists C, C', us. eexists. split; [exact EC|]. split; [exact EC'|]. split; [exact EN|]. exact E.
Qed.
(*@ Example C83_example : x+ = x + u with Q = R = P = 1, N = 1, |x| <= 1, |u| <= 1, |x(1)| <= 1 at x = 1: halving the weights gives the same input -1/2 and half the cost. *)
Lemma scaling_example np : exact_np np -> mpc_data S_1 1 I_1 I_1 I_1 D_box X_int 1 1 /\
  exists C C', ModelPredictiveController np S_1 1 I_1 I_1 I_1 D_box X_int = Ok C /\ ModelPredictiveController np S_1 1 (mscale (/ 2) I_1) (mscale (/ 2) I_1) (mscale (/ 2) I_1) D_box X_int = Ok C' /\
    feedforward np C [1] = Ok (Some [[- (1 / 2)]], Some (3 / 4)) /\ feedforward np C' [1] = Ok (Some [[- (1 / 2)]], Some (/ 2 * (3 / 4))).
Proof.
  intros Hnp. destruct (mpc_example np Hnp) as (HD & C & EC & EF & _). split; [exact HD|].
  assert (HDc := scaled_data (/ 2) _ _ _ _ _ _ _ _ _ ltac:(lra) HD). destruct (feedforward_ok np _ _ _ _ _ _ _ _ _ Hnp HDc) as (C' & EC' & _). exists C, C'. split; [exact EC|]. split; [exact EC'|]. split; [exact EF|].
  destruct (mpc_scaling np S_1 1 I_1 I_1 I_1 D_box X_int 1 1 (/ 2) C C' [1] Hnp HD ltac:(lra) EC EC' eq_refl) as (_ & G & _). apply G; [lra|exact EF].
Qed.
