(** * DynThms: simulation, construction and explicit Euler discretization (C26, C28, C34, C36), proofs *)
From Coq Require Import ZArith String.
From Verif Require Import Arr ArrFacts Spec SpecDyn Numpy Pnnls PnnlsFacts GeomUtils Polyhedron PolyThms Dynamics.

(** ** C26 *)
Lemma traj_nil step x : is_trajectory step x [] [x].
Proof. repeat split; cbn; intros; lia. Qed.
Lemma traj_cons step x v u xs : is_trajectory step (step x v) u xs -> is_trajectory step x (v :: u) (x :: xs).
Proof.
  intros (L & H0 & HS). split; [|split].
  - cbn. rewrite L. reflexivity.
  - reflexivity.
  - intros [|t] Ht; cbn in *.
    + exact H0.
    + apply HS. lia.
Qed.
Lemma traj_unique step x u : forall xs ys, is_trajectory step x u xs -> is_trajectory step x u ys -> xs = ys.
Proof.
  intros xs ys (L1 & Z1 & S1) (L2 & Z2 & S2).
  apply (nth_ext _ _ [] []); [congruence|]. intros t Ht. rewrite L1 in Ht.
  induction t as [|t IH]; [congruence|].
  rewrite S1, S2 by lia. rewrite IH by lia. reflexivity.
Qed.

Lemma np_mv_ok A m n x : shape A m n -> length x = n -> np_mv A x = Ok (mv A x).
Proof. intros H L. unfold np_mv. replace (ncols A) with n by (symmetry; apply H). rewrite L, Nat.eqb_refl. reflexivity. Qed.
Lemma np_dot_ok A B m k n : shape A m k -> shape B k n -> np_dot A B = Ok (mm A B).
Proof. intros H L. unfold np_dot, nrows. replace (ncols A) with k by (symmetry; apply H). replace (length (rows B)) with k by (symmetry; apply L). rewrite Nat.eqb_refl. reflexivity. Qed.
Lemma np_madd_ok A B m n : shape A m n -> shape B m n -> np_madd A B = Ok (madd A B).
Proof. intros (L1 & C1 & _) (L2 & C2 & _). unfold np_madd, nrows. rewrite L1, L2, C1, C2, !Nat.eqb_refl. reflexivity. Qed.

(*@ Theorem C26_affine_simulation : AffineSystem.simulate returns the N+1 states of the trajectory x(t+1) = A x(t) + B u(t) + c. *)
Lemma affine_simulation A B c nx nu x0 u : system_shape A B nx nu -> length c = nx -> length x0 = nx ->
  Forall (fun v => length v = nu) u ->
  exists xs, aff_simulate (ASys A B c) x0 u = Ok xs /\ is_trajectory (affine_step A B c) x0 u xs.
Proof.
  intros (HA & HB) Hc Hx Hu. revert x0 Hx. induction Hu as [|v u Hv Hu IH]; intros x0 Hx.
  - exists [x0]. split; [reflexivity|apply traj_nil].
  - assert (LA : length (rows A) = nx) by apply HA. assert (LB : length (rows B) = nx) by apply HB.
    destruct (IH (affine_step A B c x0 v)) as (xs & E & T); [unfold affine_step; len|].
    exists (x0 :: xs). split; [|apply traj_cons, T].
    cbn [aff_simulate aA aB ac]. rewrite (np_mv_ok A nx nx x0), (np_mv_ok B nx nu v) by auto. cbn [bind].
    unfold affine_step in E. rewrite E. reflexivity.
Qed.

(*@ Theorem C26_linear_simulation : LinearSystem.simulate returns the N+1 states of the trajectory x(t+1) = A x(t) + B u(t). *)
Lemma linear_simulation A B k nx nu x0 u : system_shape A B nx nu -> length x0 = nx ->
  Forall (fun v => length v = nu) u ->
  exists xs, lin_simulate (LSys A B k) x0 u = Ok xs /\ is_trajectory (linear_step A B) x0 u xs.
Proof.
  intros (HA & HB) Hx Hu. revert x0 Hx. induction Hu as [|v u Hv Hu IH]; intros x0 Hx.
  - exists [x0]. split; [reflexivity|apply traj_nil].
  - assert (LA : length (rows A) = nx) by apply HA. assert (LB : length (rows B) = nx) by apply HB.
    destruct (IH (linear_step A B x0 v)) as (xs & E & T); [unfold linear_step; len|].
    exists (x0 :: xs). split; [|apply traj_cons, T].
    cbn [lin_simulate lA lB]. rewrite (np_mv_ok A nx nx x0), (np_mv_ok B nx nu v) by auto. cbn [bind].
    unfold linear_step in E. rewrite E. reflexivity.
Qed.

(*@ Theorem C26_closed_loop : simulate_closed_loop(x0, N, K) returns what simulate returns for the inputs u(t) = K x(t). *)
Lemma closed_loop_simulation A B k nx nu K x0 N : system_shape A B nx nu -> shape K nu nx -> length x0 = nx ->
  exists xs u, simulate_closed_loop (LSys A B k) x0 N K = Ok xs /\ lin_simulate (LSys A B k) x0 u = Ok xs /\
    length u = N /\ forall t, (t < N)%nat -> nth t u [] = mv K (nth t xs []).
Proof.
  intros (HA & HB) HK. revert x0. induction N as [|N IH]; intros x0 Hx.
  - exists [x0], []. repeat split. intros; lia.
  - assert (LA : length (rows A) = nx) by apply HA. assert (LB : length (rows B) = nx) by apply HB.
    assert (LK : length (rows K) = nu) by apply HK.
    destruct (IH (linear_step A B x0 (mv K x0))) as (xs & u & E1 & E2 & Lu & HU); [unfold linear_step; len|].
    exists (x0 :: xs), (mv K x0 :: u).
    assert (HBK : shape (mm B K) nx nx) by eauto with shp.
    repeat match goal with |- _ /\ _ => split end.
    + cbn [simulate_closed_loop lA lB]. rewrite (np_dot_ok B K nx nu nx) by auto. cbn [bind].
      rewrite (np_madd_ok A (mm B K) nx nx) by auto. cbn [bind].
      rewrite (np_mv_ok _ nx nx x0) by (auto with shp). cbn [bind].
      rewrite (mv_madd A (mm B K) nx nx) by auto. rewrite (mv_mm B K nu nx) by auto.
      unfold linear_step in E1. rewrite E1. reflexivity.
    + cbn [lin_simulate lA lB]. rewrite (np_mv_ok A nx nx x0), (np_mv_ok B nx nu (mv K x0)) by (auto; len). cbn [bind].
      unfold linear_step in E2. rewrite E2. reflexivity.
    + cbn. lia.
    + intros [|t] Ht; cbn; [reflexivity|]. apply HU. lia.
Qed.

(*@ Theorem C26_wrong_sizes : An input of the wrong size is rejected. *)
Lemma simulation_rejects A B c nx nu x0 u : system_shape A B nx nu -> length c = nx -> length x0 = nx ->
  ~ Forall (fun v => length v = nu) u -> aff_simulate (ASys A B c) x0 u = Err ValueError.
Proof.
  intros (HA & HB) Hc Hx Hu. revert x0 Hx. induction u as [|v u IH]; intros x0 Hx; [destruct Hu; constructor|].
  assert (LA : length (rows A) = nx) by apply HA. assert (LB : length (rows B) = nx) by apply HB.
  cbn [aff_simulate aA aB ac]. rewrite (np_mv_ok A nx nx x0) by auto. cbn [bind].
  destruct (Nat.eq_dec (length v) nu) as [Ev|Ev].
  - rewrite (np_mv_ok B nx nu v) by auto. cbn [bind]. rewrite IH; [reflexivity| |len].
    intros F. apply Hu. constructor; auto.
  - unfold np_mv. replace (ncols B) with nu by (symmetry; apply HB).
    replace (Nat.eqb nu (length v)) with false by (symmetry; apply Nat.eqb_neq; lia). reflexivity.
Qed.

(*@ Example C26_example : The double integrator with x0 = (0, 0) and u = (1, 1) reaches (1, 2); in closed loop with K = (0, -1) from (0, 1) it stops. *)
Lemma simulation_example :
  let A := Mat 2 [[1; 1]; [0; 1]] in let B := Mat 1 [[0]; [1]] in
  system_shape A B 2 1 /\
  lin_simulate (LSys A B None) [0; 0] [[1]; [1]] = Ok [[0; 0]; [0; 1]; [1; 2]] /\
  simulate_closed_loop (LSys A B None) [0; 1] 2 (Mat 2 [[0; -1]]) = Ok [[0; 1]; [1; 0]; [1; 0]].
Proof.
  cbv zeta. split; [|split].
  - split; (split; [reflexivity|split; [reflexivity|repeat constructor]]).
  - cbn. unfold vadd; cbn. repeat f_equal; ring.
  - cbn. unfold vadd; cbn. repeat f_equal; ring.
Qed.

(** ** C36 *)
(*@ Theorem C36_linear_constructor : LinearSystem(A, B) is accepted iff A is square and B has as many rows; otherwise ValueError. *)
Lemma linear_constructor A B :
  (nrows A = ncols A /\ nrows A = nrows B -> LinearSystem A B = Ok (LSys A B None)) /\
  (~ (nrows A = ncols A /\ nrows A = nrows B) -> LinearSystem A B = Err ValueError).
Proof.
  unfold LinearSystem, check_affine_system.
  destruct (Nat.eqb_spec (nrows A) (ncols A)); cbn [negb bind]; [|split; [lia|reflexivity]].
  destruct (Nat.eqb_spec (nrows A) (nrows B)); cbn [negb bind]; split; try reflexivity; intros; exfalso; tauto.
Qed.
(*@ Theorem C36_affine_constructor : AffineSystem(A, B, c) is accepted iff A is square, B has as many rows and c is one-dimensional with as many entries; otherwise ValueError. *)
Lemma affine_constructor A B c :
  (forall v, nrows A = ncols A -> nrows A = nrows B -> c = D1 v -> nrows A = length v -> AffineSystem A B c = Ok (ASys A B v)) /\
  (~ (nrows A = ncols A /\ nrows A = nrows B /\ exists v, c = D1 v /\ nrows A = length v) -> AffineSystem A B c = Err ValueError).
Proof.
  unfold AffineSystem, check_affine_system. split.
  - intros v E1 E2 -> E3. rewrite <- E1, <- E2, !Nat.eqb_refl. cbn [negb nd_ndim nd_size bind]. rewrite <- E3, Nat.eqb_refl. reflexivity.
  - intros H. destruct (Nat.eqb_spec (nrows A) (ncols A)); cbn [negb bind]; [|reflexivity].
    destruct (Nat.eqb_spec (nrows A) (nrows B)); cbn [negb bind]; [|reflexivity].
    destruct c as [v|M]; cbn [nd_ndim nd_size Nat.ltb Nat.leb bind]; [|reflexivity].
    destruct (Nat.eqb_spec (nrows A) (length v)); cbn [negb bind]; [|reflexivity].
    exfalso. apply H. eauto.
Qed.

Lemma only_spec l n : only l = Some n <-> l <> [] /\ forall k, In k l -> k = n.
Proof.
  unfold only. pose proof (NoDup_nodup Nat.eq_dec l) as ND. pose proof (nodup_In Nat.eq_dec l) as NI.
  destruct (nodup Nat.eq_dec l) as [|a [|b l']] eqn:E.
  - split; [discriminate|]. intros (H & _). destruct l as [|k l]; [congruence|]. exfalso. apply (NI k). left. reflexivity.
  - split.
    + intros [= ->]. split; [intros ->; cbn in E; discriminate|]. intros k Hk. apply NI in Hk. destruct Hk as [->|[]]; reflexivity.
    + intros (_ & H). f_equal. apply H, NI. left. reflexivity.
  - split; [discriminate|]. intros (_ & H). exfalso.
    assert (a = n) by (apply H, NI; left; reflexivity). assert (b = n) by (apply H, NI; right; left; reflexivity).
    subst. inversion ND as [|? ? N1 _]. apply N1. left. reflexivity.
Qed.
Lemma only_none l : only l = None <-> ~ exists n, l <> [] /\ forall k, In k l -> k = n.
Proof.
  split.
  - intros H (n & Hn). apply only_spec in Hn. congruence.
  - intros H. destruct (only l) as [n|] eqn:E; [|reflexivity]. exfalso. apply H. exists n. apply only_spec, E.
Qed.

(** objects built by the constructors *)
Definition valid_system (s : anysys) : Prop :=
  match s with Lin s => nrows (lA s) = ncols (lA s) /\ nrows (lA s) = nrows (lB s) | Aff _ => True end.
(** the affine system described by s, with nx states *)
Definition as_affine (nx : nat) (s : anysys) : asys :=
  match s with Lin s => ASys (lA s) (lB s) (zeros nx) | Aff s => s end.
(** all systems have nx states and nu inputs, all domains nx + nu coordinates *)
Definition coherent (S : list anysys) (D : list poly) (nx nu : nat) : Prop :=
  length S = length D /\ S <> [] /\
  (forall s, In s S -> sys_nx s = nx /\ sys_nu s = nu) /\
  (forall d, In d D -> ncols (pA d) = (nx + nu)%nat).

Lemma mapM_map {A B} (f : A -> res B) (g : A -> B) l : (forall a, In a l -> f a = Ok (g a)) -> mapM f l = Ok (map g l).
Proof.
  induction l as [|a l IH]; intros H; cbn; [reflexivity|].
  rewrite H by (left; reflexivity). cbn. rewrite IH by (intros; apply H; right; assumption). reflexivity.
Qed.

(*@ Theorem C36_pwa_constructor : PieceWiseAffineSystem(systems, domains) is accepted iff there is at least one system, as many domains, equal numbers of states and inputs and domains of dimension nx + nu; otherwise ValueError.
   The stored systems all have nx states and nu inputs. *)
Lemma pwa_constructor S D : (forall s, In s S -> valid_system s) ->
  (forall nx nu, coherent S D nx nu -> PieceWiseAffineSystem S D = Ok (PWA nx nu (map (as_affine nx) S) D)) /\
  ((forall nx nu, ~ coherent S D nx nu) -> PieceWiseAffineSystem S D = Err ValueError).
Proof.
  intros HV. unfold PieceWiseAffineSystem. split.
  - intros nx nu (L & NE & HS & HD). rewrite L, Nat.eqb_refl. cbn [negb].
    assert (DE : D <> []) by (intros ->; destruct S; [congruence|discriminate]).
    rewrite (proj2 (only_spec (map sys_nx S) nx)), (proj2 (only_spec (map sys_nu S) nu)), (proj2 (only_spec (map (fun d => ncols (pA d)) D) (nx + nu)%nat)).
    + rewrite Nat.eqb_refl. cbn [negb]. rewrite (mapM_map _ (as_affine nx)); [reflexivity|].
      intros s Hs. specialize (HV s Hs). specialize (HS s Hs). destruct s as [s|s]; [|reflexivity]. cbn in *.
      destruct HV as (V1 & V2), HS as (N1 & _).
      refine (proj1 (affine_constructor _ _ _) _ V1 V2 eq_refl _). unfold lnx in N1. rewrite zeros_length. congruence.
    + split; [intros E; apply map_eq_nil in E; auto|]. intros k Hk. apply in_map_iff in Hk as (s & <- & Hs). apply HD, Hs.
    + split; [intros E; apply map_eq_nil in E; auto|]. intros k Hk. apply in_map_iff in Hk as (s & <- & Hs). apply HS, Hs.
    + split; [intros E; apply map_eq_nil in E; auto|]. intros k Hk. apply in_map_iff in Hk as (s & <- & Hs). apply HS, Hs.
  - intros H. destruct (Nat.eqb_spec (length S) (length D)) as [L|]; cbn [negb]; [|reflexivity].
    destruct (only (map sys_nx S)) as [nx|] eqn:E1; [|reflexivity].
    destruct (only (map sys_nu S)) as [nu|] eqn:E2; [|reflexivity].
    destruct (only (map (fun d => ncols (pA d)) D)) as [nxu|] eqn:E3; [|reflexivity].
    destruct (Nat.eqb_spec nxu (nx + nu)) as [E|]; cbn [negb]; [|reflexivity].
    apply only_spec in E1 as (NE & E1). apply only_spec in E2 as (_ & E2). apply only_spec in E3 as (_ & E3).
    exfalso. apply (H nx nu). unfold coherent. repeat match goal with |- _ /\ _ => split end; auto.
    + intros ->. apply NE. reflexivity.
    + intros s Hs. split; [apply E1|apply E2]; apply in_map, Hs.
    + intros d Hd. rewrite <- E. apply E3. apply (in_map (fun d => ncols (pA d))), Hd.
Qed.

(*@ Example C36_example : Two modes, one of them given as a LinearSystem, are accepted; with a one-input and a two-input mode the call is rejected. *)
Lemma pwa_constructor_example :
  let A := Mat 1 [[1]] in let B := Mat 1 [[2]] in
  let d := Poly (Mat 2 [[1; 0]]) [0] (Mat 2 []) [] None None None None None in
  (exists W, PieceWiseAffineSystem [Lin (LSys A B None); Aff (ASys A B [3])] [d; d] = Ok W /\ map ac (w_sys W) = [[0]; [3]]) /\
  PieceWiseAffineSystem [Lin (LSys A B None); Lin (LSys A (Mat 2 [[1; 1]]) None)] [d; d] = Err ValueError.
Proof. cbv zeta. split; [eexists; split; [reflexivity|reflexivity]|reflexivity]. Qed.

(** ** C28 *)
(** (x,u) satisfies the constraints of the domain within 1e-7 *)
Definition within (d : poly) (xu : vec) : Prop :=
  Forall2 (fun a bi => dot a xu <= bi + tol7) (rows (pA d)) (pb d) /\
  Forall2 (fun c di => Rabs (dot c xu - di) <= tol7) (rows (pC d)) (pd d).
(** m is the first domain containing (x,u) *)
Definition first_mode (D : list poly) (xu : vec) (m : nat) : Prop :=
  (m < length D)%nat /\ (forall d, nth_error D m = Some d -> within d xu) /\
  forall k d, (k < m)%nat -> nth_error D k = Some d -> ~ within d xu.
Definition no_mode (D : list poly) (xu : vec) : Prop := forall d, In d D -> ~ within d xu.
(** a run of the PWA system *)
Definition pwa_run (W : pwa) (x0 : vec) (u xs : list vec) (ms : list nat) : Prop :=
  length ms = length u /\
  is_switched_trajectory (map aA (w_sys W)) (map aB (w_sys W)) (map ac (w_sys W)) ms x0 u xs /\
  forall t, (t < length u)%nat -> first_mode (w_dom W) (nth t xs [] ++ nth t u []) (nth t ms O).
(** coherent PWA system whose domains have an inequality and at most one equality, so that contains() is a correct test *)
Definition pwa_wf (W : pwa) (nx nu : nat) : Prop :=
  length (w_sys W) = length (w_dom W) /\
  (forall s, In s (w_sys W) -> system_shape (aA s) (aB s) nx nu /\ length (ac s) = nx) /\
  (forall d, In d (w_dom W) -> exists m me, wf d m me (nx + nu) /\ (0 < m)%nat /\ (me <= 1)%nat).

Lemma get_mode_from_ok D n xu i : length xu = n ->
  (forall d, In d D -> exists m me, wf d m me n /\ (0 < m)%nat /\ (me <= 1)%nat) ->
  (exists m, get_mode_from i D xu = Ok (Some (i + m)%nat) /\ first_mode D xu m) \/
  (get_mode_from i D xu = Ok None /\ no_mode D xu).
Proof.
  intros Lx. revert i. induction D as [|d D IH]; intros i HD.
  - right. split; [reflexivity|]. intros d [].
  - cbn [get_mode_from]. destruct (HD d (or_introl eq_refl)) as (m & me & Hwf & Hm & Hme).
    destruct (contains_ok d m me n xu tol7 Hwf Hm Hme Lx) as (r & E & Hr). rewrite E. cbn [bind]. destruct r.
    + left. exists O. split; [rewrite Nat.add_0_r; reflexivity|]. split; [cbn; lia|]. split.
      * intros d' [= <-]. apply Hr. reflexivity.
      * intros; lia.
    + assert (Hn : ~ within d xu) by (intros W; apply Hr in W; discriminate).
      destruct (IH (S i)) as [(k & E' & F)|(E' & F)]; [intros; apply HD; right; assumption| |].
      * left. exists (S k). split; [rewrite E'; do 2 f_equal; lia|]. destruct F as (F1 & F2 & F3).
        split; [cbn; lia|]. split; [exact F2|].
        intros [|j] d' Hj Hd'; cbn in Hd'; [injection Hd' as <-; exact Hn|]. apply (F3 j); [lia|exact Hd'].
      * right. split; [exact E'|]. intros d' [<-|Hd']; [exact Hn|]. apply F, Hd'.
Qed.

Lemma first_mode_unique D xu m k : first_mode D xu m -> first_mode D xu k -> m = k.
Proof.
  intros (L1 & I1 & N1) (L2 & I2 & N2).
  destruct (lt_eq_lt_dec m k) as [[H|H]|H]; [|exact H|]; exfalso.
  - destruct (nth_error D m) as [d|] eqn:E; [|apply nth_error_None in E; lia]. exact (N2 m d H E (I1 d eq_refl)).
  - destruct (nth_error D k) as [d|] eqn:E; [|apply nth_error_None in E; lia]. exact (N1 k d H E (I2 d eq_refl)).
Qed.
Lemma first_mode_no D xu m : first_mode D xu m -> no_mode D xu -> False.
Proof.
  intros (L & I & _) N. destruct (nth_error D m) as [d|] eqn:E; [|apply nth_error_None in E; lia].
  exact (N d (nth_error_In _ _ E) (I d eq_refl)).
Qed.

Lemma pwa_run_cons W x v u m xs ms s : nth_error (w_sys W) m = Some s -> first_mode (w_dom W) (x ++ v) m ->
  pwa_run W (affine_step (aA s) (aB s) (ac s) x v) u xs ms -> pwa_run W x (v :: u) (x :: xs) (m :: ms).
Proof.
  intros Es F (L & (LX & X0 & XS) & HM). split; [cbn; lia|]. split; [split; [cbn; lia|split; [reflexivity|]]|].
  - intros [|t] Ht; cbn [nth length] in *.
    + rewrite X0. f_equal; symmetry.
      * rewrite (nth_indep _ _ (aA s)) by (rewrite map_length; apply nth_error_Some; congruence).
        rewrite map_nth. f_equal. apply nth_error_nth with (1 := Es).
      * rewrite (nth_indep _ _ (aB s)) by (rewrite map_length; apply nth_error_Some; congruence).
        rewrite map_nth. f_equal. apply nth_error_nth with (1 := Es).
      * rewrite (nth_indep _ _ (ac s)) by (rewrite map_length; apply nth_error_Some; congruence).
        rewrite map_nth. f_equal. apply nth_error_nth with (1 := Es).
    + apply XS. lia.
  - intros [|t] Ht; cbn [nth length] in *; [exact F|]. apply HM. lia.
Qed.
Lemma pwa_run_uncons W x v u m xs ms s : nth_error (w_sys W) m = Some s ->
  pwa_run W x (v :: u) xs (m :: ms) -> exists xs', xs = x :: xs' /\ first_mode (w_dom W) (x ++ v) m /\
  pwa_run W (affine_step (aA s) (aB s) (ac s) x v) u xs' ms.
Proof.
  intros Es (L & (LX & X0 & XS) & HM). destruct xs as [|x' xs']; [discriminate|]. cbn in X0. subst x'. exists xs'.
  split; [reflexivity|]. split; [apply (HM O); cbn; lia|]. split; [cbn in L; lia|]. split; [split; [cbn in LX; lia|split]|].
  - specialize (XS O ltac:(cbn; lia)). cbn [nth] in XS. rewrite XS. f_equal.
    + rewrite (nth_indep _ _ (aA s)) by (rewrite map_length; apply nth_error_Some; congruence).
      rewrite map_nth. f_equal. apply nth_error_nth with (1 := Es).
    + rewrite (nth_indep _ _ (aB s)) by (rewrite map_length; apply nth_error_Some; congruence).
      rewrite map_nth. f_equal. apply nth_error_nth with (1 := Es).
    + rewrite (nth_indep _ _ (ac s)) by (rewrite map_length; apply nth_error_Some; congruence).
      rewrite map_nth. f_equal. apply nth_error_nth with (1 := Es).
  - intros t Ht. apply (XS (S t)). cbn. lia.
  - intros t Ht. apply (HM (S t)). cbn. lia.
Qed.

Lemma pwa_simulation_aux W nx nu : pwa_wf W nx nu -> forall u x0, length x0 = nx -> Forall (fun v => length v = nu) u ->
  (exists xs ms, pwa_simulate W x0 u = Ok (xs, ms) /\ pwa_run W x0 u xs ms) \/
  (pwa_simulate W x0 u = Err ValueError /\
   exists k xs ms, (k < length u)%nat /\ pwa_run W x0 (firstn k u) xs ms /\ no_mode (w_dom W) (nth k xs [] ++ nth k u [])).
Proof.
  intros (LW & HS & HD) u. induction u as [|v u IH]; intros x0 Hx Hu.
  - left. exists [x0], []. split; [reflexivity|]. split; [reflexivity|]. split; [split; [reflexivity|split; [reflexivity|]]|]; cbn; intros; lia.
  - inversion Hu as [|? ? Hv Hu']; subst. cbn [pwa_simulate]. unfold get_mode.
    destruct (get_mode_from_ok (w_dom W) (length x0 + length v) (x0 ++ v) 0) as [(m & E & F)|(E & F)]; [len|exact HD| |].
    + rewrite E. cbn [bind Nat.add].
      destruct (nth_error (w_sys W) m) as [s|] eqn:Es; [|apply nth_error_None in Es; destruct F; lia].
      destruct (HS s (nth_error_In _ _ Es)) as ((HA & HB) & Hc).
      rewrite (np_mv_ok (aA s) (length x0) (length x0) x0), (np_mv_ok (aB s) (length x0) (length v) v) by auto. cbn [bind].
      assert (LA : length (rows (aA s)) = length x0) by apply HA. assert (LB : length (rows (aB s)) = length x0) by apply HB.
      destruct (IH (affine_step (aA s) (aB s) (ac s) x0 v)) as [(xs & ms & E2 & R2)|(E2 & k & xs & ms & Hk & R2 & NM)]; [unfold affine_step; len|exact Hu'| |].
      * left. exists (x0 :: xs), (m :: ms). unfold affine_step in E2. rewrite E2. split; [reflexivity|].
        apply (pwa_run_cons W x0 v u m xs ms s); assumption.
      * right. unfold affine_step in E2. rewrite E2. split; [reflexivity|]. exists (S k), (x0 :: xs), (m :: ms).
        split; [cbn; lia|]. split; [|exact NM]. cbn [firstn]. apply (pwa_run_cons W x0 v (firstn k u) m xs ms s); assumption.
    + right. rewrite E. split; [reflexivity|]. exists O, [x0], []. split; [cbn; lia|].
      split; [|exact F]. split; [reflexivity|]. split; [split; [reflexivity|split; [reflexivity|]]|]; cbn; intros; lia.
Qed.

Lemma pwa_run_unique W x u : length (w_sys W) = length (w_dom W) -> forall xs ms ys ns, pwa_run W x u xs ms -> pwa_run W x u ys ns -> xs = ys /\ ms = ns.
Proof.
  intros LW. revert x. induction u as [|v u IH]; intros x xs ms ys ns R1 R2.
  - destruct R1 as (L1 & (X1 & Y1 & _) & _), R2 as (L2 & (X2 & Y2 & _) & _). cbn in *.
    destruct ms; [|discriminate]. destruct ns; [|discriminate].
    destruct xs as [|a [|? ?]]; try discriminate. destruct ys as [|b [|? ?]]; try discriminate. cbn in *. subst. auto.
  - destruct ms as [|m ms]; [destruct R1; discriminate|]. destruct ns as [|k ns]; [destruct R2; discriminate|].
    assert (F1 : first_mode (w_dom W) (x ++ v) m).
    { destruct R1 as (_ & (LX & X0 & _) & H). specialize (H O ltac:(cbn; lia)). cbn [nth] in H. rewrite <- X0. exact H. }
    assert (F2 : first_mode (w_dom W) (x ++ v) k).
    { destruct R2 as (_ & (LX & X0 & _) & H). specialize (H O ltac:(cbn; lia)). cbn [nth] in H. rewrite <- X0. exact H. }
    assert (k = m) by (eapply first_mode_unique; eauto). subst k.
    destruct (nth_error (w_sys W) m) as [s|] eqn:Es; [|apply nth_error_None in Es; destruct F1; lia].
    destruct (pwa_run_uncons _ _ _ _ _ _ _ _ Es R1) as (xs' & -> & _ & R1').
    destruct (pwa_run_uncons _ _ _ _ _ _ _ _ Es R2) as (ys' & -> & _ & R2').
    destruct (IH _ _ _ _ _ R1' R2') as (-> & ->). auto.
Qed.
Lemma pwa_run_firstn W x u xs ms k : pwa_run W x u xs ms -> pwa_run W x (firstn k u) (firstn (S k) xs) (firstn k ms).
Proof.
  intros (L & (LX & X0 & XS) & HM). split; [rewrite !firstn_length; lia|]. split; [split; [rewrite !firstn_length; lia|split]|].
  - destruct xs; [discriminate|]. exact X0.
  - intros t Ht. rewrite firstn_length in Ht. rewrite !nth_firstn' by lia. apply XS. lia.
  - intros t Ht. rewrite firstn_length in Ht. rewrite !nth_firstn' by lia. apply HM. lia.
Qed.

(*@ Theorem C28_simulation_partial : PieceWiseAffineSystem.simulate returns exactly the run in which every step uses the first domain containing (x,u) within 1e-7, and raises ValueError exactly when a reached pair is in no domain; it raises nothing else.
   Missing: domains with several equalities, or no inequality, for which contains() is wrong (see C06). *)
Lemma pwa_simulation W nx nu x0 u : pwa_wf W nx nu -> length x0 = nx -> Forall (fun v => length v = nu) u ->
  (forall xs ms, pwa_simulate W x0 u = Ok (xs, ms) <-> pwa_run W x0 u xs ms) /\
  (pwa_simulate W x0 u = Err ValueError <->
     exists k xs ms, (k < length u)%nat /\ pwa_run W x0 (firstn k u) xs ms /\ no_mode (w_dom W) (nth k xs [] ++ nth k u [])) /\
  (forall e, pwa_simulate W x0 u = Err e -> e = ValueError).
Proof.
  intros HW Hx Hu. assert (LW : length (w_sys W) = length (w_dom W)) by apply HW.
  destruct (pwa_simulation_aux W nx nu HW u x0 Hx Hu) as [(xs & ms & E & R0)|(E & k & xs & ms & Hk & R0 & NM)]; rewrite E.
  - split; [|split].
    + intros ys ns. split; [intros [= <- <-]; exact R0|]. intros R1. destruct (pwa_run_unique W x0 u LW _ _ _ _ R0 R1) as (-> & ->). reflexivity.
    + split; [discriminate|]. intros (k & ys & ns & Hk & R1 & NM). exfalso.
      pose proof (pwa_run_firstn _ _ _ _ _ k R0) as R2. destruct (pwa_run_unique _ _ _ LW _ _ _ _ R1 R2) as (-> & ->).
      rewrite nth_firstn' in NM by lia. destruct R0 as (_ & _ & HM). exact (first_mode_no _ _ _ (HM k Hk) NM).
    + discriminate.
  - split; [|split].
    + intros ys ns. split; [discriminate|]. intros R1. exfalso.
      pose proof (pwa_run_firstn _ _ _ _ _ k R1) as R2. destruct (pwa_run_unique _ _ _ LW _ _ _ _ R0 R2) as (-> & ->).
      rewrite nth_firstn' in NM by lia. destruct R1 as (_ & _ & HM). exact (first_mode_no _ _ _ (HM k Hk) NM).
    + split; [|reflexivity]. intros _. exists k, xs, ms. auto.
    + congruence.
Qed.

(*@ Example C28_example : x+ = x/2 + u for x <= 0, x+ = -x + u for x >= 0: from x0 = 1 with u = (0, 0) the modes are 1, 0; (2, 0) is outside of the domains |x| <= 1. *)
Lemma pwa_simulation_example :
  let d0 := Poly (Mat 2 [[1; 0]; [-1; 0]]) [0; 1] (Mat 2 []) [] None None None None None in
  let d1 := Poly (Mat 2 [[-1; 0]; [1; 0]]) [0; 1] (Mat 2 []) [] None None None None None in
  let W := PWA 1 1 [ASys (Mat 1 [[/2]]) (Mat 1 [[1]]) [0]; ASys (Mat 1 [[-1]]) (Mat 1 [[1]]) [0]] [d0; d1] in
  pwa_wf W 1 1 /\ pwa_run W [1] [[0]; [0]] [[1]; [-1]; [-/2]] [1%nat; 0%nat] /\ no_mode (w_dom W) [2; 0].
Proof.
  cbv zeta. assert (T : 0 < tol7 < 1) by (unfold tol7; lra).
  split; [|split].
  - split; [reflexivity|]. split.
    + intros s [<-|[<-|[]]]; (split; [|reflexivity]); (split; (split; [reflexivity|split; [reflexivity|repeat constructor]])).
    + intros d [<-|[<-|[]]]; exists 2%nat, 0%nat; (split; [|split; lia]);
      (split; [split; [reflexivity|split; [reflexivity|repeat constructor]]|split; [reflexivity|split; [split; [reflexivity|split; [reflexivity|constructor]]|reflexivity]]]).
  - split; [reflexivity|]. split.
    + split; [reflexivity|]. split; [reflexivity|]. intros [|[|t]] Ht; cbn in *; try lia; unfold affine_step, vadd; cbn; f_equal; lra.
    + intros [|[|t]] Ht; cbn in *; try lia.
      * split; [cbn; lia|]. split.
        -- intros d [= <-]. split; cbn; [repeat (apply Forall2_cons; [cbn; lra|]); constructor|constructor].
        -- intros [|k] d Hk; [|lia]. intros [= <-] (H & _). cbn in H. inv2 H. lra.
      * split; [cbn; lia|]. split.
        -- intros d [= <-]. split; cbn; [repeat (apply Forall2_cons; [cbn; lra|]); constructor|constructor].
        -- intros k d Hk. lia.
  - intros d [<-|[<-|[]]] (H & _); cbn in H; inv2 H; lra.
Qed.

(** ** C34, explicit Euler *)
(*@ Theorem C34_explicit_euler : explicit_euler(A, B, c, h) returns matrices with A_d x + B_d u + c_d = x + h (A x + B u + c). *)
Lemma explicit_euler_ok A B c nx nu h : system_shape A B nx nu -> length c = nx -> 0 <= h ->
  exists A_d B_d c_d, explicit_euler A B (D1 c) h = Ok (A_d, B_d, c_d) /\ system_shape A_d B_d nx nu /\ length c_d = nx /\
    forall x u, length x = nx -> length u = nu ->
      affine_step A_d B_d c_d x u = vadd x (vscale h (affine_step A B c x u)).
Proof.
  intros (HA & HB) Hc Hh. assert (LA : length (rows A) = nx) by apply HA. assert (LB : length (rows B) = nx) by apply HB.
  unfold explicit_euler, check_affine_system, nrows. rewrite LA, LB. replace (ncols A) with nx by (symmetry; apply HA).
  cbn [nd_ndim nd_size]. rewrite Hc, !Nat.eqb_refl. cbn [negb Nat.ltb Nat.leb bind].
  replace (Rltb h 0) with false by (symmetry; apply Rltb_false; lra). cbn [bind].
  eexists _, _, _. split; [reflexivity|]. split; [|split; [len|]].
  - split; auto with shp.
  - intros x u Hx Hu. unfold affine_step. rewrite (mv_madd _ _ nx nx) by auto with shp. rewrite mv_eye, !mv_mscale by auto.
    apply vec_ext; [len|]. intros i Hi. autorewrite with nthv. ring.
Qed.
(*@ Theorem C34_euler_rejects : Incoherent shapes and negative time steps are rejected. *)
Lemma explicit_euler_rejects A B c h :
  ~ (nrows A = ncols A /\ nrows A = nrows B /\ (exists v, c = D1 v /\ nrows A = length v) /\ 0 <= h) ->
  explicit_euler A B c h = Err ValueError.
Proof.
  intros H. unfold explicit_euler, check_affine_system.
  destruct (Nat.eqb_spec (nrows A) (ncols A)); cbn [negb bind]; [|reflexivity].
  destruct (Nat.eqb_spec (nrows A) (nrows B)); cbn [negb bind]; [|reflexivity].
  destruct c as [v|M]; cbn [nd_ndim nd_size Nat.ltb Nat.leb bind]; [|reflexivity].
  destruct (Nat.eqb_spec (nrows A) (length v)); cbn [negb bind]; [|reflexivity].
  destruct (Rltb h 0) eqn:Eh; cbn [bind]; [reflexivity|]. apply Rltb_false in Eh. exfalso. apply H. eauto 10.
Qed.
