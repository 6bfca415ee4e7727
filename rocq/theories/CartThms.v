(** * CartThms: the cart-pole notebook (C86), proofs *)
From Coq Require Import ZArith String Classical Permutation.
From Verif Require Import Arr ArrFacts Spec SpecGeom SpecMpc SpecProg SpecLoop Numpy Pnnls PnnlsFacts QpFacts GeomUtils Polyhedron PolyThms Oracle SolverThms NullFacts PolySolveThms PolyMore SpecDyn Dynamics DynThms ZohThms Voronoi VorThms CondenseThms LqrThms McaisThms Mpqp MpqpThms Controllers CtrlThms Gurobi Programs ProgThms Hybrid HybridThms HybridOptThms HybridLoopThms WorkThms EquivThms ExampleCtrl ExThms ExLoopThms CartPole.
Local Open Scope list_scope.

(** ** The grid *)
Definition grid_step (a b : R) (n : nat) : R := (b - a) / (INR n - 1).
Definition grid (a b : R) (n i : nat) : R := a + INR i * grid_step a b n.
Lemma step_pos a b n : a < b -> (2 <= n)%nat -> 0 < grid_step a b n.
Proof. intros H Hn. unfold grid_step. apply Rdiv_lt_0_compat; [lra|]. apply le_INR in Hn. cbn in Hn. lra. Qed.
Lemma grid_last a b n : (2 <= n)%nat -> grid a b n (n - 1) = b.
Proof. intros Hn. unfold grid, grid_step. rewrite minus_INR by lia. apply le_INR in Hn. cbn in Hn. change (INR 1) with 1. field. lra. Qed.
Lemma grid_le a b n i j : a < b -> (2 <= n)%nat -> (i <= j)%nat -> grid a b n i + INR (j - i) * grid_step a b n = grid a b n j.
Proof. intros H Hn Hij. unfold grid. rewrite minus_INR by exact Hij. ring. Qed.
Lemma grid_lt a b n i j : a < b -> (2 <= n)%nat -> (i < j)%nat -> grid a b n i + grid_step a b n <= grid a b n j.
Proof. intros H Hn Hij. rewrite <- (grid_le a b n i j) by (auto; lia). assert (Q : INR 1 <= INR (j - i)) by (apply le_INR; lia). change (INR 1) with 1 in Q. pose proof (step_pos a b n H Hn). nra. Qed.
Lemma linspace_nth a b n i : (i < n)%nat -> nth i (linspace a b n) 0 = grid a b n i.
Proof. intros H. unfold linspace. rewrite nth_map_seq' by exact H. reflexivity. Qed.
Lemma points_length nx k a b n : length (linearization_points nx k a b n) = n.
Proof. unfold linearization_points, linspace. rewrite !map_length. apply seq_length. Qed.
Lemma points_nth nx k a b n i : (i < n)%nat -> nth i (linearization_points nx k a b n) [] = vscale (grid a b n i) (unit nx k).
Proof. intros H. unfold linearization_points, linspace. rewrite map_map, nth_map_seq' by exact H. reflexivity. Qed.
Lemma points_in nx k a b n p : In p (linearization_points nx k a b n) <-> exists i, (i < n)%nat /\ p = vscale (grid a b n i) (unit nx k).
Proof.
  split.
  - intros H. destruct (In_nth _ _ [] H) as (i & Hi & <-). rewrite points_length in Hi. exists i. split; [exact Hi|apply points_nth, Hi].
  - intros (i & Hi & ->). rewrite <- (points_nth nx k a b n i Hi). apply nth_In. rewrite points_length. exact Hi.
Qed.
Lemma point_entry nx k c j : (k < nx)%nat -> nth j (vscale c (unit nx k)) 0 = if Nat.eqb j k then c else 0.
Proof.
  intros Hk. rewrite nth_vscale. destruct (Nat.eqb_spec j k) as [->|N].
  - rewrite nth_unit by exact Hk. rewrite Nat.eqb_refl. ring.
  - destruct (Nat.lt_ge_cases j nx) as [L|L]; [|rewrite nth_overflow by (rewrite unit_length; exact L); ring]. rewrite nth_unit by exact L. destruct (Nat.eqb_spec j k); [contradiction|ring].
Qed.
Lemma grid_dist nx k c d x : (k < nx)%nat -> length x = nx ->
  norm (vsub x (vscale c (unit nx k))) <= norm (vsub x (vscale d (unit nx k))) <-> Rabs (nth k x 0 - c) <= Rabs (nth k x 0 - d).
Proof.
  intros Hk Lx. rewrite (lower_dist (Nat.eqb k) x _ _ nx Lx) by (rewrite ?vscale_length, ?unit_length; try reflexivity; intros i Hi E; rewrite !point_entry by exact Hk; rewrite Nat.eqb_sym, E; reflexivity).
  cbv zeta. rewrite (filter_single (Nat.eqb k) k nx Hk (Nat.eqb_refl k)) by (intros i _ N; apply Nat.eqb_neq; auto).
  unfold lower. cbn [map]. rewrite !point_entry, Nat.eqb_refl by exact Hk. rewrite !norm1d. reflexivity.
Qed.
Lemma grid_closest nx k a b n i x : a < b -> (2 <= n)%nat -> (k < nx)%nat -> (i < n)%nat -> length x = nx ->
  closest (vscale (grid a b n i) (unit nx k)) (linearization_points nx k a b n) x <->
  (i <> 0%nat -> grid a b n i - grid_step a b n / 2 <= nth k x 0) /\ (Datatypes.S i <> n -> nth k x 0 <= grid a b n i + grid_step a b n / 2).
Proof.
  intros Hab Hn Hk Hi Lx. pose proof (step_pos a b n Hab Hn) as SP. split.
  - intros H. split; intros N.
    + assert (I : In (vscale (grid a b n (i - 1)) (unit nx k)) (linearization_points nx k a b n)) by (apply points_in; exists (i - 1)%nat; split; [lia|reflexivity]).
      specialize (H _ I). apply grid_dist in H; [|exact Hk|exact Lx]. pose proof (grid_le a b n (i - 1) i Hab Hn ltac:(lia)) as E. replace (i - (i - 1))%nat with 1%nat in E by lia. change (INR 1) with 1 in E. apply near_right in H; lra.
    + assert (I : In (vscale (grid a b n (Datatypes.S i)) (unit nx k)) (linearization_points nx k a b n)) by (apply points_in; exists (Datatypes.S i); split; [lia|reflexivity]).
      specialize (H _ I). apply grid_dist in H; [|exact Hk|exact Lx]. pose proof (grid_le a b n i (Datatypes.S i) Hab Hn ltac:(lia)) as E. replace (Datatypes.S i - i)%nat with 1%nat in E by lia. change (INR 1) with 1 in E. apply near_left in H; lra.
  - intros (HL & HR) q Iq. apply points_in in Iq. destruct Iq as (j & Hj & ->). apply grid_dist; [exact Hk|exact Lx|]. destruct (Nat.lt_trichotomy j i) as [L|[->|G]].
    + pose proof (grid_lt a b n j i Hab Hn L). apply near_right; [lra|]. specialize (HL ltac:(lia)). lra.
    + lra.
    + pose proof (grid_lt a b n i j Hab Hn G). apply near_left; [lra|]. specialize (HR ltac:(lia)). lra.
Qed.
(** ** The system built from a plant, for points that differ in one coordinate: it is returned *)
Definition taylor_ok (np : numpy) (taylor : vec -> mat * mat * vec) (points : list vec) (h : R) (nx nu : nat) : Prop :=
  forall p, In p points -> let '(A, B, f0) := taylor p in system_shape A B nx nu /\ length f0 = nx /\
    is_expm (mscale h (zoh_matrix A B f0)) (np_expm np (mscale h (zoh_matrix A B f0))) (nx + nu + 1).
Definition solves_mode (taylor : vec -> mat * mat * vec) (h : R) (nx nu : nat) (p : vec) (S : asys) : Prop :=
  system_shape (aA S) (aB S) nx nu /\ length (ac S) = nx /\
  let '(A, B, f0) := taylor p in forall u x, length u = nu -> ode_solution A B f0 u nx h x -> x h = affine_step (aA S) (aB S) (ac S) (x 0) u.
Lemma aff_zoh np A B c nx nu h : system_shape A B nx nu -> length c = nx -> 0 <= h ->
  is_expm (mscale h (zoh_matrix A B c)) (np_expm np (mscale h (zoh_matrix A B c))) (nx + nu + 1) ->
  exists S, aff_from_continuous np A B (D1 c) h "zero_order_hold" = Ok S /\ system_shape (aA S) (aB S) nx nu /\ length (ac S) = nx /\
    forall u x, length u = nu -> ode_solution A B c u nx h x -> x h = affine_step (aA S) (aB S) (ac S) (x 0) u.
Proof.
  intros SS Lc Hh HE. destruct (zoh_ok np A B c nx nu h SS Lc Hh HE) as (Ad & Bd & cd & EZ & SD & Lcd & HS).
  destruct SS as (SA & SB). pose proof SD as (SAd & SBd).
  assert (CK : forall A' B' c' oh, shape A' nx nx -> shape B' nx nu -> length c' = nx -> match oh with Some h' => 0 <= h' | None => True end -> check_affine_system A' B' (Some (D1 c')) oh = Ok tt).
  { intros A' B' c' oh S1 S2 L1 H1. unfold check_affine_system, nrows. rewrite (proj1 S1), (proj1 (proj2 S1)), (proj1 S2), Nat.eqb_refl. cbn [nd_ndim nd_size negb Nat.ltb Nat.leb]. rewrite L1, Nat.eqb_refl. cbn. destruct oh as [h'|]; [|reflexivity]. replace (Rltb h' 0) with false by (symmetry; apply Rltb_false; lra). reflexivity. }
  exists (ASys Ad Bd cd). split; [|split; [exact SD|split; [exact Lcd|exact HS]]].
  unfold aff_from_continuous. rewrite (CK A B c (Some h) SA SB Lc Hh). cbn [bind]. rewrite String.eqb_refl, EZ. cbn [bind]. unfold AffineSystem. rewrite (CK Ad Bd cd None SAd SBd Lcd I). reflexivity.
Qed.
Lemma Forall2_in_r {A B} (P : A -> B -> Prop) l m b : Forall2 P l m -> In b m -> exists a, In a l /\ P a b.
Proof. intros F. induction F as [|x y l m H F IH]; [contradiction|]. intros [<-|I]; [exists x; split; [left; reflexivity|exact H]|]. destruct (IH I) as (a & Ia & Ha). exists a. split; [right; exact Ia|exact Ha]. Qed.
Lemma plant_total ridges np taylor points X U h nx k mx mu nu : (2 <= length points)%nat -> Forall (fun p => length p = nx) points -> (k < nx)%nat ->
  spread points k -> (forall i, (i < nx)%nat -> i <> k -> agree points i) -> wf X mx 0 nx -> wf U mu 0 nu -> 0 <= h ->
  (forall i j, (i < j < length points)%nat -> nth k (nth i points []) 0 < nth k (nth j points []) 0) -> taylor_ok np taylor points h nx nu ->
  exists W, pwa_from_plant ridges np taylor points X U h "zero_order_hold" = Ok W /\ w_nx W = nx /\ w_nu W = nu /\
    Forall2 (solves_mode taylor h nx nu) points (w_sys W) /\
    Forall2 (fun p D => (exists m, wf D m 0 (nx + nu)) /\ forall x u, length x = nx -> in_poly D (x ++ u) <-> in_poly X x /\ closest p points x /\ in_poly U u) points (w_dom W).
Proof.
  intros H2 FL Hk SP AG WX WU Hh ORD HT.
  assert (ND : NoDup points).
  { apply (NoDup_nth points []). intros i j Hi Hj E. destruct (Nat.lt_trichotomy i j) as [L|[L|L]]; [|exact L|]; [pose proof (ORD i j ltac:(lia)) as Q|pose proof (ORD j i ltac:(lia)) as Q]; rewrite E in Q; lra. }
  destruct (vor_1d ridges points (Some X) nx k H2 FL ND Hk SP AG) as (qs & cells & EV & PM & _ & F & EQ). { intros P E. injection E as <-. eauto. }
  specialize (EQ ORD). subst qs. unfold pwa_from_plant. rewrite EV. cbn [bind].
  assert (GD : exists ds, mapM (fun Xi => cartesian_product Xi U) cells = Ok ds /\ Forall2 (fun p D => (exists m, wf D m 0 (nx + nu)) /\ forall x u, length x = nx -> in_poly D (x ++ u) <-> in_poly X x /\ closest p points x /\ in_poly U u) points ds).
  { assert (G : forall pts, Forall2 (is_cell nx points (Some X)) pts cells -> exists ds, mapM (fun Xi => cartesian_product Xi U) cells = Ok ds /\ Forall2 (fun p D => (exists m, wf D m 0 (nx + nu)) /\ forall x u, length x = nx -> in_poly D (x ++ u) <-> in_poly X x /\ closest p points x /\ in_poly U u) pts ds); [|exact (G points F)].
    clear - WU. intros pts F. induction F as [|p c pts cells ((m & Wc) & Hc) F (ds & E & FD)]; [exists []; split; [reflexivity|constructor]|].
    destruct (cartesian_product_ok c U m 0 nx mu 0 nu Wc WU) as (D & E1 & WD & HD). exists (D :: ds). cbn [mapM]. rewrite E1. cbn [bind]. rewrite E. split; [reflexivity|]. constructor; [|exact FD]. split; [eauto|].
    intros x u Lx. rewrite (HD x u Lx), Hc. split.
    - intros ((_ & I & C) & IU). split; [apply I; reflexivity|auto].
    - intros (I & C & IU). split; [|exact IU]. split; [exact Lx|]. split; [|exact C]. intros P EP. injection EP as <-. exact I. }
  destruct GD as (ds & ED & FD). rewrite ED. cbn [bind].
  destruct (mapM_rel (fun x => let '(A, B, f0) := taylor x in aff_from_continuous np A B (D1 f0) h "zero_order_hold") (solves_mode taylor h nx nu) points) as (ss & ES & FS).
  { intros p Ip. specialize (HT p Ip). unfold solves_mode. destruct (taylor p) as [[A B] f0]. destruct HT as (SS & Lf & HE). destruct (aff_zoh np A B f0 nx nu h SS Lf Hh HE) as (S & E & S1 & S2 & S3). exists S. auto. }
  rewrite ES. cbn [bind]. pose proof (Forall2_len _ _ _ FS) as L1. pose proof (Forall2_len _ _ _ FD) as L2.
  assert (A1 : forall s, In s ss -> anx s = nx /\ anu s = nu). { intros s Is. destruct (Forall2_in_r _ _ _ _ FS Is) as (p & _ & ((_ & SB) & _)). split; [apply (proj1 SB)|apply (proj1 (proj2 SB))]. }
  assert (A2 : forall d, In d ds -> ncols (pA d) = (nx + nu)%nat). { intros d Id. destruct (Forall2_in_r _ _ _ _ FD Id) as (p & _ & ((m & ((_ & Q & _) & _)) & _)). exact Q. }
  unfold PieceWiseAffineSystem. rewrite map_length. replace (Nat.eqb (length ss) (length ds)) with true by (symmetry; apply Nat.eqb_eq; lia). cbn [negb].
  rewrite map_map. cbn [sys_nx]. assert (O1 : only (map (fun s => anx s) ss) = Some nx). { apply only_spec. split; [destruct ss; [cbn in *; lia|discriminate]|]. intros j Hj. apply in_map_iff in Hj. destruct Hj as (s & <- & Is). apply A1, Is. }
  rewrite map_map. cbn [sys_nu]. assert (O2 : only (map (fun s => anu s) ss) = Some nu). { apply only_spec. split; [destruct ss; [cbn in *; lia|discriminate]|]. intros j Hj. apply in_map_iff in Hj. destruct Hj as (s & <- & Is). apply A1, Is. }
  assert (O3 : only (map (fun d => ncols (pA d)) ds) = Some (nx + nu)%nat). { apply only_spec. split; [destruct ds; [cbn in *; lia|discriminate]|]. intros j Hj. apply in_map_iff in Hj. destruct Hj as (s & <- & Is). apply A2, Is. }
  rewrite O1, O2, O3, Nat.eqb_refl. cbn [negb]. rewrite (mapM_map _ (fun s => match s with Aff s => s | Lin _ => ASys (Mat 0 []) (Mat 0 []) [] end)) by (intros a Ha; apply in_map_iff in Ha; destruct Ha as (s & <- & _); reflexivity). cbn [bind].
  eexists. split; [reflexivity|]. cbn [w_nx w_nu w_sys w_dom]. rewrite map_map, map_id. auto.
Qed.
(** ** Boxes *)
Lemma with_entry_length k c v : (k < length v)%nat -> length (with_entry k c v) = length v.
Proof. intros H. unfold with_entry. rewrite app_length, firstn_length. cbn [length]. rewrite skipn_length. lia. Qed.
Lemma with_entry_nth k c v j : (k < length v)%nat -> nth j (with_entry k c v) 0 = if Nat.eqb j k then c else nth j v 0.
Proof.
  intros H. unfold with_entry. assert (L : length (firstn k v) = k) by (rewrite firstn_length; lia). destruct (Nat.eqb_spec j k) as [->|N].
  - rewrite app_nth2 by lia. rewrite L, Nat.sub_diag. reflexivity.
  - destruct (Nat.lt_ge_cases j k) as [Lt|Ge].
    + rewrite app_nth1 by lia. rewrite <- (firstn_skipn k v) at 2. rewrite app_nth1 by lia. reflexivity.
    + rewrite app_nth2 by lia. rewrite L. replace (j - k)%nat with (Datatypes.S (j - Datatypes.S k)) by lia. cbn [nth].
      rewrite <- (firstn_skipn (Datatypes.S k) v) at 2. assert (L' : length (firstn (Datatypes.S k) v) = Datatypes.S k) by (rewrite firstn_length; lia). rewrite app_nth2 by lia. rewrite L'. reflexivity.
Qed.
Lemma Rle_nth u v n : length u = n -> length v = n -> (Forall2 Rle u v <-> forall j, (j < n)%nat -> nth j u 0 <= nth j v 0).
Proof. intros Lu Lv. split; [intros F j Hj; apply (Forall2_nth _ _ _ 0 0 F); lia|]. intros H. apply (Forall2_nth' _ _ _ 0 0); [lia|]. intros i Hi. apply H. lia. Qed.
Lemma state_box nx k xlim lo hi x : (k < nx)%nat -> length xlim = nx ->
  (Forall2 Rle (with_entry k lo (vneg xlim)) x /\ Forall2 Rle x (with_entry k hi xlim)) <->
  length x = nx /\ (forall j, (j < nx)%nat -> j <> k -> - nth j xlim 0 <= nth j x 0 <= nth j xlim 0) /\ lo <= nth k x 0 <= hi.
Proof.
  intros Hk Lx. assert (L1 : length (with_entry k lo (vneg xlim)) = nx) by (rewrite with_entry_length; rewrite ?vneg_length; lia). assert (L2 : length (with_entry k hi xlim) = nx) by (rewrite with_entry_length; lia).
  assert (E1 : forall j, nth j (with_entry k lo (vneg xlim)) 0 = if Nat.eqb j k then lo else - nth j xlim 0). { intros j. rewrite with_entry_nth by (rewrite vneg_length; lia). destruct (Nat.eqb j k); [reflexivity|apply nth_vneg]. }
  assert (E2 : forall j, nth j (with_entry k hi xlim) 0 = if Nat.eqb j k then hi else nth j xlim 0) by (intros j; apply with_entry_nth; lia).
  split.
  - intros (F1 & F2). pose proof (Forall2_len _ _ _ F1) as L. assert (Lxx : length x = nx) by lia. split; [exact Lxx|]. rewrite (Rle_nth _ _ nx L1 Lxx) in F1. rewrite (Rle_nth _ _ nx Lxx L2) in F2. split.
    + intros j Hj N. specialize (F1 j Hj). specialize (F2 j Hj). rewrite E1 in F1. rewrite E2 in F2. apply Nat.eqb_neq in N. rewrite N in F1, F2. lra.
    + specialize (F1 k Hk). specialize (F2 k Hk). rewrite E1, Nat.eqb_refl in F1. rewrite E2, Nat.eqb_refl in F2. lra.
  - intros (L & H & HK). rewrite (Rle_nth _ _ nx L1 L), (Rle_nth _ _ nx L L2). split; intros j Hj; [rewrite E1|rewrite E2]; (destruct (Nat.eqb_spec j k) as [->|N]; [lra|apply H; assumption]).
Qed.
Lemma input_box c u : Forall2 Rle [- c] u /\ Forall2 Rle u [c] <-> exists v, u = [v] /\ - c <= v <= c.
Proof.
  split.
  - intros (F1 & F2). destruct u as [|v [|]]; [inversion F1| |inversion F1 as [|? ? ? ? _ F]; inversion F]. exists v. split; [reflexivity|]. inversion F1; subst. inversion F2; subst. lra.
  - intros (v & -> & H). split; constructor; try lra; constructor.
Qed.
(** ** The piecewise affine model of the notebook *)
Definition cart_setup (np : numpy) (taylor : vec -> mat * mat * vec) (nx k : nat) (xlim : vec) (ulim a b : R) (n : nat) (h : R) : Prop :=
  (k < nx)%nat /\ length xlim = nx /\ Forall (fun c => 0 <= c) xlim /\ 0 <= ulim /\ (2 <= n)%nat /\ a < b /\ / 100000000 + / 100000 * Rabs b < b - a /\ 0 <= h /\
  taylor_ok np taylor (linearization_points nx k a b n) h nx 1.
(** bounds of the state, and of coordinate k in mode i *)
Definition cart_X (nx k : nat) (xlim : vec) (lo hi : R) (x : vec) : Prop := length x = nx /\ (forall j, (j < nx)%nat -> j <> k -> - nth j xlim 0 <= nth j x 0 <= nth j xlim 0) /\ lo <= nth k x 0 <= hi.
Definition cart_lo (a b : R) (n i : nat) : R := if Nat.eqb i 0 then a - (b - a) / (INR n - 1) else a + (INR i - / 2) * ((b - a) / (INR n - 1)).
Definition cart_hi (a b : R) (n i : nat) : R := if Nat.eqb (Datatypes.S i) n then b + (b - a) / (INR n - 1) else a + (INR i + / 2) * ((b - a) / (INR n - 1)).
Definition cart_dom (nx k : nat) (xlim : vec) (ulim a b : R) (n i : nat) (x u : vec) : Prop :=
  cart_X nx k xlim (cart_lo a b n i) (cart_hi a b n i) x /\ exists v, u = [v] /\ - ulim <= v <= ulim.
Lemma cart_lo_grid a b n i : (i <> 0)%nat -> cart_lo a b n i = grid a b n i - grid_step a b n / 2.
Proof. intros H. unfold cart_lo. apply Nat.eqb_neq in H. rewrite H. fold (grid_step a b n). unfold grid. field. Qed.
Lemma cart_hi_grid a b n i : (Datatypes.S i <> n)%nat -> cart_hi a b n i = grid a b n i + grid_step a b n / 2.
Proof. intros H. unfold cart_hi. apply Nat.eqb_neq in H. rewrite H. fold (grid_step a b n). unfold grid. field. Qed.
Lemma cart_lo_low a b n i : a < b -> (2 <= n)%nat -> a - grid_step a b n <= cart_lo a b n i <= grid a b n i.
Proof.
  intros Hab Hn. pose proof (step_pos a b n Hab Hn) as SP. destruct (Nat.eq_dec i 0) as [->|N].
  - unfold cart_lo. cbn [Nat.eqb]. fold (grid_step a b n). unfold grid. cbn [INR]. lra.
  - rewrite cart_lo_grid by exact N. pose proof (grid_lt a b n 0 i Hab Hn ltac:(lia)) as G. unfold grid at 1 in G. cbn [INR] in G. lra.
Qed.
Lemma cart_hi_high a b n i : a < b -> (2 <= n)%nat -> (i < n)%nat -> grid a b n i <= cart_hi a b n i <= b + grid_step a b n.
Proof.
  intros Hab Hn Hi. pose proof (step_pos a b n Hab Hn) as SP. destruct (Nat.eq_dec (Datatypes.S i) n) as [E|N].
  - unfold cart_hi. rewrite (proj2 (Nat.eqb_eq _ _) E). fold (grid_step a b n). replace i with (n - 1)%nat by lia. rewrite grid_last by exact Hn. lra.
  - rewrite cart_hi_grid by exact N. pose proof (grid_lt a b n i (n - 1) Hab Hn ltac:(lia)) as G. rewrite grid_last in G by exact Hn. lra.
Qed.
Lemma cart_dom_closest nx k xlim ulim a b n i x u : a < b -> (2 <= n)%nat -> (k < nx)%nat -> (i < n)%nat ->
  cart_dom nx k xlim ulim a b n i x u <-> cart_X nx k xlim (a - grid_step a b n) (b + grid_step a b n) x /\ closest (vscale (grid a b n i) (unit nx k)) (linearization_points nx k a b n) x /\ exists v, u = [v] /\ - ulim <= v <= ulim.
Proof.
  intros Hab Hn Hk Hi. pose proof (step_pos a b n Hab Hn) as SP. pose proof (cart_lo_low a b n i Hab Hn) as GL. pose proof (cart_hi_high a b n i Hab Hn Hi) as GH. unfold cart_dom, cart_X. split.
  - intros ((Lx & HX & HK) & HU). split; [split; [exact Lx|]; split; [exact HX|lra]|]. split; [|exact HU]. apply grid_closest; auto. split; intros N; [rewrite cart_lo_grid in HK by exact N; lra|rewrite cart_hi_grid in HK by exact N; lra].
  - intros ((Lx & HX & HK) & HC & HU). split; [|exact HU]. split; [exact Lx|]. split; [exact HX|]. apply grid_closest in HC; auto. destruct HC as (H1 & H2). split.
    + destruct (Nat.eq_dec i 0) as [->|N]; [unfold cart_lo; cbn [Nat.eqb]; fold (grid_step a b n); lra|rewrite cart_lo_grid by exact N; auto].
    + destruct (Nat.eq_dec (Datatypes.S i) n) as [E|N]; [unfold cart_hi; rewrite (proj2 (Nat.eqb_eq _ _) E); fold (grid_step a b n); lra|rewrite cart_hi_grid by exact N; auto].
Qed.
(** some linearization point is the closest one *)
Lemma closest_exists points x : points <> [] -> exists p, In p points /\ closest p points x.
Proof.
  induction points as [|p ps IH]; [congruence|]. intros _. destruct ps as [|p' ps]; [exists p; split; [left; reflexivity|intros q [<-|[]]; lra]|].
  destruct (IH ltac:(discriminate)) as (q & Iq & Cq). destruct (Rle_dec (norm (vsub x p)) (norm (vsub x q))) as [L|L].
  - exists p. split; [left; reflexivity|]. intros r [<-|Ir]; [lra|]. specialize (Cq r Ir). lra.
  - exists q. split; [right; exact Iq|]. intros r [<-|Ir]; [lra|]. apply Cq, Ir.
Qed.
Lemma no_rows D n x : wf D 0 0 n -> length x = n -> in_poly D x.
Proof.
  intros ((WA & Wn & _) & Wb & (WC & _) & Wd) L. destruct (pb D) eqn:Eb; [|discriminate]. destruct (Polyhedron.pd D) eqn:Ed; [|discriminate]. unfold in_poly, in_set, ineq_holds, eq_holds. rewrite Eb, Ed. destruct (rows (pA D)); [|discriminate]. destruct (rows (pC D)); [|discriminate]. rewrite Wn. auto.
Qed.
(*@ Theorem C86_model : The cells of the notebook up to the PWA model, for n >= 2 equally spaced linearization angles, a Taylor approximation of the right shapes and an exact matrix exponential: they return a system with one mode per angle; over a step h, mode i moves the state as the affine differential equation of the linearization at angle i does with a constant input; its domain is the slice of the box X whose angle is within half a step of angle i (the first and the last slice are extended to the limits of X) times U. The domains are non-empty and bounded, and they cover X x U. *)
Lemma cart_model ridges np taylor nx k xlim ulim a b n h : cart_setup np taylor nx k xlim ulim a b n h ->
  exists W, cart_pole_pwa ridges np taylor nx k xlim ulim a b n h = Ok W /\ length (w_sys W) = n /\ hyb_data W nx 1 /\ hyb_domains W /\ (forall D, In D (w_dom W) -> Polyhedron.pd D = []) /\
  (forall i, (i < n)%nat ->
    (let '(A, B, f0) := taylor (vscale (a + INR i * ((b - a) / (INR n - 1))) (unit nx k)) in forall u x, length u = 1%nat -> ode_solution A B f0 u nx h x -> x h = mode_step W i (x 0) u) /\
    forall x u, length x = nx -> in_poly (nth i (w_dom W) poly0) (x ++ u) <-> cart_dom nx k xlim ulim a b n i x u) /\
  forall x v, cart_X nx k xlim (a - (b - a) / (INR n - 1)) (b + (b - a) / (INR n - 1)) x -> - ulim <= v <= ulim -> exists i, (i < n)%nat /\ in_poly (nth i (w_dom W) poly0) (x ++ [v]).
Proof.
  intros (Hk & Lx & XP & UP & Hn & Hab & SPR & Hh & HT). pose proof (step_pos a b n Hab Hn) as SP. fold (grid_step a b n). set (pts := linearization_points nx k a b n) in *.
  assert (Lp : length pts = n) by apply points_length.
  destruct (from_bounds_ok (with_entry k (a - grid_step a b n) (vneg xlim)) (with_entry k (b + grid_step a b n) xlim)) as (PX & EX & WX & IX). { rewrite !with_entry_length; rewrite ?vneg_length; lia. }
  rewrite with_entry_length in WX by (rewrite vneg_length; lia). rewrite vneg_length, Lx in WX.
  destruct (from_bounds_ok [- ulim] [ulim] eq_refl) as (PU & EU & WU & IU). cbn [length Nat.add] in WU.
  assert (SPD : spread pts k).
  { exists (vscale (grid a b n 0) (unit nx k)), (vscale (grid a b n (n - 1)) (unit nx k)). split; [apply points_in; exists 0%nat; split; [lia|reflexivity]|]. split; [apply points_in; exists (n - 1)%nat; split; [lia|reflexivity]|].
    assert (G0 : grid a b n 0 = a) by (unfold grid; cbn [INR]; ring). rewrite !point_entry, Nat.eqb_refl by exact Hk. rewrite grid_last by exact Hn. rewrite G0. split; [|exact SPR].
    intros r Ir. apply points_in in Ir. destruct Ir as (i & Hi & ->). rewrite point_entry, Nat.eqb_refl by exact Hk. pose proof (cart_hi_high a b n i Hab Hn Hi).
    split; [destruct (Nat.eq_dec i 0) as [->|N]; [lra|pose proof (grid_lt a b n 0 i Hab Hn ltac:(lia)); lra]|]. destruct (Nat.eq_dec i (n - 1)) as [->|N]; [rewrite grid_last by exact Hn; lra|]. pose proof (grid_lt a b n i (n - 1) Hab Hn ltac:(lia)) as G. rewrite grid_last in G by exact Hn. lra. }
  destruct (plant_total ridges np taylor pts PX PU h nx k (nx + nx) 2 1) as (W & EW & Wx & Wu & FS & FD).
  - lia.
  - apply Forall_forall. intros p Ip. apply points_in in Ip. destruct Ip as (i & _ & ->). rewrite vscale_length, unit_length. reflexivity.
  - exact Hk.
  - exact SPD.
  - intros i Hi N p q Ip Iq. apply points_in in Ip, Iq. destruct Ip as (i1 & _ & ->). destruct Iq as (i2 & _ & ->). rewrite !point_entry by exact Hk. apply Nat.eqb_neq in N. rewrite N. reflexivity.
  - exact WX.
  - exact WU.
  - exact Hh.
  - intros i j Hij. rewrite Lp in Hij. unfold pts. rewrite !points_nth by lia. rewrite !point_entry, Nat.eqb_refl by exact Hk. pose proof (grid_lt a b n i j Hab Hn ltac:(lia)). lra.
  - exact HT.
  - exists W. assert (EC : cart_pole_pwa ridges np taylor nx k xlim ulim a b n h = Ok W).
    { unfold cart_pole_pwa. replace (Nat.eqb n 1) with false by (symmetry; apply Nat.eqb_neq; lia). cbv zeta. fold (grid_step a b n). rewrite EX. cbn [bind]. rewrite EU. cbn [bind]. exact EW. }
    split; [exact EC|]. pose proof (Forall2_len _ _ _ FS) as LS. pose proof (Forall2_len _ _ _ FD) as LD. rewrite Lp in LS, LD. split; [lia|].
    assert (DOM : forall i, (i < n)%nat -> forall x u, length x = nx -> in_poly (nth i (w_dom W) poly0) (x ++ u) <-> cart_dom nx k xlim ulim a b n i x u).
    { intros i Hi x u Lxx. rewrite cart_dom_closest by assumption. destruct (Forall2_nth _ _ _ [] poly0 FD i ltac:(lia)) as (_ & H). rewrite (H x u Lxx), IX, IU. unfold pts at 1. rewrite points_nth by exact Hi. rewrite (state_box nx k xlim _ _ x Hk Lx). rewrite input_box. unfold cart_X. reflexivity. }
    split.
    { split; [exact Wx|]. split; [exact Wu|]. split; [split; [destruct (w_sys W); [cbn in LS; lia|discriminate]|]|split; [lia|]].
      - intros s Is. destruct (Forall2_in_r _ _ _ _ FS Is) as (p & _ & (S1 & S2 & _)). auto.
      - intros D ID. destruct (Forall2_in_r _ _ _ _ FD ID) as (p & _ & ((m & WD) & _)). eauto. }
    assert (WFD : forall D, In D (w_dom W) -> exists m, wf D m 0 (nx + 1)) by (intros D ID; destruct (Forall2_in_r _ _ _ _ FD ID) as (p & _ & (WD & _)); exact WD).
    split; [|split; [|split]].
    + intros D ID. destruct (In_nth _ _ poly0 ID) as (i & Hi & <-). assert (Hi' : (i < n)%nat) by lia. destruct (WFD _ ID) as (m & WD).
      assert (NE : in_poly (nth i (w_dom W) poly0) (vscale (grid a b n i) (unit nx k) ++ [0])).
      { apply DOM; [exact Hi'|rewrite vscale_length, unit_length; reflexivity|]. split; [|exists 0; split; [reflexivity|lra]]. split; [rewrite vscale_length, unit_length; reflexivity|]. split.
        - intros j Hj N. rewrite point_entry by exact Hk. apply Nat.eqb_neq in N. rewrite N. rewrite Forall_forall in XP. specialize (XP (nth j xlim 0) ltac:(apply nth_In; lia)). lra.
        - rewrite point_entry, Nat.eqb_refl by exact Hk. pose proof (cart_lo_low a b n i Hab Hn). pose proof (cart_hi_high a b n i Hab Hn Hi'). lra. }
      split; [eauto|]. split.
      * destruct (box_bounded (with_entry k (a - grid_step a b n) (vneg xlim) ++ [- ulim]) (with_entry k (b + grid_step a b n) xlim ++ [ulim])) as (M & _ & HM). { rewrite !app_length, !with_entry_length; rewrite ?vneg_length; cbn [length]; lia. }
        exists M. intros xu Ix. assert (Lxu : length xu = (nx + 1)%nat). { destruct Ix as (L & _). rewrite L. apply WD. }
        rewrite <- (firstn_skipn nx xu) in Ix |- *. assert (L1 : length (firstn nx xu) = nx) by (rewrite firstn_length; lia). destruct (Forall2_nth _ _ _ [] poly0 FD i ltac:(lia)) as (_ & H). apply (H _ _ L1) in Ix. destruct Ix as (B1 & _ & B2). apply IX in B1. apply IU in B2. apply HM; apply Forall2_app; tauto.
      * intros EB. assert (m = 0%nat) as -> by (rewrite <- (proj1 (proj2 WD)), EB; reflexivity). destruct WD as (WA & Wb & WC & Wd).
        assert (AA : in_poly (nth i (w_dom W) poly0) (vscale (grid a b n i) (unit nx k) ++ [ulim + 1])).
        { apply (no_rows _ (nx + 1)); [unfold wf; auto|]. rewrite app_length, vscale_length, unit_length. reflexivity. }
        apply DOM in AA; [|exact Hi'|rewrite vscale_length, unit_length; reflexivity]. destruct AA as (_ & v & E & B). injection E as <-. lra.
    + intros D ID. destruct (WFD D ID) as (m & (_ & _ & _ & Wd)). destruct (Polyhedron.pd D); [reflexivity|discriminate Wd].
    + intros i Hi. split; [|exact (DOM i Hi)]. destruct (Forall2_nth _ _ _ [] asys0 FS i ltac:(lia)) as (S1 & S2 & S3). unfold pts in S3. rewrite points_nth in S3 by exact Hi. unfold grid in S3. destruct (taylor _) as [[A B] f0]. intros u x Lu OD. rewrite (S3 u x Lu OD). unfold mode_step. rewrite !(nth_map_lt _ (w_sys W) i asys0) by lia. reflexivity.
    + intros x v HX Hv. destruct (closest_exists pts x) as (p & Ip & Cp). { intros E. rewrite E in Lp. cbn in Lp. lia. } apply points_in in Ip. destruct Ip as (i & Hi & ->). exists i. split; [exact Hi|]. apply DOM; [exact Hi|apply HX|]. apply cart_dom_closest; auto. split; [exact HX|]. split; [exact Cp|]. exists v. auto.
Qed.
(** ** The closed loop of the model *)
Lemma terminal_ext As Bs cs doms (XN XN' : vec -> Prop) nu N x us modes xs : (forall x, XN x <-> XN' x) ->
  pwa_admissible As Bs cs doms XN nu N x us modes xs <-> pwa_admissible As Bs cs doms XN' nu N x us modes xs.
Proof. intros H. unfold pwa_admissible, stage_constraints. rewrite H. tauto. Qed.
Lemma zero_box nx : exists p, from_bounds (D1 (zeros nx)) (D1 (zeros nx)) None None = Ok p /\ wf p (nx + nx) 0 nx /\ forall x, in_poly p x <-> x = zeros nx.
Proof.
  destruct (from_bounds_ok (zeros nx) (zeros nx) eq_refl) as (p & E & W & I). rewrite zeros_length in W. exists p. split; [exact E|]. split; [exact W|]. intros x. rewrite I. split.
  - intros (F1 & F2). pose proof (Forall2_len _ _ _ F1) as L. rewrite zeros_length in L. apply (nth_ext _ _ 0 0); [rewrite zeros_length; lia|]. intros i Hi. rewrite nth_zeros.
    pose proof (Forall2_nth _ _ _ 0 0 F1 i) as H1. pose proof (Forall2_nth _ _ _ 0 0 F2 i) as H2. rewrite zeros_length in H1. rewrite !nth_zeros in *. specialize (H1 ltac:(lia)). specialize (H2 ltac:(lia)). lra.
  - intros ->. split; apply (Rle_nth _ _ nx); try apply zeros_length; intros; lra.
Qed.
Lemma zero_solution A B nx nu h : shape A nx nx -> shape B nx nu -> ode_solution A B (zeros nx) (zeros nu) nx h (fun _ => zeros nx).
Proof.
  intros SA SB. split; [intros; apply zeros_length|]. intros t _ i Hi. rewrite !mv_zeros, (proj1 SA), (proj1 SB), !(vadd_zeros_r nx), nth_zeros by (rewrite ?vadd_length, ?zeros_length; lia). apply (derivable_pt_lim_const 0).
Qed.
Lemma scaled_eye_form c n v : length v = n -> dot v (mv (mscale c (eye n)) v) = c * dot v v.
Proof. intros L. rewrite mv_mscale, (mv_eye n) by exact L. apply dot_vscale_r. Qed.
Lemma scaled_eye_sym c n : tr (mscale c (eye n)) = mscale c (eye n).
Proof. rewrite EquivThms.tr_mscale, tr_eye. reflexivity. Qed.
Lemma scaled_eye_pd c n : 0 < c -> Spec.pd (mscale c (eye n)) n.
Proof.
  intros Hc. split; [apply scaled_eye_sym|]. intros v Lv NZ. rewrite mv_mscale, dot_vscale_r. apply Rmult_lt_0_compat; [exact Hc|]. apply (proj2 (pd_eye n)); assumption.
Qed.
Lemma cart_costs q r nx nu : 0 < q -> 0 < r -> hyb_costs (mscale q (eye nx)) (mscale r (eye nu)) (mscale q (eye nx)) nx nu.
Proof.
  intros Hq Hr. pose proof (shape_mscale q _ _ _ (shape_eye nx)) as SQ. pose proof (shape_mscale r _ _ _ (shape_eye nu)) as SR. pose proof (pd_psd _ _ (scaled_eye_pd q nx Hq)) as PQ. unfold hyb_costs.
  split; [exact SQ|]. split; [exact SQ|]. split; [exact SR|]. split; [exact PQ|]. split; [exact PQ|]. split; [exact (scaled_eye_pd r nu Hr)|]. split; apply scaled_eye_sym.
Qed.
(** an admissible run of the model that ends in the origin *)
Definition cart_run (W : pwa) (nx N : nat) (x : vec) (us : list vec) (modes : list nat) (xs : list vec) : Prop :=
  pwa_admissible (map aA (w_sys W)) (map aB (w_sys W)) (map ac (w_sys W)) (map in_poly (w_dom W)) (fun x => x = zeros nx) 1 N x us modes xs.
(** the origin is one of the linearization points, and an equilibrium *)
Definition cart_origin (taylor : vec -> mat * mat * vec) (nx : nat) (a b : R) (n : nat) : Prop :=
  (exists j, (j < n)%nat /\ a + INR j * ((b - a) / (INR n - 1)) = 0) /\ exists A B, taylor (zeros nx) = (A, B, zeros nx).
Lemma cart_ready ridges np taylor nx k xlim ulim a b n h W N q r : exact_np np -> cart_setup np taylor nx k xlim ulim a b n h -> cart_origin taylor nx a b n ->
  cart_pole_pwa ridges np taylor nx k xlim ulim a b n h = Ok W -> sharp_gaps W nx -> (0 < N)%nat -> 0 < q -> 0 < r ->
  exists X_N, (forall x, in_poly X_N x <-> x = zeros nx) /\ ex_loop_setup np W N (mscale q (eye nx)) (mscale r (eye 1)) (mscale q (eye nx)) X_N nx 1 (nx + nx) 0 /\
    cart_pole_controller np W N q r = ExampleController np W N (mscale q (eye nx)) (mscale r (eye 1)) (mscale q (eye nx)) X_N.
Proof.
  intros Hnp CS ((j & Hj & Ej) & (A & B & ET)) EW SG HN Hq Hr. destruct (cart_model ridges np taylor nx k xlim ulim a b n h CS) as (W' & EW' & LS & HW & HD & HE & HM & _). rewrite EW in EW'. injection EW' as <-.
  destruct (zero_box nx) as (X_N & EX & WX & IX). exists X_N. split; [exact IX|]. pose proof HW as (Wx & Wu & _ & LD & _). pose proof CS as (Hk & Lx & XP & UP & Hn & Hab & SPR & Hh & HT). split.
  - split; [exact Hnp|]. split; [|split; [exact HN|split; [apply cart_costs; assumption|]]].
    + pose proof (cart_costs q r nx 1 Hq Hr) as (SQ & SP & SR & _). unfold example_data. split; [exact HW|]. split; [exact HD|]. split; [split; [exact HE|]|].
      * destruct WX as (_ & _ & _ & Wd). destruct (Polyhedron.pd X_N); [reflexivity|discriminate Wd].
      * split; [lia|]. split; [exact SG|]. split; [exact SQ|]. split; [exact SP|]. split; [exact SR|exact WX].
    + intros x Ix. apply IX in Ix. subst x. exists j, (zeros 1). rewrite map_length, LS. split; [exact Hj|]. split; [reflexivity|]. destruct (HM j Hj) as (HM1 & HM2). rewrite Ej in HM1.
      assert (EZ : vscale 0 (unit nx k) = zeros nx). { apply (nth_ext _ _ 0 0); [rewrite vscale_length, unit_length, zeros_length; reflexivity|]. intros i _. rewrite nth_vscale, nth_zeros. ring. }
      rewrite EZ in HM1. assert (IP : In (zeros nx) (linearization_points nx k a b n)). { apply points_in. exists j. split; [exact Hj|]. unfold grid, grid_step. rewrite Ej. symmetry. exact EZ. }
      specialize (HT _ IP). rewrite ET in HM1, HT. destruct HT as ((SA & SB) & _). specialize (HM1 (zeros 1) _ eq_refl (zero_solution A B nx 1 h SA SB)). cbv beta in HM1. fold (mode_step W j (zeros nx) (zeros 1)). cbv zeta. split.
      * rewrite (nth_map_lt _ (w_dom W) j poly0) by lia. apply HM2; [apply zeros_length|]. split; [|exists 0; split; [reflexivity|lra]]. split; [apply zeros_length|]. split.
        -- intros i Hi N0. rewrite nth_zeros. rewrite Forall_forall in XP. specialize (XP (nth i xlim 0) ltac:(apply nth_In; lia)). lra.
        -- rewrite nth_zeros. pose proof (cart_lo_low a b n j Hab Hn) as GL. pose proof (cart_hi_high a b n j Hab Hn Hj) as GH. unfold grid at 1 in GL. unfold grid at 1 in GH. unfold grid_step in GL, GH. rewrite Ej in GL, GH. lra.
      * rewrite <- HM1. split; [apply IX; reflexivity|]. rewrite !mv_mscale, !mv_eye by apply zeros_length. rewrite !dot_vscale_r. assert (Z : forall m, dot (zeros m) (zeros m) = 0) by (intros m; apply dot_zeros_l). rewrite !Z. lra.
  - unfold cart_pole_controller, Controller. rewrite Wx, Wu, EX. reflexivity.
Qed.
(*@ Theorem C86_closed_loop : If moreover the origin is one of the linearization points and an equilibrium (as for the cart-pole with an odd number of angles around the upright position), q, r > 0 and the big-M constants are not within 1e-6 above zero, the controller of the notebook is built, and the loop that it closes with its own model, started from a state with a run to the origin, never fails while drake solves the programs: feedback returns an input at each step, the pairs are in the domains, and the state converges to the origin. *)
Lemma cart_closed_loop ridges np taylor nx k xlim ulim a b n h W N q r : exact_np np -> cart_setup np taylor nx k xlim ulim a b n h -> cart_origin taylor nx a b n ->
  cart_pole_pwa ridges np taylor nx k xlim ulim a b n h = Ok W -> sharp_gaps W nx -> (0 < N)%nat -> 0 < q -> 0 < r ->
  exists C, cart_pole_controller np W N q r = Ok C /\ forall drake X U M, length (X 0%nat) = nx -> answer_loop (example_feedforward drake C) W X U M ->
    (exists us modes xs, cart_run W nx N (X 0%nat) us modes xs) -> (forall t, drake_solves drake C (X t)) ->
    (forall t, example_feedback drake C (X t) = Ok (Some (U t)) /\ (M t < n)%nat /\ cart_dom nx k xlim ulim a b n (M t) (X t) (U t) /\ X (Datatypes.S t) = mode_step W (M t) (X t) (U t)) /\
    forall eps, 0 < eps -> exists T, forall t, (T <= t)%nat -> norm (X t) < eps.
Proof.
  intros Hnp CS CO EW SG HN Hq Hr. destruct (cart_ready ridges np taylor nx k xlim ulim a b n h W N q r Hnp CS CO EW SG HN Hq Hr) as (X_N & IX & HS & EC).
  destruct (cart_model ridges np taylor nx k xlim ulim a b n h CS) as (W' & EW' & LS & HW & HD & HE & HM & _). rewrite EW in EW'. injection EW' as <-.
  assert (exists C, cart_pole_controller np W N q r = Ok C) as (C & EC'). { rewrite EC. destruct (example_closed_loop np (fun _ => None) _ _ _ _ _ _ _ _ _ _ HS) as (C & E & _). eauto. }
  exists C. split; [exact EC'|]. rewrite EC in EC'. intros drake X U M Lx HL A0 DS.
  assert (A0' : exists us modes xs, pwa_run_from W X_N 1 N (X 0%nat) us modes xs). { destruct A0 as (us & modes & xs & A0). exists us, modes, xs. apply (terminal_ext _ _ _ _ _ _ 1 N (X 0%nat) us modes xs IX). exact A0. }
  split.
  - intros t. destruct (example_closed_loop np drake _ _ _ _ _ _ _ _ _ _ HS) as (C' & E & H). rewrite EC' in E. injection E as <-. destruct (H X U M t Lx HL A0' ltac:(auto)) as (V0 & _ & G). destruct (G t ltac:(lia)) as (G1 & _ & G3 & G4 & G5 & G6 & _). rewrite LS in G4. split; [exact G3|]. split; [exact G4|]. split; [|exact G6]. apply HM; assumption.
  - apply (example_convergence np drake _ _ _ _ _ _ _ _ _ _ C X U M HS EC' Lx HL A0' DS). apply scaled_eye_pd, Hq.
Qed.
(** ** The plant under a held input *)
(** the plant dx/dt = A x + B u: the input is the feedback at the sampled state, held for a time H *)
Definition held_loop (A B : mat) (nx : nat) (H : R) (feedback : vec -> res (option vec)) (X U : nat -> vec) : Prop :=
  forall t u, feedback (X t) = Ok (Some u) -> U t = u /\ exists x, ode_solution A B (zeros nx) u nx H x /\ x 0 = X t /\ x H = X (Datatypes.S t).
(*@ Theorem C86_sampled_partial : A plant dx/dt = A x + B u, whose linearizations are all exact, with the input of the controller held for the sampling time h of the model: from a state with a run to the origin the sampled states converge to the origin.
   Missing: a hold other than h, for which this is false (see C86_hold_refuted; the notebook holds the input for .1 while h is .05). The linearization error of the cart-pole is treated by C98_notebook and C98_cart, near the origin. *)
Lemma cart_sampled ridges np taylor nx k xlim ulim a b n h W N q r A B : exact_np np -> cart_setup np taylor nx k xlim ulim a b n h -> cart_origin taylor nx a b n ->
  (forall p, In p (linearization_points nx k a b n) -> taylor p = (A, B, zeros nx)) ->
  cart_pole_pwa ridges np taylor nx k xlim ulim a b n h = Ok W -> sharp_gaps W nx -> (0 < N)%nat -> 0 < q -> 0 < r ->
  exists C, cart_pole_controller np W N q r = Ok C /\ forall drake X U, length (X 0%nat) = nx -> held_loop A B nx h (example_feedback drake C) X U ->
    (exists us modes xs, cart_run W nx N (X 0%nat) us modes xs) -> (forall t, drake_solves drake C (X t)) ->
    (forall t, example_feedback drake C (X t) = Ok (Some (U t))) /\ forall eps, 0 < eps -> exists T, forall t, (T <= t)%nat -> norm (X t) < eps.
Proof.
  intros Hnp CS CO HA EW SG HN Hq Hr. destruct (cart_closed_loop ridges np taylor nx k xlim ulim a b n h W N q r Hnp CS CO EW SG HN Hq Hr) as (C & EC & HC). exists C. split; [exact EC|]. intros drake X U Lx HL A0 DS.
  destruct (cart_model ridges np taylor nx k xlim ulim a b n h CS) as (W' & EW' & LS & HW & HD & HE & HM & _). rewrite EW in EW'. injection EW' as <-.
  destruct (cart_ready ridges np taylor nx k xlim ulim a b n h W N q r Hnp CS CO EW SG HN Hq Hr) as (X_N & IX & HS & EC'). rewrite EC in EC'. symmetry in EC'.
  set (M := fun t => match example_feedforward drake C (X t) with Ok (Some (_, _, modes, _)) => nth 0 modes 0%nat | _ => 0%nat end).
  set (ok := fun t => forall us xs modes V, example_feedforward drake C (X t) = Ok (Some (us, xs, modes, V)) -> U t = nth 0 us [] /\ M t = nth 0 modes 0%nat /\ X (Datatypes.S t) = mode_step W (M t) (X t) (U t)).
  assert (K : forall t, length (X t) = nx -> ok t /\ forall us xs modes V, example_feedforward drake C (X t) = Ok (Some (us, xs, modes, V)) -> length (X (Datatypes.S t)) = nx).
  { intros t Lt. assert (G : forall us xs modes V, example_feedforward drake C (X t) = Ok (Some (us, xs, modes, V)) -> U t = nth 0 us [] /\ M t = nth 0 modes 0%nat /\ X (Datatypes.S t) = mode_step W (M t) (X t) (U t) /\ length (X (Datatypes.S t)) = nx).
    { intros us xs modes V E. destruct (example_right np drake _ _ _ _ _ _ _ _ _ _ C (X t) HS EC' Lt (DS t)) as (RA & FB). specialize (FB _ _ _ _ E). destruct (HL t _ FB) as (EU & x & OD & X0 & XH).
      destruct RA as [(us1 & xs1 & modes1 & E1 & (RN & _))|(E1 & _)]; [|rewrite E1 in E; discriminate E]. rewrite E in E1. injection E1 as <- <- <- _. destruct RN as (L1 & L2 & L3 & L4 & _).
      assert (EM : M t = nth 0 modes 0%nat) by (unfold M; rewrite E; reflexivity). assert (Hm : (M t < n)%nat) by (rewrite EM, <- LS, <- (map_length aA); apply L4, nth_In; lia).
      assert (Lu : length (nth 0 us []) = 1%nat) by (apply Forall_len_nth; [exact L2|lia]). split; [exact EU|]. split; [exact EM|]. split; [|rewrite <- XH; apply OD].
      destruct (HM (M t) Hm) as (HM1 & _). rewrite HA in HM1 by (apply points_in; exists (M t); split; [exact Hm|reflexivity]). rewrite <- XH, EU, (HM1 _ x Lu OD), X0. reflexivity. }
    split; [intros us xs modes V E; destruct (G _ _ _ _ E) as (G1 & G2 & G3 & _); auto|]. intros us xs modes V E. apply (G _ _ _ _ E). }
  assert (LX : forall t, length (X t) = nx).
  { intros t. assert (Q : forall s, (s <= t)%nat -> length (X s) = nx /\ exists us modes xs, pwa_run_from W X_N 1 N (X s) us modes xs); [|apply (Q t (Nat.le_refl t))].
    induction s as [|s IH]; intros Hs; [split; [exact Lx|]; destruct A0 as (us & modes & xs & A0); exists us, modes, xs; apply (terminal_ext _ _ _ _ _ _ 1 N (X 0%nat) us modes xs IX); exact A0|].
    destruct (IH ltac:(lia)) as (Ls & (us & modes & xs & R)). destruct (example_right np drake _ _ _ _ _ _ _ _ _ _ C (X s) HS EC' Ls (DS s)) as (RA & FB).
    pose proof HS as (_ & _ & _ & HCo & TI). destruct RA as [(us1 & xs1 & modes1 & E1 & RN)|(_ & NR)]; [|elim (NR _ _ _ R)].
    destruct (K s Ls) as (OK & LN). split; [exact (LN _ _ _ _ E1)|]. destruct (OK _ _ _ _ E1) as (EU & EM & EX).
    destruct (answer_decrease (example_feedforward drake C) W N _ _ _ X_N nx 1 HW HN HCo TI (X s) us1 xs1 modes1 _ Ls (or_introl (ex_intro _ us1 (ex_intro _ xs1 (ex_intro _ modes1 (conj E1 RN))))) E1) as (_ & _ & _ & _ & _ & _ & _ & R' & _).
    rewrite <- EU, <- EM, <- EX in R'. exact R'. }
  assert (AL : answer_loop (example_feedforward drake C) W X U M) by (intros t; apply (K t (LX t))).
  destruct (HC drake X U M Lx AL A0 DS) as (H1 & H2). split; [intros t; apply H1|exact H2].
Qed.
(** ** A plant for which the hold of the notebook fails: dx/dt = u, one step of horizon *)
Ltac polys := repeat match goal with |- Ok _ = Ok _ => apply f_equal | |- Poly _ _ _ _ _ _ _ _ _ = Poly _ _ _ _ _ _ _ _ _ => f_equal | |- Mat _ _ = Mat _ _ => f_equal | |- _ :: _ = _ :: _ => apply f_equal2 | |- [] = [] => reflexivity | |- @eq nat _ _ => reflexivity | |- @eq R _ _ => lra end.
Lemma box1 lo hi : from_bounds (D1 [lo]) (D1 [hi]) None None = Ok (VorThms.seg lo hi).
Proof. vm_compute. polys. Qed.
Definition row1 (c b : R) : poly := Poly (Mat 1 [[c]]) [b] (Mat 1 []) [] None None None None None.
Lemma cell1 p t s d : t = p + s * d -> s = 1 \/ s = -1 -> 1 <= d -> cell_of [p] [[t]] = Ok (row1 s (s * ((p + t) / 2))).
Proof.
  intros -> Hs Hd. unfold cell_of. cbn. unfold normalize, normalize_with, normalize_lhs, normalize_rhs, row1. cbn. rewrite !VorThms.norm1. 
  assert (A : Rabs (p + s * d - p) = d). { replace (p + s * d - p) with (s * d) by ring. destruct Hs as [->| ->]; [rewrite Rabs_pos_eq; lra|rewrite Rabs_left; lra]. }
  rewrite A. replace (Rltb tol7 d) with true by (symmetry; apply Rltb_true; unfold tol7; lra). cbn. polys.
  - field. lra.
  - field. lra.
Qed.
Lemma cons_cell s c lo hi : constrained_cell 1 [0%nat] (Some (VorThms.seg lo hi)) (row1 s c) = Ok (Poly (Mat 1 [[s]; [-1]; [1]]) [c; - lo; hi] (Mat 1 []) [] None None None None None).
Proof. vm_compute. polys. Qed.
Lemma cart2 c1 c2 c3 s lo hi : cartesian_product (Poly (Mat 1 [[s]; [-1]; [1]]) [c1; c2; c3] (Mat 1 []) [] None None None None None) (VorThms.seg lo hi) = 
  Ok (Poly (Mat 2 [[s; 0]; [-1; 0]; [1; 0]; [0; -1]; [0; 1]]) [c1; c2; c3; - lo; hi] (Mat 2 []) [] None None None None None).
Proof. vm_compute. polys. Qed.
Lemma voronoi2 ridges lo hi : constrained_voronoi ridges [[0]; [2]] (Some (VorThms.seg lo hi)) =
  Ok [Poly (Mat 1 [[1]; [-1]; [1]]) [1; - lo; hi] (Mat 1 []) [] None None None None None; Poly (Mat 1 [[-1]; [-1]; [1]]) [-1; - lo; hi] (Mat 1 []) [] None None None None None].
Proof.
  rewrite (constrained_voronoi_eq _ _ _ 1) by (discriminate || (repeat constructor)).
  rewrite (filter_single _ 0 1); [|lia|apply spread_spread, spread2; cbn; rewrite ?Rabs_pos_eq; lra|intros; lia].
  unfold voronoi_1d. cbn [length Nat.eqb map lower nth]. replace (sort1 [[0]; [2]]) with [[0]; [2]] by (symmetry; apply sort1_id; repeat constructor; cbn; lra).
  cbn [length seq mapM neighbours Nat.ltb Nat.leb Nat.sub Nat.add nth app].
  rewrite (cell1 0 2 1 2), (cell1 2 0 (-1) 2) by lra. cbn [bind mapM]. rewrite !cons_cell. cbn [bind]. polys.
Qed.
Definition int_taylor (p : vec) : mat * mat * vec := (Mat 1 [[0]], Mat 1 [[1]], [0]).
Definition int_dom (s c : R) : poly := Poly (Mat 2 [[s; 0]; [-1; 0]; [1; 0]; [0; -1]; [0; 1]]) [c; 2; 4; 100; 100] (Mat 2 []) [] None None None None None.
Lemma int_solution u H x : 0 < H -> ode_solution (Mat 1 [[0]]) (Mat 1 [[1]]) [0] [u] 1 H x -> x H = [nth 0 (x 0) 0 + u * H].
Proof.
  intros HH (Lx & D). destruct (MVT_cor2 (fun s => nth 0 (x s) 0) (fun _ => u) 0 H HH) as (c & E & _).
  - intros c Hc. specialize (D c Hc 0%nat ltac:(lia)). specialize (Lx c). destruct (x c) as [|xc [|]]; try discriminate Lx. cbn in D. replace (0 * xc + 0 + (1 * u + 0) + 0) with u in D by ring. exact D.
  - specialize (Lx H). destruct (x H) as [|xH [|]] eqn:EH; try discriminate Lx. cbn [nth] in E. f_equal. cbn. lra.
Qed.
Lemma int_flow u x0 H : ode_solution (Mat 1 [[0]]) (Mat 1 [[1]]) [0] [u] 1 H (fun t => [x0 + u * t]).
Proof.
  split; [reflexivity|]. intros t _ [|i] Hi; [|lia]. cbn. replace (0 * (x0 + u * t) + 0 + (1 * u + 0) + 0) with (0 + (0 * t + u * 1)) by ring.
  apply (derivable_pt_lim_plus (fun _ => x0) (fun s => u * s)); [apply derivable_pt_lim_const|]. apply (derivable_pt_lim_mult (fun _ => u) (fun s => s)); [apply derivable_pt_lim_const|apply derivable_pt_lim_id].
Qed.
Lemma int_hold u x0 x1 H : x1 = x0 + u * H -> exists x, ode_solution (Mat 1 [[0]]) (Mat 1 [[1]]) (zeros 1) [u] 1 H x /\ x 0 = [x0] /\ x H = [x1].
Proof. intros ->. exists (fun t => [x0 + u * t]). split; [apply int_flow|]. split; [f_equal; ring|reflexivity]. Qed.
Definition expm_exact (np : numpy) : Prop := forall M n, shape M n n -> is_expm M (np_expm np M) n.
Lemma int_setup np : expm_exact np -> cart_setup np int_taylor 1 0 [0] 100 0 2 2 (/ 20).
Proof.
  intros HE. unfold cart_setup. split; [lia|]. split; [reflexivity|]. split; [repeat constructor; lra|]. split; [lra|]. split; [lia|]. split; [lra|]. split; [rewrite Rabs_pos_eq; lra|]. split; [lra|].
  intros p _. cbn. assert (SS : forall c, shape (Mat 1 [[c]]) 1 1) by (intros c; repeat split; repeat constructor). split; [split; apply SS|]. split; [reflexivity|]. apply HE, shape_mscale. apply (zoh_shape _ _ _ 1 1); auto.
Qed.
Lemma int_pwa ridges np : expm_exact np -> exists W, cart_pole_pwa ridges np int_taylor 1 0 [0] 100 0 2 2 (/ 20) = Ok W /\ w_dom W = [int_dom 1 1; int_dom (-1) (-1)] /\
  hyb_data W 1 1 /\ length (w_sys W) = 2%nat /\ forall i x u, (i < 2)%nat -> mode_step W i [x] [u] = [x + u / 20].
Proof.
  intros HE. destruct (cart_model ridges np int_taylor 1 0 [0] 100 0 2 2 (/ 20) (int_setup np HE)) as (W & EW & LS & HW & _ & _ & HM & _). exists W. split; [exact EW|]. split; [|split; [exact HW|split; [exact LS|]]].
  - unfold cart_pole_pwa in EW. cbn [Nat.eqb with_entry firstn skipn app vneg map] in EW. rewrite !box1 in EW. cbn [bind] in EW.
    replace (linearization_points 1 0 0 2 2) with [[0]; [2]] in EW by (unfold linearization_points, linspace; cbn; polys).
    unfold pwa_from_plant in EW. rewrite voronoi2 in EW. cbn [bind mapM] in EW. rewrite !cart2 in EW. cbn [bind] in EW.
    match type of EW with bind ?e _ = _ => destruct e as [ss|]; [|discriminate EW] end. cbn [bind] in EW. unfold PieceWiseAffineSystem in EW. destruct (negb _); [discriminate EW|]. destruct (only _); [|discriminate EW]. destruct (only _); [|discriminate EW]. destruct (only _); [|discriminate EW]. destruct (negb _); [discriminate EW|]. match type of EW with bind ?e _ = _ => destruct e as [ss'|]; [|discriminate EW] end. cbn [bind] in EW. injection EW as <-. cbn [w_dom]. unfold int_dom. cbn [INR]. polys.
  - intros i x u Hi. destruct (HM i Hi) as (HM1 & _). cbn [int_taylor] in HM1. specialize (HM1 [u] _ eq_refl (int_flow u x (/ 20))). cbv beta in HM1. replace (x + u * 0) with x in HM1 by ring. rewrite <- HM1. f_equal.
Qed.
Lemma in_int_dom s c x u : in_poly (int_dom s c) [x; u] <-> s * x <= c /\ -2 <= x <= 4 /\ -100 <= u <= 100.
Proof.
  split.
  - intros (_ & H & _). unfold ineq_holds in H. cbn in H. repeat match goal with H : Forall2 _ (_ :: _) _ |- _ => inversion H; clear H; subst | H : Forall2 _ [] _ |- _ => inversion H; clear H; subst end. cbn in *. lra.
  - intros H. split; [reflexivity|]. split; [|constructor]. unfold ineq_holds. cbn. repeat (apply Forall2_cons; [cbn; lra|]). constructor.
Qed.
Lemma int_gaps W : w_dom W = [int_dom 1 1; int_dom (-1) (-1)] -> hyb_data W 1 1 -> length (w_sys W) = 2%nat -> (forall i x u, (i < 2)%nat -> mode_step W i [x] [u] = [x + u / 20]) -> sharp_gaps W 1.
Proof.
  intros ED HW LS HM i j Hi Hj v. rewrite LS in Hi, Hj.
  assert (ND : forall j xu, (j < 2)%nat -> in_poly (dom_at W j) xu -> exists x u, xu = [x; u]). { clear - ED. intros j xu Hj I. unfold dom_at in I. rewrite ED in I. assert (L : length xu = 2%nat) by (destruct j as [|[|]]; [| |lia]; apply I). destruct xu as [|x [|u [|]]]; try discriminate L. eauto. }
  assert (FE : forall i x u, (i < 2)%nat -> f_at W 1 i [x; u] = [x + u / 20]). { clear - HM LS. intros i x u Hi. rewrite <- (HM i x u Hi). unfold mode_step. rewrite (f_step W 1 i [x] [u]) by (reflexivity || lia). reflexivity. }
  assert (DE : forall (g : vec -> R), (forall x u, g [x; u] = 0) -> greatest (in_poly (dom_at W j)) g v -> v <= 0 \/ tol6 <= v). { intros g Hg ((xu & Ix & <-) & _). destruct (ND j xu Hj Ix) as (x & u & ->). rewrite Hg. lra. }
  split; [|split; intros r Hr; apply DE; intros x u; rewrite !FE by assumption; lra].
  intros r Hr ((xu & Ix & E) & MX). destruct (ND j xu Hj Ix) as (x & u & ->). unfold dom_at in *. rewrite ED in *. unfold tol6.
  destruct j as [|[|]]; [| |lia]; cbn [nth] in Ix, MX; apply in_int_dom in Ix.
  - pose proof (MX [-2; -100] ltac:(apply in_int_dom; lra)) as M1. pose proof (MX [1; 100] ltac:(apply in_int_dom; lra)) as M2. clear MX.
    destruct i as [|[|]]; [| |lia]; cbn in Hr; (destruct r as [|[|[|[|[|]]]]]; [..|lia]); cbn in E, M1, M2; first [left; lra|right; lra].
  - pose proof (MX [1; -100] ltac:(apply in_int_dom; lra)) as M1. pose proof (MX [4; 100] ltac:(apply in_int_dom; lra)) as M2. clear MX.
    destruct i as [|[|]]; [| |lia]; cbn in Hr; (destruct r as [|[|[|[|[|]]]]]; [..|lia]); cbn in E, M1, M2; first [left; lra|right; lra].
Qed.
Lemma int_run W b : w_dom W = [int_dom 1 1; int_dom (-1) (-1)] -> length (w_sys W) = 2%nat -> (forall i x u, (i < 2)%nat -> mode_step W i [x] [u] = [x + u / 20]) -> -1 <= b <= 1 ->
  cart_run W 1 1 [b] [[- 20 * b]] [0%nat] [[b]; [0]].
Proof.
  intros ED LS HM Hb. split; [reflexivity|]. split; [repeat constructor|]. split; [reflexivity|]. split; [intros m [<-|[]]; rewrite map_length, LS; lia|]. split.
  - split; [reflexivity|]. split; [reflexivity|]. intros [|t] Ht; [|cbn in Ht; lia]. cbn [nth]. fold (mode_step W 0 [b] [- 20 * b]). rewrite HM by lia. f_equal. lra.
  - split; [|reflexivity]. intros [|t] Ht; [|cbn in Ht; lia]. cbn [nth]. rewrite ED. cbn [map nth app]. apply in_int_dom. lra.
Qed.
Lemma int_run_inv W b us modes xs : length (w_sys W) = 2%nat -> (forall i x u, (i < 2)%nat -> mode_step W i [x] [u] = [x + u / 20]) -> cart_run W 1 1 [b] us modes xs -> us = [[- 20 * b]] /\ xs = [[b]; [0]].
Proof.
  intros LS HM (A1 & A2 & A3 & A4 & (A5 & A6 & A7) & (A8 & A9)). destruct us as [|u [|]]; try discriminate. destruct u as [|u [|]]; try (inversion A2; discriminate). destruct modes as [|m [|]]; try discriminate. specialize (A4 m (or_introl eq_refl)). rewrite map_length, LS in A4.
  destruct xs as [|x0 [|x1 [|]]]; try discriminate. cbn [nth] in A6. subst x0. specialize (A7 0%nat ltac:(cbn; lia)). cbn [nth] in A7. fold (mode_step W m [b] [u]) in A7. rewrite HM in A7 by exact A4. cbn [length nth] in A9. rewrite A9 in A7. injection A7 as E. split; [do 2 f_equal; lra|]. rewrite A9. reflexivity.
Qed.
(*@ Theorem C86_hold_refuted : The plant dx/dt = u with linearization points 0 and 2, h = 1/20, one step of horizon and q = r = 1/100 meets all the hypotheses of C86_sampled_partial, but with the input held for 1/10, as in the notebook, the sampled states from 1/2 are 1/2, -1/2, 1/2, -1/2, ... whatever exact solver drake uses. *)
Lemma hold_refuted ridges np : exact_np np -> expm_exact np -> exists W C, cart_setup np int_taylor 1 0 [0] 100 0 2 2 (/ 20) /\ cart_origin int_taylor 1 0 2 2 /\ (forall p, int_taylor p = (Mat 1 [[0]], Mat 1 [[1]], zeros 1)) /\
  cart_pole_pwa ridges np int_taylor 1 0 [0] 100 0 2 2 (/ 20) = Ok W /\ sharp_gaps W 1 /\ cart_pole_controller np W 1 (/ 100) (/ 100) = Ok C /\ (exists us modes xs, cart_run W 1 1 [/ 2] us modes xs) /\
  forall drake X U, X 0%nat = [/ 2] -> held_loop (Mat 1 [[0]]) (Mat 1 [[1]]) 1 (/ 10) (example_feedback drake C) X U -> (forall t, drake_solves drake C (X t)) ->
    forall t, X t = [(-1) ^ t / 2] /\ example_feedback drake C (X t) = Ok (Some (U t)).
Proof.
  intros Hnp HE. destruct (int_pwa ridges np HE) as (W & EW & ED & HW & LS & HM). pose proof (int_gaps W ED HW LS HM) as SG. pose proof (int_setup np HE) as CS.
  assert (CO : cart_origin int_taylor 1 0 2 2) by (split; [exists 0%nat; split; [lia|cbn; lra]|eexists _, _; reflexivity]).
  destruct (cart_ready ridges np _ _ _ _ _ _ _ _ _ W 1 (/ 100) (/ 100) Hnp CS CO EW SG ltac:(lia) ltac:(lra) ltac:(lra)) as (X_N & IX & HS & EC).
  destruct (cart_closed_loop ridges np _ _ _ _ _ _ _ _ _ W 1 (/ 100) (/ 100) Hnp CS CO EW SG ltac:(lia) ltac:(lra) ltac:(lra)) as (C & EC' & _). exists W, C.
  split; [exact CS|]. split; [exact CO|]. split; [reflexivity|]. split; [exact EW|]. split; [exact SG|]. split; [exact EC'|]. split; [eexists _, _, _; apply (int_run W (/ 2) ED LS HM); lra|].
  intros drake X U X0 HL DS. rewrite EC in EC'. 
  assert (FB : forall t b, X t = [b] -> -1 <= b <= 1 -> example_feedback drake C (X t) = Ok (Some [- 20 * b])).
  { intros t b Eb Hb. pose proof (DS t) as Dt. rewrite Eb in Dt |- *. destruct (example_right np drake _ _ _ _ _ _ _ _ _ _ C [b] HS EC' eq_refl Dt) as (RA & FB).
    pose proof (int_run W b ED LS HM Hb) as RN. apply (terminal_ext _ _ _ _ _ _ _ _ _ _ _ _ IX) in RN.
    destruct RA as [(us1 & xs1 & modes1 & E1 & (R1 & _))|(_ & NR)]; [|elim (NR _ _ _ RN)]. rewrite (FB _ _ _ _ E1). apply (terminal_ext _ _ _ _ _ _ _ _ _ _ _ _ IX) in R1. rewrite (proj1 (int_run_inv W b us1 modes1 xs1 LS HM R1)). reflexivity. }
  assert (PW : forall t, (-1) ^ t = 1 \/ (-1) ^ t = -1) by (induction t as [|t [IH|IH]]; cbn [pow]; [left; reflexivity|right; rewrite IH; ring|left; rewrite IH; ring]).
  assert (G : forall t, X t = [(-1) ^ t / 2]).
  { induction t as [|t IH]; [rewrite X0; cbn; f_equal; lra|]. assert (B : -1 <= (-1) ^ t / 2 <= 1) by (destruct (PW t) as [->| ->]; lra). destruct (HL t _ (FB t _ IH B)) as (_ & x & OD & E0 & EH). rewrite <- EH, (int_solution _ (/ 10) x ltac:(lra) OD), E0, IH. cbn [nth pow]. f_equal. lra. }
  intros t. split; [apply G|]. assert (B : -1 <= (-1) ^ t / 2 <= 1) by (destruct (PW t) as [->| ->]; lra). rewrite (FB t _ (G t) B). destruct (HL t _ (FB t _ (G t) B)) as (-> & _). reflexivity.
Qed.
(** a solver of the programs of this example *)
Definition int_drake (p : dprog) : option (dvar -> R) :=
  match d_con p with
  | DEq _ b :: _ => Some (assign [[- 20 * b]] [0%nat] [[b]; [0]])
  | _ => None
  end.
Lemma int_drake_ok np W X_N C b : exact_np np -> w_dom W = [int_dom 1 1; int_dom (-1) (-1)] -> length (w_sys W) = 2%nat -> (forall i x u, (i < 2)%nat -> mode_step W i [x] [u] = [x + u / 20]) -> (forall x, in_poly X_N x <-> x = zeros 1) ->
  ex_loop_setup np W 1 (mscale (/ 100) (eye 1)) (mscale (/ 100) (eye 1)) (mscale (/ 100) (eye 1)) X_N 1 1 2 0 ->
  ExampleController np W 1 (mscale (/ 100) (eye 1)) (mscale (/ 100) (eye 1)) (mscale (/ 100) (eye 1)) X_N = Ok C -> -1 <= b <= 1 -> drake_solves int_drake C [b].
Proof.
  intros Hnp ED LS HM IX (_ & HE & _) EC Hb p Ep. pose proof HE as (HW & _).
  destruct (built np W 1 _ _ _ X_N 1 1 2 0 Hnp HE) as (prog & EC' & HB). rewrite EC in EC'. injection EC' as ->. destruct (HB [b] eq_refl) as (p' & Ep' & HF). rewrite Ep in Ep'. injection Ep' as <-.
  assert (E : int_drake p = Some (assign [[- 20 * b]] [0%nat] [[b]; [0]])). { unfold set_initial_condition in Ep. cbn [ec_S] in Ep. rewrite (proj1 HW) in Ep. cbn in Ep. injection Ep as <-. reflexivity. }
  rewrite E. cbn [drake_ok]. pose proof (int_run W b ED LS HM Hb) as RN. apply (terminal_ext _ _ _ _ _ _ _ _ _ _ _ _ IX) in RN.
  destruct (run_to W X_N 1 1 1 [b] _ _ _ HW eq_refl RN) as (R1 & R2 & R3 & R4 & R5). split.
  - apply HF. auto.
  - intros a' Fa'. apply HF in Fa'. destruct Fa' as (F1 & F2 & F3). rewrite (proj2 (HF _)), (proj2 (HF a')), !cost_run, R4, R5. pose proof (proj1 (run_from W X_N 1 1 1 a' HW F2 F3)) as RN'. rewrite F1 in RN'. apply (terminal_ext _ _ _ _ _ _ _ _ _ _ _ _ IX) in RN'.
    destruct (int_run_inv W b _ _ _ LS HM RN') as (-> & ->). lra.
Qed.
(** the linearizations of a cart-pole at an angle theta (masses, length and gravity 1) without its higher order terms *)
Definition pole_taylor (p : vec) : mat * mat * vec :=
  (Mat 4 [[0; 0; 1; 0]; [0; 0; 0; 1]; [0; cos (nth 1 p 0); 0; 0]; [0; 2 * cos (nth 1 p 0); 0; 0]], Mat 1 [[0]; [0]; [1]; [1]], [0; 0; sin (nth 1 p 0) - nth 1 p 0 * cos (nth 1 p 0); 2 * (sin (nth 1 p 0) - nth 1 p 0 * cos (nth 1 p 0))]).
(*@ Example C86_example : The numbers of the notebook (angles -0.3 pi, 0, 0.3 pi, h = 1/20) with linearizations of a cart-pole meet the hypotheses of C86_model, and those on the origin. The plant dx/dt = u of C86_hold_refuted meets those of C86_closed_loop and C86_sampled_partial, with a solver for the programs of all the states, from 1/2: with the input held for 1/20 the states are 1/2, 0, 0, ..., with the input held for 1/10 they are 1/2, -1/2, 1/2, ... *)
Lemma cart_example ridges np : exact_np np -> expm_exact np ->
  (cart_setup np pole_taylor 4 1 [3; 0; 10; 10] 100 (- (PI * (3 / 10))) (PI * (3 / 10)) 3 (/ 20) /\ cart_origin pole_taylor 4 (- (PI * (3 / 10))) (PI * (3 / 10)) 3) /\
  exists W C, cart_pole_pwa ridges np int_taylor 1 0 [0] 100 0 2 2 (/ 20) = Ok W /\ cart_pole_controller np W 1 (/ 100) (/ 100) = Ok C /\
    (exists X U, X 0%nat = [/ 2] /\ held_loop (Mat 1 [[0]]) (Mat 1 [[1]]) 1 (/ 20) (example_feedback int_drake C) X U /\ (forall t, drake_solves int_drake C (X t)) /\ X 1%nat = [0] /\ answer_loop (example_feedforward int_drake C) W X U (fun _ => 0%nat)) /\
    exists X U, X 0%nat = [/ 2] /\ held_loop (Mat 1 [[0]]) (Mat 1 [[1]]) 1 (/ 10) (example_feedback int_drake C) X U /\ (forall t, drake_solves int_drake C (X t)) /\ X 1%nat = [- / 2].
Proof.
  intros Hnp HE. split.
  - assert (P3 : 3 < PI) by (pose proof PI2_3_2; lra). split.
    + unfold cart_setup. split; [lia|]. split; [reflexivity|]. split; [repeat constructor; lra|]. split; [lra|]. split; [lia|]. split; [lra|]. split; [rewrite Rabs_pos_eq; lra|]. split; [lra|].
      intros p _. cbn [pole_taylor]. assert (SA : forall c d, shape (Mat 4 [[0; 0; 1; 0]; [0; 0; 0; 1]; [0; c; 0; 0]; [0; d; 0; 0]]) 4 4) by (intros c d; repeat split; repeat constructor). assert (SB : shape (Mat 1 [[0]; [0]; [1]; [1]]) 4 1) by (repeat split; repeat constructor).
      split; [split; [apply SA|exact SB]|]. split; [reflexivity|]. apply HE, shape_mscale. apply (zoh_shape _ _ _ 4 1); auto.
    + split; [exists 1%nat; split; [lia|]|].
      * replace (INR 3) with 3 by (cbn [INR]; lra). replace (INR 1) with 1 by reflexivity. field.
      * eexists _, _. unfold pole_taylor. change (nth 1 (zeros 4) 0) with 0. replace (sin 0 - 0 * cos 0) with 0 by (rewrite sin_0; ring). rewrite Rmult_0_r. reflexivity.
  - destruct (int_pwa ridges np HE) as (W & EW & ED & HW & LS & HM). pose proof (int_gaps W ED HW LS HM) as SG. pose proof (int_setup np HE) as CS.
    assert (CO : cart_origin int_taylor 1 0 2 2) by (split; [exists 0%nat; split; [lia|cbn; lra]|eexists _, _; reflexivity]).
    destruct (cart_ready ridges np _ _ _ _ _ _ _ _ _ W 1 (/ 100) (/ 100) Hnp CS CO EW SG ltac:(lia) ltac:(lra) ltac:(lra)) as (X_N & IX & HS & EC).
    destruct (cart_closed_loop ridges np _ _ _ _ _ _ _ _ _ W 1 (/ 100) (/ 100) Hnp CS CO EW SG ltac:(lia) ltac:(lra) ltac:(lra)) as (C & EC' & _). exists W, C. split; [exact EW|]. split; [exact EC'|]. rewrite EC in EC'.
    assert (DS : forall b, -1 <= b <= 1 -> drake_solves int_drake C [b]) by (intros b Hb; exact (int_drake_ok np W X_N C b Hnp ED LS HM IX HS EC' Hb)).
    assert (FB : forall b u, -1 <= b <= 1 -> example_feedback int_drake C [b] = Ok (Some u) -> u = [- 20 * b]).
    { intros b u Hb E. destruct (example_right np int_drake _ _ _ _ _ _ _ _ _ _ C [b] HS EC' eq_refl (DS b Hb)) as (RA & FB). pose proof (int_run W b ED LS HM Hb) as RN. apply (terminal_ext _ _ _ _ _ _ _ _ _ _ _ _ IX) in RN.
      destruct RA as [(us1 & xs1 & modes1 & E1 & (R1 & _))|(_ & NR)]; [|elim (NR _ _ _ RN)]. rewrite (FB _ _ _ _ E1) in E. injection E as <-. apply (terminal_ext _ _ _ _ _ _ _ _ _ _ _ _ IX) in R1. rewrite (proj1 (int_run_inv W b us1 modes1 xs1 LS HM R1)). reflexivity. }
    assert (FF : forall b us xs modes V, -1 <= b <= 1 -> example_feedforward int_drake C [b] = Ok (Some (us, xs, modes, V)) -> us = [[- 20 * b]] /\ modes = [0%nat]).
    { intros b us xs modes V Hb E. pose proof (DS b Hb) as Dk. destruct (built np W 1 _ _ _ X_N 1 1 2 0 Hnp (proj1 (proj2 HS))) as (prog & EC2 & HB). rewrite EC' in EC2. injection EC2 as ->. destruct (HB [b] eq_refl) as (p & Ep & _).
      assert (EI : int_drake p = Some (assign [[- 20 * b]] [0%nat] [[b]; [0]])). { unfold set_initial_condition in Ep. cbn [ec_S] in Ep. rewrite (proj1 HW) in Ep. cbn in Ep. injection Ep as <-. reflexivity. }
      unfold example_feedforward in E. rewrite Ep in E. cbn [bind ec_S ec_N] in E. rewrite EI, (proj1 HW), (proj1 (proj2 HW)), LS in E. cbn -[Rltb] in E. replace (Rltb 1 0) with false in E by (symmetry; apply Rltb_false; lra). cbn in E. injection E as <- <- <- _. auto. }
    split.
    + exists (fun t => [match t with 0%nat => / 2 | _ => 0 end]), (fun t => [match t with 0%nat => -10 | _ => 0 end]). split; [reflexivity|].
      assert (B : forall t : nat, -1 <= match t with 0%nat => / 2 | _ => 0 end <= 1) by (intros [|t]; lra). split; [|split; [intros t; apply DS, B|split; [reflexivity|]]].
      * intros t u E. apply FB in E; [|apply B]. subst u. split; [destruct t; f_equal; lra|]. apply int_hold. destruct t; lra.
      * intros t us xs modes V E. apply FF in E; [|apply B]. destruct E as (-> & ->). cbn [nth]. split; [destruct t; f_equal; lra|]. split; [reflexivity|]. rewrite HM by lia. destruct t; f_equal; lra.
    + exists (fun t => [(-1) ^ t / 2]), (fun t => [- 20 * ((-1) ^ t / 2)]). assert (B : forall t, -1 <= (-1) ^ t / 2 <= 1). { intros t. assert (PW : (-1) ^ t = 1 \/ (-1) ^ t = -1) by (induction t as [|t [IH|IH]]; cbn [pow]; [left; reflexivity|right; rewrite IH; ring|left; rewrite IH; ring]). destruct PW as [->| ->]; lra. }
      split; [cbn; f_equal; lra|]. split; [|split; [intros t; apply DS, B|cbn; f_equal; lra]].
      intros t u E. apply FB in E; [|apply B]. subst u. split; [reflexivity|]. apply int_hold. cbn [pow]. lra.
Qed.
(*@ Example C86_library_example : There is an exact library with an exact matrix exponential. *)
Lemma cart_library : exists np, exact_np np /\ expm_exact np.
Proof. exists np_exp. split; [|intros M n SM; apply expm0_ok, SM]. unfold exact_np. repeat match goal with |- _ /\ _ => split end; [apply exact_nnls_ok|apply exact_pinv_ok|apply exact_chol_ok|apply exact_inv_ok|apply exact_solve_ok|apply exact_svd_ok]. Qed.
