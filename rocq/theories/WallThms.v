(** * WallThms: the systems of the hybrid MPC notebooks (C91), proofs *)
From Coq Require Import ZArith String Classical.
From Verif Require DareThms ContThms SampThms.
From Verif Require Import Arr ArrFacts Spec SpecGeom SpecMpc SpecProg SpecLoop Numpy Pnnls PnnlsFacts QpFacts GeomUtils Polyhedron PolyThms Oracle SolverThms NullFacts PolySolveThms PolyMore PolyBoundThms SpecDyn Dynamics DynThms CondenseThms LqrThms McaisThms Mpqp MpqpThms Controllers CtrlThms Gurobi Programs ProgThms Hybrid HybridThms HybridOptThms HybridLoopThms WorkThms Notebooks NoteThms Walls.
Local Open Scope list_scope.

(** ** One step of simulate: the mode is the first one whose domain contains (x, u) up to the tolerance *)
Lemma step_first W nx nu x u : pwa_wf W nx nu -> length x = nx -> length u = nu -> (exists D, In D (w_dom W) /\ DynThms.within D (x ++ u)) ->
  exists k, pwa_simulate W x [u] = Ok ([x; mode_step W k x u], [k]) /\ first_mode (w_dom W) (x ++ u) k.
Proof.
  intros (LW & HS & HD) Lx Lu (D & ID & WI). cbn [pwa_simulate]. unfold get_mode.
  destruct (get_mode_from_ok (w_dom W) (nx + nu) (x ++ u) 0 ltac:(len) HD) as [(k & E & Fk)|(E & NM)]; [|exfalso; apply (NM D ID WI)].
  rewrite E. cbn [bind Nat.add]. pose proof Fk as (Hk & _). rewrite (nth_error_nth' (w_sys W) asys0) by lia. destruct (HS (nth k (w_sys W) asys0)) as ((SA & SB) & Lc); [apply nth_In; lia|].
  rewrite (np_mv_ok _ nx nx), (np_mv_ok _ nx nu) by auto. cbn [bind]. exists k. split; [|exact Fk]. do 2 f_equal. f_equal. f_equal. unfold mode_step, affine_step. rewrite !(nth_map_lt _ _ _ asys0) by lia. reflexivity.
Qed.

(** ** The cells succeed *)
Definition hpoly (n : nat) (A : list vec) (b : vec) : poly := Poly (Mat n A) b (Mat n []) [] None None None None None.
Lemma hpoly_in n A b x : in_poly (hpoly n A b) x <-> length x = n /\ Forall2 (fun a bi => dot a x <= bi) A b.
Proof. unfold hpoly. rewrite box_in_X. reflexivity. Qed.
Lemma hpoly_within n A b x : DynThms.within (hpoly n A b) x <-> Forall2 (fun a bi => dot a x <= bi + tol7) A b.
Proof. unfold DynThms.within, hpoly. cbn [pA pb pC pd rows]. split; [intros (H & _); exact H|intros H; split; [exact H|constructor]]. Qed.
Lemma hpoly_wf n A b : Forall (fun a => length a = n) A -> length A = length b -> wf (hpoly n A b) (length b) 0 n.
Proof. intros H E. unfold wf, hpoly. cbn [pA pb pC pd]. split; [split; [exact E|split; [reflexivity|exact H]]|]. split; [reflexivity|]. split; [split; [reflexivity|split; [reflexivity|constructor]]|reflexivity]. Qed.
Lemma assert_bounded_ok np n A b : exact_np np -> Forall (fun a => length a = n) A -> length A = length b -> bounded_set (in_poly (hpoly n A b)) ->
  exists p', assert_bounded np (hpoly n A b) = Ok p' /\ pA p' = Mat n A /\ pb p' = b /\ pC p' = Mat n [] /\ pd p' = [].
Proof.
  intros Hnp FA LA BD. destruct (polytope_is_bounded np _ _ _ _ Hnp (hpoly_wf n A b FA LA) eq_refl eq_refl BD) as (p' & E). unfold assert_bounded. rewrite E. exists p'. split; [reflexivity|].
  destruct (get_bounded_state _ _ _ _ E) as (E1 & E2 & E3 & E4 & _). auto.
Qed.
(** a set of vectors with bounded entries is bounded *)
Lemma entries_bounded (P : vec -> Prop) n M : (forall x, P x -> length x = n /\ forall i, (i < n)%nat -> Rabs (nth i x 0) <= M) -> bounded_set P.
Proof.
  intros H. exists (INR n * Rabs M). intros x Px. destruct (H x Px) as (L & B). apply ContThms.norm_small; [exact L|apply Rabs_pos|]. intros i Hi. eapply Rle_trans; [apply B, Hi|apply Rle_abs].
Qed.
Ltac inv2 := repeat match goal with H : Forall2 _ (_ :: _) _ |- _ => inversion H; clear H; subst | H : Forall2 _ [] _ |- _ => inversion H; clear H; subst end.
Ltac mk2 := repeat (apply Forall2_cons; [cbn; try lra|]); try apply Forall2_nil.

Definition pend_X (lo hi v : R) : poly := hpoly 2 [[-1; 0]; [0; -1]; [1; 0]; [0; 1]] [- lo; v; hi; v].
Definition pend_D (lo hi v u : R) : poly := hpoly 3 [[-1; 0; 0]; [0; -1; 0]; [1; 0; 0]; [0; 1; 0]; [0; 0; -1]; [0; 0; 1]] [- lo; v; hi; v; u; u].
Definition seg_U (u : R) : poly := hpoly 1 [[-1]; [1]] [u; u].
Ltac mateq := repeat first [reflexivity | match goal with |- @eq R _ _ => (reflexivity || ring) | |- (_ :: _) = (_ :: _) => apply f_equal2 end].
Lemma pend_bounds lo hi v : from_bounds (D1 [lo; - v]) (D1 [hi; v]) None None = Ok (pend_X lo hi v).
Proof. etransitivity; [cbv -[Rplus Rmult Ropp Rminus Rinv Rdiv IZR]; reflexivity|]. unfold pend_X, hpoly. apply (f_equal Ok). f_equal; [f_equal|]; mateq. Qed.
Lemma seg_bounds u : from_bounds (D1 [- u]) (D1 [u]) None None = Ok (seg_U u).
Proof. etransitivity; [cbv -[Rplus Rmult Ropp Rminus Rinv Rdiv IZR]; reflexivity|]. unfold seg_U, hpoly. apply (f_equal Ok). f_equal; [f_equal|]; mateq. Qed.
Lemma product_ext p q p' q' : pA p' = pA p -> pb p' = pb p -> pC p' = pC p -> pd p' = pd p -> pA q' = pA q -> pb q' = pb q -> pC q' = pC q -> pd q' = pd q -> cartesian_product p' q' = cartesian_product p q.
Proof. intros E1 E2 E3 E4 E5 E6 E7 E8. unfold cartesian_product. rewrite E1, E2, E3, E4, E5, E6, E7, E8. reflexivity. Qed.
Lemma pend_product lo hi v u : cartesian_product (pend_X lo hi v) (seg_U u) = Ok (pend_D lo hi v u).
Proof. reflexivity. Qed.
Lemma pend_D_in lo hi v u x : in_poly (pend_D lo hi v u) x <-> exists a b w, x = [a; b; w] /\ lo <= a <= hi /\ - v <= b <= v /\ - u <= w <= u.
Proof.
  unfold pend_D. rewrite hpoly_in. split.
  - intros (L & H). destruct x as [|a [|b [|w [|? ?]]]]; try discriminate. exists a, b, w. split; [reflexivity|]. inv2. cbn in *. lra.
  - intros (a & b & w & -> & H). split; [reflexivity|]. mk2.
Qed.
Lemma pend_D_within lo hi v u a b w : DynThms.within (pend_D lo hi v u) [a; b; w] <-> lo - tol7 <= a <= hi + tol7 /\ - v - tol7 <= b <= v + tol7 /\ - u - tol7 <= w <= u + tol7.
Proof.
  unfold pend_D. rewrite hpoly_within. split.
  - intros H. inv2. cbn in *. lra.
  - intros H. mk2.
Qed.
Lemma pend_X_in lo hi v x : in_poly (pend_X lo hi v) x <-> exists a b, x = [a; b] /\ lo <= a <= hi /\ - v <= b <= v.
Proof.
  unfold pend_X. rewrite hpoly_in. split.
  - intros (L & H). destruct x as [|a [|b [|? ?]]]; try discriminate. exists a, b. split; [reflexivity|]. inv2. cbn in *. lra.
  - intros (a & b & -> & H). split; [reflexivity|]. mk2.
Qed.
Lemma seg_U_in u x : in_poly (seg_U u) x <-> exists w, x = [w] /\ - u <= w <= u.
Proof.
  unfold seg_U. rewrite hpoly_in. split.
  - intros (L & H). destruct x as [|a [|? ?]]; try discriminate. exists a. split; [reflexivity|]. inv2. cbn in *. lra.
  - intros (a & -> & H). split; [reflexivity|]. mk2.
Qed.

(** ** The pendulum with a wall (hybrid_mpc.ipynb) *)
(** the step of the explicit Euler method for l^2 m th'' = m g l th + w - l k max(0, l th - d): the spring pushes back when the tip is beyond the wall *)
Definition pend_step (m l g k d h : R) (a b w : R) : vec := [a + h * b; b + h * (g / l * a - k / m * Rmax 0 (a - d / l) + w / (m * (l * l)))].
Definition pend_S1 (m l g h : R) : lsys := LSys (Mat 2 [[1; h]; [h * (g / l); 1]]) (Mat 1 [[0]; [h * (1 / (m * (l * l)))]]) None.
Definition pend_S2 (m l g k d h : R) : asys := ASys (Mat 2 [[1; h]; [h * (g / l - k / m); 1]]) (Mat 1 [[0]; [h * (1 / (m * (l * l)))]]) [0; h * (k * d / (m * l))].
Definition pend_W (m l g k d h v u : R) : pwa := PWA 2 1 [ASys (lA (pend_S1 m l g h)) (lB (pend_S1 m l g h)) [0; 0]; pend_S2 m l g k d h] [pend_D (-2 * d / l) (d / l) v u; pend_D (d / l) (2 * d / l) v u].
Lemma euler_eq (np : numpy) A B c nx nu h : system_shape A B nx nu -> length c = nx -> 0 <= h ->
  lin_from_continuous np A B h "explicit_euler" = Ok (LSys (madd (mscale h A) (eye nx)) (mscale h B) None) /\
  aff_from_continuous np A B (D1 c) h "explicit_euler" = Ok (ASys (madd (mscale h A) (eye nx)) (mscale h B) (vscale h c)).
Proof.
  intros SS Lc Hh. assert (LA : nrows A = nx) by apply SS. pose proof SS as (SA & SB).
  assert (SD : shape (madd (mscale h A) (eye nx)) nx nx /\ shape (mscale h B) nx nu) by (split; auto with shp).
  assert (E : forall c, length c = nx -> explicit_euler A B (D1 c) h = Ok (madd (mscale h A) (eye nx), mscale h B, vscale h c)).
  { intros c' Lc'. unfold explicit_euler. rewrite (SampThms.check_ok A B (Some (D1 c')) (Some h) nx nu SS) by (auto; exists c'; auto). cbn [bind]. rewrite LA. reflexivity. }
  unfold lin_from_continuous, aff_from_continuous. rewrite (SampThms.check_ok A B None (Some h) nx nu SS I Hh), (SampThms.check_ok A B (Some (D1 c)) (Some h) nx nu SS) by (auto; exists c; auto). cbn [bind].
  change (String.eqb "explicit_euler" "zero_order_hold") with false. rewrite String.eqb_refl. cbv iota. rewrite !E by len. cbn [bind]. split.
  - apply (proj1 (linear_constructor _ _)). destruct SD as ((R1 & R2 & _) & (R3 & _)). unfold nrows. lia.
  - destruct SD as ((R1 & R2 & _) & (R3 & _)). apply (proj1 (affine_constructor _ _ (D1 (vscale h c))) (vscale h c)); unfold nrows; [lia|lia|reflexivity|rewrite R1; symmetry; len].
Qed.
Lemma pend_systems_eq np m l g k d h : 0 <= h -> pendulum_systems np m l g k d h = Ok (pend_S1 m l g h, pend_S2 m l g k d h).
Proof.
  intros Hh. unfold pendulum_systems. assert (SS : forall a, system_shape (Mat 2 [[0; 1]; [a; 0]]) (Mat 1 [[0]; [1 / (m * (l * l))]]) 2 1) by (intros; repeat split; repeat constructor).
  rewrite (proj1 (euler_eq np _ _ [0; 0] 2 1 h (SS _) eq_refl Hh)), (proj2 (euler_eq np _ _ [0; k * d / (m * l)] 2 1 h (SS _) eq_refl Hh)). cbn [bind].
  assert (EA : forall a, madd (mscale h (Mat 2 [[0; 1]; [a; 0]])) (eye 2) = Mat 2 [[1; h]; [h * a; 1]]) by (intros a; cbv -[Rplus Rmult Ropp Rminus Rinv Rdiv IZR]; f_equal; mateq).
  assert (EB : forall a, mscale h (Mat 1 [[0]; [a]]) = Mat 1 [[0]; [h * a]]) by (intros a; cbv -[Rplus Rmult Ropp Rminus Rinv Rdiv IZR]; f_equal; mateq).
  assert (Ec : forall a, vscale h [0; a] = [0; h * a]) by (intros a; cbv -[Rplus Rmult Ropp Rminus Rinv Rdiv IZR]; mateq).
  rewrite !EA, EB, Ec. reflexivity.
Qed.
Lemma pend_bounded lo hi v : bounded_set (in_poly (pend_X lo hi v)).
Proof.
  apply (entries_bounded _ 2 (Rmax (Rmax (Rabs lo) (Rabs hi)) (Rabs v))). intros x Hx. apply pend_X_in in Hx. destruct Hx as (a & b & -> & Ha & Hb). split; [reflexivity|].
  pose proof (Rmax_l (Rmax (Rabs lo) (Rabs hi)) (Rabs v)). pose proof (Rmax_r (Rmax (Rabs lo) (Rabs hi)) (Rabs v)). pose proof (Rmax_l (Rabs lo) (Rabs hi)). pose proof (Rmax_r (Rabs lo) (Rabs hi)).
  pose proof (Rle_abs hi). pose proof (Rle_abs (- lo)) as Hl. rewrite Rabs_Ropp in Hl. pose proof (Rle_abs v).
  intros [|[|i]] Hi; cbn [nth]; [apply Rabs_le; lra|apply Rabs_le; lra|lia].
Qed.
Lemma seg_bounded u : bounded_set (in_poly (seg_U u)).
Proof.
  apply (entries_bounded _ 1 u). intros x Hx. apply seg_U_in in Hx. destruct Hx as (a & -> & Ha). split; [reflexivity|]. intros [|i] Hi; cbn [nth]; [apply Rabs_le; lra|lia].
Qed.
Lemma pend_domains_eq np l d v u : exact_np np -> pendulum_domains np l d v u = Ok (pend_D (-2 * d / l) (d / l) v u, pend_D (d / l) (2 * d / l) v u).
Proof.
  intros Hnp. unfold pendulum_domains. rewrite !pend_bounds, seg_bounds. cbn [bind].
  assert (EX : forall lo hi, exists p', assert_bounded np (pend_X lo hi v) = Ok p' /\ pA p' = pA (pend_X lo hi v) /\ pb p' = pb (pend_X lo hi v) /\ pC p' = pC (pend_X lo hi v) /\ pd p' = pd (pend_X lo hi v)).
  { intros lo hi. apply assert_bounded_ok; [exact Hnp|repeat constructor|reflexivity|apply pend_bounded]. }
  destruct (EX (-2 * d / l) (d / l)) as (X1 & E1 & A1 & A2 & A3 & A4). destruct (EX (d / l) (2 * d / l)) as (X2 & E2 & B1 & B2 & B3 & B4).
  assert (EU : exists p', assert_bounded np (seg_U u) = Ok p' /\ pA p' = pA (seg_U u) /\ pb p' = pb (seg_U u) /\ pC p' = pC (seg_U u) /\ pd p' = pd (seg_U u)).
  { apply assert_bounded_ok; [exact Hnp|repeat constructor|reflexivity|apply seg_bounded]. }
  destruct EU as (U & E3 & C1 & C2 & C3 & C4). rewrite E1. cbn [bind]. rewrite E2. cbn [bind]. rewrite E3. cbn [bind].
  rewrite (product_ext (pend_X (-2 * d / l) (d / l) v) (seg_U u) X1 U), (product_ext (pend_X (d / l) (2 * d / l) v) (seg_U u) X2 U) by assumption. rewrite !pend_product. reflexivity.
Qed.
Lemma pend_pwa m l g k d h v u : PieceWiseAffineSystem [Lin (pend_S1 m l g h); Aff (pend_S2 m l g k d h)] [pend_D (-2 * d / l) (d / l) v u; pend_D (d / l) (2 * d / l) v u] = Ok (pend_W m l g k d h v u).
Proof. reflexivity. Qed.
Lemma pend_mode0 m l g k d h v u a b w : 0 < m -> 0 < l -> mode_step (pend_W m l g k d h v u) 0 [a; b] [w] = [a + h * b; b + h * (g / l * a + w / (m * (l * l)))].
Proof. intros Hm Hl. unfold mode_step, affine_step. cbn. repeat (apply f_equal2; [field; lra|]). reflexivity. Qed.
Lemma pend_mode1 m l g k d h v u a b w : 0 < m -> 0 < l -> mode_step (pend_W m l g k d h v u) 1 [a; b] [w] = [a + h * b; b + h * (g / l * a - k / m * (a - d / l) + w / (m * (l * l)))].
Proof. intros Hm Hl. unfold mode_step, affine_step. cbn. repeat (apply f_equal2; [field; lra|]). reflexivity. Qed.
Lemma pend_W_wf m l g k d h v u : pwa_wf (pend_W m l g k d h v u) 2 1.
Proof.
  split; [reflexivity|]. split.
  - intros s [<-|[<-|[]]]; repeat split; repeat constructor.
  - intros D [<-|[<-|[]]]; exists 6%nat, 0%nat; (split; [apply hpoly_wf; repeat constructor|split; lia]).
Qed.
(*@ Theorem C91_pendulum : The cells of hybrid_mpc.ipynb that define the systems and the domains, for all positive masses, lengths, stiffnesses, distances, steps and bounds (any g): they succeed, and so does PieceWiseAffineSystem. The domains are the boxes of angles below and above d/l; together they cover the box of angles between -2d/l and 2d/l. On its domain each mode is the step of the explicit Euler method for the pendulum with a one-sided spring k max(0, th - d/l). One step of simulate from the box succeeds, and its angular velocity differs from that of the spring model by at most h k/m 1e-7 (the angle not at all); the two agree exactly unless the angle is within 1e-7 beyond the wall. *)
Lemma pendulum_cells np m l g k d h v u : exact_np np -> 0 < m -> 0 < l -> 0 < k -> 0 < d -> 0 < h -> 0 < v -> 0 < u ->
  exists S1 S2 D1 D2 W, pendulum_systems np m l g k d h = Ok (S1, S2) /\ pendulum_domains np l d v u = Ok (D1, D2) /\ PieceWiseAffineSystem [Lin S1; Aff S2] [D1; D2] = Ok W /\
    forall a b w,
      (in_poly D1 [a; b; w] <-> -2 * d / l <= a <= d / l /\ - v <= b <= v /\ - u <= w <= u) /\
      (in_poly D2 [a; b; w] <-> d / l <= a <= 2 * d / l /\ - v <= b <= v /\ - u <= w <= u) /\
      (in_poly D1 [a; b; w] -> linear_step (lA S1) (lB S1) [a; b] [w] = pend_step m l g k d h a b w) /\
      (in_poly D2 [a; b; w] -> affine_step (aA S2) (aB S2) (ac S2) [a; b] [w] = pend_step m l g k d h a b w) /\
      (-2 * d / l <= a <= 2 * d / l -> - v <= b <= v -> - u <= w <= u ->
       exists x2 mode, pwa_simulate W [a; b] [[w]] = Ok ([[a; b]; [a + h * b; x2]], [mode]) /\ Rabs (x2 - nth 1 (pend_step m l g k d h a b w) 0) <= h * (k / m) * tol7 /\
         (a <= d / l \/ d / l + tol7 < a -> [a + h * b; x2] = pend_step m l g k d h a b w)).
Proof.
  intros Hnp Hm Hl Hk Hd Hh Hv Hu. exists (pend_S1 m l g h), (pend_S2 m l g k d h), (pend_D (-2 * d / l) (d / l) v u), (pend_D (d / l) (2 * d / l) v u), (pend_W m l g k d h v u).
  split; [apply pend_systems_eq; lra|]. split; [apply pend_domains_eq, Hnp|]. split; [apply pend_pwa|].
  assert (In1 : forall lo hi a b w, in_poly (pend_D lo hi v u) [a; b; w] <-> lo <= a <= hi /\ - v <= b <= v /\ - u <= w <= u).
  { intros lo hi a b w. rewrite pend_D_in. split; [intros (a' & b' & w' & [= <- <- <-] & H); exact H|intros H; exists a, b, w; auto]. }
  assert (KM : 0 < k / m) by (apply Rdiv_lt_0_compat; assumption). assert (DL : 0 < d / l) by (apply Rdiv_lt_0_compat; assumption).
  assert (T7 : 0 < tol7) by (unfold tol7; lra). assert (HK : 0 < h * (k / m)) by (apply Rmult_lt_0_compat; assumption).
  assert (LE : forall a, a <= d / l -> Rmax 0 (a - d / l) = 0) by (intros a H; apply Rmax_left; lra).
  assert (GE : forall a, d / l <= a -> Rmax 0 (a - d / l) = a - d / l) by (intros a H; apply Rmax_right; lra).
  intros a b w. split; [apply In1|]. split; [apply In1|]. split; [|split].
  - intros H. apply In1 in H. unfold pend_step. rewrite LE by lra. unfold linear_step. cbn. repeat (apply f_equal2; [field; lra|]). reflexivity.
  - intros H. apply In1 in H. unfold pend_step. rewrite GE by lra. unfold affine_step. cbn. repeat (apply f_equal2; [field; lra|]). reflexivity.
  - intros Ha Hb Hw. set (W := pend_W m l g k d h v u).
    destruct (step_first W 2 1 [a; b] [w] (pend_W_wf m l g k d h v u) eq_refl eq_refl) as (j & ES & (Hj & Wj & Fj)).
    { destruct (Rle_dec a (d / l)) as [L|L].
      - exists (pend_D (-2 * d / l) (d / l) v u). split; [left; reflexivity|]. apply pend_D_within. lra.
      - exists (pend_D (d / l) (2 * d / l) v u). split; [right; left; reflexivity|]. apply pend_D_within. lra. }
    destruct j as [|[|j]]; [| |cbn in Hj; lia].
    + specialize (Wj _ eq_refl). cbn [app] in Wj. apply pend_D_within in Wj. unfold W in ES. rewrite pend_mode0 in ES by assumption. eexists _, 0%nat. split; [exact ES|]. unfold pend_step. cbn [nth].
      destruct (Rle_dec a (d / l)) as [L|L].
      * rewrite LE by exact L. split; [|intros _; repeat (apply f_equal2; [ring|]); reflexivity].
        match goal with |- Rabs ?e <= _ => replace e with 0 by ring end. rewrite Rabs_R0. apply Rmult_le_pos; lra.
      * rewrite GE by lra. split; [|lra]. match goal with |- Rabs ?e <= _ => replace e with (h * (k / m) * (a - d / l)) by ring end. rewrite Rabs_pos_eq by (apply Rmult_le_pos; lra). apply Rmult_le_compat_l; lra.
    + pose proof (Fj 0%nat _ ltac:(lia) eq_refl) as N0. cbn [app] in N0. rewrite pend_D_within in N0. specialize (Wj _ eq_refl). cbn [app] in Wj. apply pend_D_within in Wj.
      unfold W in ES. rewrite pend_mode1 in ES by assumption. eexists _, 1%nat. split; [exact ES|]. unfold pend_step. cbn [nth]. rewrite GE by (destruct (Rle_dec a (d / l + tol7)); [exfalso; apply N0; lra|lra]).
      split; [|reflexivity]. match goal with |- Rabs ?e <= _ => replace e with 0 by ring end. rewrite Rabs_R0. apply Rmult_le_pos; lra.
Qed.

(** ** The cart-pole between two walls (hybrid_mpc_2.ipynb) *)
Definition cart_rows : list vec := [[-1; 0; 0; 0]; [0; -1; 0; 0]; [0; 0; -1; 0]; [0; 0; 0; -1]; [1; 0; 0; 0]; [0; 1; 0; 0]; [0; 0; 1; 0]; [0; 0; 0; 1]].
Definition cart_bounds (p th v w : R) : vec := [p; th; v; w; p; th; v; w].
Definition cart_X (p th v w : R) (F : list vec) (g : vec) : poly := hpoly 4 (cart_rows ++ F) (cart_bounds p th v w ++ g).
Definition cart_D (p th v w u : R) (F : list vec) (g : vec) : poly := hpoly 5 (map (fun r => r ++ [0]) (cart_rows ++ F) ++ [[0; 0; 0; 0; -1]; [0; 0; 0; 0; 1]]) ((cart_bounds p th v w ++ g) ++ [u; u]).
Lemma cart_X1 p th v w l d : (X <- from_bounds (D1 (vneg [p; th; v; w])) (D1 [p; th; v; w]) None None ;; run_on (Ok X) (add_inequality (Mat 4 [[1; - l; 0; 0]]) (D1 [- d]) None)) = Ok (cart_X p th v w [[1; - l; 0; 0]] [- d]).
Proof. etransitivity; [cbv -[Rplus Rmult Ropp Rminus Rinv Rdiv IZR]; reflexivity|]. unfold cart_X, cart_rows, cart_bounds, hpoly. cbn [app]. apply (f_equal Ok). f_equal; [f_equal|]; mateq. Qed.
Lemma cart_X2 p th v w l d : (X <- from_bounds (D1 (vneg [p; th; v; w])) (D1 [p; th; v; w]) None None ;; run_on (Ok X) (add_inequality (Mat 4 [[-1; l; 0; 0]; [1; - l; 0; 0]]) (D1 [d; d]) None)) = Ok (cart_X p th v w [[-1; l; 0; 0]; [1; - l; 0; 0]] [d; d]).
Proof. etransitivity; [cbv -[Rplus Rmult Ropp Rminus Rinv Rdiv IZR]; reflexivity|]. unfold cart_X, cart_rows, cart_bounds, hpoly. cbn [app]. apply (f_equal Ok). f_equal; [f_equal|]; mateq. Qed.
Lemma cart_X3 p th v w l d : (X <- from_bounds (D1 (vneg [p; th; v; w])) (D1 [p; th; v; w]) None None ;; run_on (Ok X) (add_inequality (Mat 4 [[-1; l; 0; 0]]) (D1 [- d]) None)) = Ok (cart_X p th v w [[-1; l; 0; 0]] [- d]).
Proof. etransitivity; [cbv -[Rplus Rmult Ropp Rminus Rinv Rdiv IZR]; reflexivity|]. unfold cart_X, cart_rows, cart_bounds, hpoly. cbn [app]. apply (f_equal Ok). f_equal; [f_equal|]; mateq. Qed.
Lemma cart_bounded p th v w F g : length F = length g -> bounded_set (in_poly (cart_X p th v w F g)).
Proof.
  intros LF. apply (entries_bounded _ 4 (Rabs p + Rabs th + Rabs v + Rabs w)). intros x Hx. unfold cart_X in Hx. apply hpoly_in in Hx. destruct Hx as (L & H). split; [exact L|]. destruct x as [|a [|b [|c [|e [|? ?]]]]]; try discriminate.
  unfold cart_rows, cart_bounds in H. cbn [app] in H. inv2. cbn in *.
  pose proof (Rle_abs p). pose proof (Rle_abs th). pose proof (Rle_abs v). pose proof (Rle_abs w). pose proof (Rabs_pos p). pose proof (Rabs_pos th). pose proof (Rabs_pos v). pose proof (Rabs_pos w).
  intros [|[|[|[|i]]]] Hi; cbn [nth]; try (apply Rabs_le; lra). lia.
Qed.
Lemma cart_state_eq np p th v w F fr g : exact_np np -> Forall (fun a => length a = 4%nat) fr -> length fr = length g ->
  (X <- from_bounds (D1 (vneg [p; th; v; w])) (D1 [p; th; v; w]) None None ;; run_on (Ok X) (add_inequality F (D1 g) None)) = Ok (cart_X p th v w fr g) ->
  exists X, cart_state_domain np [p; th; v; w] F g = Ok X /\ forall U, cartesian_product X U = cartesian_product (cart_X p th v w fr g) U.
Proof.
  intros Hnp FF LF E. unfold cart_state_domain. destruct (from_bounds _ _ _ _) as [X|]; [|discriminate]. cbn [bind] in E |- *. rewrite E. cbn [bind].
  destruct (assert_bounded_ok np 4 (cart_rows ++ fr) (cart_bounds p th v w ++ g) Hnp) as (X' & EX & A1 & A2 & A3 & A4).
  - apply Forall_app. split; [repeat constructor|exact FF].
  - rewrite !app_length, LF. reflexivity.
  - apply cart_bounded, LF.
  - exists X'. split; [exact EX|]. intros U. apply product_ext; auto.
Qed.
Definition F1 (l : R) : list vec := [[1; - l; 0; 0]].
Definition F2 (l : R) : list vec := [[-1; l; 0; 0]; [1; - l; 0; 0]].
Definition F3 (l : R) : list vec := [[-1; l; 0; 0]].
Lemma cart_domains_eq np l d th v w u : exact_np np ->
  cart_domains np l d th v w u = Ok (cart_D (3 / 2 * d) th v w u (F1 l) [- d], cart_D (3 / 2 * d) th v w u (F2 l) [d; d], cart_D (3 / 2 * d) th v w u (F3 l) [- d]).
Proof.
  intros Hnp. unfold cart_domains. cbv zeta.
  destruct (cart_state_eq np (3 / 2 * d) th v w _ (F1 l) [- d] Hnp ltac:(repeat constructor) eq_refl (cart_X1 _ _ _ _ l d)) as (Y1 & E1 & P1).
  destruct (cart_state_eq np (3 / 2 * d) th v w _ (F2 l) [d; d] Hnp ltac:(repeat constructor) eq_refl (cart_X2 _ _ _ _ l d)) as (Y2 & E2 & P2).
  destruct (cart_state_eq np (3 / 2 * d) th v w _ (F3 l) [- d] Hnp ltac:(repeat constructor) eq_refl (cart_X3 _ _ _ _ l d)) as (Y3 & E3 & P3).
  rewrite E1. cbn [bind]. rewrite E2. cbn [bind]. rewrite E3. cbn [bind]. rewrite seg_bounds. cbn [bind]. rewrite P1, P2, P3. reflexivity.
Qed.
Lemma cart_D1_in p th v w u l d x : in_poly (cart_D p th v w u (F1 l) [- d]) x <->
  exists a b c e f, x = [a; b; c; e; f] /\ - p <= a <= p /\ - th <= b <= th /\ - v <= c <= v /\ - w <= e <= w /\ - u <= f <= u /\ a - l * b <= - d.
Proof.
  unfold cart_D. rewrite hpoly_in. split.
  - intros (L & H). destruct x as [|a [|b [|c [|e [|f [|? ?]]]]]]; try discriminate. exists a, b, c, e, f. split; [reflexivity|]. cbn in H. inv2. cbn in *. lra.
  - intros (a & b & c & e & f & -> & H). split; [reflexivity|]. cbn [map app cart_rows cart_bounds F1]. mk2.
Qed.
Lemma cart_D2_in p th v w u l d x : in_poly (cart_D p th v w u (F2 l) [d; d]) x <->
  exists a b c e f, x = [a; b; c; e; f] /\ - p <= a <= p /\ - th <= b <= th /\ - v <= c <= v /\ - w <= e <= w /\ - u <= f <= u /\ - d <= a - l * b <= d.
Proof.
  unfold cart_D. rewrite hpoly_in. split.
  - intros (L & H). destruct x as [|a [|b [|c [|e [|f [|? ?]]]]]]; try discriminate. exists a, b, c, e, f. split; [reflexivity|]. cbn in H. inv2. cbn in *. lra.
  - intros (a & b & c & e & f & -> & H). split; [reflexivity|]. cbn [map app cart_rows cart_bounds F2]. mk2.
Qed.
Lemma cart_D3_in p th v w u l d x : in_poly (cart_D p th v w u (F3 l) [- d]) x <->
  exists a b c e f, x = [a; b; c; e; f] /\ - p <= a <= p /\ - th <= b <= th /\ - v <= c <= v /\ - w <= e <= w /\ - u <= f <= u /\ d <= a - l * b.
Proof.
  unfold cart_D. rewrite hpoly_in. split.
  - intros (L & H). destruct x as [|a [|b [|c [|e [|f [|? ?]]]]]]; try discriminate. exists a, b, c, e, f. split; [reflexivity|]. cbn in H. inv2. cbn in *. lra.
  - intros (a & b & c & e & f & -> & H). split; [reflexivity|]. cbn [map app cart_rows cart_bounds F3]. mk2.
Qed.
(** the bounds up to the tolerance *)
Definition near_box (p th v w u a b c e f : R) : Prop := - p - tol7 <= a <= p + tol7 /\ - th - tol7 <= b <= th + tol7 /\ - v - tol7 <= c <= v + tol7 /\ - w - tol7 <= e <= w + tol7 /\ - u - tol7 <= f <= u + tol7.
Lemma cart_D1_within p th v w u l d a b c e f : DynThms.within (cart_D p th v w u (F1 l) [- d]) [a; b; c; e; f] <-> near_box p th v w u a b c e f /\ a - l * b <= - d + tol7.
Proof.
  unfold cart_D, near_box. rewrite hpoly_within. split.
  - intros H. cbn in H. inv2. cbn in *. lra.
  - intros H. cbn [map app cart_rows cart_bounds F1]. mk2.
Qed.
Lemma cart_D2_within p th v w u l d a b c e f : DynThms.within (cart_D p th v w u (F2 l) [d; d]) [a; b; c; e; f] <-> near_box p th v w u a b c e f /\ - d - tol7 <= a - l * b <= d + tol7.
Proof.
  unfold cart_D, near_box. rewrite hpoly_within. split.
  - intros H. cbn in H. inv2. cbn in *. lra.
  - intros H. cbn [map app cart_rows cart_bounds F2]. mk2.
Qed.
Lemma cart_D3_within p th v w u l d a b c e f : DynThms.within (cart_D p th v w u (F3 l) [- d]) [a; b; c; e; f] <-> near_box p th v w u a b c e f /\ d - tol7 <= a - l * b.
Proof.
  unfold cart_D, near_box. rewrite hpoly_within. split.
  - intros H. cbn in H. inv2. cbn in *. lra.
  - intros H. cbn [map app cart_rows cart_bounds F3]. mk2.
Qed.
(** the acceleration of the angle due to the walls: two one-sided springs at -d and d act on the tip, whose position is y = x1 - l x2 *)
Definition wall_accel (mp l d k y : R) : R := k / (l * mp) * (Rmax 0 (y - d) - Rmax 0 (- d - y)).
(** the step of the explicit Euler method for the linearized cart-pole with these springs *)
Definition cart_step (mc mp l d k g h : R) (a b c e f : R) : vec :=
  [a + h * c; b + h * e; c + h * (g * mp / mc * b + f / mc); e + h * (g * (mc + mp) / (l * mc) * b + wall_accel mp l d k (a - l * b) + f / (l * mc))].
Definition cart_S1 (mc mp l d k g h : R) : asys := ASys (madd (mscale h (cart_A_wall mc mp l k g)) (eye 4)) (mscale h (cart_B mc l)) (vscale h [0; 0; 0; (d * k) / (l * mp)]).
Definition cart_S2 (mc mp l g h : R) : lsys := LSys (madd (mscale h (cart_A_free mc mp l g)) (eye 4)) (mscale h (cart_B mc l)) None.
Definition cart_S3 (mc mp l d k g h : R) : asys := ASys (madd (mscale h (cart_A_wall mc mp l k g)) (eye 4)) (mscale h (cart_B mc l)) (vscale h [0; 0; 0; - (d * k) / (l * mp)]).
Definition cart_doms (l d th v w u : R) : list poly := [cart_D (3 / 2 * d) th v w u (F1 l) [- d]; cart_D (3 / 2 * d) th v w u (F2 l) [d; d]; cart_D (3 / 2 * d) th v w u (F3 l) [- d]].
Definition cart_W (mc mp l d k g h th v w u : R) : pwa := PWA 4 1 [cart_S1 mc mp l d k g h; ASys (lA (cart_S2 mc mp l g h)) (lB (cart_S2 mc mp l g h)) [0; 0; 0; 0]; cart_S3 mc mp l d k g h] (cart_doms l d th v w u).
Lemma cart_shapes mc mp l k g : system_shape (cart_A_wall mc mp l k g) (cart_B mc l) 4 1 /\ system_shape (cart_A_free mc mp l g) (cart_B mc l) 4 1.
Proof. repeat split; repeat constructor. Qed.
Lemma cart_systems_eq np mc mp l d k g h : 0 <= h -> cart_systems np mc mp l d k g h = Ok (cart_S1 mc mp l d k g h, cart_S2 mc mp l g h, cart_S3 mc mp l d k g h).
Proof.
  intros Hh. unfold cart_systems. destruct (cart_shapes mc mp l k g) as (SW & SF).
  rewrite !(fun c L => proj2 (euler_eq np _ _ c 4 1 h SW L Hh)) by reflexivity. rewrite (proj1 (euler_eq np _ _ [0; 0; 0; 0] 4 1 h SF eq_refl Hh)). reflexivity.
Qed.
Lemma cart_pwa mc mp l d k g h th v w u : PieceWiseAffineSystem [Aff (cart_S1 mc mp l d k g h); Lin (cart_S2 mc mp l g h); Aff (cart_S3 mc mp l d k g h)] (cart_doms l d th v w u) = Ok (cart_W mc mp l d k g h th v w u).
Proof. reflexivity. Qed.
Ltac stepeq := unfold affine_step, linear_step, cart_S1, cart_S2, cart_S3, cart_A_wall, cart_A_free, cart_B; cbn [aA aB ac lA lB madd mscale eye]; cbv -[Rplus Rmult Ropp Rminus Rinv Rdiv IZR]; repeat (apply f_equal2; [field; lra|]); reflexivity.
Lemma cart_step1 mc mp l d k g h a b c e f : 0 < mc -> 0 < mp -> 0 < l -> affine_step (aA (cart_S1 mc mp l d k g h)) (aB (cart_S1 mc mp l d k g h)) (ac (cart_S1 mc mp l d k g h)) [a; b; c; e] [f] =
  [a + h * c; b + h * e; c + h * (g * mp / mc * b + f / mc); e + h * (g * (mc + mp) / (l * mc) * b + k / (l * mp) * (a - l * b + d) + f / (l * mc))].
Proof. intros H1 H2 H3. stepeq. Qed.
Lemma cart_step2 mc mp l k g h a b c e f : 0 < mc -> 0 < mp -> 0 < l -> linear_step (lA (cart_S2 mc mp l g h)) (lB (cart_S2 mc mp l g h)) [a; b; c; e] [f] =
  [a + h * c; b + h * e; c + h * (g * mp / mc * b + f / mc); e + h * (g * (mc + mp) / (l * mc) * b + k / (l * mp) * 0 + f / (l * mc))].
Proof. intros H1 H2 H3. stepeq. Qed.
Lemma cart_step3 mc mp l d k g h a b c e f : 0 < mc -> 0 < mp -> 0 < l -> affine_step (aA (cart_S3 mc mp l d k g h)) (aB (cart_S3 mc mp l d k g h)) (ac (cart_S3 mc mp l d k g h)) [a; b; c; e] [f] =
  [a + h * c; b + h * e; c + h * (g * mp / mc * b + f / mc); e + h * (g * (mc + mp) / (l * mc) * b + k / (l * mp) * (a - l * b - d) + f / (l * mc))].
Proof. intros H1 H2 H3. stepeq. Qed.
Lemma wall_left mp l d k y : 0 < d -> y <= - d -> wall_accel mp l d k y = k / (l * mp) * (y + d).
Proof. intros Hd H. unfold wall_accel. rewrite (Rmax_left 0 (y - d)), (Rmax_right 0 (- d - y)) by lra. ring. Qed.
Lemma wall_free mp l d k y : - d <= y <= d -> wall_accel mp l d k y = k / (l * mp) * 0.
Proof. intros H. unfold wall_accel. rewrite !Rmax_left by lra. ring. Qed.
Lemma wall_right mp l d k y : 0 < d -> d <= y -> wall_accel mp l d k y = k / (l * mp) * (y - d).
Proof. intros Hd H. unfold wall_accel. rewrite (Rmax_right 0 (y - d)), (Rmax_left 0 (- d - y)) by lra. ring. Qed.
Lemma cart_W_wf mc mp l d k g h th v w u : pwa_wf (cart_W mc mp l d k g h th v w u) 4 1.
Proof.
  split; [reflexivity|]. split.
  - intros s [<-|[<-|[<-|[]]]]; repeat split; repeat constructor.
  - intros D [<-|[<-|[<-|[]]]]; eexists _, 0%nat; (split; [apply hpoly_wf; repeat constructor|cbn; split; lia]).
Qed.
Lemma cart_mode mc mp l d k g h th v w u a b c e f j : 0 < mc -> 0 < mp -> 0 < l -> (j < 3)%nat ->
  mode_step (cart_W mc mp l d k g h th v w u) j [a; b; c; e] [f] =
  [a + h * c; b + h * e; c + h * (g * mp / mc * b + f / mc); e + h * (g * (mc + mp) / (l * mc) * b + k / (l * mp) * nth j [a - l * b + d; 0; a - l * b - d] 0 + f / (l * mc))].
Proof.
  intros H1 H2 H3 Hj. unfold mode_step. destruct j as [|[|[|j]]]; [| | |lia]; cbn [nth map cart_W w_sys].
  - apply cart_step1; assumption.
  - rewrite <- (cart_step2 mc mp l k) by assumption. unfold affine_step, linear_step. cbn [aA aB ac]. apply (vadd_zeros_r 4). reflexivity.
  - apply cart_step3; assumption.
Qed.
(*@ Theorem C91_cart : The cells of hybrid_mpc_2.ipynb that define the systems and the domains, for all positive masses, lengths, stiffnesses, distances, steps and bounds (any g): they succeed, and so does PieceWiseAffineSystem. The domains are the parts of the box of bounds where the tip x1 - l x2 of the pole is left of -d, between -d and d, and right of d. On its domain each mode is the step of the explicit Euler method for the cart-pole with a one-sided spring at -d and one at d acting on the tip. One step of simulate from the box succeeds; positions and the velocity of the cart are those of the spring model, and the angular velocity differs from it by at most h k/(l mp) 1e-7; the two agree exactly unless the tip is within 1e-7 right of one of the two walls. *)
Lemma cart_cells np mc mp l d k g h th v w u : exact_np np -> 0 < mc -> 0 < mp -> 0 < l -> 0 < d -> 0 < k -> 0 < h -> 0 < th -> 0 < v -> 0 < w -> 0 < u ->
  exists S1 S2 S3 D1 D2 D3 W, cart_systems np mc mp l d k g h = Ok (S1, S2, S3) /\ cart_domains np l d th v w u = Ok (D1, D2, D3) /\ PieceWiseAffineSystem [Aff S1; Lin S2; Aff S3] [D1; D2; D3] = Ok W /\
    forall a b c e f, let y := a - l * b in let box := - (3 / 2 * d) <= a <= 3 / 2 * d /\ - th <= b <= th /\ - v <= c <= v /\ - w <= e <= w /\ - u <= f <= u in
      (in_poly D1 [a; b; c; e; f] <-> box /\ y <= - d) /\ (in_poly D2 [a; b; c; e; f] <-> box /\ - d <= y <= d) /\ (in_poly D3 [a; b; c; e; f] <-> box /\ d <= y) /\
      (in_poly D1 [a; b; c; e; f] -> affine_step (aA S1) (aB S1) (ac S1) [a; b; c; e] [f] = cart_step mc mp l d k g h a b c e f) /\
      (in_poly D2 [a; b; c; e; f] -> linear_step (lA S2) (lB S2) [a; b; c; e] [f] = cart_step mc mp l d k g h a b c e f) /\
      (in_poly D3 [a; b; c; e; f] -> affine_step (aA S3) (aB S3) (ac S3) [a; b; c; e] [f] = cart_step mc mp l d k g h a b c e f) /\
      (box -> exists x4 mode, let x' := firstn 3 (cart_step mc mp l d k g h a b c e f) ++ [x4] in
         pwa_simulate W [a; b; c; e] [[f]] = Ok ([[a; b; c; e]; x'], [mode]) /\ Rabs (x4 - nth 3 (cart_step mc mp l d k g h a b c e f) 0) <= h * (k / (l * mp)) * tol7 /\
         (y <= - d \/ - d + tol7 < y <= d \/ d + tol7 < y -> x' = cart_step mc mp l d k g h a b c e f)).
Proof.
  intros Hnp Hmc Hmp Hl Hd Hk Hh Hth Hv Hw Hu.
  exists (cart_S1 mc mp l d k g h), (cart_S2 mc mp l g h), (cart_S3 mc mp l d k g h), (cart_D (3 / 2 * d) th v w u (F1 l) [- d]), (cart_D (3 / 2 * d) th v w u (F2 l) [d; d]), (cart_D (3 / 2 * d) th v w u (F3 l) [- d]), (cart_W mc mp l d k g h th v w u).
  split; [apply cart_systems_eq; lra|]. split; [apply cart_domains_eq, Hnp|]. split; [apply cart_pwa|].
  assert (KM : 0 < k / (l * mp)) by (apply Rdiv_lt_0_compat; [assumption|apply Rmult_lt_0_compat; assumption]).
  assert (T7 : 0 < tol7) by (unfold tol7; lra). assert (HK : 0 < h * (k / (l * mp))) by (apply Rmult_lt_0_compat; assumption).
  intros a b c e f y box.
  assert (I1 : in_poly (cart_D (3 / 2 * d) th v w u (F1 l) [- d]) [a; b; c; e; f] <-> box /\ y <= - d).
  { rewrite cart_D1_in. unfold box, y. split; [intros (a' & b' & c' & e' & f' & [= <- <- <- <- <-] & H); tauto|intros H; exists a, b, c, e, f; tauto]. }
  assert (I2 : in_poly (cart_D (3 / 2 * d) th v w u (F2 l) [d; d]) [a; b; c; e; f] <-> box /\ - d <= y <= d).
  { rewrite cart_D2_in. unfold box, y. split; [intros (a' & b' & c' & e' & f' & [= <- <- <- <- <-] & H); tauto|intros H; exists a, b, c, e, f; tauto]. }
  assert (I3 : in_poly (cart_D (3 / 2 * d) th v w u (F3 l) [- d]) [a; b; c; e; f] <-> box /\ d <= y).
  { rewrite cart_D3_in. unfold box, y. split; [intros (a' & b' & c' & e' & f' & [= <- <- <- <- <-] & H); tauto|intros H; exists a, b, c, e, f; tauto]. }
  split; [exact I1|]. split; [exact I2|]. split; [exact I3|]. split; [|split; [|split]].
  - intros H. apply I1 in H. rewrite cart_step1 by assumption. unfold cart_step. fold y. rewrite wall_left by tauto. reflexivity.
  - intros H. apply I2 in H. rewrite (cart_step2 mc mp l k) by assumption. unfold cart_step. fold y. rewrite wall_free by tauto. reflexivity.
  - intros H. apply I3 in H. rewrite cart_step3 by assumption. unfold cart_step. fold y. rewrite wall_right by tauto. reflexivity.
  - intros HB. assert (NB : near_box (3 / 2 * d) th v w u a b c e f) by (unfold near_box; unfold box in HB; lra).
    destruct (step_first (cart_W mc mp l d k g h th v w u) 4 1 [a; b; c; e] [f] (cart_W_wf mc mp l d k g h th v w u) eq_refl eq_refl) as (j & ES & (Hj & Wj & Fj)).
    { destruct (Rle_dec y (- d)) as [L|L]; [|destruct (Rle_dec y d) as [L'|L']].
      - eexists. split; [left; reflexivity|]. apply cart_D1_within. split; [exact NB|fold y; lra].
      - eexists. split; [right; left; reflexivity|]. apply cart_D2_within. split; [exact NB|fold y; lra].
      - eexists. split; [right; right; left; reflexivity|]. apply cart_D3_within. split; [exact NB|fold y; lra]. }
    assert (F0 : j <> 0%nat -> - d + tol7 < y).
    { intros N. pose proof (Fj 0%nat _ ltac:(lia) eq_refl) as N0. cbn [app] in N0. destruct (Rle_dec y (- d + tol7)) as [L|L]; [exfalso; apply N0; apply cart_D1_within; split; [exact NB|exact L]|lra]. }
    assert (F1' : j = 2%nat -> d + tol7 < y).
    { intros N. pose proof (Fj 1%nat _ ltac:(lia) eq_refl) as N0. cbn [app] in N0. destruct (Rle_dec y (d + tol7)) as [L|L]; [|lra]. exfalso. apply N0. apply cart_D2_within. split; [exact NB|]. fold y. specialize (F0 ltac:(lia)). lra. }
    assert (Lj : (j < 3)%nat) by exact Hj. rewrite cart_mode in ES by assumption. fold y in ES.
    eexists _, j. cbv zeta. split; [exact ES|]. unfold cart_step. fold y. cbn [nth firstn app].
    match goal with |- Rabs (?e1 - ?e2) <= _ /\ _ => assert (G : exists r, e1 - e2 = h * (k / (l * mp)) * r /\ - tol7 <= r <= tol7 /\ (y <= - d \/ - d + tol7 < y <= d \/ d + tol7 < y -> r = 0)) end.
    { destruct j as [|[|[|j]]]; [| | |lia]; cbn [nth].
      - specialize (Wj _ eq_refl). cbn [app] in Wj. apply cart_D1_within in Wj. fold y in Wj. destruct (Rle_dec y (- d)) as [L|L]; [|destruct (Rle_dec y d) as [L'|L']].
        + exists 0. rewrite wall_left by lra. split; [ring|]. split; lra.
        + exists (y + d). rewrite wall_free by lra. split; [ring|]. split; [lra|]. intros H. lra.
        + exists (2 * d). rewrite wall_right by lra. split; [ring|]. split; [lra|]. intros H. lra.
      - specialize (Wj _ eq_refl). cbn [app] in Wj. apply cart_D2_within in Wj. fold y in Wj. specialize (F0 ltac:(lia)). destruct (Rle_dec y d) as [L|L].
        + exists 0. rewrite wall_free by lra. split; [ring|]. split; lra.
        + exists (- (y - d)). rewrite wall_right by lra. split; [ring|]. split; [|intros H]; lra.
      - specialize (F1' eq_refl). specialize (F0 ltac:(lia)). exists 0. rewrite wall_right by lra. split; [ring|]. split; lra. }
    destruct G as (r & E & Hr & Z). split.
    + rewrite E, Rabs_mult, (Rabs_pos_eq (h * (k / (l * mp)))) by lra. apply Rmult_le_compat_l; [lra|apply Rabs_le; lra].
    + intros H. rewrite (Z H), Rmult_0_r in E. do 3 (apply f_equal2; [reflexivity|]). apply f_equal2; [|reflexivity]. apply Rminus_diag_uniq, E.
Qed.

(** ** Controllability *)
(*@ Theorem C91_controllable : For all positive parameters the linear mode of both notebooks (the pendulum away from the wall, for any g; the cart-pole between the walls, for g other than 0) is controllable in the sense of the definition: every state is reached from every state in as many steps as there are states. *)
Lemma walls_controllable np m l g k d h mc mp : 0 < m -> 0 < l -> 0 < h -> 0 < mc -> 0 < mp ->
  (forall S1 S2, pendulum_systems np m l g k d h = Ok (S1, S2) -> steerable (lA S1) (lB S1) 2 1 2) /\
  (g <> 0 -> forall S1 S2 S3, cart_systems np mc mp l d k g h = Ok (S1, S2, S3) -> steerable (lA S2) (lB S2) 4 1 4).
Proof.
  intros Hm Hl Hh Hmc Hmp. split.
  - intros S1 S2 E. rewrite pend_systems_eq in E by lra. injection E as <- <-. apply steerable_onto; [repeat split; repeat constructor|repeat split; repeat constructor|lia|].
    intros [|b1 [|b2 [|? ?]]] Lb; try discriminate. set (be := 1 / (m * (l * l))).
    assert (HB : be <> 0) by (unfold be; assert (0 < 1 / (m * (l * l))) by (apply Rdiv_lt_0_compat; [lra|repeat apply Rmult_lt_0_compat; assumption]); lra).
    exists [b2 / (h * be) - b1 / (h * (h * be)); b1 / (h * (h * be))]. split; [reflexivity|]. unfold pend_S1. cbn [lA lB]. fold be. cbv -[Rplus Rmult Ropp Rminus Rinv Rdiv IZR be].
    repeat (apply f_equal2; [field; split; [exact HB|lra]|]). reflexivity.
  - intros Hg S1 S2 S3 E. rewrite cart_systems_eq in E by lra. injection E as <- <- <-. apply steerable_onto; [repeat split; repeat constructor|repeat split; repeat constructor|lia|].
    intros [|b1 [|b2 [|b3 [|b4 [|? ?]]]]] Lb; try discriminate.
    set (ga := - g * h / (l * mc)). set (z1 := b1 - l * b2). set (z2 := b3 - l * b4). set (z3 := - g * b2). set (z4 := - g * b4).
    set (e := g * (mc + mp) / (l * mc)). set (w3 := z1 / (ga * (h * h * h))). set (w2 := (z2 / ga - 3 * (h * h) * w3) / (h * h)). set (w1 := (z3 / ga - 2 * h * w2 - (3 * h + h * h * h * e) * w3) / h).
    exists [z4 / ga - w1 - (1 + h * h * e) * w2 - (1 + 3 * (h * h) * e) * w3; w1; w2; w3]. split; [reflexivity|]. unfold cart_S2, cart_A_free, cart_B. cbn [lA lB]. cbv -[Rplus Rmult Ropp Rminus Rinv Rdiv IZR w1 w2 w3 z4 ga e].
    assert (NZ : ga <> 0) by (unfold ga; apply Rmult_integral_contrapositive_currified; [apply Rmult_integral_contrapositive_currified; lra|apply Rinv_neq_0_compat, Rgt_not_eq, Rmult_lt_0_compat; assumption]).
    assert (E1 : forall a b : R, a = b -> forall u v : list R, u = v -> a :: u = b :: v) by (intros; subst; reflexivity).
    apply E1; [|apply E1; [|apply E1; [|apply E1; [|reflexivity]]]]; unfold w1, w2, w3, z1, z2, z3, z4, ga, e.
    + field. lra.
    + field. lra.
    + field. lra.
    + field. lra.
Qed.

(** ** The closed loop, step by step *)
(** the mode that simulate takes at (x, u) gives the next state of every mode whose domain contains (x, u) *)
Definition agrees_at (W : pwa) (x u : vec) : Prop :=
  forall m k, (m < length (w_dom W))%nat -> in_poly (nth m (w_dom W) poly0) (x ++ u) -> first_mode (w_dom W) (x ++ u) k -> mode_step W m x u = mode_step W k x u.
Lemma step_agrees W nx nu m x u : pwa_wf W nx nu -> length x = nx -> length u = nu -> (m < length (w_dom W))%nat -> in_poly (nth m (w_dom W) poly0) (x ++ u) ->
  (forall D, In D (w_dom W) -> exists r, wf D r 0 (nx + nu)) -> agrees_at W x u -> exists m', pwa_simulate W x [u] = Ok ([x; mode_step W m x u], [m']).
Proof.
  intros PW Lx Lu Hm HI HW AG. destruct (step_first W nx nu x u PW Lx Lu) as (k & E & F).
  - exists (nth m (w_dom W) poly0). split; [apply nth_In, Hm|]. destruct (HW (nth m (w_dom W) poly0)) as (r & Wr); [apply nth_In, Hm|]. apply (in_within _ r (nx + nu)); assumption.
  - exists k. rewrite E, (AG m k Hm HI F). reflexivity.
Qed.
(*@ Theorem C76_along_partial : The closed loop of the notebooks when the modes may disagree along the boundaries: the conclusions of C76_run hold up to every time T such that at the states met before T Gurobi solves the program and the mode that simulate takes gives the same next state as the modes whose domain contains (x, u).
   Missing: states in the strips of width 1e-7 along boundaries where the modes disagree; there simulate may take the other mode (C76_mode_refuted), and the state reached need not have an admissible run. *)
Lemma hybrid_along np S_list D_list i S1 D1 N Q Rm nx nu : hybrid_problem np S_list D_list i S1 D1 N Q Rm nx nu ->
  exists fuel0 Y, (forall fuel, (fuel0 <= fuel)%nat -> hybrid_mpc_design np fuel S_list D_list S1 D1 N Q Rm = Ok Y) /\ y_S Y = PWA nx nu (map (as_affine nx) S_list) D_list /\
    (terminal_invariant (lA S1) (lB S1) (y_K Y) (in_poly D1) (in_poly (y_XN Y)) ->
     forall grb x0, length x0 = nx -> (exists us modes xs, pwa_run_from (y_S Y) (y_XN Y) nu N x0 us modes xs) ->
     exists X U : nat -> vec, X 0%nat = x0 /\
       (forall T, (forall t, (t < T)%nat -> gurobi_solves grb (k_mpmiqp (y_C Y)) (X t)) -> (forall t, (t < T)%nat -> agrees_at (y_S Y) (X t) (U t)) ->
          run_hybrid grb (y_C Y) (y_S Y) T x0 = Ok (map U (seq 0 T), map X (seq 0 (Datatypes.S T)))) /\
       (forall T, (forall t, (t < T)%nat -> gurobi_solves grb (k_mpmiqp (y_C Y)) (X t)) ->
          (forall t, (t < T)%nat -> length (X t) = nx /\ length (U t) = nu /\ exists m, (m < length S_list)%nat /\ in_poly (nth m D_list poly0) (X t ++ U t) /\ X (Datatypes.S t) = mode_step (y_S Y) m (X t) (U t)) /\
          forall us xs modes V0, hybrid_feedforward grb (y_C Y) x0 = Ok (Some (us, xs, modes, V0)) -> forall t, (t < T)%nat -> sum_upto (fun t => stage_cost Q Rm (X t) (U t)) t <= V0) /\
       forall eps, 0 < eps -> (forall t, (forall s, (s <= t)%nat -> eps <= norm (X s)) -> gurobi_solves grb (k_mpmiqp (y_C Y)) (X t)) -> exists T, norm (X T) < eps).
Proof.
  intros HP. destruct (hybrid_design np S_list D_list i S1 D1 N Q Rm nx nu HP) as (fuel0 & Y & mN & O1 & mO & EY & EW & WN & _ & _ & _ & _ & HSU).
  exists fuel0, Y. split; [exact EY|]. split; [exact EW|]. intros TI grb x0 Lx RUN. specialize (HSU TI). pose proof HP as (HL & HN & LSD & HS & HD & _). pose proof HL as (_ & _ & _ & _ & _ & _ & PQ & _).
  destruct (loop_exists grb (y_C Y) (y_S Y) x0) as (X & U & M & X0 & LOOP). exists X, U. split; [exact X0|].
  assert (LX0 : length (X 0%nat) = nx) by (rewrite X0; exact Lx). rewrite <- X0 in RUN.
  assert (PW : pwa_wf (y_S Y) nx nu).
  { pose proof HSU as (_ & (_ & _ & (_ & CS) & LD & _) & _). split; [symmetry; exact LD|]. split; [exact CS|]. rewrite EW. cbn [w_dom]. intros D HDi. destruct (HD D HDi) as (m & Wm & Pm & _). exists m, 0%nat. auto. }
  assert (WD : forall D, In D (w_dom (y_S Y)) -> exists r, wf D r 0 (nx + nu)). { rewrite EW. cbn [w_dom]. intros D HDi. destruct (HD D HDi) as (m & Wm & _). eauto. }
  assert (LM : length (w_sys (y_S Y)) = length S_list) by (rewrite EW; cbn [w_sys]; apply map_length).
  assert (LD : length (w_dom (y_S Y)) = length S_list) by (rewrite EW; cbn [w_dom]; lia).
  assert (AT : forall T, (forall t, (t < T)%nat -> gurobi_solves grb (k_mpmiqp (y_C Y)) (X t)) -> forall n, (n < T)%nat -> exists V0, (exists us xs modes, hybrid_feedforward grb (y_C Y) (X 0%nat) = Ok (Some (us, xs, modes, V0))) /\ forall t, (t <= n)%nat ->
    length (X t) = nx /\ length (U t) = nu /\ hybrid_feedback grb (y_C Y) (X t) = Ok (Some (U t)) /\ (M t < length (w_sys (y_S Y)))%nat /\ in_poly (nth (M t) (w_dom (y_S Y)) poly0) (X t ++ U t) /\
    X (Datatypes.S t) = mode_step (y_S Y) (M t) (X t) (U t) /\ 0 <= / 2 * (dot (X t) (mv Q (X t)) + dot (U t) (mv Rm (U t))) /\
    exists us xs modes V, hybrid_feedforward grb (y_C Y) (X t) = Ok (Some (us, xs, modes, V)) /\ 0 <= V /\
      V + sum_upto (fun t => / 2 * (dot (X t) (mv Q (X t)) + dot (U t) (mv Rm (U t)))) t <= V0).
  { intros T GS n Hn. apply (hybrid_closed_loop np grb (y_S Y) N Q Rm (y_P Y) (y_XN Y) nx nu mN 0 (y_C Y) X U M n HSU LX0 LOOP RUN). intros t Ht. apply GS. lia. }
  split; [|split].
  - intros T GS AG. specialize (AT T GS).
    assert (G : forall n s, (s + n <= T)%nat -> run_hybrid grb (y_C Y) (y_S Y) n (X s) = Ok (map U (seq s n), map X (seq s (Datatypes.S n)))).
    { induction n as [|n IH]; intros s Hs; [reflexivity|]. cbn [run_hybrid]. destruct (AT s ltac:(lia)) as (V0 & _ & H). destruct (H s (le_n _)) as (L1 & L2 & EF & LMs & HI & ES & _). rewrite EF. cbn [bind].
      destruct (step_agrees (y_S Y) nx nu (M s) (X s) (U s) PW L1 L2 ltac:(lia) HI WD (AG s ltac:(lia))) as (m' & ESim). rewrite ESim. cbn [bind fst]. rewrite <- ES, IH by lia. reflexivity. }
    rewrite <- X0. apply (G T 0%nat). lia.
  - intros T GS. specialize (AT T GS). split.
    + intros t Ht. destruct (AT t Ht) as (V0 & _ & H). destruct (H t (le_n _)) as (L1 & L2 & _ & LMs & HI & ES & _). split; [exact L1|]. split; [exact L2|]. exists (M t). rewrite LM in LMs. split; [exact LMs|]. split; [|exact ES]. rewrite EW in HI. exact HI.
    + intros us xs modes V0 E0 t Ht. destruct (AT t Ht) as (V1 & (us1 & xs1 & modes1 & E1) & H). rewrite X0, E0 in E1. injection E1 as <- <- <- <-. destruct (H t (le_n _)) as (_ & _ & _ & _ & _ & _ & _ & us2 & xs2 & modes2 & V & _ & PV & HV). unfold stage_cost. lra.
  - intros eps He GS. apply (hybrid_practical np grb (y_S Y) N Q Rm (y_P Y) (y_XN Y) nx nu mN 0 (y_C Y) X U M eps HSU LX0 LOOP RUN PQ He GS).
Qed.

(** what is assumed of the libraries for the LQR problem of a system: the kernels are exact, scipy returns a positive semidefinite solution of the Riccati equation, eig an eigenvalue *)
Definition lqr_libraries (np : numpy) (S : lsys) (Q Rm : mat) (nx nu : nat) : Prop :=
  exact_np np /\ riccati (lA S) (lB S) Q Rm (np_dare np (lA S) (lB S) Q Rm) nx nu /\ psd (np_dare np (lA S) (lB S) Q Rm) nx /\ (forall K, shape K nu nx -> eig_max_ok np (A_closed S K) nx).
Lemma pend_D_bounded lo hi v u : bounded_set (in_poly (pend_D lo hi v u)).
Proof.
  destruct (pend_bounded lo hi v) as (M1 & H1). destruct (seg_bounded u) as (M2 & H2).
  apply (entries_bounded _ 3 (Rmax (Rmax (Rabs lo) (Rabs hi)) (Rmax (Rabs v) (Rabs u)))). intros x Hx. apply pend_D_in in Hx. destruct Hx as (a & b & w & -> & Ha & Hb & Hw). split; [reflexivity|].
  pose proof (Rmax_l (Rmax (Rabs lo) (Rabs hi)) (Rmax (Rabs v) (Rabs u))). pose proof (Rmax_r (Rmax (Rabs lo) (Rabs hi)) (Rmax (Rabs v) (Rabs u))). pose proof (Rmax_l (Rabs lo) (Rabs hi)). pose proof (Rmax_r (Rabs lo) (Rabs hi)).
  pose proof (Rmax_l (Rabs v) (Rabs u)). pose proof (Rmax_r (Rabs v) (Rabs u)).
  pose proof (Rle_abs hi). pose proof (Rle_abs (- lo)) as Hl. rewrite Rabs_Ropp in Hl. pose proof (Rle_abs v). pose proof (Rle_abs u).
  intros [|[|[|i]]] Hi; cbn [nth]; [apply Rabs_le; lra|apply Rabs_le; lra|apply Rabs_le; lra|lia].
Qed.
Lemma pend_problem np m l g k d h v u N Q Rm : 0 < m -> 0 < l -> 0 < d -> 0 < h -> 0 < v -> 0 < u -> (0 < N)%nat ->
  shape Q 2 2 -> shape Rm 1 1 -> Spec.pd Q 2 -> Spec.pd Rm 1 -> lqr_libraries np (pend_S1 m l g h) Q Rm 2 1 ->
  hybrid_problem np [Lin (pend_S1 m l g h); Aff (pend_S2 m l g k d h)] [pend_D (-2 * d / l) (d / l) v u; pend_D (d / l) (2 * d / l) v u] 0 (pend_S1 m l g h) (pend_D (-2 * d / l) (d / l) v u) N Q Rm 2 1.
Proof.
  intros Hm Hl Hd Hh Hv Hu HN SQ SR PQ PR (Hnp & RIC & PSD & EIG).
  assert (DL : 0 < d / l) by (apply Rdiv_lt_0_compat; assumption). assert (E2 : 2 * d / l = 2 * (d / l)) by (field; lra). assert (E2' : -2 * d / l = -2 * (d / l)) by (field; lra).
  split; [|split; [exact HN|split; [reflexivity|split; [|split; [|split; [reflexivity|split; [reflexivity|]]]]]]].
  - split; [exact Hnp|]. split; [repeat split; repeat constructor|]. split; [repeat split; repeat constructor|]. split; [exact SQ|]. split; [exact SR|]. split; [lia|]. split; [exact PQ|]. split; [exact PR|]. split; [reflexivity|].
    split; [|split; [exact RIC|split; [exact PSD|exact EIG]]]. apply (proj1 (walls_controllable np m l g k d h 1 1 Hm Hl Hh Rlt_0_1 Rlt_0_1) _ _ (pend_systems_eq np m l g k d h ltac:(lra))).
  - intros s [<-|[<-|[]]]; repeat split; repeat constructor.
  - assert (G : forall lo hi, lo <= hi -> exists m0, wf (pend_D lo hi v u) m0 0 (2 + 1) /\ (0 < m0)%nat /\ (exists xu, in_poly (pend_D lo hi v u) xu) /\ bounded_set (in_poly (pend_D lo hi v u))).
    { intros lo hi H. exists 6%nat. split; [apply hpoly_wf; repeat constructor|]. split; [lia|]. split; [|apply pend_D_bounded]. exists [lo; 0; 0]. apply pend_D_in. exists lo, 0, 0. split; [reflexivity|lra]. }
    intros D [<-|[<-|[]]]; apply G; lra.
  - unfold pend_D, hpoly. cbn [Polyhedron.pb]. repeat constructor; lra.
Qed.
(*@ Theorem C91_pendulum_loop : hybrid_mpc.ipynb from its first to its last cell (without plots), for all positive parameters, horizons, positive definite Q and R, exact libraries: the systems, domains and controller are built. When the terminal set is invariant (see C76_design), from every state with an admissible run the closed loop follows the pendulum with the one-sided spring: up to every time T such that before T Gurobi solves the programs met and no angle met is within 1e-7 beyond the wall, the loop does not fail, every next state is exactly that of the spring model (no matter how many times the wall is hit), every angle is between -2d/l and 2d/l, and the bounds on velocity and input hold. If Gurobi solves the programs as long as the state is not within eps of the origin, this motion enters the ball of radius eps. *)
Lemma pendulum_loop np m l g k d h v u N Q Rm S1 S2 D1 D2 : 0 < m -> 0 < l -> 0 < k -> 0 < d -> 0 < h -> 0 < v -> 0 < u -> (0 < N)%nat ->
  shape Q 2 2 -> shape Rm 1 1 -> Spec.pd Q 2 -> Spec.pd Rm 1 ->
  pendulum_systems np m l g k d h = Ok (S1, S2) -> pendulum_domains np l d v u = Ok (D1, D2) -> lqr_libraries np S1 Q Rm 2 1 ->
  exists fuel0 Y, (forall fuel, (fuel0 <= fuel)%nat -> hybrid_mpc_design np fuel [Lin S1; Aff S2] [D1; D2] S1 D1 N Q Rm = Ok Y) /\
    (terminal_invariant (lA S1) (lB S1) (y_K Y) (in_poly D1) (in_poly (y_XN Y)) ->
     forall grb x0, length x0 = 2%nat -> (exists us modes xs, pwa_run_from (y_S Y) (y_XN Y) 1 N x0 us modes xs) ->
     exists X U : nat -> vec, X 0%nat = x0 /\
       (forall T, (forall t, (t < T)%nat -> gurobi_solves grb (k_mpmiqp (y_C Y)) (X t)) ->
          (forall t, (t < T)%nat -> exists a b w, X t = [a; b] /\ U t = [w] /\ X (Datatypes.S t) = pend_step m l g k d h a b w /\ -2 * d / l <= a <= 2 * d / l /\ - v <= b <= v /\ - u <= w <= u) /\
          ((forall t, (t < T)%nat -> nth 0 (X t) 0 <= d / l \/ d / l + tol7 < nth 0 (X t) 0) -> run_hybrid grb (y_C Y) (y_S Y) T x0 = Ok (map U (seq 0 T), map X (seq 0 (Datatypes.S T))))) /\
       forall eps, 0 < eps -> (forall t, (forall s, (s <= t)%nat -> eps <= norm (X s)) -> gurobi_solves grb (k_mpmiqp (y_C Y)) (X t)) -> exists T, norm (X T) < eps).
Proof.
  intros Hm Hl Hk Hd Hh Hv Hu HN SQ SR PQ PR ES ED LIB. pose proof LIB as (Hnp & _). rewrite pend_systems_eq in ES by lra. injection ES as <- <-. rewrite pend_domains_eq in ED by exact Hnp. injection ED as <- <-.
  assert (DL : 0 < d / l) by (apply Rdiv_lt_0_compat; assumption). assert (E2 : 2 * d / l = 2 * (d / l)) by (field; lra). assert (E2' : -2 * d / l = -2 * (d / l)) by (field; lra).
  destruct (hybrid_along _ _ _ _ _ _ _ _ _ _ _ (pend_problem np m l g k d h v u N Q Rm Hm Hl Hd Hh Hv Hu HN SQ SR PQ PR LIB)) as (fuel0 & Y & EY & EW & HY).
  exists fuel0, Y. split; [exact EY|]. intros TI grb x0 Lx RUN. destruct (HY TI grb x0 Lx RUN) as (X & U & X0 & H1 & H2 & H3). exists X, U. split; [exact X0|]. split; [|exact H3].
  change (y_S Y = pend_W m l g k d h v u) in EW.
  assert (LE : forall a, a <= d / l -> Rmax 0 (a - d / l) = 0) by (intros a H; apply Rmax_left; lra).
  assert (GE : forall a, d / l <= a -> Rmax 0 (a - d / l) = a - d / l) by (intros a H; apply Rmax_right; lra).
  assert (MS : forall j a b w, (j < 2)%nat -> in_poly (nth j (w_dom (pend_W m l g k d h v u)) poly0) [a; b; w] -> mode_step (pend_W m l g k d h v u) j [a; b] [w] = pend_step m l g k d h a b w /\ -2 * d / l <= a <= 2 * d / l /\ - v <= b <= v /\ - u <= w <= u).
  { intros j a b w Hj HI. destruct j as [|[|j]]; [| |lia]; cbn [nth w_dom pend_W] in HI; apply pend_D_in in HI; destruct HI as (a' & b' & w' & [= <- <- <-] & Ha & Hb & Hw).
    - rewrite pend_mode0 by assumption. unfold pend_step. rewrite LE by lra. split; [repeat (apply f_equal2; [ring|]); reflexivity|lra].
    - rewrite pend_mode1 by assumption. unfold pend_step. rewrite GE by lra. split; [reflexivity|lra]. }
  intros T GS. destruct (H2 T GS) as (HT & _).
  assert (AT : forall t, (t < T)%nat -> exists a b w m0, X t = [a; b] /\ U t = [w] /\ (m0 < 2)%nat /\ in_poly (nth m0 (w_dom (pend_W m l g k d h v u)) poly0) [a; b; w] /\ X (Datatypes.S t) = mode_step (pend_W m l g k d h v u) m0 [a; b] [w]).
  { intros t Ht. destruct (HT t Ht) as (LX & LU & m0 & Hm0 & HI & EX). destruct (X t) as [|a [|b [|? ?]]]; try discriminate LX. destruct (U t) as [|w [|? ?]]; try discriminate LU. exists a, b, w, m0. rewrite EW in EX. auto. }
  split.
  - intros t Ht. destruct (AT t Ht) as (a & b & w & m0 & EX & EU & Hm0 & HI & ES). exists a, b, w. split; [exact EX|]. split; [exact EU|]. rewrite ES. apply MS; assumption.
  - intros HS. apply H1; [exact GS|]. intros t Ht. destruct (AT t Ht) as (a & b & w & m0 & EX & EU & Hm0 & HI & ES). specialize (HS t Ht). rewrite EX in HS. cbn [nth] in HS. rewrite EX, EU, EW.
    intros j j' Hj HIj (Hj' & Wj & Fj). destruct (MS j a b w Hj HIj) as (-> & Ha & Hb & Hw).
    assert (T7 : 0 < tol7) by (unfold tol7; lra). destruct j' as [|[|j']]; [| |cbn in Hj'; lia].
    + specialize (Wj _ eq_refl). cbn [app] in Wj. apply pend_D_within in Wj. symmetry. apply (MS 0%nat); [lia|]. apply pend_D_in. exists a, b, w. split; [reflexivity|lra].
    + pose proof (Fj 0%nat _ ltac:(lia) eq_refl) as N0. cbn [app] in N0. rewrite pend_D_within in N0. symmetry. apply (MS 1%nat); [lia|]. apply pend_D_in. exists a, b, w. split; [reflexivity|].
      destruct (Rle_dec a (d / l + tol7)); [exfalso; apply N0; lra|lra].
Qed.
Lemma cart_D_bounded p th v w u F g : length F = length g -> (Forall (fun a => length a = 4%nat) F) -> bounded_set (in_poly (cart_D p th v w u F g)).
Proof.
  intros LF FF. apply (entries_bounded _ 5 (Rabs p + Rabs th + Rabs v + Rabs w + Rabs u)). intros x Hx. unfold cart_D in Hx. apply hpoly_in in Hx. destruct Hx as (L & H). split; [exact L|]. destruct x as [|a [|b [|c [|e [|f [|? ?]]]]]]; try discriminate.
  unfold cart_rows, cart_bounds in H. rewrite map_app in H. rewrite <- !app_assoc in H. cbn [app map] in H.
  assert (G : Forall2 (fun a0 bi => dot a0 [a; b; c; e; f] <= bi) [[0; 0; 0; 0; -1]; [0; 0; 0; 0; 1]] [u; u]).
  { do 8 (inversion H; clear H; subst; match goal with H' : Forall2 _ _ _ |- _ => rename H' into H end).
    assert (LFM : length (map (fun r : list R => r ++ [0]) F) = length g) by (rewrite map_length; exact LF).
    revert H LFM. clear. generalize (map (fun r : list R => r ++ [0]) F). intros F'. revert g. induction F' as [|q F' IH]; intros [|gi g] H LFM; try discriminate; [exact H|]. cbn [app] in H. inversion H; subst. apply (IH g); [assumption|]. cbn in LFM. lia. }
  inv2. cbn in *.
  pose proof (Rle_abs p). pose proof (Rle_abs th). pose proof (Rle_abs v). pose proof (Rle_abs w). pose proof (Rle_abs u). pose proof (Rabs_pos p). pose proof (Rabs_pos th). pose proof (Rabs_pos v). pose proof (Rabs_pos w). pose proof (Rabs_pos u).
  intros [|[|[|[|[|i]]]]] Hi; cbn [nth]; try (apply Rabs_le; lra). lia.
Qed.
Lemma cart_problem np mc mp l d k g h th v w u N Q Rm : 0 < mc -> 0 < mp -> 0 < l -> 0 < d -> g <> 0 -> 0 < h -> 0 < th -> 0 < v -> 0 < w -> 0 < u -> (0 < N)%nat ->
  shape Q 4 4 -> shape Rm 1 1 -> Spec.pd Q 4 -> Spec.pd Rm 1 -> lqr_libraries np (cart_S2 mc mp l g h) Q Rm 4 1 ->
  hybrid_problem np [Aff (cart_S1 mc mp l d k g h); Lin (cart_S2 mc mp l g h); Aff (cart_S3 mc mp l d k g h)] (cart_doms l d th v w u) 1 (cart_S2 mc mp l g h) (cart_D (3 / 2 * d) th v w u (F2 l) [d; d]) N Q Rm 4 1.
Proof.
  intros Hmc Hmp Hl Hd Hg Hh Hth Hv Hw Hu HN SQ SR PQ PR (Hnp & RIC & PSD & EIG).
  split; [|split; [exact HN|split; [reflexivity|split; [|split; [|split; [reflexivity|split; [reflexivity|]]]]]]].
  - split; [exact Hnp|]. split; [repeat split; repeat constructor|]. split; [repeat split; repeat constructor|]. split; [exact SQ|]. split; [exact SR|]. split; [lia|]. split; [exact PQ|]. split; [exact PR|]. split; [reflexivity|].
    split; [|split; [exact RIC|split; [exact PSD|exact EIG]]]. apply (proj2 (walls_controllable np 1 l g k d h mc mp Rlt_0_1 Hl Hh Hmc Hmp) Hg _ _ _ (cart_systems_eq np mc mp l d k g h ltac:(lra))).
  - intros s [<-|[<-|[<-|[]]]]; repeat split; repeat constructor.
  - intros D [<-|[<-|[<-|[]]]].
    + exists 11%nat. split; [apply hpoly_wf; repeat constructor|]. split; [lia|]. split; [|apply cart_D_bounded; repeat constructor]. exists [- (3 / 2 * d); 0; 0; 0; 0]. apply cart_D1_in. repeat eexists; lra.
    + exists 12%nat. split; [apply hpoly_wf; repeat constructor|]. split; [lia|]. split; [|apply cart_D_bounded; repeat constructor]. exists [0; 0; 0; 0; 0]. apply cart_D2_in. repeat eexists; lra.
    + exists 11%nat. split; [apply hpoly_wf; repeat constructor|]. split; [lia|]. split; [|apply cart_D_bounded; repeat constructor]. exists [3 / 2 * d; 0; 0; 0; 0]. apply cart_D3_in. repeat eexists; lra.
  - unfold cart_D, hpoly. cbn. repeat constructor; lra.
Qed.
(*@ Theorem C91_cart_loop : hybrid_mpc_2.ipynb from its first cell to the end of its simulation (without plots and meshcat), for all positive parameters, horizons, positive definite Q and R, exact libraries: the systems, domains and controller are built. When the terminal set is invariant, from every state with an admissible run the closed loop follows the cart-pole with the two one-sided springs: up to every time T such that before T Gurobi solves the programs met and the tip is never within 1e-7 right of a wall, the loop does not fail, every next state is exactly that of the spring model, and the bounds on states and input hold. If Gurobi solves the programs as long as the state is not within eps of the origin, this motion enters the ball of radius eps. *)
Lemma cart_loop np mc mp l d k g h th v w u N Q Rm S1 S2 S3 D1 D2 D3 : 0 < mc -> 0 < mp -> 0 < l -> 0 < d -> 0 < k -> 0 < g -> 0 < h -> 0 < th -> 0 < v -> 0 < w -> 0 < u -> (0 < N)%nat ->
  shape Q 4 4 -> shape Rm 1 1 -> Spec.pd Q 4 -> Spec.pd Rm 1 ->
  cart_systems np mc mp l d k g h = Ok (S1, S2, S3) -> cart_domains np l d th v w u = Ok (D1, D2, D3) -> lqr_libraries np S2 Q Rm 4 1 ->
  exists fuel0 Y, (forall fuel, (fuel0 <= fuel)%nat -> hybrid_mpc_design np fuel [Aff S1; Lin S2; Aff S3] [D1; D2; D3] S2 D2 N Q Rm = Ok Y) /\
    (terminal_invariant (lA S2) (lB S2) (y_K Y) (in_poly D2) (in_poly (y_XN Y)) ->
     forall grb x0, length x0 = 4%nat -> (exists us modes xs, pwa_run_from (y_S Y) (y_XN Y) 1 N x0 us modes xs) ->
     exists X U : nat -> vec, X 0%nat = x0 /\
       (forall T, (forall t, (t < T)%nat -> gurobi_solves grb (k_mpmiqp (y_C Y)) (X t)) ->
          (forall t, (t < T)%nat -> exists a b c e f, X t = [a; b; c; e] /\ U t = [f] /\ X (Datatypes.S t) = cart_step mc mp l d k g h a b c e f /\
             - (3 / 2 * d) <= a <= 3 / 2 * d /\ - th <= b <= th /\ - v <= c <= v /\ - w <= e <= w /\ - u <= f <= u) /\
          ((forall t, (t < T)%nat -> let y := nth 0 (X t) 0 - l * nth 1 (X t) 0 in y <= - d \/ - d + tol7 < y <= d \/ d + tol7 < y) ->
             run_hybrid grb (y_C Y) (y_S Y) T x0 = Ok (map U (seq 0 T), map X (seq 0 (Datatypes.S T))))) /\
       forall eps, 0 < eps -> (forall t, (forall s, (s <= t)%nat -> eps <= norm (X s)) -> gurobi_solves grb (k_mpmiqp (y_C Y)) (X t)) -> exists T, norm (X T) < eps).
Proof.
  intros Hmc Hmp Hl Hd Hk Hg Hh Hth Hv Hw Hu HN SQ SR PQ PR ES ED LIB. pose proof LIB as (Hnp & _). rewrite cart_systems_eq in ES by lra. injection ES as <- <- <-. rewrite cart_domains_eq in ED by exact Hnp. injection ED as <- <- <-.
  assert (Hg' : g <> 0) by lra. assert (T7 : 0 < tol7) by (unfold tol7; lra).
  destruct (hybrid_along _ _ _ _ _ _ _ _ _ _ _ (cart_problem np mc mp l d k g h th v w u N Q Rm Hmc Hmp Hl Hd Hg' Hh Hth Hv Hw Hu HN SQ SR PQ PR LIB)) as (fuel0 & Y & EY & EW & HY).
  exists fuel0, Y. split; [exact EY|]. intros TI grb x0 Lx RUN. destruct (HY TI grb x0 Lx RUN) as (X & U & X0 & H1 & H2 & H3). exists X, U. split; [exact X0|]. split; [|exact H3].
  set (W := cart_W mc mp l d k g h th v w u). change (y_S Y = W) in EW.
  set (box := fun a b c e f => - (3 / 2 * d) <= a <= 3 / 2 * d /\ - th <= b <= th /\ - v <= c <= v /\ - w <= e <= w /\ - u <= f <= u).
  assert (MS : forall j a b c e f, (j < 3)%nat -> in_poly (nth j (w_dom W) poly0) [a; b; c; e; f] -> mode_step W j [a; b; c; e] [f] = cart_step mc mp l d k g h a b c e f /\ box a b c e f).
  { intros j a b c e f Hj HI. unfold W at 1. rewrite cart_mode by assumption. unfold cart_step. destruct j as [|[|[|j]]]; [| | |lia]; cbn [nth w_dom W cart_W cart_doms] in HI |- *.
    - apply cart_D1_in in HI. destruct HI as (a' & b' & c' & e' & f' & [= <- <- <- <- <-] & HB). rewrite wall_left by tauto. split; [reflexivity|unfold box; tauto].
    - apply cart_D2_in in HI. destruct HI as (a' & b' & c' & e' & f' & [= <- <- <- <- <-] & HB). rewrite wall_free by tauto. split; [reflexivity|unfold box; tauto].
    - apply cart_D3_in in HI. destruct HI as (a' & b' & c' & e' & f' & [= <- <- <- <- <-] & HB). rewrite wall_right by tauto. split; [reflexivity|unfold box; tauto]. }
  intros T GS. destruct (H2 T GS) as (HT & _).
  assert (AT : forall t, (t < T)%nat -> exists a b c e f m0, X t = [a; b; c; e] /\ U t = [f] /\ (m0 < 3)%nat /\ in_poly (nth m0 (w_dom W) poly0) [a; b; c; e; f] /\ X (Datatypes.S t) = mode_step W m0 [a; b; c; e] [f]).
  { intros t Ht. destruct (HT t Ht) as (LX & LU & m0 & Hm0 & HI & EX). destruct (X t) as [|a [|b [|c [|e [|? ?]]]]]; try discriminate LX. destruct (U t) as [|f [|? ?]]; try discriminate LU. exists a, b, c, e, f, m0. rewrite EW in EX. auto. }
  split.
  - intros t Ht. destruct (AT t Ht) as (a & b & c & e & f & m0 & EX & EU & Hm0 & HI & ES). exists a, b, c, e, f. split; [exact EX|]. split; [exact EU|]. rewrite ES. apply MS; assumption.
  - intros HS. apply H1; [exact GS|]. intros t Ht. destruct (AT t Ht) as (a & b & c & e & f & m0 & EX & EU & Hm0 & HI & ES). specialize (HS t Ht). rewrite EX in HS. cbn [nth] in HS. cbv zeta in HS. rewrite EX, EU, EW.
    intros j j' Hj HIj (Hj' & Wj & Fj). destruct (MS j a b c e f Hj HIj) as (-> & HB). cbn [app] in Wj, Fj.
    assert (NB : near_box (3 / 2 * d) th v w u a b c e f) by (unfold near_box; unfold box in HB; lra).
    assert (F0 : j' <> 0%nat -> - d + tol7 < a - l * b).
    { intros N0. pose proof (Fj 0%nat _ ltac:(lia) eq_refl) as NI. destruct (Rle_dec (a - l * b) (- d + tol7)) as [L|L]; [exfalso; apply NI; apply cart_D1_within; split; [exact NB|exact L]|lra]. }
    assert (F1' : j' = 2%nat -> d + tol7 < a - l * b).
    { intros N0. pose proof (Fj 1%nat _ ltac:(lia) eq_refl) as NI. destruct (Rle_dec (a - l * b) (d + tol7)) as [L|L]; [|lra]. exfalso. apply NI. apply cart_D2_within. split; [exact NB|]. specialize (F0 ltac:(lia)). lra. }
    destruct j' as [|[|[|j']]]; [| | |cbn in Hj'; lia]; symmetry; unfold box in HB.
    + specialize (Wj _ eq_refl). apply cart_D1_within in Wj. apply (MS 0%nat); [lia|]. apply cart_D1_in. exists a, b, c, e, f. split; [reflexivity|]. repeat split; lra.
    + specialize (Wj _ eq_refl). apply cart_D2_within in Wj. specialize (F0 ltac:(lia)). apply (MS 1%nat); [lia|]. apply cart_D2_in. exists a, b, c, e, f. split; [reflexivity|]. repeat split; lra.
    + specialize (F1' eq_refl). apply (MS 2%nat); [lia|]. apply cart_D3_in. exists a, b, c, e, f. split; [reflexivity|]. repeat split; lra.
Qed.

(** ** Examples *)
(** the modulus of an eigenvalue of a 2 by 2 matrix *)
Definition eig2 (M : mat) : R :=
  let p := nth 0 (row M 0) 0 in let q := nth 1 (row M 0) 0 in let r := nth 0 (row M 1) 0 in let s := nth 1 (row M 1) 0 in
  let D := (p + s) * (p + s) / 4 - (p * s - q * r) in
  if Rle_dec 0 D then Rabs ((p + s) / 2 + sqrt D) else sqrt (p * s - q * r).
Lemma eig2_real M a x y : 0 < x * x + y * y -> mv M [x; y] = vscale a [x; y] -> forall np, np_eig_max np M = Rabs a -> eig_max_ok np M 2.
Proof.
  intros P E np EN. destruct (Rle_dec 0 a) as [L|L].
  - exists [x; y], [0; 0], 1, 0. rewrite EN, Rabs_pos_eq by exact L. split; [reflexivity|]. split; [reflexivity|]. split; [cbn; lra|]. split; [ring|]. cbv zeta. split; [exact L|].
    split; [rewrite E; cbn; repeat (apply f_equal2; [ring|]); reflexivity|]. change [0; 0] with (zeros 2). rewrite mv_zeros. assert (L2 : length (rows M) = 2%nat) by (rewrite <- (mv_length M [x; y]), E; reflexivity). rewrite L2. cbn. repeat (apply f_equal2; [ring|]). reflexivity.
  - exists [x; y], [0; 0], (-1), 0. rewrite EN, Rabs_left by lra. split; [reflexivity|]. split; [reflexivity|]. split; [cbn; lra|]. split; [ring|]. cbv zeta. split; [lra|].
    split; [rewrite E; cbn; repeat (apply f_equal2; [ring|]); reflexivity|]. change [0; 0] with (zeros 2). rewrite mv_zeros. assert (L2 : length (rows M) = 2%nat) by (rewrite <- (mv_length M [x; y]), E; reflexivity). rewrite L2. cbn. repeat (apply f_equal2; [ring|]). reflexivity.
Qed.
Lemma sq_zero x y : x * x + y * y = 0 -> x = 0 /\ y = 0.
Proof. intros H. pose proof (Rle_0_sqr x). pose proof (Rle_0_sqr y). unfold Rsqr in *. split; apply Rsqr_0_uniq; unfold Rsqr; lra. Qed.
Lemma eig2_ok np M : (forall A, shape A 2 2 -> np_eig_max np A = eig2 A) -> shape M 2 2 -> eig_max_ok np M 2.
Proof.
  intros EN SM. pose proof SM as (L & C & F). destruct M as [n rs]. cbn [ncols rows] in *. subst n. destruct rs as [|r0 [|r1 [|? ?]]]; try discriminate.
  inversion F as [|? ? F0 F']; subst. inversion F' as [|? ? F1' _]; subst. destruct r0 as [|p [|q [|? ?]]]; try discriminate. destruct r1 as [|r [|s [|? ?]]]; try discriminate. clear F F' F0 F1' L.
  specialize (EN _ SM). unfold eig2, row in EN. cbn [rows nth] in EN. cbv zeta in EN. destruct (Rle_dec 0 ((p + s) * (p + s) / 4 - (p * s - q * r))) as [Dp|Dn].
  - set (D := (p + s) * (p + s) / 4 - (p * s - q * r)) in *. set (a := (p + s) / 2 + sqrt D) in *. pose proof (sqrt_sqrt D Dp) as SD.
    assert (CH : (a - p) * (a - s) = q * r). { unfold a. replace (((p + s) / 2 + sqrt D - p) * ((p + s) / 2 + sqrt D - s)) with (sqrt D * sqrt D - ((p + s) * (p + s) / 4 - p * s)) by field. rewrite SD. unfold D. ring. }
    destruct (Req_dec (q * q + (a - p) * (a - p)) 0) as [Z|Z].
    + destruct (sq_zero _ _ Z) as (Zq & Zp'). assert (Zp : a = p) by lra. destruct (Req_dec ((a - s) * (a - s) + r * r) 0) as [Z'|Z'].
      * destruct (sq_zero _ _ Z') as (Zs' & Zr). assert (Zs : a = s) by lra. apply (eig2_real _ a 1 0); [lra| |exact EN]. rewrite Zq, Zr, <- Zp, <- Zs. cbn. repeat (apply f_equal2; [ring|]). reflexivity.
      * apply (eig2_real _ a (a - s) r); [pose proof (Rle_0_sqr (a - s)); pose proof (Rle_0_sqr r); unfold Rsqr in *; lra| |exact EN]. cbn. apply f_equal2; [rewrite Zq, Zp; ring|]. apply f_equal2; [ring|reflexivity].
    + apply (eig2_real _ a q (a - p)); [pose proof (Rle_0_sqr (a - p)); pose proof (Rle_0_sqr q); unfold Rsqr in *; lra| |exact EN]. cbn. apply f_equal2; [ring|]. apply f_equal2; [lra|reflexivity].
  - set (D := (p + s) * (p + s) / 4 - (p * s - q * r)) in *. set (w := sqrt (- D)). assert (WW : w * w = - D) by (apply sqrt_sqrt; lra). assert (W0 : 0 < w) by (apply sqrt_lt_R0; lra). set (mu := (p + s) / 2).
    assert (DE : p * s - q * r = mu * mu + w * w) by (rewrite WW; unfold D, mu; field). rewrite DE in EN. set (rr := sqrt (mu * mu + w * w)) in *. assert (RR : rr * rr = mu * mu + w * w) by (apply sqrt_sqrt; nra). assert (R0 : 0 < rr) by (apply sqrt_lt_R0; nra).
    exists [q; mu - p], [0; w], (mu / rr), (w / rr). rewrite EN. split; [reflexivity|]. split; [reflexivity|]. split; [cbn; pose proof (Rle_0_sqr q); pose proof (Rle_0_sqr (mu - p)); pose proof (Rmult_lt_0_compat w w W0 W0); unfold Rsqr in *; lra|]. split; [replace (mu / rr * (mu / rr) + w / rr * (w / rr)) with ((mu * mu + w * w) / (rr * rr)) by (field; lra); rewrite RR; field; pose proof (Rmult_lt_0_compat rr rr R0 R0); lra|].
    cbv zeta. split; [lra|]. assert (S2 : s = 2 * mu - p) by (unfold mu; field). split; cbn.
    + apply f_equal2; [field; lra|]. apply f_equal2; [|reflexivity]. replace (rr * (mu / rr * (mu - p) - w / rr * w)) with (mu * (mu - p) - w * w) by (field; lra). assert (QR : q * r = p * s - mu * mu - w * w) by lra. replace (r * q) with (q * r) by ring. rewrite QR, S2. ring.
    + apply f_equal2; [field; lra|]. apply f_equal2; [|reflexivity]. replace (rr * (w / rr * (mu - p) + mu / rr * w)) with (w * (mu - p) + mu * w) by (field; lra). rewrite S2. ring.
Qed.
Definition np_eig2 (P : mat) : numpy := exact_numpy (fun A => A) eig2 (fun A => A) (fun _ _ _ _ => P) (fun _ n => zeros n) (fun _ _ _ => Ok []) (fun _ => Err QhullError).
Lemma np_eig2_exact P : exact_np (np_eig2 P).
Proof. split; [exact nnls0_ok|]. split; [exact pinv0_ok|]. split; [exact chol0_ok|]. split; [exact inv0_ok|]. split; [exact solve0_ok|exact svd0_ok]. Qed.
(*@ Example C91_example : The numbers of hybrid_mpc.ipynb (m = l = 1, g = 10, k = 100, d = 0.1, h = 0.01, velocities up to 1.5, inputs up to 4, N = 20, Q and R identities): there are exact libraries for which the hypotheses of C91_pendulum_loop hold. *)
Lemma pendulum_example : exists np S1 S2 D1 D2, pendulum_systems np 1 1 10 100 (/ 10) (/ 100) = Ok (S1, S2) /\ pendulum_domains np 1 (/ 10) (3 / 2) 4 = Ok (D1, D2) /\ lqr_libraries np S1 (eye 2) (eye 1) 2 1 /\
  shape (eye 2) 2 2 /\ shape (eye 1) 1 1 /\ Spec.pd (eye 2) 2 /\ Spec.pd (eye 1) 1 /\
  hybrid_problem np [Lin S1; Aff S2] [D1; D2] 0 S1 D1 20 (eye 2) (eye 1) 2 1.
Proof.
  set (S1 := pend_S1 1 1 10 (/ 100)). assert (S2 : shape (eye 2) 2 2) by auto with shp. assert (S0 : shape (eye 1) 1 1) by auto with shp. pose proof (pd_eye 2) as P2. pose proof (pd_eye 1) as P1.
  assert (SA : shape (lA S1) 2 2) by (repeat split; repeat constructor). assert (SB : shape (lB S1) 2 1) by (repeat split; repeat constructor).
  assert (ST : steerable (lA S1) (lB S1) 2 1 2).
  { apply (proj1 (walls_controllable (np_eig2 (eye 2)) 1 1 10 100 (/ 10) (/ 100) 1 1 ltac:(lra) ltac:(lra) ltac:(lra) ltac:(lra) ltac:(lra)) S1 (pend_S2 1 1 10 100 (/ 10) (/ 100))). apply pend_systems_eq. lra. }
  destruct (DareThms.dare_exists (lA S1) (lB S1) (eye 2) (eye 1) 2 1 SA SB S2 S0 (pd_psd _ _ P2) P1 ST) as (P & RIC & PSD & _).
  assert (LIB : lqr_libraries (np_eig2 P) S1 (eye 2) (eye 1) 2 1).
  { split; [apply np_eig2_exact|]. split; [exact RIC|]. split; [exact PSD|]. intros K SK. apply eig2_ok; [reflexivity|]. unfold A_closed. apply shape_madd; [exact SA|]. apply (shape_mm _ _ 2 1 2); assumption. }
  exists (np_eig2 P), S1, (pend_S2 1 1 10 100 (/ 10) (/ 100)), (pend_D (-2 * / 10 / 1) (/ 10 / 1) (3 / 2) 4), (pend_D (/ 10 / 1) (2 * / 10 / 1) (3 / 2) 4).
  split; [apply pend_systems_eq; lra|]. split; [apply pend_domains_eq, np_eig2_exact|]. split; [exact LIB|]. split; [exact S2|]. split; [exact S0|]. split; [exact P2|]. split; [exact P1|].
  apply pend_problem; auto; try lra; lia.
Qed.
(*@ Example C91_cart_example : The numbers of hybrid_mpc_2.ipynb (masses, l and d 1, k = 100, g = 10, h = 0.05): from rest at x1 = 1.25, where the tip is 0.25 into the right wall, one step of simulate without input takes the third mode and gives the pole the angular velocity 1.25. *)
Lemma cart_example : exists np S1 S2 S3 D1 D2 D3 W, exact_np np /\ cart_systems np 1 1 1 1 100 10 (/ 20) = Ok (S1, S2, S3) /\ cart_domains np 1 1 (/ 2) 7 5 100 = Ok (D1, D2, D3) /\ PieceWiseAffineSystem [Aff S1; Lin S2; Aff S3] [D1; D2; D3] = Ok W /\
  exists mode, pwa_simulate W [5 / 4; 0; 0; 0] [[0]] = Ok ([[5 / 4; 0; 0; 0]; [5 / 4; 0; 0; 5 / 4]], [mode]) /\ in_poly D3 [5 / 4; 0; 0; 0; 0].
Proof.
  pose proof (np_eig2_exact (eye 2)) as Hnp. destruct (cart_cells (np_eig2 (eye 2)) 1 1 1 1 100 10 (/ 20) (/ 2) 7 5 100 Hnp ltac:(lra) ltac:(lra) ltac:(lra) ltac:(lra) ltac:(lra) ltac:(lra) ltac:(lra) ltac:(lra) ltac:(lra) ltac:(lra))
    as (S1 & S2 & S3 & D1 & D2 & D3 & W & E1 & E2 & E3 & H). exists (np_eig2 (eye 2)), S1, S2, S3, D1, D2, D3, W. split; [exact Hnp|]. split; [exact E1|]. split; [exact E2|]. split; [exact E3|].
  destruct (H (5 / 4) 0 0 0 0) as (_ & _ & I3 & _ & _ & _ & HS). destruct HS as (x4 & mode & ES & _ & EX); [lra|]. exists mode. rewrite EX in ES by (unfold tol7; lra). split; [|apply I3; lra].
  rewrite ES. unfold cart_step. rewrite wall_right by lra. apply (f_equal (fun z => Ok ([[5 / 4; 0; 0; 0]; z], [mode]))). repeat (apply f_equal2; [field|]). reflexivity.
Qed.
