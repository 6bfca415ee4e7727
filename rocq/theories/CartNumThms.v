(** * CartNumThms: a four-dimensional case of C98_cart, proofs *)
From Coq Require Import Lra Lia String Classical ClassicalChoice.
From Coquelicot Require Import Coquelicot.
From Verif Require Import Arr ArrFacts Spec SpecMpc SpecProg SpecDyn SpecEig SpecRound SpecHold SpecOrigin SpecCart Numpy Dynamics DynThms ZohThms OdeThms SampThms LqrThms QpFacts SolverThms Oracle CondenseThms McaisThms Mpqp Controllers Polyhedron PolyThms CtrlThms HorizonThms DareThms NoteThms SpectralThms RoundThms RoundSimThms Walls WallThms CartDyn LocalThms Gurobi Programs Hybrid HybridThms HybridOptThms HybridLoopThms ExampleCtrl ExThms ExLoopThms Voronoi VorThms CartPole CartThms PlantThms HoldThms CartHoldThms OriginThms CartOriginThms.
Local Open Scope list_scope.

(** the linearization about the upright position, used at every point *)
Definition up_taylor (x : vec) : mat * mat * vec := (cart_A_free 1 1 1 10, cart_B 1 1, zeros 4).
Definition box_rows : list vec := [[-1;0;0;0]; [0;-1;0;0]; [0;0;-1;0]; [0;0;0;-1]; [1;0;0;0]; [0;1;0;0]; [0;0;1;0]; [0;0;0;1]].
Definition box4 : poly := Poly (Mat 4 box_rows) [3; 2; 10; 10; 3; 4; 10; 10] (Mat 4 []) [] None None None None None.
Definition cell4 (s c : R) : poly := Poly (Mat 4 ([0; s; 0; 0] :: box_rows)) [c; 3; 2; 10; 10; 3; 4; 10; 10] (Mat 4 []) [] None None None None None.
Definition dom4 (s c : R) : poly := Poly (Mat 5 (map (fun v => v ++ [0]) ([0; s; 0; 0] :: box_rows) ++ [[0;0;0;0;-1]; [0;0;0;0;1]])) [c; 3; 2; 10; 10; 3; 4; 10; 10; 100; 100] (Mat 5 []) [] None None None None None.
Lemma box4_eq : from_bounds (D1 [-3; -2; -10; -10]) (D1 [3; 4; 10; 10]) None None = Ok box4.
Proof. vm_compute. polys. Qed.
Lemma cons_cell4 s c : constrained_cell 4 [1%nat] (Some box4) (row1 s c) = Ok (cell4 s c).
Proof. vm_compute. polys. Qed.
Lemma cart5 s c : cartesian_product (cell4 s c) (VorThms.seg (- (100)) 100) = Ok (dom4 s c).
Proof. vm_compute. polys. Qed.
Lemma voronoi4 ridges : constrained_voronoi ridges [[0;0;0;0]; [0;2;0;0]] (Some box4) = Ok [cell4 1 1; cell4 (-1) (-1)].
Proof.
  rewrite (constrained_voronoi_eq _ _ _ 4) by (discriminate || (repeat constructor)).
  rewrite (filter_single _ 1 4); [|lia|apply spread_spread, spread2; cbn; rewrite ?Rabs_pos_eq; lra|].
  2: { intros i Hi Ni. apply spread_agree. intros p q [<-|[<-|[]]] [<-|[<-|[]]]; destruct i as [|[|[|[|]]]]; try lia; reflexivity. }
  unfold voronoi_1d. cbn [length Nat.eqb map lower nth]. replace (sort1 [[0]; [2]]) with [[0]; [2]] by (symmetry; apply sort1_id; repeat constructor; cbn; lra).
  cbn [length seq mapM neighbours Nat.ltb Nat.leb Nat.sub Nat.add nth app].
  rewrite (cell1 0 2 1 2), (cell1 2 0 (-1) 2) by lra. cbn [bind mapM]. rewrite !cons_cell4. cbn [bind]. unfold cell4. polys.
Qed.
Lemma up_setup np : expm_exact np -> cart_setup np up_taylor 4 1 [3; 0; 10; 10] 100 0 2 2 (/ 20).
Proof.
  intros HE. unfold cart_setup. split; [lia|]. split; [reflexivity|]. split; [repeat constructor; lra|]. split; [lra|]. split; [lia|]. split; [lra|]. split; [rewrite Rabs_pos_eq; lra|]. split; [lra|].
  intros p _. cbn [up_taylor]. assert (SA : shape (cart_A_free 1 1 1 10) 4 4) by (repeat split; repeat constructor). assert (SB : shape (cart_B 1 1) 4 1) by (repeat split; repeat constructor).
  split; [split; [apply SA|exact SB]|]. split; [reflexivity|]. apply HE, shape_mscale. apply (zoh_shape _ _ _ 4 1); auto.
Qed.
Lemma up_pwa ridges np : expm_exact np -> exists W, cart_pole_pwa ridges np up_taylor 4 1 [3; 0; 10; 10] 100 0 2 2 (/ 20) = Ok W /\ w_dom W = [dom4 1 1; dom4 (-1) (-1)] /\ exists S, w_sys W = [S; S].
Proof.
  intros HE. destruct (cart_model ridges np up_taylor 4 1 [3; 0; 10; 10] 100 0 2 2 (/ 20) (up_setup np HE)) as (W & EW & LS & _). exists W. split; [exact EW|].
  unfold cart_pole_pwa in EW. cbn [Nat.eqb with_entry firstn skipn app vneg map] in EW.
  replace (0 - (2 - 0) / (INR 2 - 1)) with (-2) in EW by (cbn; lra). replace (2 + (2 - 0) / (INR 2 - 1)) with 4 in EW by (cbn; lra).
  replace (- (3)) with (-3) in EW by lra. replace (- (10)) with (-10) in EW by lra.
  rewrite box4_eq in EW. rewrite box1 in EW. cbn [bind] in EW.
  replace (linearization_points 4 1 0 2 2) with [[0;0;0;0]; [0;2;0;0]] in EW by (unfold linearization_points, linspace; cbn; polys).
  unfold pwa_from_plant in EW. rewrite voronoi4 in EW. cbn [bind mapM] in EW. rewrite !cart5 in EW. cbn [bind mapM up_taylor] in EW.
  destruct (aff_from_continuous _ _ _ _ _ _) as [S|]; [|discriminate EW]. cbn [bind] in EW.
  unfold PieceWiseAffineSystem in EW. destruct (negb _); [discriminate EW|]. destruct (only _); [|discriminate EW]. destruct (only _); [|discriminate EW]. destruct (only _); [|discriminate EW]. destruct (negb _); [discriminate EW|].
  cbn [bind map mapM] in EW. injection EW as <-. cbn [w_dom w_sys]. eauto.
Qed.
Lemma in_dom4 s c x1 x2 x3 x4 u : in_poly (dom4 s c) [x1; x2; x3; x4; u] <-> s * x2 <= c /\ -3 <= x1 <= 3 /\ -2 <= x2 <= 4 /\ -10 <= x3 <= 10 /\ -10 <= x4 <= 10 /\ -100 <= u <= 100.
Proof.
  split.
  - intros (_ & H & _). unfold ineq_holds in H. cbn in H. repeat match goal with H : Forall2 _ (_ :: _) _ |- _ => inversion H; clear H; subst | H : Forall2 _ [] _ |- _ => inversion H; clear H; subst end. cbn in *. lra.
  - intros H. split; [reflexivity|]. split; [|constructor]. unfold ineq_holds. cbn. repeat (apply Forall2_cons; [cbn; lra|]). constructor.
Qed.
Lemma up_gaps W S : w_dom W = [dom4 1 1; dom4 (-1) (-1)] -> w_sys W = [S; S] -> sharp_gaps W 4.
Proof.
  intros ED ES i j Hi Hj v. rewrite ES in Hi, Hj. cbn [length] in Hi, Hj.
  assert (FE : forall i, (i < 2)%nat -> f_at W 4 i = f_at W 4 0). { intros i0 Hi0. unfold f_at, sys_at. rewrite ES. destruct i0 as [|[|]]; [reflexivity|reflexivity|lia]. }
  split; [|split; intros r Hr ((xu & _ & E) & _); rewrite (FE i Hi), (FE j Hj) in E; lra].
  intros r Hr ((xu & Ix & E) & MX). unfold dom_at in *. rewrite ED in *. unfold tol6.
  assert (L : length xu = 5%nat) by (destruct j as [|[|]]; [| |lia]; apply Ix). destruct xu as [|x1 [|x2 [|x3 [|x4 [|u [|]]]]]]; try discriminate L. clear L.
  destruct j as [|[|]]; [| |lia]; cbn [nth] in Ix, MX; apply in_dom4 in Ix.
  - pose proof (MX [-3; -2; -10; -10; -100] ltac:(apply in_dom4; lra)) as M1. pose proof (MX [3; 1; 10; 10; 100] ltac:(apply in_dom4; lra)) as M2. clear MX.
    destruct i as [|[|]]; [| |lia]; cbn in Hr; (destruct r as [|[|[|[|[|[|[|[|[|[|[|]]]]]]]]]]]; [..|lia]); cbn in E, M1, M2; first [left; lra|right; lra].
  - pose proof (MX [-3; 1; -10; -10; -100] ltac:(apply in_dom4; lra)) as M1. pose proof (MX [3; 4; 10; 10; 100] ltac:(apply in_dom4; lra)) as M2. clear MX.
    destruct i as [|[|]]; [| |lia]; cbn in Hr; (destruct r as [|[|[|[|[|[|[|[|[|[|[|]]]]]]]]]]]; [..|lia]); cbn in E, M1, M2; first [left; lra|right; lra].
Qed.
(** a solver of all the programs *)
Lemma drake_exists : exists drake, forall prog, drake_ok prog (drake prog).
Proof.
  destruct (choice (fun prog r => drake_ok prog r)) as (drake & H); [|exists drake; exact H].
  intros prog. destruct (classic (exists a, d_feasible prog a /\ forall a', d_feasible prog a' -> d_objective prog a <= d_objective prog a')) as [(a & Ha)|N]; [exists (Some a); exact Ha|exists None; exact N].
Qed.
Lemma cart_at_rest mc mp l d ks g h : 0 < mc -> 0 < mp -> 0 < l -> 0 < d -> held_solution (cart_field mc mp l d ks g) [0] 4 h (fun _ => zeros 4).
Proof.
  intros Hmc Hmp Hl Hd. split; [reflexivity|]. intros t _ i Hi.
  assert (E : cart_field mc mp l d ks g (zeros 4) [0] = zeros 4).
  { destruct (cart_field_derivative mc mp l d ks g Hmc Hmp Hl Hd) as (LF & DF). pose proof (LF (zeros 4) [0] eq_refl eq_refl) as L. 
    destruct (DF 1 ltac:(lra)) as (dl & Pdl & H). assert (Z0 : sup (zeros 4) = 0) by apply sup_zeros. assert (Z1 : sup [0] = 0) by exact (sup_zeros 1).
    specialize (H (zeros 4) [0] eq_refl eq_refl ltac:(lra) ltac:(lra)). rewrite Z0, Z1 in H. replace (linear_step (cart_A_free mc mp l g) (cart_B mc l) (zeros 4) [0]) with (zeros 4) in H by (cbn; repeat (apply f_equal2; [ring|]); reflexivity).
    apply (nth_ext _ _ 0 0); [rewrite L; reflexivity|]. intros k0 Hk0. rewrite L in Hk0. pose proof (nth_sup (vsub (cart_field mc mp l d ks g (zeros 4) [0]) (zeros 4)) k0) as NS. rewrite nth_vsub in NS by (rewrite L; reflexivity). rewrite !nth_zeros, Rminus_0_r in NS. rewrite nth_zeros. pose proof (Rabs_pos (nth k0 (cart_field mc mp l d ks g (zeros 4) [0]) 0)) as AP.
    destruct (Req_dec (nth k0 (cart_field mc mp l d ks g (zeros 4) [0]) 0) 0) as [E|NE]; [exact E|]. apply Rabs_pos_lt in NE. lra. }
  rewrite E, nth_zeros. apply derivable_pt_lim_const.
Qed.
(*@ Example C98_cart_example : The cart-pole with masses and length 1, walls at 1, and gravity 10, linearized about the upright position at the angles 0 and 2 (two modes, four states), N = 4: the hypotheses of C98_cart on the model hold for an exact library, and some solver solves all the programs. At the upright position at rest the controller returns the input 0, and the motion that stays there is one of the closed loop. *)
Lemma cart_num_example ridges : exists np W C drake, exact_np np /\ cart_setup np up_taylor 4 1 [3; 0; 10; 10] 100 0 2 2 (/ 20) /\ (exists j, (j < 2)%nat /\ 0 + INR j * ((2 - 0) / (INR 2 - 1)) = 0) /\ up_taylor (zeros 4) = (cart_A_free 1 1 1 10, cart_B 1 1, zeros 4) /\
  (forall j, (j < 4)%nat -> j <> 1%nat -> 0 < nth j [3; 0; 10; 10] 0) /\ cart_pole_pwa ridges np up_taylor 4 1 [3; 0; 10; 10] 100 0 2 2 (/ 20) = Ok W /\ sharp_gaps W 4 /\ cart_pole_controller np W 4 (/ 100) (/ 100) = Ok C /\
  (forall x, drake_solves drake C x) /\ example_feedback drake C (zeros 4) = Ok (Some [0]) /\ held_solution (cart_field 1 1 1 1 1000 10) [0] 4 (/ 20) (fun _ => zeros 4).
Proof.
  destruct cart_library as (np & Hnp & HE). destruct (up_pwa ridges np HE) as (W & EW & ED & S & ES). pose proof (up_gaps W S ED ES) as SG. pose proof (up_setup np HE) as CS. destruct drake_exists as (drake & HD).
  assert (OJ : exists j, (j < 2)%nat /\ 0 + INR j * ((2 - 0) / (INR 2 - 1)) = 0) by (exists 0%nat; split; [lia|cbn; lra]).
  assert (XP : forall j, (j < 4)%nat -> j <> 1%nat -> 0 < nth j [3; 0; 10; 10] 0) by (intros [|[|[|[|]]]] Hj Nj; cbn; lra || lia).
  assert (ET : up_taylor (zeros 4) = (cart_A_free 1 1 1 10, cart_B 1 1, zeros 4)) by reflexivity.
  pose proof CS as (_ & _ & _ & _ & _ & _ & _ & _ & HT). assert (IP : In (zeros 4) (linearization_points 4 1 0 2 2)). { destruct OJ as (j & Hj & Ej). apply points_in. exists j. split; [exact Hj|]. unfold grid, grid_step. rewrite Ej. apply (nth_ext _ _ 0 0); [rewrite vscale_length, unit_length; reflexivity|]. intros i _. rewrite nth_vscale, nth_zeros. ring. }
  specialize (HT _ IP). rewrite ET in HT. destruct HT as (SS & _ & HX0). destruct (proj1 (proj1 (lin_continuous np _ _ (/ 20)) 4%nat 1%nat SS ltac:(lra)) HX0) as (L & EL & (SA & SB) & _).
  destruct (cart_origin_mode ridges np up_taylor 4 1 [3; 0; 10; 10] 100 0 2 2 (/ 20) W _ _ L CS OJ ET XP ltac:(lra) EW EL) as (_ & HX & j & D & dl & sg & Hj & OM & Psg & BALL).
  destruct (cart_ready ridges np up_taylor 4 1 [3; 0; 10; 10] 100 0 2 2 (/ 20) W 4 (/ 100) (/ 100) Hnp CS (conj OJ (ex_intro _ _ (ex_intro _ _ ET))) EW SG ltac:(lia) ltac:(lra) ltac:(lra)) as (X_N & IX & (_ & EX & _ & HC & _) & EC0).
  pose proof EX as (HW & HDm & NE & H2 & _ & SQ & SP & SR & WX). pose proof HC as (_ & _ & _ & _ & _ & PR & _). pose proof (scaled_eye_pd (/ 100) 4 ltac:(lra)) as PQ.
  assert (P10 : 0 < 10) by lra. assert (P20 : 0 < / 20) by lra.
  destruct (law_exists _ _ _ _ 4 1 4 SA SB SQ SR PQ PR ltac:(lia) (steers_later _ _ 4 1 4 4 SA SB (cart_hold_steerable np 1 1 1 10 (/ 20) L Rlt_0_1 Rlt_0_1 Rlt_0_1 P10 P20 HX EL) (le_n 4))) as (K & c0 & OL).
  destruct (example_optimal np (fun _ => None) W 4 _ _ _ X_N 4 1 _ _ Hnp HW ltac:(lia) HDm H2 SG SQ SP SR WX NE) as (C & ECC & _).
  destruct (drake_origin np W 4 _ _ _ X_N 4 1 _ _ C j L D dl sg K c0 Hnp EX ltac:(lia) HC ECC PQ OM IX OL Psg BALL) as (r0 & Pr0 & _ & FB).
  assert (EC : cart_pole_controller np W 4 (/ 100) (/ 100) = Ok C) by (rewrite EC0; exact ECC).
  assert (DS : forall x, drake_solves drake C x) by (intros x prog _; apply HD). exists np, W, C, drake.
  split; [exact Hnp|]. split; [exact CS|]. split; [exact OJ|]. split; [reflexivity|]. split; [exact XP|]. split; [exact EW|]. split; [exact SG|]. split; [exact EC|]. split; [exact DS|].
  pose proof (cart_at_rest 1 1 1 1 1000 10 (/ 20) ltac:(lra) ltac:(lra) ltac:(lra) ltac:(lra)) as AR. split; [|exact AR].
  destruct (FB drake (zeros 4) eq_refl) as (E & _); [rewrite sup_zeros; lra|apply DS|]. rewrite E. do 2 f_equal. destruct OL as (SK & _). rewrite mv_zeros. rewrite (proj1 SK). reflexivity.
Qed.
