(** * HybTieThms: ties between mode sequences (C105) *)
From Coq Require Import ZArith String Classical.
From Verif Require Import Arr ArrFacts Spec SpecMpc SpecProg SpecLoop SpecHyb Numpy Pnnls PnnlsFacts QpFacts GeomUtils Polyhedron PolyThms Oracle SolverThms NullFacts PolySolveThms PolyMore SpecDyn Dynamics DynThms CondenseThms LqrThms McaisThms Mpqp MpqpThms Controllers CtrlThms Gurobi Programs ProgThms Hybrid HybridThms HybridOptThms HybridLoopThms VertThms ContThms LawThms EquivThms HybLinThms HybEquivThms ExampleCtrl ExThms ExLoopThms CartHoldThms HybAgreeThms.

Definition D_neg : poly := Poly (Mat 2 [[1; 0]; [-1; 0]; [0; 1]; [0; -1]]) [1; 1; 0; 1] (Mat 2 []) [] None None None None None.
Definition D_pos : poly := Poly (Mat 2 [[1; 0]; [-1; 0]; [0; 1]; [0; -1]]) [1; 1; 1; 0] (Mat 2 []) [] None None None None None.
Definition W_tie : pwa := PWA 1 1 [ASys (Mat 1 [[1]]) (Mat 1 [[1]]) [0]; ASys (Mat 1 [[1]]) (Mat 1 [[-1]]) [0]] [D_neg; D_pos].
Lemma in_D_neg xu : in_poly D_neg xu <-> exists x u, xu = [x; u] /\ -1 <= x <= 1 /\ -1 <= u <= 0.
Proof.
  split.
  - intros (L & H' & _). destruct xu as [|x [|u [|]]]; cbn in L; try discriminate L. exists x, u. split; [reflexivity|]. unfold ineq_holds in H'. cbn in H'. inv2 H'. lra.
  - intros (x & u & -> & H'). split; [reflexivity|]. split; [|constructor]. unfold ineq_holds. cbn [pA pb D_neg rows]. rows_ok.
Qed.
Lemma in_D_pos xu : in_poly D_pos xu <-> exists x u, xu = [x; u] /\ -1 <= x <= 1 /\ 0 <= u <= 1.
Proof.
  split.
  - intros (L & H' & _). destruct xu as [|x [|u [|]]]; cbn in L; try discriminate L. exists x, u. split; [reflexivity|]. unfold ineq_holds in H'. cbn in H'. inv2 H'. lra.
  - intros (x & u & -> & H'). split; [reflexivity|]. split; [|constructor]. unfold ineq_holds. cbn [pA pb D_pos rows]. rows_ok.
Qed.
Lemma tie_data : hyb_data W_tie 1 1 /\ hyb_domains W_tie.
Proof.
  split.
  - unfold hyb_data. cbn [w_nx w_nu w_sys w_dom W_tie]. repeat match goal with |- _ /\ _ => split end; try reflexivity.
    + split; [discriminate|]. intros s [<-|[<-|[]]]; unfold system_shape, shape; cbn; repeat split; repeat constructor.
    + intros D [<-|[<-|[]]]; exists 4%nat, 0%nat; unfold wf; simpl; repeat split; repeat constructor.
  - intros D [<-|[<-|[]]].
    + split; [exists [0; 0]; apply in_D_neg; exists 0, 0; split; [reflexivity|lra]|]. split; [|discriminate]. exists 2. intros xu H. apply in_D_neg in H. destruct H as (x & u & -> & H). apply norm2_le; lra.
    + split; [exists [0; 0]; apply in_D_pos; exists 0, 0; split; [reflexivity|lra]|]. split; [|discriminate]. exists 2. intros xu H. apply in_D_pos in H. destruct H as (x & u & -> & H). apply norm2_le; lra.
Qed.
Lemma tie_eqs : no_eqs W_tie X_int.
Proof. split; [intros D [<-|[<-|[]]]; reflexivity|reflexivity]. Qed.
Lemma gap_dec (S : vec -> Prop) g v : greatest S g v -> (forall xu, S xu -> g xu <= 0) \/ (exists xu, S xu /\ 1 <= g xu) -> v <= 0 \/ tol6 <= v.
Proof.
  intros ((x & Sx & Ex) & H) [B|(xu & Sxu & B)].
  - left. rewrite <- Ex. apply B, Sx.
  - right. specialize (H xu Sxu). unfold tol6. lra.
Qed.
Lemma tie_gaps : sharp_gaps W_tie 1.
Proof.
  assert (EF : forall i x u, (i < 2)%nat -> f_at W_tie 1 i [x; u] = [x + (if Nat.eqb i 0 then 1 else -1) * u]).
  { intros [|[|]] x u H; try lia; unfold f_at, affine_step; cbn; f_equal; ring. }
  assert (IN : forall j xu, (j < 2)%nat -> in_poly (dom_at W_tie j) xu -> exists x u, xu = [x; u] /\ -1 <= x <= 1 /\ (if Nat.eqb j 0 then -1 <= u <= 0 else 0 <= u <= 1)).
  { intros [|[|]] xu H I; try lia; unfold dom_at in I; cbn [W_tie w_dom nth] in I; [apply in_D_neg in I|apply in_D_pos in I]; exact I. }
  assert (PT : forall j u, (j < 2)%nat -> (if Nat.eqb j 0 then -1 <= u <= 0 else 0 <= u <= 1) -> in_poly (dom_at W_tie j) [0; u]).
  { intros [|[|]] u H I; try lia; unfold dom_at; cbn [W_tie w_dom nth Nat.eqb] in *; [apply in_D_neg|apply in_D_pos]; exists 0, u; (split; [reflexivity|lra]). }
  intros i j Hi Hj v. cbn [W_tie w_sys length] in Hi, Hj. split; [|split].
  - intros r Hr G. apply (gap_dec _ _ _ G). destruct i as [|[|]]; [| |lia]; unfold dom_at at 1 in Hr; cbn in Hr; (destruct r as [|[|[|[|]]]]; [| | | |lia]).
    1, 2, 5, 6: left; intros xu I; destruct (IN j xu Hj I) as (x & u & -> & B1 & B2); cbn; lra.
    + destruct j as [|[|]]; [| |lia]; [left; intros xu I; destruct (IN _ xu Hj I) as (x & u & -> & B1 & B2); cbn in *; lra|right; exists [0; 1]; split; [apply PT; [lia|cbn; lra]|cbn; lra]].
    + left; intros xu I; destruct (IN j xu Hj I) as (x & u & -> & B1 & B2). cbn. destruct (Nat.eqb j 0); lra.
    + left; intros xu I; destruct (IN j xu Hj I) as (x & u & -> & B1 & B2). cbn. destruct (Nat.eqb j 0); lra.
    + destruct j as [|[|]]; [| |lia]; [right; exists [0; -1]; split; [apply PT; [lia|cbn; lra]|cbn; lra]|left; intros xu I; destruct (IN _ xu Hj I) as (x & u & -> & B1 & B2); cbn in *; lra].
  - intros r Hr G. replace r with 0%nat in G by lia. apply (gap_dec _ _ _ G). destruct (Nat.eq_dec i j) as [->|Ne].
    + left. intros xu I. destruct (IN j xu Hj I) as (x & u & -> & B1 & B2). lra.
    + right. exists [0; if Nat.eqb j 0 then -1 else 1]. split; [apply PT; [exact Hj|destruct (Nat.eqb j 0); lra]|]. rewrite !EF by assumption. cbn [nth]. destruct i as [|[|]], j as [|[|]]; try lia; cbn; lra.
  - intros r Hr G. replace r with 0%nat in G by lia. apply (gap_dec _ _ _ G). left. intros xu I. destruct (IN j xu Hj I) as (x & u & -> & B1 & B2). rewrite !EF by assumption. cbn [nth]. destruct i as [|[|]], j as [|[|]]; try lia; cbn in *; lra.
Qed.
(** the solvers that answer mode k with the input -1/2 (k = 0) or 1/2 (k = 1) *)
Definition tie_input (k : nat) : R := if Nat.eqb k 0 then - / 2 else / 2.
Definition tie_drake (k : nat) (p : dprog) : option (dvar -> R) := Some (assign [[tie_input k]] [k] [[1]; [/ 2]]).
Lemma tie_run k : (k < 2)%nat -> run_of W_tie X_int 1 1 [1] [[tie_input k]] [k] [[1]; [/ 2]].
Proof.
  intros Hk. split; [reflexivity|]. split; [repeat constructor|]. split; [reflexivity|]. split; [intros m [<-|[]]; exact Hk|]. split; [split; [reflexivity|split; [reflexivity|]]; intros [|t] Ht; [|cbn in Ht; lia]; unfold affine_step, tie_input; destruct k as [|[|]]; [| |lia]; cbn; f_equal; lra|].
  split; [intros [|t] Ht; [|cbn in Ht; lia]; cbn [nth map w_dom W_tie]; destruct k as [|[|]]; [apply in_D_neg|apply in_D_pos|lia]; eexists _, _; (split; [reflexivity|unfold tie_input; cbn; lra])|cbn [length nth]; apply in_X_int; lra].
Qed.
Lemma tie_best us modes xs : run_of W_tie X_int 1 1 [1] us modes xs -> 1 <= trajectory_cost I_1 R_2 R_2 us xs.
Proof.
  intros (A1 & A2 & A3 & A4 & (A5 & A6 & A7) & (A8 & _)). destruct us as [|u [|]]; try discriminate. destruct u as [|u [|]]; try (inversion A2; discriminate). destruct modes as [|k [|]]; try discriminate. specialize (A4 k (or_introl eq_refl)). cbn in A4.
  destruct xs as [|x0 [|x1 [|]]]; try discriminate. cbn [nth] in A6. subst x0. specialize (A7 0%nat ltac:(cbn; lia)). cbn [nth] in A7. unfold affine_step in A7.
  assert (exists s, s * s = 1 /\ x1 = [1 + s * u]) as (s & Hs & ->). { destruct k as [|[|]]; [exists 1|exists (-1)|lia]; (split; [lra|]); cbn in A7; subst x1; f_equal; ring. }
  assert (Es : (s * u) * (s * u) = u * u) by (replace ((s * u) * (s * u)) with (s * s * (u * u)) by ring; rewrite Hs; ring). unfold trajectory_cost. cbn. set (y := s * u) in *. pose proof (Rle_0_sqr (2 * y + 1)) as SQ. unfold Rsqr in SQ. lra.
Qed.
(*@ Theorem C105_tie_refuted : Without equal modes the inputs may differ although everything else is exact: x+ = x + u for -1 <= u <= 0, x+ = x - u for 0 <= u <= 1, |x| <= 1, Q = 1, R = P = 2, N = 1, terminal set |x| <= 1. All hypotheses of C105_solvers hold at x = 1, and of two drakes that both solve its program one makes feedback return -1/2 and the other 1/2. *)
Lemma tie_refuted np : exact_np np -> pwa_problem W_tie 1 I_1 R_2 R_2 X_int 1 1 /\ (2 <= length (w_sys W_tie))%nat /\ sharp_gaps W_tie 1 /\ exists C drake drake', ExampleController np W_tie 1 I_1 R_2 R_2 X_int = Ok C /\
  drake_solves drake C [1] /\ drake_solves drake' C [1] /\ example_feedback drake C [1] = Ok (Some [- / 2]) /\ example_feedback drake' C [1] = Ok (Some [/ 2]).
Proof.
  intros Hnp. destruct tie_data as (HW & HD). assert (SR2 : shape R_2 1 1) by (unfold shape; cbn; repeat split; repeat constructor).
  destruct (hybrid_loop_example np Hnp) as (_ & (_ & _ & _ & _ & _ & _ & _ & HC & _) & _).
  assert (HE : example_data W_tie 1 I_1 R_2 R_2 X_int 1 1 2 0). { unfold example_data. split; [exact HW|]. split; [exact HD|]. split; [exact tie_eqs|]. split; [cbn; lia|]. split; [exact tie_gaps|]. split; [exact shape_I_1|]. split; [exact SR2|]. split; [exact SR2|exact wf_X_int]. }
  destruct (built np W_tie 1 I_1 R_2 R_2 X_int 1 1 2 0 Hnp HE) as (prog & EC & HB). destruct (HB [1] eq_refl) as (p & Ep & HF).
  split; [split; [exact HW|]; split; [lia|]; split; [lia|]; split; [exact HD|]; split; [exists 2%nat, 0%nat; exact wf_X_int|]; split; [exact tie_eqs|exact HC]|]. split; [cbn; lia|]. split; [exact tie_gaps|].
  assert (EJ : forall k, (k < 2)%nat -> trajectory_cost I_1 R_2 R_2 [[tie_input k]] [[1]; [/ 2]] = 1) by (intros [|[|]] Hk; [| |lia]; unfold trajectory_cost, tie_input; cbn; lra).
  assert (DS : forall k, (k < 2)%nat -> drake_solves (tie_drake k) (ECtrl W_tie 1 prog) [1]).
  { intros k Hk p' Ep'. rewrite Ep in Ep'. injection Ep' as <-. unfold tie_drake. cbn [drake_ok]. destruct (run_to W_tie X_int 1 1 1 [1] _ _ _ HW eq_refl (tie_run k Hk)) as (R1 & R2 & R3 & R4 & R5). split.
    - apply HF. auto.
    - intros a' Fa'. apply HF in Fa'. destruct Fa' as (F1 & F2 & F3). rewrite (proj2 (HF _)), (proj2 (HF a')), !cost_run, R4, R5. pose proof (proj1 (run_from W_tie X_int 1 1 1 a' HW F2 F3)) as RN. rewrite F1 in RN. rewrite (EJ k Hk). exact (tie_best _ _ _ RN). }
  assert (FB : forall k, (k < 2)%nat -> example_feedback (tie_drake k) (ECtrl W_tie 1 prog) [1] = Ok (Some [tie_input k])).
  { intros k Hk. unfold example_feedback, example_feedforward. rewrite Ep. cbn [bind]. unfold tie_drake. destruct k as [|[|]]; [| |lia].
    - cbn. unfold Rltb. destruct (Rlt_dec 1 0); [lra|]. reflexivity.
    - cbn. unfold Rltb. destruct (Rlt_dec 0 1); [|lra]. reflexivity. }
  exists (ECtrl W_tie 1 prog), (tie_drake 0), (tie_drake 1). split; [exact EC|]. split; [apply DS; lia|]. split; [apply DS; lia|]. split; [apply (FB 0%nat); lia|apply (FB 1%nat); lia].
Qed.
