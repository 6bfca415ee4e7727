(** * RobustMarginThms: the margin of C100_robust cannot be dropped *)
From Coq Require Import Lra Lia.
From Verif Require Import Arr ArrFacts Spec SpecMpc SpecDyn SpecEig SpecRound Numpy QpFacts Polyhedron PolyThms Dynamics DynThms CondenseThms LqrThms McaisThms SpectralThms Mpqp MpqpThms Controllers CtrlThms ContThms Round RoundThms RoundSimThms RoundPwaThms LocalThms PlantThms HoldThms CartHoldThms RobustThms.

Definition S_flip : lsys := LSys (Mat 1 [[-1]]) (Mat 1 [[1]]) None.
Definition D_half : poly := Poly (Mat 2 [[1; 0]; [-1; 0]; [0; 1]; [0; -1]]) [/ 2; 1; 1; 1] (Mat 2 []) [] None None None None None.
Definition X_half : poly := Poly (Mat 1 [[1]; [-1]]) [/ 2; 1] (Mat 1 []) [] None None None None None.
Lemma in_D_half a b : in_poly D_half [a; b] <-> -1 <= a <= / 2 /\ -1 <= b <= 1.
Proof.
  split.
  - intros (_ & H' & _). unfold ineq_holds in H'. cbn in H'. inv2 H'. lra.
  - intros H'. split; [reflexivity|]. split; [|constructor]. unfold ineq_holds. cbn [pA pb D_half rows]. rows_ok.
Qed.
Lemma in_X_half a : in_poly X_half [a] <-> -1 <= a <= / 2.
Proof.
  split.
  - intros (_ & H' & _). unfold ineq_holds in H'. cbn in H'. inv2 H'. lra.
  - intros H'. split; [reflexivity|]. split; [|constructor]. unfold ineq_holds. cbn [pA pb X_half rows]. rows_ok.
Qed.
Lemma flip_data : mpc_data S_flip 1 (Mat 1 [[1]]) (Mat 1 [[2]]) (Mat 1 [[2]]) D_half X_half 1 1.
Proof.
  split; [|split; [reflexivity|split; [reflexivity|split; [apply scalar_psd; lra|split; [apply scalar_psd; lra|apply scalar_pd; lra]]]]].
  unfold mpc_shapes. repeat match goal with |- _ /\ _ => split end; try apply scalar_shape; try lia; [exists 4%nat, 0%nat|exists 2%nat, 0%nat]; unfold wf; simpl; repeat split; repeat constructor.
Qed.

(*@ Theorem C100_margin_refuted : The margin of C100_robust cannot be dropped: x+ = -x + u with Q = 1, R = 2, the P = 2 and K = 1/2 of solve_dare, -1 <= x <= 1/2, |u| <= 1, horizon 1 and the invariant terminal set [-1, 1/2], which contains a ball. From x = -1 (optimal cost 1) the controller goes to x = 1/2, on the boundary of the set of states with a solution, so for every dl > 0 a disturbance of size dl leads to a state where feedback returns None *)
Lemma margin_needed : exists np S Q Rm P D X_N K C us0 xs0, mpc_setup np S 1 Q Rm P D X_N K 1 1 C /\ lqr_pair np S Q Rm P K 1 1 /\ Spec.pd Q 1 /\ (forall x, length x = 1%nat -> sup x <= / 2 -> in_poly X_N x) /\
  mpc_admissible (lA S) (lB S) 1 1 (in_poly D) (in_poly X_N) [-1] us0 xs0 /\ trajectory_cost Q Rm P us0 xs0 <= 1 /\
  forall dl, 0 < dl -> exists z : nat -> vec, (forall t, length (z t) = 1%nat) /\ z 0%nat = [-1] /\
    (exists u, feedback np C (z 0%nat) = Ok (Some u) /\ sup (vsub (z 1%nat) (linear_step (lA S) (lB S) (z 0%nat) u)) <= dl) /\ feedback np C (z 1%nat) = Ok None.
Proof.
  set (np := np_hold (Mat 1 [[2]])). assert (Hnp : exact_np np) by apply np_hold_exact. pose proof flip_data as HD.
  destruct (mpc_program np _ _ _ _ _ _ _ _ _ Hnp HD) as (q & m & E & _). exists np, S_flip, (Mat 1 [[1]]), (Mat 1 [[2]]), (Mat 1 [[2]]), D_half, X_half, (Mat 1 [[1 / 2]]), (MPC S_flip 1 q), [[- (1 / 2)]], [[-1]; [1 / 2]].
  assert (TI : terminal_invariant (lA S_flip) (lB S_flip) (Mat 1 [[1 / 2]]) (in_poly D_half) (in_poly X_half)).
  { intros x Hx. pose proof (proj1 Hx) as Lx. cbn in Lx. destruct x as [|a [|]]; try discriminate Lx. apply in_X_half in Hx. split.
    - cbn. apply in_D_half. lra.
    - cbn. apply in_X_half. lra. }
  assert (HL : lqr_pair np S_flip (Mat 1 [[1]]) (Mat 1 [[2]]) (Mat 1 [[2]]) (Mat 1 [[1 / 2]]) 1 1).
  { replace (1 / 2) with (- (1 * 2 * -1 / (2 + 1 * 1 * 2))) by lra. apply scalar_pair; [exact Hnp|reflexivity|lra|lra|lra|lra]. }
  assert (F : feedback np (MPC S_flip 1 q) [-1] = Ok (Some [- (1 / 2)])).
  { rewrite (mpc_feedback_lqr np _ _ _ _ _ _ _ _ 1 1 _ [-1] Hnp HD E HL TI eq_refl); [cbn; do 3 f_equal; lra|]. apply in_X_half. lra. }
  split; [split; [exact Hnp|split; [exact HD|split; [exact E|split; [apply scalar_shape|exact TI]]]]|]. split; [exact HL|]. split; [apply scalar_pd; lra|]. split.
  { intros [|a [|]] L H; try discriminate L. apply in_X_half. rewrite sup1 in H. apply rabs_inv in H. lra. }
  split.
  { split; [reflexivity|]. split; [repeat constructor|]. split.
    - split; [reflexivity|]. split; [reflexivity|]. intros [|t] Ht; cbn in Ht; [|lia]. cbn. f_equal. lra.
    - split; [|cbn; apply in_X_half; lra]. intros [|t] Ht; [|cbn in Ht; lia]. cbn. apply in_D_half. lra. }
  split. { unfold trajectory_cost. cbn. lra. }
  intros dl Pd. exists (fun t => match t with O => [-1] | _ => [1 / 2 + dl] end). split; [intros [|t]; reflexivity|]. split; [reflexivity|]. split.
  - exists [- (1 / 2)]. split; [exact F|]. unfold linear_step. cbn. rewrite Rmax_left by apply Rabs_pos. right. replace (1 / 2 + dl - (-1 * -1 + 0 + (1 * - (1 / 2) + 0))) with dl by lra. apply Rabs_right. lra.
  - cbn beta iota. destruct (mpc_none np _ _ _ _ _ _ _ _ _ _ [1 / 2 + dl] Hnp HD E eq_refl) as (us0 & xs0 & _ & [(_ & EN & _)|(us & xs & _ & _ & (A1 & _) & _)]); [exact EN|]. exfalso.
    destruct A1 as (L & FF & T & H1 & _). destruct us as [|v [|]]; try discriminate L. inversion FF as [|? ? Lv _]; subst. destruct v as [|b [|]]; try discriminate Lv.
    specialize (H1 0%nat ltac:(cbn; lia)). destruct T as (_ & T0 & _). rewrite T0 in H1. cbn in H1. apply in_D_half in H1. lra.
Qed.
