(** * ExStateThms: the answers of the example controller do not depend on the calls before (C87) *)
From Coq Require Import Lra Lia.
From Verif Require Import Arr ArrFacts Spec SpecLoop Numpy Pnnls Polyhedron PolyThms Dynamics Hybrid ExampleCtrl ExampleState Oracle.
From Verif Require Import DynThms CtrlThms HybridThms HybridOptThms HybridLoopThms ExThms ExLoopThms.

Lemma Reqb_refl a : Reqb a a = true.
Proof. unfold Reqb. destruct (Req_EM_T a a); [reflexivity|congruence]. Qed.
Lemma set_at_length k a v : length (set_at k a v) = length v.
Proof. unfold set_at. rewrite app_length. rewrite <- (firstn_skipn k v) at 3. rewrite app_length. destruct (skipn k v); reflexivity. Qed.
Lemma nth_set_at k a v j : (k < length v)%nat -> nth j (set_at k a v) 0 = if Nat.eqb j k then a else nth j v 0.
Proof.
  intros Hk. unfold set_at. assert (L : length (firstn k v) = k) by (apply firstn_length_le; lia). destruct (skipn k v) as [|b r] eqn:E. { apply (f_equal (@length R)) in E. rewrite skipn_length in E. cbn in E. lia. }
  assert (V : v = firstn k v ++ b :: r) by (rewrite <- E; symmetry; apply firstn_skipn). destruct (Nat.eqb_spec j k) as [->|N].
  - rewrite app_nth2, L, Nat.sub_diag by lia. reflexivity.
  - rewrite V at 2. destruct (Nat.lt_ge_cases j k); [rewrite !app_nth1 by lia; reflexivity|]. rewrite !app_nth2 by lia. rewrite L. destruct (j - k)%nat eqn:D; [lia|]. reflexivity.
Qed.
(** the loop of set_initial_condition *)
Lemma set_entries_ok x0 n : forall k s, (k + n <= length (st_lb s))%nat -> length (st_ub s) = length (st_lb s) -> let '(r, s') := set_entries (seq k n) x0 s in
  st_ctrl s' = st_ctrl s /\ length (st_lb s') = length (st_lb s) /\ length (st_ub s') = length (st_lb s) /\
  (r = Ok tt /\ (n = 0%nat \/ (k + n <= length x0)%nat) \/ r = Err ValueError /\ (length x0 < k + n)%nat) /\
  (r = Ok tt -> forall j, (k <= j < k + n)%nat -> nth j (st_lb s') 0 = nth j x0 0 /\ nth j (st_ub s') 0 = nth j x0 0) /\
  forall j, (j < k)%nat -> nth j (st_lb s') 0 = nth j (st_lb s) 0 /\ nth j (st_ub s') 0 = nth j (st_ub s) 0.
Proof.
  induction n as [|n IH]; intros k s Hk Lu; cbn [seq set_entries].
  - repeat split; auto; intros; lia.
  - destruct (nth_error x0 k) as [a|] eqn:E.
    + assert (Hx : (k < length x0)%nat) by (apply nth_error_Some; congruence). set (s1 := EState (st_ctrl s) (set_at k a (st_lb s)) (set_at k a (st_ub s))).
      specialize (IH (S k) s1). cbn [s1 st_lb st_ub st_ctrl] in IH. rewrite !set_at_length in IH. specialize (IH ltac:(lia) ltac:(lia)). fold s1 in IH. destruct (set_entries (seq (S k) n) x0 s1) as (r & s').
      destruct IH as (H1 & H2 & H3 & H4 & H5 & H6). split; [exact H1|]. split; [exact H2|]. split; [exact H3|]. split; [|split].
      * destruct H4 as [(-> & H)|(-> & H)]; [left; split; [reflexivity|right; lia]|right; split; [reflexivity|lia]].
      * intros Hr j Hj. destruct (Nat.eq_dec j k) as [->|N]; [|apply H5; [exact Hr|lia]]. destruct (H6 k ltac:(lia)) as (-> & ->). rewrite !nth_set_at, Nat.eqb_refl by lia. rewrite (nth_error_nth x0 k 0 E). auto.
      * intros j Hj. destruct (H6 j ltac:(lia)) as (-> & ->). rewrite !nth_set_at by lia. destruct (Nat.eqb_spec j k); [lia|auto].
    + apply nth_error_None in E. split; [reflexivity|]. split; [reflexivity|]. split; [exact Lu|]. split; [right; split; [reflexivity|lia]|]. split; [discriminate|]. auto.
Qed.
Definition good_state (C : ectrl) (s : estate) : Prop := st_ctrl s = C /\ length (st_lb s) = w_nx (ec_S C) /\ length (st_ub s) = w_nx (ec_S C).
Lemma st_feedforward_ok drake C x0 s : good_state C s -> fst (st_feedforward drake x0 s) = example_feedforward drake C x0 /\ good_state C (snd (st_feedforward drake x0 s)).
Proof.
  intros (HC & Ll & Lu). unfold st_feedforward. rewrite HC. set (nx := w_nx (ec_S C)) in *. pose proof (set_entries_ok x0 nx 0 s ltac:(lia) ltac:(lia)) as H. destruct (set_entries (seq 0 nx) x0 s) as (r & s'). cbn [fst snd].
  destruct H as (H1 & H2 & H3 & H4 & H5 & _). split; [|split; [congruence|split; unfold nx in *; lia]]. unfold example_feedforward, set_initial_condition. fold nx.
  destruct H4 as [(-> & H4)|(-> & H4)]; cbn [bind].
  - replace (length x0 <? nx)%nat with false by (symmetry; apply Nat.ltb_ge; lia). cbn [bind].
    assert (EP : held_program s' = DProg (map (fun k => DEq [(1, VX 0 k)] (nth k x0 0)) (seq 0 nx) ++ d_con (ec_prog C)) (d_bin (ec_prog C)) (d_obj (ec_prog C))).
    { unfold held_program. rewrite H1, HC. fold nx. f_equal. f_equal. assert (X : forall l, (forall k, In k l -> (k < nx)%nat) -> flat_map (fun k => bound_con k (nth k (st_lb s') 0) (nth k (st_ub s') 0)) l = map (fun k => DEq [(1, VX 0 k)] (nth k x0 0)) l).
      { induction l as [|k l IH]; intros Hl; [reflexivity|]. cbn [flat_map map]. rewrite IH by (intros; apply Hl; right; assumption). destruct (H5 eq_refl k ltac:(split; [lia|apply Hl; left; reflexivity])) as (-> & ->). unfold bound_con. rewrite Reqb_refl. reflexivity. }
      apply X. intros k Hk. apply in_seq in Hk. lia. }
    rewrite EP. reflexivity.
  - replace (length x0 <? nx)%nat with true by (symmetry; apply Nat.ltb_lt; lia). reflexivity.
Qed.
Lemma st_feedback_ok drake C x0 s : good_state C s -> fst (st_feedback drake x0 s) = example_feedback drake C x0 /\ good_state C (snd (st_feedback drake x0 s)).
Proof.
  intros HG. destruct (st_feedforward_ok drake C x0 s HG) as (E & G). unfold st_feedback, example_feedback. rewrite <- E. destruct (st_feedforward drake x0 s) as (r & s'). split; [reflexivity|exact G].
Qed.
(*@ Theorem C87_history : Whatever calls of feedforward and feedback were made before on a controller of the examples, also ones that raised half-way through set_initial_condition, its answers are those of the model in which each call builds its program from scratch (ExampleCtrl): they depend on the state passed and on nothing else *)
Lemma history np drake W N Q Rm P X_N : 
  (forall C, ExampleController np W N Q Rm P X_N = Ok C -> exists s0, new_controller np W N Q Rm P X_N = Ok s0 /\ forall cs x0,
    fst (st_feedforward drake x0 (calls drake cs s0)) = example_feedforward drake C x0 /\ fst (st_feedback drake x0 (calls drake cs s0)) = example_feedback drake C x0) /\
  forall e, ExampleController np W N Q Rm P X_N = Err e -> new_controller np W N Q Rm P X_N = Err e.
Proof.
  split; [|intros e E; unfold new_controller; rewrite E; reflexivity]. intros C E. unfold new_controller. rewrite E. cbn [bind]. eexists. split; [reflexivity|]. intros cs x0.
  assert (ES : ec_S C = W). { unfold ExampleController in E. repeat match type of E with bind ?e _ = _ => destruct e; [cbn [bind] in E|discriminate] end. injection E as <-. reflexivity. }
  assert (G : good_state C (calls drake cs (EState C (zeros (w_nx W)) (zeros (w_nx W))))).
  { assert (G0 : good_state C (EState C (zeros (w_nx W)) (zeros (w_nx W)))) by (split; [reflexivity|]; cbn [st_lb st_ub]; rewrite ES; split; apply zeros_length). revert G0. generalize (EState C (zeros (w_nx W)) (zeros (w_nx W))).
    induction cs as [|c cs IH]; intros s G0; [exact G0|]. cbn [calls fold_left]. apply IH. destruct c; cbn [call]; [apply (proj2 (st_feedforward_ok drake C _ s G0))|apply (proj2 (st_feedback_ok drake C _ s G0))]. }
  split; [apply (proj1 (st_feedforward_ok drake C x0 _ G))|apply (proj1 (st_feedback_ok drake C x0 _ G))].
Qed.
(*@ Theorem C87_rejected : A state with too few entries raises, and its entries have been written into the program *)
Lemma rejected drake C x0 s : good_state C s -> (length x0 < w_nx (ec_S C))%nat -> exists s', st_feedforward drake x0 s = (Err ValueError, s') /\ 
  forall j, (j < w_nx (ec_S C))%nat -> nth j (st_lb s') 0 = (if (j <? length x0)%nat then nth j x0 0 else nth j (st_lb s) 0) /\ nth j (st_ub s') 0 = (if (j <? length x0)%nat then nth j x0 0 else nth j (st_ub s) 0).
Proof.
  intros (HC & Ll & Lu) Hx. unfold st_feedforward. rewrite HC. set (nx := w_nx (ec_S C)) in *.
  assert (X : forall n k s, (k + n <= length (st_lb s))%nat -> length (st_ub s) = length (st_lb s) -> (length x0 < k + n)%nat -> (k <= length x0)%nat -> exists s', set_entries (seq k n) x0 s = (Err ValueError, s') /\ 
    forall j, (j < k + n)%nat -> nth j (st_lb s') 0 = (if ((k <=? j) && (j <? length x0))%nat%bool then nth j x0 0 else nth j (st_lb s) 0) /\ nth j (st_ub s') 0 = (if ((k <=? j) && (j <? length x0))%nat%bool then nth j x0 0 else nth j (st_ub s) 0)).
  { clear. induction n as [|n IH]; intros k s Hk Lu H1 H2; [lia|]. cbn [seq set_entries]. destruct (nth_error x0 k) as [a|] eqn:E.
    - assert (Hx : (k < length x0)%nat) by (apply nth_error_Some; congruence). destruct (IH (S k) (EState (st_ctrl s) (set_at k a (st_lb s)) (set_at k a (st_ub s)))) as (s' & E' & H'); cbn [st_lb st_ub]; rewrite ?set_at_length; try lia.
      exists s'. split; [exact E'|]. intros j Hj. destruct (H' j ltac:(lia)) as (-> & ->). cbn [st_lb st_ub]. rewrite !nth_set_at by lia. destruct (Nat.eqb_spec j k) as [->|N].
      + replace (S k <=? k)%nat with false by (symmetry; apply Nat.leb_gt; lia). rewrite Nat.leb_refl. replace (k <? length x0)%nat with true by (symmetry; apply Nat.ltb_lt; lia). cbn [andb]. rewrite (nth_error_nth x0 k 0 E). auto.
      + destruct (Nat.leb_spec (S k) j), (Nat.leb_spec k j); try lia; auto.
    - apply nth_error_None in E. exists s. split; [reflexivity|]. intros j Hj. destruct (Nat.leb_spec k j), (Nat.ltb_spec j (length x0)); try lia; auto. }
  destruct (X nx 0%nat s ltac:(lia) ltac:(lia) ltac:(lia) ltac:(lia)) as (s' & E & H). rewrite E. cbn [bind]. exists s'. split; [reflexivity|]. exact H.
Qed.
(*@ Example C87_example : The controller of C85_example: it is built, and after calls at 1, at the empty state (which raises) and at -1/2 it returns the plan 1/2 at -1 *)
Lemma history_example np : exact_np np -> exists s0, new_controller np W2 1 I_1 R_2 R_2 X_int = Ok s0 /\
  let s := calls half_drake [Feedforward [1]; Feedback []; Feedback [- / 2]] s0 in
  fst (st_feedback half_drake [] s0) = Err ValueError /\ fst (st_feedforward half_drake [-1] s) = Ok (Some ([[/ 2]], [[-1]; [- / 2]], [0%nat], 1)) /\ fst (st_feedback half_drake [-1] s) = Ok (Some [/ 2]) /\
  held_program (snd (st_feedback half_drake [-1] s0)) <> held_program (snd (st_feedback half_drake [- / 2] s0)).
Proof.
  intros Hnp. destruct (example_loop_example np Hnp) as (_ & _ & C & X & U & M & EC & _ & _ & _ & _ & EF). destruct (proj1 (history np half_drake _ _ _ _ _ _) C EC) as (s0 & E0 & H). exists s0. split; [exact E0|].
  pose proof (proj1 (H [Feedforward [1]; Feedback []; Feedback [- / 2]] [-1])) as H1. pose proof (proj2 (H [Feedforward [1]; Feedback []; Feedback [- / 2]] [-1])) as H2. pose proof (proj2 (H [] [])) as H3. cbn [calls fold_left] in H3.
  assert (ES : w_nx (ec_S C) = 1%nat). { unfold ExampleController in EC. repeat match type of EC with bind ?e _ = _ => destruct e; [cbn [bind] in EC|discriminate] end. injection EC as <-. reflexivity. }
  cbv zeta. rewrite H1, H2, H3. split; [unfold example_feedback, example_feedforward, set_initial_condition; rewrite ES; reflexivity|]. split; [exact EF|]. split; [unfold example_feedback; rewrite EF; reflexivity|].
  unfold new_controller in E0. rewrite EC in E0. cbn [bind] in E0. injection E0 as <-. intros A. apply (f_equal d_con) in A. unfold st_feedback, st_feedforward in A. cbn [st_ctrl] in A. rewrite ES in A. cbn [seq set_entries nth_error st_lb st_ub st_ctrl w_nx] in A.
  unfold held_program in A. cbn [snd st_ctrl st_lb st_ub] in A. rewrite ES in A. cbn in A. unfold bound_con in A. rewrite !Reqb_refl in A. cbn in A. injection A as A. lra.
Qed.
