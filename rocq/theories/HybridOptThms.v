(** * HybridOptThms: the hybrid controller returns optimal runs (C48), proofs *)
From Coq Require Import ZArith String Classical.
From Verif Require Import Arr ArrFacts Spec SpecMpc SpecProg Numpy Pnnls PnnlsFacts QpFacts GeomUtils Polyhedron PolyThms Oracle SolverThms NullFacts PolySolveThms PolyMore SpecDyn Dynamics DynThms CondenseThms LqrThms McaisThms Mpqp MpqpThms Controllers CtrlThms Gurobi Programs ProgThms Hybrid HybridThms.

(** ** The mixed-integer program handed to Gurobi *)
Definition hyb_H (q : mpmiqp) : mat := block_diag [h_Huu q; h_Hzz q; zmat (ncols (h_Ad q)) (ncols (h_Ad q))].
Definition hyb_f (q : mpmiqp) (x : vec) : vec := zeros (ncols (h_Au q)) ++ mv (h_Hzx q) x ++ zeros (ncols (h_Ad q)).
Definition hyb_A (q : mpmiqp) : mat := hstack (h_Au q) (hstack (h_Az q) (h_Ad q)).
Definition hyb_b (q : mpmiqp) (x : vec) : vec := vsub (h_b q) (mv (h_Ax q) x).
(** no tiny entries, and Gurobi solves this program exactly *)
Definition gurobi_solves (grb : gmodel -> gsol) (q : mpmiqp) (x : vec) : Prop :=
  sharp_data (Some (hyb_H q)) (hyb_f q x) (hyb_A q) (hyb_b q x) (Mat (ncols (hyb_A q)) []) [] /\
  forall M, build_model (Some (hyb_H q)) (hyb_f q x) (hyb_A q) (hyb_b q x) None None = Ok M ->
    let M' := set_binary (ncols (h_Au q) + ncols (h_Az q)) M in gsol_ok M' (grb M').
Definition mi_cost (q : mpmiqp) (x u z : vec) : R := / 2 * quad (h_Huu q) u + / 2 * quad (h_Hzz q) z + / 2 * quad (h_Hxx q) x.
Definition mi_optimal (q : mpmiqp) (x u z d : vec) : Prop := mi_feasible_q q x u z d /\ forall u' z' d', mi_feasible_q q x u' z' d' -> mi_cost q x u z <= mi_cost q x u' z'.
Lemma skipn_skipn' {A} n m (l : list A) : skipn n (skipn m l) = skipn (m + n) l.
Proof. revert l. induction m as [|m IH]; intros l; [reflexivity|]. destruct l as [|a l]; [rewrite !skipn_nil; reflexivity|]. cbn. apply IH. Qed.
Lemma split3 (y : vec) a b c : length y = (a + b + c)%nat -> y = firstn a y ++ slice a (a + b) y ++ skipn (a + b) y /\ length (firstn a y) = a /\ length (slice a (a + b) y) = b /\ length (skipn (a + b) y) = c.
Proof.
  intros L. unfold slice. replace (a + b - a)%nat with b by lia. split.
  - rewrite <- (firstn_skipn a y) at 1. f_equal. rewrite <- (firstn_skipn b (skipn a y)) at 1. f_equal. apply skipn_skipn'.
  - rewrite firstn_length, firstn_length, !skipn_length. lia.
Qed.
Lemma mpmiqp_solve_ok grb q x m n1 n2 n3 nx : shape (h_Huu q) n1 n1 -> shape (h_Hzz q) n2 n2 -> shape (h_Hzx q) n2 nx ->
  shape (h_Au q) m n1 -> shape (h_Az q) m n2 -> shape (h_Ad q) m n3 -> shape (h_Ax q) m nx -> length (h_b q) = m -> length x = nx ->
  mv (h_Hzx q) x = zeros n2 -> gurobi_solves grb q x ->
  (exists u z d, mpmiqp_solve grb q x = Ok (MSol (Some (mi_cost q x u z)) (Some u) (Some z) (Some d)) /\ mi_optimal q x u z d) \/
  (mpmiqp_solve grb q x = Ok (MSol None None None None) /\ ~ exists u z d, mi_optimal q x u z d).
Proof.
  intros S1 S2 S3 S4 S5 S6 S7 Lb Lx EZ (SD & GS).
  assert (N1 : ncols (h_Au q) = n1) by apply S4. assert (N2 : ncols (h_Az q) = n2) by apply S5. assert (N3 : ncols (h_Ad q) = n3) by apply S6.
  assert (SA : shape (hyb_A q) m (n1 + (n2 + n3))) by (apply shape_hstack; [exact S4|apply shape_hstack; assumption]).
  assert (SH : shape (hyb_H q) (n1 + (n2 + n3)) (n1 + (n2 + n3))).
  { unfold hyb_H. cbn [block_diag]. apply shape_bdiag2; [exact S1|]. apply shape_bdiag2; [exact S2|]. rewrite N3. apply shape_zmat. }
  assert (LB : length (hyb_b q x) = m) by (unfold hyb_b; rewrite vsub_length, mv_length, Lb; rewrite (proj1 S7); lia).
  assert (LF : length (hyb_f q x) = (n1 + (n2 + n3))%nat) by (unfold hyb_f; rewrite !app_length, !zeros_length, mv_length, (proj1 S3); lia).
  assert (PD : prog_data (Some (hyb_H q)) (hyb_f q x) (hyb_A q) (hyb_b q x) (Mat (n1 + (n2 + n3)) []) [] m 0 (n1 + (n2 + n3))).
  { split; [exact SA|]. split; [exact LB|]. split; [repeat split; constructor|]. split; [reflexivity|]. split; [exact LF|exact SH]. }
  assert (NC : ncols (hyb_A q) = (n1 + (n2 + n3))%nat) by apply SA. rewrite NC in SD.
  (* points of the program *)
  assert (FE : forall u z d, length u = n1 -> length z = n2 -> length d = n3 -> (miqp_feasible (n1 + n2) (hyb_A q) (hyb_b q x) (Mat (n1 + (n2 + n3)) []) [] (u ++ z ++ d) <-> mi_feasible_q q x u z d)).
  { intros u z d Lu Lz Ld. unfold mi_feasible_q. rewrite (mi_feasible_vle _ _ _ _ _ m n1 n2 n3 nx x u z d S4 S5 S6 S7 Lb). unfold miqp_feasible, binary_from. rewrite app_assoc, skipn_app. rewrite app_length, Lu, Lz, Nat.sub_diag. rewrite (skipn_all2 (u ++ z)) by (rewrite app_length; lia). cbn [skipn app].
    rewrite in_set_vle. rewrite NC, !app_length, Lu, Lz, Ld. rewrite <- app_assoc. unfold hyb_A. rewrite (mv_hstack _ _ m n1 (n2 + n3)) by (auto; apply shape_hstack; assumption). rewrite (mv_hstack _ _ m n2 n3) by auto.
    assert (L1 : length (mv (h_Au q) u) = m) by (rewrite mv_length; apply S4). assert (L2 : length (mv (h_Az q) z) = m) by (rewrite mv_length; apply S5). assert (L3 : length (mv (h_Ad q) d) = m) by (rewrite mv_length; apply S6). assert (L4 : length (mv (h_Ax q) x) = m) by (rewrite mv_length; apply S7).
    assert (G : vle (vadd (mv (h_Au q) u) (vadd (mv (h_Az q) z) (mv (h_Ad q) d))) (hyb_b q x) <-> vle (vadd (vadd (vadd (mv (h_Au q) u) (mv (h_Az q) z)) (mv (h_Ad q) d)) (mv (h_Ax q) x)) (h_b q)).
    { rewrite !vle_nth. unfold hyb_b. rewrite ?vadd_length, ?vsub_length, L1, L2, L3, L4, Lb. split; intros (_ & H); (split; [lia|]); intros i Hi; specialize (H i ltac:(lia)); rewrite ?nth_vadd, ?nth_vsub in * by (rewrite ?vadd_length; lia); lra. }
    rewrite G. unfold mv at 2. cbn. split; [intros ((H1 & H2 & H3) & H4); repeat match goal with |- _ /\ _ => split end; auto|intros (H1 & H2 & H3 & H4 & H5); repeat match goal with |- _ /\ _ => split end; auto; lia]. }
  assert (CO : forall u z d, length u = n1 -> length z = n2 -> length d = n3 -> qp_cost (hyb_H q) (hyb_f q x) (u ++ z ++ d) + / 2 * dot x (mv (h_Hxx q) x) = mi_cost q x u z).
  { intros u z d Lu Lz Ld. unfold qp_cost, hyb_H, hyb_f, mi_cost, quad. cbn [block_diag]. rewrite EZ, N1, N3.
    rewrite (mv_bdiag2 _ _ n1 n1 (n2 + n3) (n2 + n3)) by (first [assumption|apply shape_bdiag2; [exact S2|apply shape_zmat]]). rewrite (mv_bdiag2 _ _ n2 n2 n3 n3) by (first [assumption|apply shape_zmat]).
    rewrite !dot_app by (rewrite ?zeros_length, ?mv_length, ?(proj1 S1), ?(proj1 S2); auto). rewrite mv_zmat, !dot_zeros_l, dot_zeros_r. ring. }
  unfold mpmiqp_solve. rewrite (np_mv_ok _ n2 nx) by assumption. cbn [bind np_hstack_list]. change (hstack_list [h_Au q; h_Az q; h_Ad q]) with (hyb_A q). rewrite (np_mv_ok _ m nx) by assumption. cbn [bind].
  assert (EV : np_vsub (h_b q) (mv (h_Ax q) x) = Ok (hyb_b q x)).
  { unfold np_vsub. rewrite mv_length, (proj1 S7), Lb, Nat.eqb_refl. reflexivity. }
  rewrite EV. cbn [bind]. fold (hyb_H q) (hyb_f q x). rewrite N1, N2. unfold Programs.mixed_integer_quadratic_program. cbn [String.eqb Ascii.eqb Bool.eqb].
  rewrite N1, N2 in GS. destruct (gurobi_miqp grb (n1 + n2) (hyb_H q) (hyb_f q x) (hyb_A q) (hyb_b q x) None None _ [] m 0 _ PD ltac:(right; auto) SD GS) as [(y & E & (F & O))|(E & NO)].
  - left. rewrite E. cbn [bind]. assert (Ly : length y = (n1 + n2 + n3)%nat) by (destruct F as ((L & _) & _); rewrite L, NC; lia).
    destruct (split3 y n1 n2 n3 Ly) as (Ey & L1 & L2 & L3). set (u := firstn n1 y) in *. set (z := slice n1 (n1 + n2) y) in *. set (d := skipn (n1 + n2) y) in *. exists u, z, d. rewrite Ey, CO by assumption. split; [reflexivity|].
    rewrite Ey in F. apply FE in F; try assumption. split; [exact F|]. intros u' z' d' F'. pose proof F' as (Lu & Lz & Ld & _). rewrite N1 in Lu. rewrite N2 in Lz. rewrite N3 in Ld. apply FE in F'; try assumption. specialize (O _ F'). rewrite Ey in O. rewrite <- (CO u z d), <- (CO u' z' d') by assumption. lra.
  - right. rewrite E. cbn [bind]. split; [reflexivity|]. intros (u & z & d & (F & O)). apply NO. pose proof F as (Lu & Lz & Ld & _). rewrite N1 in Lu. rewrite N2 in Lz. rewrite N3 in Ld. exists (u ++ z ++ d). split; [apply FE; assumption|].
    intros y (F' & B'). assert (Ly : length y = (n1 + n2 + n3)%nat) by (destruct F' as (L & _); rewrite L, NC; lia). destruct (split3 y n1 n2 n3 Ly) as (Ey & L1 & L2 & L3). rewrite Ey in F', B' |- *.
    assert (Q : mi_cost q x u z <= mi_cost q x (firstn n1 y) (slice n1 (n1 + n2) y)) by (apply (O _ _ (skipn (n1 + n2) y)); apply FE; [assumption|assumption|assumption|split; assumption]).
    rewrite <- (CO u z d), <- (CO _ _ (skipn (n1 + n2) y)) in Q by assumption. lra.
Qed.
(** ** Existence of optimal runs *)
Lemma minimizer_exists q nu nx m x v : MpqpThms.coherent q nu nx m -> length x = nx -> q_feasible q x v -> exists u, q_minimizer q x u.
Proof.
  intros Hq Lx Hv. destruct np0_exact as (Hn & _ & Hc & Hi & _). pose proof Hq as (H1 & PD & H2 & H3 & L1 & L2 & H4 & H5 & L3 & H6 & M1 & M2). destruct (free_minimizer q nu nx m x Hq) as (v0 & L0 & E0).
  assert (L4 : length (mv (q_Hux q) x) = nu) by (rewrite mv_length; apply H2). assert (L5 : length (mv (q_Ax q) x) = m) by (rewrite mv_length; apply H5).
  set (f := vadd (mv (q_Hux q) x) (q_fu q)) in *. set (b := vsub (q_b q) (mv (q_Ax q) x)). assert (Lf : length f = nu) by (unfold f; len). assert (Lb : length b = m) by (unfold b; len).
  assert (EA : eq_args nu None None (zmat 0 nu) []) by (right; auto). assert (HZ : shape (zmat 0 nu) 0 nu) by apply shape_zmat.
  assert (Lv : length v = nu) by (destruct Hv as (L & _); rewrite L; apply H4).
  set (g := dot (vsub v v0) (mv (q_Huu q) (vsub v v0))). assert (Hg : 0 <= g).
  { destruct (classic (vsub v v0 = zeros nu)) as [E|E]; [unfold g; rewrite E, dot_zeros_l; lra|]. destruct PD as (_ & PD). left. apply PD; [rewrite vsub_length; lia|exact E]. }
  set (tol := / (2 + g)). assert (Ht : 0 < tol) by (apply Rinv_0_lt_compat; lra).
  assert (HF : tol * tol * (1 + g) < 1).
  { unfold tol. apply (Rmult_lt_reg_r ((2 + g) * (2 + g))); [nra|]. replace (/ (2 + g) * / (2 + g) * (1 + g) * ((2 + g) * (2 + g))) with (1 + g) by (field; lra). nra. }
  destruct (qp_none_iff np0 tol (q_Huu q) f (q_Au q) b None None (zmat 0 nu) [] m 0 nu v0 Hn Hc Hi Ht H1 PD H4 Lb HZ eq_refl Lf EA L0 E0) as (s & Es & N1 & N2).
  assert (FS : forall v, q_feasible q x v <-> in_set (q_Au q) b (zmat 0 nu) [] v) by (intros w; apply (q_feasible_split q nu nx m x w Hq Lx)).
  destruct (s_argmin s) as [u|] eqn:Ea.
  - destruct (qp_optimality np0 tol (q_Huu q) f (q_Au q) b None None (zmat 0 nu) [] m 0 nu s u Hn Hc Hi ltac:(lra) H1 PD H4 Lb HZ eq_refl Lf EA Es Ea) as ((F & O) & U & Emin & l & nn & El & _ & Ll & _ & Hl & St & Cs).
    apply FS in F. assert (Lu : length u = nu) by (rewrite (proj1 F); apply H4). exists u. apply (kkt_minimizer q nu nx m x u l Hq Lx F). split; [lia|]. split; [exact Hl|]. split.
    + intros w Lw. rewrite (proj1 (proj2 H4)) in Lw. specialize (St w Lw). unfold f in St. assert (L6 : length (mv (q_Huu q) u) = nu) by (rewrite mv_length; apply H1).
      rewrite !dot_vadd_l in St by len. replace (dot nn (mv (zmat 0 nu) w)) with 0 in St by (rewrite mv_zmat; destruct nn; reflexivity). lra.
    + intros i Hi'. rewrite L3 in Hi'. specialize (Cs i ltac:(lia)). unfold b in Cs. rewrite nth_vsub in Cs by lia. rewrite nth_mv in Cs. unfold row in *. etransitivity; [|exact Cs]. ring.
  - exfalso. assert (EN : s = sol_none).
    { destruct (s_min s) as [mn|] eqn:Em; [|apply N1; reflexivity]. exfalso. rewrite (quadratic_program_core _ _ _ _ _ _ _ _ (zmat 0 nu) [] m nu H4 EA) in Es.
      destruct (qp_core_spec np0 tol (q_Huu q) f (q_Au q) b (zmat 0 nu) [] m 0 nu Hn Hc Hi H1 PD H4 Lb HZ eq_refl Lf) as (u & l & nn & r & E' & _). rewrite E' in Es. injection Es as <-. destruct (Rltb tol r); discriminate. }
    apply (proj1 N2 EN). exists v. split; [apply FS; exact Hv|exact HF].
Qed.
(** a system for the condensed problem of one mode sequence *)
Lemma hyb_ocp W Q Rm P X_N N nx nu mN meN modes : hyb_data W nx nu -> wf X_N mN meN nx -> shape Q nx nx -> shape P nx nx -> shape Rm nu nu -> (0 < N)%nat -> length modes = N -> (forall m, In m modes -> (m < length (w_sys W))%nat) ->
  ocp_data W Q Rm P X_N modes nx nu.
Proof.
  intros (EW & _ & HS & LD & HWf) HX SQ SP SR HN L HM. unfold ocp_data. split; [exact EW|]. split; [exact HS|]. split; [exact LD|]. split; [exact HWf|]. split; [exists mN, meN; exact HX|]. split; [exact SQ|]. split; [exact SP|]. split; [exact SR|]. split; [intros ->; cbn in L; lia|exact HM].
Qed.
Definition no_eqs (W : pwa) (X_N : poly) : Prop := (forall D, In D (w_dom W) -> pd D = []) /\ pd X_N = [].
Definition hyb_costs (Q Rm P : mat) (nx nu : nat) : Prop := shape Q nx nx /\ shape P nx nx /\ shape Rm nu nu /\ psd Q nx /\ psd P nx /\ Spec.pd Rm nu /\ tr Q = Q /\ tr P = P.
(** the condensed problem of a mode sequence describes its runs *)
Lemma runs_of_modes np W Q Rm P X_N N nx nu mN meN modes : exact_np np -> hyb_data W nx nu -> wf X_N mN meN nx -> hyb_costs Q Rm P nx nu -> no_eqs W X_N -> (0 < N)%nat -> length modes = N -> (forall m, In m modes -> (m < length (w_sys W))%nat) ->
  exists q m, condense_optimal_control_problem np W Q Rm P X_N modes = Ok q /\ MpqpThms.coherent q (nu * N) nx m /\
  forall x, length x = nx ->
    (forall us xs, admissible W X_N N x us modes xs -> q_feasible q x (List.concat us) /\ q_cost q x (List.concat us) = trajectory_cost Q Rm P us xs) /\
    (forall u, q_feasible q x u -> exists us xs, u = List.concat us /\ admissible W X_N N x us modes xs).
Proof.
  intros Hnp HW HX (SQ & SP & SR & PQ & PP & PR & TQ & TP) (ED & EX) HN Lm HM. pose proof (hyb_ocp W Q Rm P X_N N nx nu mN meN modes HW HX SQ SP SR HN Lm HM) as HO.
  destruct (condense_returns np W Q Rm P X_N modes nx nu HO Hnp) as (B & HQ). destruct (B PQ PP PR) as (q & m & Eq & Hq). rewrite Lm in *. specialize (HQ q Eq). exists q, m. split; [exact Eq|]. split; [exact Hq|].
  pose proof HW as (EW & EU & HS & LD & HWf).
  assert (ADM : forall x us xs, length x = nx -> length us = N -> Forall (fun v => length v = nu) us -> switched W modes x us xs -> (q_feasible q x (List.concat us) <-> admissible W X_N N x us modes xs)).
  { intros x us xs Lx Lus Fus Sw. destruct (condensed_constraints np W Q Rm P X_N modes nx nu Hnp HO q Eq x us xs Lx ltac:(lia) Fus Sw) as (_ & G). specialize (G ED EX). unfold q_feasible. rewrite G. unfold admissible, pwa_admissible. rewrite EU, map_length.
    assert (T : forall t xu, (t < length us)%nat -> (in_poly (nth (nth t modes 0%nat) (w_dom W) poly0) xu <-> nth (nth t modes 0%nat) (map in_poly (w_dom W)) (fun _ => False) xu)).
    { intros t xu Ht. rewrite nth_doms; [reflexivity|]. rewrite LD. apply HM, nth_In. lia. }
    unfold stage_constraints. split.
    - intros (C1 & C2). repeat match goal with |- _ /\ _ => split end; try assumption. intros t Ht. apply T; [exact Ht|]. apply C1. exact Ht.
    - intros (_ & _ & _ & _ & _ & (C1 & C2)). split; [|exact C2]. intros t Ht. apply T; [exact Ht|]. apply C1. exact Ht. }
  intros x Lx. split.
  - intros us xs HA. pose proof HA as (A1 & A2 & _ & _ & A5 & _). rewrite EU in A2. split; [apply (ADM x us xs); assumption|]. apply (HQ x us xs Lx A1 A2 A5); assumption.
  - intros u Hu. assert (Lu : length u = (N * nu)%nat) by (destruct Hu as (L & _); rewrite L; destruct Hq as (_ & _ & _ & _ & _ & _ & HA & _); rewrite (proj1 (proj2 HA)); lia). destruct (chunks nu N u Lu) as (us & Lus & Fus & Eu).
    destruct (switched_exists W modes nx nu x HS HM Lx us ltac:(lia) Fus) as (xs & Sw & _). exists us, xs. split; [auto|]. apply ADM; try assumption. rewrite Eu. exact Hu.
Qed.
Fixpoint all_modes (s N : nat) : list (list nat) := match N with O => [[]] | S N' => flat_map (fun l => map (fun k => k :: l) (seq 0 s)) (all_modes s N') end.
Lemma all_modes_in s N modes : length modes = N -> (forall m, In m modes -> (m < s)%nat) -> In modes (all_modes s N).
Proof.
  revert modes. induction N as [|N IH]; intros [|k l] L H; try discriminate; [left; reflexivity|]. cbn. apply in_flat_map. exists l. split; [apply IH; [cbn in L; lia|intros m Hm; apply H; right; exact Hm]|]. apply (in_map (fun k => k :: l)). apply in_seq. split; [lia|]. apply H. left. reflexivity.
Qed.
Lemma all_modes_ok s N modes : In modes (all_modes s N) -> length modes = N /\ (forall m, In m modes -> (m < s)%nat).
Proof.
  revert modes. induction N as [|N IH]; intros modes H; cbn in H.
  - destruct H as [<-|[]]. split; [reflexivity|]. intros m [].
  - apply in_flat_map in H. destruct H as (l & Hl & Hk). apply in_map_iff in Hk. destruct Hk as (k & <- & Hk). apply in_seq in Hk. destruct (IH l Hl) as (L & B). split; [cbn; lia|]. intros m [<-|Hm]; [lia|]. apply B. exact Hm.
Qed.
Lemma optimal_run_exists W Q Rm P X_N N nx nu mN meN x : hyb_data W nx nu -> wf X_N mN meN nx -> hyb_costs Q Rm P nx nu -> no_eqs W X_N -> (0 < N)%nat -> length x = nx ->
  (exists us modes xs, admissible W X_N N x us modes xs) ->
  exists us modes xs, admissible W X_N N x us modes xs /\ forall us' modes' xs', admissible W X_N N x us' modes' xs' -> trajectory_cost Q Rm P us xs <= trajectory_cost Q Rm P us' xs'.
Proof.
  intros HW HX HC HE HN Lx HA. set (s := length (w_sys W)).
  assert (IN : forall us modes xs, admissible W X_N N x us modes xs -> In modes (all_modes s N)).
  { intros us modes xs (_ & _ & A3 & A4 & _). apply all_modes_in; [exact A3|]. rewrite map_length in A4. exact A4. }
  assert (ONE : forall modes us xs, In modes (all_modes s N) -> admissible W X_N N x us modes xs -> exists us0 xs0, admissible W X_N N x us0 modes xs0 /\ forall us' xs', admissible W X_N N x us' modes xs' -> trajectory_cost Q Rm P us0 xs0 <= trajectory_cost Q Rm P us' xs').
  { intros modes us xs Hi Ha. destruct (all_modes_ok s N modes Hi) as (Lm & HM). destruct (runs_of_modes np0 W Q Rm P X_N N nx nu mN meN modes np0_exact HW HX HC HE HN Lm HM) as (q & m & _ & Hq & R). destruct (R x Lx) as (R1 & R2).
    destruct (minimizer_exists q (nu * N) nx m x _ Hq Lx (proj1 (R1 us xs Ha))) as (u & (Fu & Mu)). destruct (R2 u Fu) as (us0 & xs0 & -> & A0). exists us0, xs0. split; [exact A0|]. intros us' xs' A'. rewrite <- (proj2 (R1 us0 xs0 A0)), <- (proj2 (R1 us' xs' A')). apply Mu. apply R1 with (xs := xs'). exact A'. }
  assert (G : forall l, (forall m, In m l -> In m (all_modes s N)) -> (exists us modes xs, In modes l /\ admissible W X_N N x us modes xs) ->
     exists us modes xs, In modes l /\ admissible W X_N N x us modes xs /\ forall us' modes' xs', In modes' l -> admissible W X_N N x us' modes' xs' -> trajectory_cost Q Rm P us xs <= trajectory_cost Q Rm P us' xs').
  { induction l as [|k l IH]; intros SUB (us & modes & xs & Hi & Ha); [destruct Hi|].
    destruct (classic (exists us xs, admissible W X_N N x us k xs)) as [(us1 & xs1 & A1)|NK].
    - destruct (ONE k us1 xs1 (SUB k (or_introl eq_refl)) A1) as (us0 & xs0 & A0 & M0).
      destruct (classic (exists us modes xs, In modes l /\ admissible W X_N N x us modes xs)) as [HL|NL].
      + destruct (IH (fun m Hm => SUB m (or_intror Hm)) HL) as (us2 & ms2 & xs2 & I2 & A2 & M2). destruct (Rle_dec (trajectory_cost Q Rm P us0 xs0) (trajectory_cost Q Rm P us2 xs2)) as [Le|Gt].
        * exists us0, k, xs0. split; [left; reflexivity|]. split; [exact A0|]. intros us' ms' xs' [<-|I'] A'; [apply M0; exact A'|]. eapply Rle_trans; [exact Le|]. apply (M2 us' ms' xs'); assumption.
        * exists us2, ms2, xs2. split; [right; exact I2|]. split; [exact A2|]. intros us' ms' xs' [<-|I'] A'; [specialize (M0 us' xs' A'); lra|]. apply (M2 us' ms' xs'); assumption.
      + exists us0, k, xs0. split; [left; reflexivity|]. split; [exact A0|]. intros us' ms' xs' [<-|I'] A'; [apply M0; exact A'|]. exfalso. apply NL. eauto.
    - destruct Hi as [<-|Hi]; [exfalso; apply NK; eauto|]. destruct (IH (fun m Hm => SUB m (or_intror Hm))) as (us2 & ms2 & xs2 & I2 & A2 & M2); [eauto|]. exists us2, ms2, xs2. split; [right; exact I2|]. split; [exact A2|].
      intros us' ms' xs' [<-|I'] A'; [exfalso; apply NK; eauto|]. apply (M2 us' ms' xs'); assumption. }
  destruct HA as (us & modes & xs & Ha). destruct (G (all_modes s N) (fun m Hm => Hm)) as (us0 & ms0 & xs0 & _ & A0 & M0); [exists us, modes, xs; split; [exact (IN _ _ _ Ha)|exact Ha]|].
  exists us0, ms0, xs0. split; [exact A0|]. intros us' ms' xs' A'. apply (M0 us' ms' xs'); [exact (IN _ _ _ A')|exact A'].
Qed.
(** ** feedforward *)
Lemma split_zs nx s N zss : length zss = N -> Forall (fun zs => length zs = s /\ Forall (fun z => length z = nx) zs) zss ->
  map (fun z => fold_right vadd (zeros nx) (split_inputs nx s z)) (split_inputs (nx * s) N (List.concat (map (@List.concat R) zss))) = map (vsums nx) zss.
Proof.
  intros L F. rewrite <- L. replace (length zss) with (length (map (@List.concat R) zss)) by apply map_length. rewrite split_concat.
  - rewrite map_map. apply map_ext_in. intros zs Hz. destruct (proj1 (Forall_forall _ _) F zs Hz) as (L1 & F1). rewrite <- L1. rewrite split_concat by exact F1. reflexivity.
  - apply Forall_forall. intros v Hv. apply in_map_iff in Hv. destruct Hv as (zs & <- & Hz). destruct (proj1 (Forall_forall _ _) F zs Hz) as (L1 & F1). rewrite (concat_len zs nx) by exact F1. rewrite L1. lia.
Qed.
Lemma modes_back s (modes : list nat) : (forall m, In m modes -> (m < s)%nat) ->
  mapM (fun d => match where_ (fun a => Rltb (/ 2) a) d with m :: _ => Ok m | [] => Err IndexError end) (map (unit s) modes) = Ok modes.
Proof.
  induction modes as [|k l IH]; intros H; [reflexivity|]. cbn [map mapM]. rewrite where_unit by (apply H; left; reflexivity). cbn [bind]. rewrite IH by (intros m Hm; apply H; right; exact Hm). reflexivity.
Qed.
(*@ Theorem C48_feedforward_partial : For non-empty bounded domains without equalities, when Gurobi solves the (sharp) mixed-integer program exactly, feedforward returns inputs, states and modes of an admissible run of the system whose cost -- the number returned -- is minimal over all input and mode sequences, or None when no run has minimal cost; with Q, P symmetric positive semidefinite and R positive definite, None means that there is no admissible run; feedback returns the first input.
   Missing: domains with equalities (C47_equalities_refuted); entries below Gurobi's cut of 1e-9. *)
Lemma hybrid_optimal np grb W N Q Rm P X_N nx nu mN meN C : exact_np np -> hyb_data W nx nu -> (0 < nx)%nat -> (0 < N)%nat -> hyb_domains W ->
  shape Q nx nx -> shape P nx nx -> shape Rm nu nu -> wf X_N mN meN nx -> no_eqs W X_N ->
  HybridModelPredictiveController np W N Q Rm P X_N = Ok C -> forall x, length x = nx -> gurobi_solves grb (k_mpmiqp C) x ->
  let run := pwa_admissible (map aA (w_sys W)) (map aB (w_sys W)) (map ac (w_sys W)) (map in_poly (w_dom W)) (in_poly X_N) nu N x in
  let optimal := pwa_optimal (map aA (w_sys W)) (map aB (w_sys W)) (map ac (w_sys W)) (map in_poly (w_dom W)) (in_poly X_N) Q Rm P nu N x in
  (exists us xs modes, hybrid_feedforward grb C x = Ok (Some (us, xs, modes, trajectory_cost Q Rm P us xs)) /\ optimal us modes xs /\ hybrid_feedback grb C x = Ok (Some (nth 0 us []))) \/
  (hybrid_feedforward grb C x = Ok None /\ hybrid_feedback grb C x = Ok None /\ (forall us modes xs, ~ optimal us modes xs) /\
   (hyb_costs Q Rm P nx nu -> forall us modes xs, ~ run us modes xs)).
Proof.
  intros ENP HW Hnx HN HD SQ SP SR HX HE EC x Lx GS run optimal. pose proof HE as (ED & EX). pose proof HW as (EW & EU & _).
  destruct (bigM_valid np W nx nu ENP HW Hnx HD) as (alpha & beta & gamma & E1 & E2 & SH & BV).
  destruct (program_encodes W N Q Rm P X_N alpha beta gamma nx nu mN meN HW SH HN SQ SP SR HX) as (q & m & Eq & T1 & T2 & T3 & T4 & T5 & T6 & T7 & T8 & T9 & G0 & G1 & G2 & G3).
  set (s := length (w_sys W)) in *.
  unfold HybridModelPredictiveController in EC. rewrite E1 in EC. cbn [bind] in EC. rewrite E2 in EC. cbn [bind] in EC. rewrite Eq in EC. cbn [bind] in EC. injection EC as <-. cbn [k_mpmiqp] in GS.
  assert (RUN : forall us modes xs, run us modes xs <-> admissible W X_N N x us modes xs) by (intros; unfold run, admissible; rewrite EU; reflexivity).
  assert (ENC : forall us modes xs, admissible W X_N N x us modes xs -> exists u z d, encodes s nx us modes xs u z d).
  { intros us modes xs _. unfold encodes. eexists _, _, _. split; [reflexivity|]. split; reflexivity. }
  assert (FULL : forall us modes xs, admissible (relaxed W) (without_equalities X_N) N x us modes xs -> admissible W X_N N x us modes xs) by (intros us modes xs; apply (admissible_full W X_N N nx nu mN meN x us modes xs HW HX ED EX)).
  assert (RLX : forall us modes xs, admissible W X_N N x us modes xs -> admissible (relaxed W) (without_equalities X_N) N x us modes xs) by (intros us modes xs; apply admissible_relax; apply HW).
  destruct (mpmiqp_solve_ok grb q x m (N * nu) (N * (nx * s)) (N * s) nx T1 T2 T3 T5 T6 T7 T8 T9 Lx (G0 x Lx) GS) as [(u & z & d & ES & (FS & OS))|(ES & NS)].
  - left. destruct (G1 x u z d Lx FS) as (us & modes & xs & A1 & A2). pose proof (FULL _ _ _ A1) as A1'. exists us, xs, modes.
    destruct (run_facts W X_N N nx nu x us modes xs HW Lx A1') as (F1 & F2 & F3 & F4 & F5 & F6 & F7 & F8 & F9 & F10). fold s in F4, F5, F6, F8, F9, F10.
    pose proof (proj1 (encodes_iff _ _ _ _ _ _ _ _) A2) as (Eu & Ez & Ed). rewrite F3 in Ez. set (zss := map (fun t => zblock s nx (nth t modes 0%nat) (nth (S t) xs [])) (seq 0 N)) in *.
    assert (EF : hybrid_feedforward grb (HMPC W N Q Rm P X_N alpha beta gamma q) x = Ok (Some (us, xs, modes, trajectory_cost Q Rm P us xs))).
    { unfold hybrid_feedforward. cbn [k_mpmiqp k_S k_N]. rewrite ES. cbn [bind]. rewrite EU, EW. fold s. rewrite Eu, Ez, Ed.
      replace (split_inputs s N (List.concat (map (unit s) modes))) with (map (unit s) modes) by (symmetry; rewrite <- F3; replace (length modes) with (length (map (unit s) modes)) by apply map_length; apply split_concat; exact F9).
      rewrite modes_back by (intros k Hk; apply (In_nth _ _ 0%nat) in Hk; destruct Hk as (t & Ht & <-); apply F8; lia). cbn [bind].
      rewrite split_zs by assumption. rewrite <- F6. rewrite <- F1 at 1. rewrite split_concat by exact F2. rewrite <- Ez, <- Eu. unfold mi_cost. rewrite (G3 x us modes xs u z d Lx A1 A2). reflexivity. }
    split; [exact EF|]. split.
    + split; [apply RUN; exact A1'|]. intros us' modes' xs' A'. apply RUN in A'. destruct (ENC _ _ _ A') as (u' & z' & d' & N'). pose proof (OS u' z' d' (G2 x us' modes' xs' u' z' d' Lx BV A' N')) as Q'. unfold mi_cost in Q'. rewrite (G3 x us modes xs u z d Lx A1 A2), (G3 x us' modes' xs' u' z' d' Lx (RLX _ _ _ A') N') in Q'. exact Q'.
    + unfold hybrid_feedback. rewrite EF. cbn [bind]. destruct us as [|u0 us]; [cbn in F1; lia|]. reflexivity.
  - right. assert (EF : hybrid_feedforward grb (HMPC W N Q Rm P X_N alpha beta gamma q) x = Ok None) by (unfold hybrid_feedforward; cbn [k_mpmiqp]; rewrite ES; reflexivity).
    split; [exact EF|]. split; [unfold hybrid_feedback; rewrite EF; reflexivity|].
    assert (NO : forall us modes xs, ~ optimal us modes xs).
    { intros us modes xs (A & M). apply NS. apply RUN in A. destruct (ENC _ _ _ A) as (u & z & d & N1). exists u, z, d. split; [exact (G2 x us modes xs u z d Lx BV A N1)|]. intros u' z' d' F'. destruct (G1 x u' z' d' Lx F') as (us' & modes' & xs' & A' & N'). unfold mi_cost. rewrite (G3 x us modes xs u z d Lx (RLX _ _ _ A) N1), (G3 x us' modes' xs' u' z' d' Lx A' N'). apply (M us' modes' xs'). apply RUN, FULL. exact A'. }
    split; [exact NO|]. intros HC us modes xs A. apply RUN in A. destruct (optimal_run_exists W Q Rm P X_N N nx nu mN meN x HW HX HC HE HN Lx) as (us0 & ms0 & xs0 & A0 & M0); [eauto|]. apply (NO us0 ms0 xs0). split; [apply RUN; exact A0|]. intros us' ms' xs' A'. apply RUN in A'. eauto.
Qed.
(*@ Theorem C48_horizon_zero : With horizon 0, feedback raises IndexError wherever feedforward finds a solution. *)
Lemma feedback_horizon_zero grb C x sol : k_N C = 0%nat -> hybrid_feedforward grb C x = Ok (Some sol) -> hybrid_feedback grb C x = Err IndexError.
Proof.
  intros H0 E. unfold hybrid_feedback. rewrite E. cbn [bind]. unfold hybrid_feedforward in E. destruct (mpmiqp_solve _ _ _) as [s|]; [|discriminate]. cbn [bind] in E. rewrite H0 in E. destruct s as [[V|] [u|] [z|] [d|]]; try discriminate. cbn in E. injection E as <-. reflexivity.
Qed.
(*@ Theorem C48_mpqp : The inputs of an optimal run are the one and only minimizer of the mpQP of its mode sequence (get_mpqp), with the same cost. *)
Lemma hybrid_mpqp np W N Q Rm P X_N nx nu mN meN C x us modes xs : exact_np np -> hyb_data W nx nu -> (0 < N)%nat -> wf X_N mN meN nx -> no_eqs W X_N -> hyb_costs Q Rm P nx nu ->
  HybridModelPredictiveController np W N Q Rm P X_N = Ok C -> length x = nx ->
  pwa_optimal (map aA (w_sys W)) (map aB (w_sys W)) (map ac (w_sys W)) (map in_poly (w_dom W)) (in_poly X_N) Q Rm P nu N x us modes xs ->
  exists q, get_mpqp np C modes = Ok q /\
    mp_minimizer (q_Huu q) (q_Hux q) (q_Hxx q) (q_fu q) (q_fx q) (q_g q) (q_Au q) (q_Ax q) (q_b q) x (List.concat us) /\
    mp_cost (q_Huu q) (q_Hux q) (q_Hxx q) (q_fu q) (q_fx q) (q_g q) x (List.concat us) = trajectory_cost Q Rm P us xs.
Proof.
  intros Hnp HW HN HX HE HC EC Lx (A & M). pose proof HW as (EW & EU & _). assert (A' : admissible W X_N N x us modes xs) by (unfold admissible; rewrite EU; exact A).
  assert (EG : get_mpqp np C modes = condense_optimal_control_problem np W Q Rm P X_N modes).
  { unfold HybridModelPredictiveController in EC. destruct (get_bigM_dynamics np W) as [(alpha & beta)|]; cbn [bind] in EC; [|discriminate]. destruct (get_bigM_domains np W) as [gamma|]; cbn [bind] in EC; [|discriminate]. destruct (hybrid_condense_program _ _ _ _ _ _ _ _ _) as [q|]; cbn [bind] in EC; [|discriminate]. injection EC as <-. reflexivity. }
  pose proof A as (_ & _ & Lm & HM & _). rewrite map_length in HM.
  destruct (runs_of_modes np W Q Rm P X_N N nx nu mN meN modes Hnp HW HX HC HE HN Lm HM) as (q & m & Eq & Hq & R). destruct (R x Lx) as (R1 & R2). exists q. split; [rewrite EG; exact Eq|]. destruct (R1 us xs A') as (F & EQ).
  destruct (minimizer_exists q (nu * N) nx m x _ Hq Lx F) as (u & (Fu & Mu)). split; [|exact EQ]. destruct (R2 u Fu) as (us0 & xs0 & -> & A0).
  assert (E0 : q_cost q x (List.concat us) = q_cost q x (List.concat us0)).
  { apply Rle_antisym; [|apply Mu; exact F]. rewrite EQ, (proj2 (R1 us0 xs0 A0)). apply (M us0 modes xs0). unfold admissible in A0. rewrite EU in A0. exact A0. }
  destruct (Mu _ F) as (_ & U). rewrite (U E0). split; assumption.
Qed.
(** ** An example *)
Lemma exact_gurobi_exists H f A b nc : exists grb, forall M, build_model (Some H) f A b None None = Ok M -> let M' := set_binary nc M in gsol_ok M' (grb M').
Proof.
  destruct (build_model (Some H) f A b None None) as [M|e] eqn:E; [|exists (fun _ => GSol false 0 [] [] [] []); intros M; discriminate].
  destruct (classic (exists x, g_feasible (set_binary nc M) x /\ forall y, g_feasible (set_binary nc M) y -> g_objective (set_binary nc M) x <= g_objective (set_binary nc M) y)) as [(x & F & O)|NO].
  - exists (fun _ => GSol true (g_objective (set_binary nc M) x) x [] [] []). intros M0 E0. injection E0 as <-. unfold gsol_ok. cbn. auto.
  - exists (fun _ => GSol false 0 [] [] [] []). intros M0 E0. injection E0 as <-. unfold gsol_ok. cbn. exact NO.
Qed.
Lemma least_unique (S : vec -> Prop) g v w : least S g v -> least S g w -> v = w.
Proof. intros ((x & Sx & E) & L) ((y & Sy & F) & M). specialize (L y Sy). specialize (M x Sx). lra. Qed.
Ltac cases := unfold Rmax, Rmin, Rabs; repeat match goal with |- context [Rle_dec ?a ?b] => destruct (Rle_dec a b) | |- context [Rcase_abs ?a] => destruct (Rcase_abs a) end.
Lemma lp_L np a b : exact_np np -> lp_min np [a; b] D_L = Ok (- Rmax 0 a - Rabs b).
Proof.
  intros Hnp. assert (LE : least (in_poly D_L) (dot [a; b]) (- Rmax 0 a - Rabs b)).
  { split.
    - exists [if Rle_dec 0 a then -1 else 0; if Rcase_abs b then 1 else -1]. split.
      + apply in_D_L. eexists _, _. split; [reflexivity|]. destruct (Rle_dec 0 a), (Rcase_abs b); lra.
      + cbn. cases; lra.
    - intros xu H. apply in_D_L in H. destruct H as (x & u & -> & H). cbn. cases; nra. }
  destruct (lp_min_exact np 2 Hnp [a; b] D_L 4 0 wf_D_L eq_refl) as (v & E & LV).
  - exists [0; 0]. apply in_D_L. exists 0, 0. split; [reflexivity|lra].
  - eexists. apply LE.
  - rewrite E. f_equal. exact (least_unique _ _ _ _ LV LE).
Qed.
Lemma lp_R np a b : exact_np np -> lp_min np [a; b] D_R = Ok (Rmin 0 a - Rabs b).
Proof.
  intros Hnp. assert (LE : least (in_poly D_R) (dot [a; b]) (Rmin 0 a - Rabs b)).
  { split.
    - exists [if Rle_dec 0 a then 0 else 1; if Rcase_abs b then 1 else -1]. split.
      + apply in_D_R. eexists _, _. split; [reflexivity|]. destruct (Rle_dec 0 a), (Rcase_abs b); lra.
      + cbn. cases; lra.
    - intros xu H. apply in_D_R in H. destruct H as (x & u & -> & H). cbn. cases; nra. }
  destruct (lp_min_exact np 2 Hnp [a; b] D_R 4 0 wf_D_R eq_refl) as (v & E & LV).
  - exists [0; 0]. apply in_D_R. exists 0, 0. split; [reflexivity|lra].
  - eexists. apply LE.
  - rewrite E. f_equal. exact (least_unique _ _ _ _ LV LE).
Qed.
Ltac entries := repeat match goal with |- Ok _ = Ok _ => apply f_equal | |- Some _ = Some _ => apply f_equal | |- (_, _) = (_, _) => apply f_equal2 | |- _ :: _ = _ :: _ => apply f_equal2 | |- [] = [] => reflexivity | |- @eq nat _ _ => reflexivity | |- @eq R _ _ => cases; lra end.
Lemma W2_constants np : exact_np np -> get_bigM_dynamics np W2 = Ok ([[[-2]; [-1]]; [[-1]; [-2]]], [[[1]; [2]]; [[2]; [1]]]) /\
  get_bigM_domains np W2 = Ok [[[0; 0; 0; 0]; [1; -1; 0; 0]]; [[-1; 1; 0; 0]; [0; 0; 0; 0]]].
Proof.
  intros Hnp. split.
  - unfold get_bigM_dynamics, bigM_dynamics_ij, row. cbn -[lp_min]. rewrite !lp_L, !lp_R by exact Hnp. cbn -[lp_min]. rewrite ?lp_L, ?lp_R by exact Hnp. cbn -[lp_min]. entries.
  - unfold get_bigM_domains, bigM_domains_ij, row. cbn -[lp_min]. rewrite !lp_L, !lp_R by exact Hnp. cbn -[lp_min]. entries.
Qed.
Lemma sharp_entries (v : vec) : Forall (fun a => a = 0 \/ 1 <= a \/ a <= -1) v -> sharp v.
Proof.
  intros F a Ha. destruct (proj1 (Forall_forall _ _) F a Ha) as [->|H]; [left; reflexivity|right]. assert (/ 10 ^ 9 < 1) by (rewrite <- Rinv_1; apply Rinv_lt_contravar; [|]; lra). destruct H as [H|H]; unfold Rabs; destruct (Rcase_abs a); lra.
Qed.
Ltac sharp_row := apply sharp_entries; repeat (apply Forall_cons; [first [left; lra|right; left; lra|right; right; lra]|]); apply Forall_nil.
(*@ Example C48_example : The system with two modes, horizon 1, from x = -1: the hypotheses of C48_feedforward_partial hold for a suitable Gurobi, and feedforward returns the input 1/2, the states -1, -1/2, mode 0 and the cost 3/4. *)
Lemma hybrid_example np : exact_np np -> hyb_data W2 1 1 /\ hyb_domains W2 /\ no_eqs W2 X_int /\ hyb_costs I_1 I_1 I_1 1 1 /\
  exists C, HybridModelPredictiveController np W2 1 I_1 I_1 I_1 X_int = Ok C /\ exists grb, gurobi_solves grb (k_mpmiqp C) [-1] /\
    hybrid_feedforward grb C [-1] = Ok (Some ([[/ 2]], [[-1]; [- / 2]], [0%nat], 3 / 4)).
Proof.
  intros Hnp. destruct W2_data as (HW & HD). assert (HE : no_eqs W2 X_int) by (split; [intros D [<-|[<-|[]]]; reflexivity|reflexivity]).
  assert (HC : hyb_costs I_1 I_1 I_1 1 1).
  { assert (PS : forall v : vec, length v = 1%nat -> exists a, v = [a] /\ dot v (mv I_1 v) = a * a) by (intros [|a [|]] L; try discriminate; exists a; split; [reflexivity|cbn; ring]).
    unfold hyb_costs. repeat match goal with |- _ /\ _ => split end; try exact shape_I_1; try reflexivity.
    - split; [reflexivity|]. intros v Lv. destruct (PS v Lv) as (a & _ & ->). nra.
    - split; [reflexivity|]. intros v Lv. destruct (PS v Lv) as (a & _ & ->). nra.
    - split; [reflexivity|]. intros v Lv NZ. destruct (PS v Lv) as (a & -> & ->). assert (a <> 0) by (intros ->; apply NZ; reflexivity). nra. }
  split; [exact HW|]. split; [exact HD|]. split; [exact HE|]. split; [exact HC|].
  destruct (W2_constants np Hnp) as (E1 & E2). unfold HybridModelPredictiveController. rewrite E1. cbn [bind]. rewrite E2. cbn [bind].
  destruct (hybrid_condense_program W2 1 I_1 I_1 I_1 X_int _ _ _) as [q|e] eqn:Eq; [|exfalso; cbn in Eq; discriminate].
  cbn [bind]. eexists. split; [reflexivity|]. cbn [k_mpmiqp].
  destruct (exact_gurobi_exists (hyb_H q) (hyb_f q [-1]) (hyb_A q) (hyb_b q [-1]) (ncols (h_Au q) + ncols (h_Az q))) as (grb & GE). exists grb.
  assert (GS : gurobi_solves grb q [-1]).
  { split; [|exact GE]. clear GE grb. vm_compute in Eq. injection Eq as <-. unfold sharp_data. repeat match goal with |- _ /\ _ => split end.
    - intros r Hr. vm_compute in Hr. repeat (destruct Hr as [<-|Hr]; [sharp_row|]). destruct Hr.
    - unfold hyb_f. cbn. sharp_row.
    - intros r Hr. vm_compute in Hr. repeat (destruct Hr as [<-|Hr]; [sharp_row|]). destruct Hr.
    - unfold hyb_b. cbn. sharp_row.
    - intros r [].
    - intros a []. }
  split; [exact GS|].
  assert (EC : HybridModelPredictiveController np W2 1 I_1 I_1 I_1 X_int = Ok (HMPC W2 1 I_1 I_1 I_1 X_int [[[-2]; [-1]]; [[-1]; [-2]]] [[[1]; [2]]; [[2]; [1]]] [[[0; 0; 0; 0]; [1; -1; 0; 0]]; [[-1; 1; 0; 0]; [0; 0; 0; 0]]] q)).
  { unfold HybridModelPredictiveController. rewrite E1. cbn [bind]. rewrite E2. cbn [bind]. rewrite Eq. reflexivity. }
  assert (RUN : pwa_admissible (map aA (w_sys W2)) (map aB (w_sys W2)) (map ac (w_sys W2)) (map in_poly (w_dom W2)) (in_poly X_int) 1 1 [-1] [[/ 2]] [0%nat] [[-1]; [- / 2]]).
  { unfold pwa_admissible. split; [reflexivity|]. split; [repeat constructor|]. split; [reflexivity|]. split; [intros m [<-|[]]; cbn; lia|]. split.
    - split; [reflexivity|]. split; [reflexivity|]. intros [|t] Ht; [|cbn in Ht; lia]. unfold affine_step. cbn. f_equal. lra.
    - split.
      + intros [|t] Ht; [|cbn in Ht; lia]. cbn [nth map w_dom W2]. apply in_D_L. eexists _, _. split; [reflexivity|]. lra.
      + cbn [length nth]. apply in_X_int. lra. }
  destruct (hybrid_optimal np grb W2 1 I_1 I_1 I_1 X_int 1 1 2 0 _ Hnp HW ltac:(lia) ltac:(lia) HD shape_I_1 shape_I_1 shape_I_1 wf_X_int HE EC [-1] eq_refl GS) as [(us & xs & modes & EF & (A & M) & _)|(_ & _ & _ & NR)].
  - rewrite EF. specialize (M _ _ _ RUN). destruct A as (A1 & A2 & A3 & A4 & (A5 & A6 & A7) & (A8 & _)). destruct us as [|u [|]]; try discriminate. destruct u as [|u [|]]; try (inversion A2; discriminate). destruct modes as [|k [|]]; try discriminate. specialize (A4 k (or_introl eq_refl)). cbn in A4.
    destruct xs as [|x0 [|x1 [|]]]; try discriminate. cbn [nth] in A6. subst x0. specialize (A8 0%nat ltac:(cbn; lia)). specialize (A7 0%nat ltac:(cbn; lia)). cbn [nth] in A7, A8.
    assert (k = 0%nat). { destruct k as [|[|]]; [reflexivity| |lia]. exfalso. cbn [nth map w_dom W2] in A8. apply in_D_R in A8. destruct A8 as (x & v & E & B). injection E as E _. lra. } subst k.
    unfold affine_step in A7. cbn in A7. subst x1. unfold trajectory_cost in *. cbn in M |- *. assert (u = / 2) by nra. subst u. entries.
  - exfalso. exact (NR HC _ _ _ RUN).
Qed.
(*@ Example C48_horizon_zero_example : The controller of C48_example with its horizon set to 0: feedforward returns no inputs, feedback raises IndexError. *)
Lemma horizon_zero_example np : exact_np np -> exists C grb, k_N C = 0%nat /\ hybrid_feedforward grb C [-1] = Ok (Some ([], [[-1]], [], 3 / 4)) /\ hybrid_feedback grb C [-1] = Err IndexError.
Proof.
  intros Hnp. destruct (hybrid_example np Hnp) as (_ & _ & _ & _ & C & _ & grb & _ & EF). exists (HMPC (k_S C) 0 (k_Q C) (k_R C) (k_P C) (k_XN C) (k_alpha C) (k_beta C) (k_gamma C) (k_mpmiqp C)), grb.
  assert (E : hybrid_feedforward grb (HMPC (k_S C) 0 (k_Q C) (k_R C) (k_P C) (k_XN C) (k_alpha C) (k_beta C) (k_gamma C) (k_mpmiqp C)) [-1] = Ok (Some ([], [[-1]], [], 3 / 4))).
  { unfold hybrid_feedforward in *. cbn [k_mpmiqp k_S k_N]. destruct (mpmiqp_solve _ _ _) as [s|]; [|discriminate]. cbn [bind] in *. destruct s as [[V|] [u|] [z|] [d|]]; try discriminate. destruct (mapM _ _) in EF; [|discriminate]. cbn [bind] in EF. injection EF as _ _ _ ->. reflexivity. }
  split; [reflexivity|]. split; [exact E|]. eapply feedback_horizon_zero; [reflexivity|exact E].
Qed.
