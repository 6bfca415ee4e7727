(** * PolySetThms: redundancy counterexample, inclusion, boundedness (C10, C12, C09), proofs *)
From Coq Require Import ZArith.
From Verif Require Import Arr ArrFacts Spec Numpy Pnnls PnnlsFacts QpFacts GeomUtils Polyhedron PolyThms Oracle SolverThms NullFacts PolySolveThms.

(** {x <= 0, x <= tol/2} *)
Definition p_two : poly := Poly (Mat 1 [[1]; [1]]) [0; tol7 / 2] (Mat 1 []) [] None None None None None.
Lemma wf_p_two : wf p_two 2 0 1. Proof. unfold wf; simpl; repeat split; repeat constructor. Qed.
(*@ Theorem C10_tolerance_refuted : {x <= 0, x <= tol/2} becomes {x <= tol/2}: a point is added. *)
Lemma tolerance_refuted np : exact_np np ->
  exists p p' x, wf p 2 0 1 /\ remove_redundant_inequalities np p = (Ok tt, p') /\ in_poly p' x /\ ~ in_poly p x.
Proof.
  intros Hnp. pose proof tol7_pos as Tp.
  assert (T1 : tol7 <= 1) by (unfold tol7; lra).
  destruct (get_empty_ok np p_two 2 0 1 Hnp wf_p_two eq_refl) as (e & Ee & He).
  assert (e = false).
  { destruct e; [|reflexivity]. exfalso. apply (proj1 He eq_refl). exists [0]. split.
    - split; [reflexivity|]. split; [|constructor]. apply Forall2_cons; [cbn; lra|]. apply Forall2_cons; [cbn; lra|constructor].
    - unfold near. cbn. unfold tol7. lra. }
  subst e.
  assert (HS : shape (Mat 1 [[1]; [1]]) 2 1) by (repeat split; repeat constructor).
  assert (Loop : facets_loop np tol7 (Mat 1 [[1]; [1]]) [0; tol7 / 2] [0%nat; 1%nat] [0%nat; 1%nat] = Ok [1%nat]).
  { cbn [facets_loop].
    destruct (facet_lp np Hnp (Mat 1 [[1]; [1]]) [0; tol7 / 2] 2 1 HS eq_refl [0%nat; 1%nat] 0 [0]) as (s & z & Es & Em & (Lz & Sz) & Bz & Oz).
    { simpl. intros j [<-|[<-|[]]]; lia. } { now left. } { split; [reflexivity|]. intros j [<-|[<-|[]]]; cbn; lra. }
    rewrite Es. cbn [bind]. rewrite Em. destruct z as [|z [|]]; try discriminate Lz.
    specialize (Sz 1%nat ltac:(simpl; auto)). cbn in Sz.
    replace (Rltb _ tol7) with true by (symmetry; apply Rltb_true; cbn; lra).
    destruct (facet_lp np Hnp (Mat 1 [[1]; [1]]) [0; tol7 / 2] 2 1 HS eq_refl [1%nat] 1 [0]) as (s' & z' & Es' & Em' & (Lz' & Sz') & Bz' & Oz').
    { simpl. intros j [<-|[]]; lia. } { now left. } { split; [reflexivity|]. intros j [<-|[]]; cbn; lra. }
    change (remove Nat.eq_dec 0 [0; 1])%nat with [1%nat]. rewrite Es'. cbn [bind]. rewrite Em'. destruct z' as [|z' [|]]; try discriminate Lz'.
    specialize (Oz' [tol7 / 2 + 1]). cbn in Oz'.
    assert (G : 1 * (tol7 / 2 + 1) + 0 <= 1 * z' + 0). { apply Oz'; [|lra]. split; [reflexivity|]. intros j []. }
    replace (Rltb _ tol7) with false by (symmetry; apply Rltb_false; cbn; lra). reflexivity. }
  exists p_two.
  eexists. exists [tol7 / 2]. split; [exact wf_p_two|]. split.
  - unfold remove_redundant_inequalities, minimal_facets, pbind. rewrite Ee. unfold pget, plift.
    cbn [p_two set_empty pA pb pC pd nrows rows length Nat.ltb Nat.leb seq]. rewrite Loop. reflexivity.
  - split.
    + split; [reflexivity|]. split; [|constructor]. cbn. apply Forall2_cons; [cbn; lra|constructor].
    + intros (_ & H & _). unfold ineq_holds in H. simpl in H. inv2 H. lra.
Qed.

(*@ Example C10_example : {x <= 1, x <= 3} has no almost redundant inequality, and removing redundant inequalities keeps {x <= 1}. *)
Lemma redundancy_example :
  let p := Poly (Mat 1 [[1]; [1]]) [1; 3] (Mat 1 []) [] None None None None None in
  redundancy_gap p 2 tol7 /\ exists p', remove_redundant_inequalities np0 p = (Ok tt, p') /\ forall x, in_poly p' x <-> in_poly p x.
Proof.
  cbv zeta. set (p := Poly _ _ _ _ _ _ _ _ _). assert (W : wf p 2 0 1) by (unfold wf; simpl; repeat split; repeat constructor).
  pose proof tol7_pos as Tp. assert (T1 : tol7 <= 1) by (unfold tol7; lra).
  assert (G : redundancy_gap p 2 tol7).
  { intros S i Hi NI HS. destruct i as [|[|]]; [| |lia].
    - right. exists [2]. split; [|cbn; lra]. split; [reflexivity|]. split; [constructor|]. intros j Hj. 
      specialize (HS j Hj). destruct j as [|[|]]; [contradiction|cbn; lra|lia].
    - destruct (in_dec Nat.eq_dec 0%nat S) as [I0|I0].
      + left. intros x (Lx & _ & Sx). specialize (Sx 0%nat I0). destruct x as [|a [|]]; try discriminate Lx. cbn in *. lra.
      + right. exists [4]. split; [|cbn; lra]. split; [reflexivity|]. split; [constructor|]. intros j Hj.
        specialize (HS j Hj). destruct j as [|[|]]; [contradiction|contradiction|lia]. }
  split; [exact G|]. apply (redundancy_exact np0 p 2 0 1 np0_exact W); auto; [discriminate|].
  exists [0]. split.
  - split; [reflexivity|]. split; [|constructor]. apply Forall2_cons; [cbn; lra|]. apply Forall2_cons; [cbn; lra|constructor].
  - unfold near. cbn. unfold tol7. lra.
Qed.

(** ** C12: inclusion *)
(** all constraints as inequalities *)
Definition allA (p : poly) : mat := vstack (pA p) (vstack (pC p) (mneg (pC p))).
Definition allb (p : poly) : vec := pb p ++ pd p ++ vneg (pd p).
Lemma shape_all p m me n : wf p m me n -> shape (allA p) (m + (me + me)) n /\ length (allb p) = (m + (me + me))%nat.
Proof. intros (WA & Wb & WC & Wd). unfold allA, allb. split; [auto 6 with shp|len]. Qed.
Lemma all_poly p m me n x : wf p m me n -> length x = n -> vle (mv (allA p) x) (allb p) <-> in_poly p x.
Proof.
  intros W Lx. rewrite (in_poly_vle _ _ _ _ _ W). pose proof W as (WA & Wb & WC & Wd). unfold allA, allb. rewrite !mv_vstack, mv_mneg.
  assert (LA : length (rows (pA p)) = m) by apply WA. assert (LC : length (rows (pC p)) = me) by apply WC.
  rewrite vle_app by len. rewrite vle_app by len. rewrite vle_vneg. split.
  - intros (H1 & H2 & H3). split; [exact Lx|]. split; [exact H1|]. apply vec_ext; [len|]. intros i Hi.
    apply vle_nth in H2. apply vle_nth in H3. destruct H2 as (_ & H2), H3 as (_ & H3). specialize (H2 i Hi). specialize (H3 i ltac:(len)). lra.
  - intros (_ & H1 & H2). rewrite H2. auto using vle_refl.
Qed.

(** within tol of satisfying every constraint *)
Definition in_poly_tol (p : poly) (tol : R) (x : vec) : Prop :=
  Forall2 (fun a bi => dot a x <= bi + tol) (rows (pA p)) (pb p) /\
  Forall2 (fun c di => Rabs (dot c x - di) <= tol) (rows (pC p)) (pd p).

Lemma Forall2_combine {A B} (P : A -> B -> Prop) u v : length u = length v ->
  Forall2 P u v <-> Forall (fun ab => P (fst ab) (snd ab)) (combine u v).
Proof.
  revert v; induction u as [|a u IH]; intros [|b v] L; simpl in *; try lia; [split; constructor|].
  split; intros H; inversion H; subst; constructor; auto; now apply IH; auto.
Qed.
Lemma Forall2_app_iff {A B} (P : A -> B -> Prop) u1 u2 v1 v2 : length u1 = length v1 ->
  Forall2 P (u1 ++ u2) (v1 ++ v2) <-> Forall2 P u1 v1 /\ Forall2 P u2 v2.
Proof.
  revert v1; induction u1 as [|a u IH]; intros [|b v] L; simpl in *; try lia.
  - intuition.
  - split.
    + intros H. apply Forall2_cons_inv in H. destruct H as (H1 & H2). apply IH in H2; [|lia]. intuition.
    + intros (H1 & H2). apply Forall2_cons_inv in H1. destruct H1. constructor; auto. apply IH; auto.
Qed.

Lemma in_poly_tol_all p m me n tol x : wf p m me n ->
  in_poly_tol p tol x <-> Forall2 (fun a bi => dot a x <= bi + tol) (rows (allA p)) (allb p).
Proof.
  intros (WA & Wb & WC & Wd). unfold in_poly_tol, allA, allb. cbn [vstack rows mneg].
  assert (LA : length (rows (pA p)) = m) by apply WA. assert (LC : length (rows (pC p)) = me) by apply WC.
  rewrite Forall2_app_iff by lia. rewrite Forall2_app_iff by lia.
  assert (G : forall C d, length C = length d -> Forall2 (fun c di => Rabs (dot c x - di) <= tol) C d <->
     Forall2 (fun a bi => dot a x <= bi + tol) C d /\ Forall2 (fun a bi => dot a x <= bi + tol) (map vneg C) (vneg d)).
  { clear. induction C as [|c C IH]; intros [|d0 d] L; simpl in *; try lia; [intuition|]. split.
    - intros H. apply Forall2_cons_inv in H. destruct H as (H1 & H2). apply IH in H2; [|lia].
      assert (- tol <= dot c x - d0 <= tol) by (split; [|]; unfold Rabs in H1; destruct (Rcase_abs _) in H1; lra).
      destruct H2. split; constructor; auto; try lra. rewrite dot_vneg_l. lra.
    - intros (H1 & H2). apply Forall2_cons_inv in H1. apply Forall2_cons_inv in H2. destruct H1 as (H1 & H3), H2 as (H2 & H4).
      rewrite dot_vneg_l in H2. constructor; [apply Rabs_le; lra|]. apply IH; [lia|auto]. }
  rewrite G by lia. tauto.
Qed.

Section Included.
Variable np : numpy.
Hypothesis Hnp : exact_np np.
Variables (A1 : mat) (b1 : vec) (m n : nat).
Hypothesis HA : shape A1 m n.
Hypothesis Hb : length b1 = m.
Variable x0 : vec.
Hypothesis L0 : length x0 = n.
Hypothesis V0 : vle (mv A1 x0) b1.

(** every objective is bounded on the set *)
Lemma included_loop_ok tol fs :
  Forall (fun ab => length (fst ab) = n /\ exists u, forall x, length x = n -> vle (mv A1 x) b1 -> dot (fst ab) x <= u) fs ->
  exists r, included_loop np tol A1 b1 fs = Ok r /\
    (r = true <-> forall x, length x = n -> vle (mv A1 x) b1 -> Forall (fun ab => dot (fst ab) x <= snd ab + tol) fs).
Proof.
  induction 1 as [|[a bi] fs (La & u & Hu) Hfs IH]; cbn [included_loop].
  - exists true. split; [reflexivity|]. split; [constructor|reflexivity].
  - cbn [fst] in La, Hu.
    destruct (lp_solved np (vneg a) A1 b1 m n x0 (- u)) as (s & x & l & Es & Em & _ & Lx & Vx & Ox & _); auto; [len| |].
    { intros x Lx Vx. rewrite dot_vneg_l. specialize (Hu x Lx Vx). lra. }
    rewrite Es. cbn [bind]. rewrite Em. rewrite dot_vneg_l.
    destruct (Rltb tol (- - dot a x - bi)) eqn:Et.
    + apply Rltb_true in Et. exists false. split; [reflexivity|]. split; [discriminate|]. intros H. specialize (H x Lx Vx).
      inversion H; subst. cbn in *. lra.
    + apply Rltb_false in Et. destruct IH as (r & Er & Hr). exists r. split; [exact Er|]. rewrite Hr. split.
      * intros H z Lz Vz. constructor; [|now apply H]. cbn. specialize (Ox z Lz Vz). rewrite !dot_vneg_l in Ox. lra.
      * intros H z Lz Vz. specialize (H z Lz Vz). inversion H; subst; assumption.
Qed.
End Included.

Lemma is_included_all np tol p1 p2 : is_included_in np tol p1 p2 = included_loop np tol (allA p1) (allb p1) (combine (rows (allA p2)) (allb p2)).
Proof. reflexivity. Qed.

(*@ Theorem C12_inclusion_partial : For P1 non-empty and contained in some ball, is_included_in returns a boolean, and True iff every point of P1 satisfies every constraint of P2 within tol.
   Missing: empty P1 and P1 unbounded in the direction of a facet of P2, for which it raises (see the refutations). *)
Lemma inclusion np tol p1 p2 m1 me1 m2 me2 n : exact_np np -> wf p1 m1 me1 n -> wf p2 m2 me2 n ->
  (exists x, in_poly p1 x) -> bounded_set (in_poly p1) ->
  exists r, is_included_in np tol p1 p2 = Ok r /\ (r = true <-> forall x, in_poly p1 x -> in_poly_tol p2 tol x).
Proof.
  intros Hnp W1 W2 (x0 & Hx0) (M & HM).
  destruct (shape_all p1 m1 me1 n W1) as (S1 & L1). destruct (shape_all p2 m2 me2 n W2) as (S2 & L2).
  pose proof Hx0 as Hx0'. apply (in_poly_vle _ _ _ _ _ W1) in Hx0'. destruct Hx0' as (L0 & _).
  destruct (included_loop_ok np Hnp (allA p1) (allb p1) _ n S1 L1 x0 L0 (proj2 (all_poly p1 m1 me1 n x0 W1 L0) Hx0) tol
    (combine (rows (allA p2)) (allb p2))) as (r & Er & Hr).
  { apply Forall_forall. intros (a & bi) Hab. apply in_combine_l in Hab as Ha. cbn [fst]. split; [eapply shape_In; eauto|].
    exists (norm a * M). intros x Lx Vx. apply (all_poly p1 m1 me1 n x W1 Lx) in Vx. specialize (HM x Vx).
    eapply Rle_trans; [apply dot_le_norm|]. apply Rmult_le_compat_l; [apply norm_nonneg|exact HM]. }
  exists r. split; [exact Er|]. rewrite Hr.
  assert (G : forall x, Forall (fun ab => dot (fst ab) x <= snd ab + tol) (combine (rows (allA p2)) (allb p2)) <-> in_poly_tol p2 tol x).
  { intros x. rewrite (in_poly_tol_all p2 m2 me2 n tol x W2). rewrite Forall2_combine; [reflexivity|].
    rewrite L2. apply S2. }
  split.
  - intros H x Hx. apply G. pose proof Hx as Hx'. apply (in_poly_vle _ _ _ _ _ W1) in Hx'. destruct Hx' as (Lx & _).
    apply H; [exact Lx|]. now apply (all_poly p1 m1 me1 n x W1 Lx).
  - intros H x Lx Vx. apply G, H. now apply (all_poly p1 m1 me1 n x W1 Lx).
Qed.

(*@ Theorem C12_included_true : A non-empty (possibly unbounded) P1 included in P2 is always recognized, for every tol >= 0. *)
Lemma included_true np tol p1 p2 m1 me1 m2 me2 n : exact_np np -> wf p1 m1 me1 n -> wf p2 m2 me2 n -> 0 <= tol ->
  (exists x, in_poly p1 x) -> (forall x, in_poly p1 x -> in_poly p2 x) -> is_included_in np tol p1 p2 = Ok true.
Proof.
  intros Hnp W1 W2 Ht (x0 & Hx0) Hinc.
  destruct (shape_all p1 m1 me1 n W1) as (S1 & L1). destruct (shape_all p2 m2 me2 n W2) as (S2 & L2).
  pose proof Hx0 as Hx0'. apply (in_poly_vle _ _ _ _ _ W1) in Hx0'. destruct Hx0' as (L0 & _).
  assert (G : forall x, in_poly p1 x -> Forall (fun ab => dot (fst ab) x <= snd ab) (combine (rows (allA p2)) (allb p2))).
  { intros x Hx. pose proof Hx as Hx'. apply (in_poly_vle _ _ _ _ _ W1) in Hx'. destruct Hx' as (Lx & _).
    apply Hinc in Hx. apply (all_poly p2 m2 me2 n x W2 Lx) in Hx. apply (ineq_holds_vle (allA p2)) in Hx.
    unfold ineq_holds in Hx. rewrite Forall2_combine in Hx by (rewrite L2; apply S2). exact Hx. }
  destruct (included_loop_ok np Hnp (allA p1) (allb p1) _ n S1 L1 x0 L0 (proj2 (all_poly p1 m1 me1 n x0 W1 L0) Hx0) tol
    (combine (rows (allA p2)) (allb p2))) as (r & Er & Hr).
  { apply Forall_forall. intros (a & bi) Hab. apply in_combine_l in Hab as Ha. cbn [fst]. split; [eapply shape_In; eauto|].
    exists bi. intros x Lx Vx. apply (all_poly p1 m1 me1 n x W1 Lx) in Vx. specialize (G x Vx). rewrite Forall_forall in G.
    apply (G (a, bi) Hab). }
  rewrite is_included_all, Er. f_equal. apply Hr. intros x Lx Vx. apply (all_poly p1 m1 me1 n x W1 Lx) in Vx.
  eapply Forall_impl; [|apply (G x Vx)]. intros (a & bi) H. cbn in *. lra.
Qed.

(*@ Theorem C12_empty_refuted : {x <= -1, x >= 0} is included in everything, but the test raises TypeError. *)
Lemma inclusion_empty_refuted :
  exists p1 p2, wf p1 2 0 1 /\ wf p2 1 0 1 /\ (forall x, ~ in_poly p1 x) /\
    forall np, exact_np np -> is_included_in np tol7 p1 p2 = Err TypeError.
Proof.
  set (p1 := Poly (Mat 1 [[1]; [-1]]) [-1; 0] (Mat 1 []) [] None None None None None).
  set (p2 := Poly (Mat 1 [[1]]) [1] (Mat 1 []) [] None None None None None).
  assert (W1 : wf p1 2 0 1) by (unfold wf; simpl; repeat split; repeat constructor).
  assert (W2 : wf p2 1 0 1) by (unfold wf; simpl; repeat split; repeat constructor).
  exists p1, p2. split; [exact W1|]. split; [exact W2|]. split.
  - intros x (Lx & H & _). destruct x as [|a [|]]; try discriminate Lx. unfold ineq_holds in H. simpl in H. inv2 H. lra.
  - intros np Hnp. rewrite is_included_all.
    replace (combine (rows (allA p2)) (allb p2)) with [([1], 1)] by reflexivity. cbn [included_loop].
    destruct (shape_all p1 2 0 1 W1) as (S1 & L1).
    destruct (lp_any np (vneg [1]) (allA p1) (allb p1) _ 1 Hnp S1 L1 eq_refl) as (s & -> & [(-> & _)|(x & l & _ & _ & Lx & Hx & _)]).
    + reflexivity.
    + exfalso. destruct x as [|a [|]]; try discriminate Lx. pose proof (Hx 0%nat ltac:(simpl; lia)) as H0. pose proof (Hx 1%nat ltac:(simpl; lia)) as H1.
      cbn in H0, H1. unfold tol7 in *. lra.
Qed.
(*@ Theorem C12_unbounded_refuted : {x >= 0} is not included in {x <= 1}, but the test raises TypeError instead of returning False. *)
Lemma inclusion_unbounded_refuted :
  exists p1 p2, wf p1 1 0 1 /\ wf p2 1 0 1 /\ (exists x, in_poly p1 x /\ ~ in_poly p2 x) /\
    forall np, exact_np np -> is_included_in np tol7 p1 p2 = Err TypeError.
Proof.
  set (p1 := Poly (Mat 1 [[-1]]) [0] (Mat 1 []) [] None None None None None).
  set (p2 := Poly (Mat 1 [[1]]) [1] (Mat 1 []) [] None None None None None).
  assert (W1 : wf p1 1 0 1) by (unfold wf; simpl; repeat split; repeat constructor).
  assert (W2 : wf p2 1 0 1) by (unfold wf; simpl; repeat split; repeat constructor).
  exists p1, p2. split; [exact W1|]. split; [exact W2|]. split.
  - exists [2]. split; [split; [reflexivity|]; split; [|constructor]; apply Forall2_cons; [cbn; lra|constructor]|].
    intros (_ & H & _). unfold ineq_holds in H. simpl in H. inv2 H. lra.
  - intros np Hnp. rewrite is_included_all.
    replace (combine (rows (allA p2)) (allb p2)) with [([1], 1)] by reflexivity. cbn [included_loop].
    destruct (shape_all p1 1 0 1 W1) as (S1 & L1).
    destruct (lp_any np (vneg [1]) (allA p1) (allb p1) _ 1 Hnp S1 L1 eq_refl) as (s & -> & [(-> & _)|(x & l & _ & _ & Lx & Hx & Ll & Nl & _ & Hz)]).
    + reflexivity.
    + exfalso. destruct l as [|a [|]]; try discriminate Ll. apply (nonneg_nth _ 0) in Nl. simpl in Nl. specialize (Hz [1] eq_refl).
      cbn in Hz. replace (norm [1]) with 1 in Hz by (unfold norm; cbn; rewrite <- sqrt_1 at 1; f_equal; ring).
      unfold Rabs in Hz. unfold tol7 in Hz. destruct (Rcase_abs _) in Hz; lra.
Qed.
(*@ Example C12_example : [0,1] is included in [0,2] and not in [0,1/2]. *)
Lemma inclusion_example :
  let seg a := Poly (Mat 1 [[1]; [-1]]) [a; 0] (Mat 1 []) [] None None None None None in
  is_included_in np0 tol7 (seg 1) (seg 2) = Ok true /\ is_included_in np0 tol7 (seg 1) (seg (/2)) = Ok false.
Proof.
  cbv zeta. assert (W : forall a, wf (Poly (Mat 1 [[1]; [-1]]) [a; 0] (Mat 1 []) [] None None None None None) 2 0 1)
    by (intros a; unfold wf; simpl; repeat split; repeat constructor).
  assert (I : forall a x, in_poly (Poly (Mat 1 [[1]; [-1]]) [a; 0] (Mat 1 []) [] None None None None None) [x] <-> 0 <= x <= a).
  { intros a x. unfold in_poly, in_set, ineq_holds, eq_holds. cbn. split.
    - intros (_ & H & _). inv2 H. lra.
    - intros H. split; [reflexivity|]. split; [|constructor]. apply Forall2_cons; [cbn; lra|]. apply Forall2_cons; [cbn; lra|constructor]. }
  split.
  - apply (included_true np0 tol7 _ _ 2 0 2 0 1 np0_exact (W 1) (W 2)); [unfold tol7; lra| |].
    + exists [0]. apply I. lra.
    + intros x Hx. pose proof Hx as (Lx & _). destruct x as [|a [|]]; try discriminate Lx. apply I. apply I in Hx. lra.
  - destruct (inclusion np0 tol7 _ _ 2 0 2 0 1 np0_exact (W 1) (W (/2))) as (r & Er & Hr).
    + exists [0]. apply I. lra.
    + exists 1. intros x Hx. pose proof Hx as (Lx & _). destruct x as [|a [|]]; try discriminate Lx. apply I in Hx.
      unfold norm. cbn. rewrite <- sqrt_1. apply sqrt_le_1; nra.
    + rewrite Er. f_equal. destruct r; [|reflexivity]. exfalso.
      destruct (proj1 Hr eq_refl [1]) as (H & _); [apply I; lra|]. cbn in H. inv2 H. unfold tol7 in *. lra.
Qed.
