(** * MembOpThms: the membership test under the set operations (C89) *)
From Coq Require Import ZArith Lra Lia.
From Verif Require Import Arr ArrFacts Spec Numpy Pnnls GeomUtils Polyhedron PolyThms PolyMore PolySetThms SpecDyn Dynamics DynThms SolverThms PolySolveThms MembThms.
Open Scope R_scope.

(** [accepted], in terms of the residuals *)
Definition acc (tol : R) (ri re : vec) : Prop := Forall (fun z => z <= tol) ri /\ Forall (fun z => z <= tol) re /\ (re <> [] -> Exists (fun z => - tol <= z) re).
Lemma contains_acc p m me n x tol : wf p m me n -> (0 < m)%nat -> length x = n ->
  exists r, contains tol p x = Ok r /\ (r = true <-> acc tol (vsub (mv (pA p) x) (pb p)) (vsub (mv (pC p) x) (pd p))).
Proof.
  intros W Hm Lx. destruct (contains_exact p m me n x tol W Lx) as (_ & H). destruct (H Hm) as (r & E & Hr). exists r. split; [exact E|]. rewrite Hr.
  destruct W as (WA & Wb & WC & Wd). assert (LA : length (rows (pA p)) = m) by apply WA. assert (LC : length (rows (pC p)) = me) by apply WC.
  unfold accepted, acc. rewrite !forall_residual by lia. rewrite exists_residual by lia.
  assert (NE : rows (pC p) <> [] <-> vsub (mv (pC p) x) (pd p) <> []).
  { split; intros G E0; apply G; [|rewrite E0 in LC; cbn in LC; apply length_zero_iff_nil; len; rewrite E0; cbn; lia]. apply length_zero_iff_nil. apply (f_equal (@length R)) in E0. lenh E0. lia. }
  rewrite <- NE. tauto.
Qed.
Lemma acc_app tol r1 e1 r2 e2 : acc tol r1 e1 -> acc tol r2 e2 -> acc tol (r1 ++ r2) (e1 ++ e2).
Proof.
  intros (A1 & B1 & C1) (A2 & B2 & C2). split; [apply Forall_app; auto|]. split; [apply Forall_app; auto|]. intros N. apply Exists_app. destruct e1; [right; apply C2, N|left; apply C1; discriminate].
Qed.
Lemma acc_split tol r1 e1 r2 e2 : e1 = [] \/ e2 = [] -> acc tol (r1 ++ r2) (e1 ++ e2) -> acc tol r1 e1 /\ acc tol r2 e2.
Proof.
  intros E (A & B & C). apply Forall_app in A, B. destruct E as [-> | ->].
  - cbn in C. split; [split; [apply A|split; [constructor|congruence]]|split; [apply A|split; [apply B|exact C]]].
  - rewrite app_nil_r in C. split; [split; [apply A|split; [apply B|exact C]]|split; [apply A|split; [constructor|congruence]]].
Qed.
Lemma acc_mono tol tol' ri re : tol <= tol' -> acc tol ri re -> acc tol' ri re.
Proof.
  intros H (A & B & C). split; [eapply Forall_impl; [|exact A]; cbn; intros; lra|]. split; [eapply Forall_impl; [|exact B]; cbn; intros; lra|]. intros N. eapply Exists_impl; [|exact (C N)]. cbn; intros; lra.
Qed.
Lemma vsub_app a b c d : length a = length c -> vsub (a ++ b) (c ++ d) = vsub a c ++ vsub b d.
Proof. revert c. induction a as [|x a IH]; intros [|y c] L; try discriminate L; [reflexivity|]. cbn. f_equal. apply IH. injection L as L. exact L. Qed.
Lemma no_eqs p m n : wf p m 0 n -> forall x, vsub (mv (pC p) x) (pd p) = [].
Proof. intros (_ & _ & WC & Wd) x. destruct (pd p); [|discriminate Wd]. destruct (mv (pC p) x); reflexivity. Qed.

(*@ Theorem C89_intersection : Membership in the intersection of two polyhedra that have an inequality each: a point accepted by both is accepted; if at most one of the two has equalities, a point is accepted iff both accept it. *)
Lemma contains_intersection p1 p2 m1 me1 m2 me2 n x tol : wf p1 m1 me1 n -> wf p2 m2 me2 n -> (0 < m1)%nat -> (0 < m2)%nat -> length x = n ->
  exists p3 r1 r2 r3, intersection p1 p2 = Ok p3 /\ contains tol p1 x = Ok r1 /\ contains tol p2 x = Ok r2 /\ contains tol p3 x = Ok r3 /\
    (r1 = true -> r2 = true -> r3 = true) /\ (me1 = 0%nat \/ me2 = 0%nat -> r3 = andb r1 r2).
Proof.
  intros W1 W2 M1 M2 Lx. destruct (intersection_ok p1 p2 m1 me1 m2 me2 n W1 W2) as (p3 & E & W3 & _). exists p3.
  destruct (contains_acc p1 m1 me1 n x tol W1 M1 Lx) as (r1 & E1 & H1). destruct (contains_acc p2 m2 me2 n x tol W2 M2 Lx) as (r2 & E2 & H2). destruct (contains_acc p3 (m2 + m1) (me2 + me1) n x tol W3 ltac:(lia) Lx) as (r3 & E3 & H3).
  exists r1, r2, r3. split; [exact E|]. split; [exact E1|]. split; [exact E2|]. split; [exact E3|].
  rewrite (intersection_all p1 p2 m1 me1 m2 me2 n W1 W2) in E. injection E as <-. cbn [pA pb pC pd] in H3. rewrite !mv_vstack in H3.
  pose proof W2 as (WA & Wb & WC & Wd). assert (LA : length (rows (pA p2)) = m2) by apply WA. assert (LC : length (rows (pC p2)) = me2) by apply WC.
  rewrite !vsub_app in H3 by len. split.
  - intros T1 T2. apply H3, acc_app; [apply H2, T2|apply H1, T1].
  - intros Z. assert (Z' : vsub (mv (pC p2) x) (pd p2) = [] \/ vsub (mv (pC p1) x) (pd p1) = []) by (destruct Z as [Z | Z]; [rewrite Z in W1|rewrite Z in W2]; [right; exact (no_eqs p1 m1 n W1 x)|left; exact (no_eqs p2 m2 n W2 x)]).
    apply Bool.eq_true_iff_eq. rewrite Bool.andb_true_iff, H1, H2, H3. split; [intros G; apply acc_split in G; tauto|intros (G1 & G2); apply acc_app; assumption].
Qed.
(*@ Theorem C89_intersection_refuted : P1 = {x <= 100, x = 0} and P2 = {x <= 100, x = 10}: the intersection is empty, P2 does not accept x = 0, but the intersection of both accepts it. *)
Lemma contains_intersection_refuted : exists p1 p2 p3 x, wf p1 1 1 1 /\ wf p2 1 1 1 /\ intersection p1 p2 = Ok p3 /\ (forall y, ~ in_poly p3 y) /\
  contains tol7 p1 x = Ok true /\ contains tol7 p2 x = Ok false /\ contains tol7 p3 x = Ok true.
Proof.
  set (p1 := Poly (Mat 1 [[1]]) [100] (Mat 1 [[1]]) [0] None None None None None). set (p2 := Poly (Mat 1 [[1]]) [100] (Mat 1 [[1]]) [10] None None None None None).
  assert (W1 : wf p1 1 1 1) by (unfold wf; cbn; repeat split; repeat constructor). assert (W2 : wf p2 1 1 1) by (unfold wf; cbn; repeat split; repeat constructor).
  destruct (intersection_ok p1 p2 1 1 1 1 1 W1 W2) as (p3 & E & W3 & H3 & _). exists p1, p2, p3, [0]. split; [exact W1|]. split; [exact W2|]. split; [exact E|]. split.
  - intros y Hy. apply H3 in Hy. destruct Hy as ((L & _ & A) & (_ & _ & B)). cbn in L. destruct y as [|a [|]]; try discriminate L. unfold eq_holds in A, B. cbn in A, B. inversion A as [|? ? ? ? A1 _]; subst. inversion B as [|? ? ? ? B1 _]; subst. cbn in A1, B1. lra.
  - rewrite (intersection_all p1 p2 1 1 1 1 1 W1 W2) in E. injection E as <-. unfold p1, p2. cbn [pA pb pC pd vstack app rows ncols]. unfold contains, np_mv. cbn. unfold tol7.
    assert (Rleb (1 * 0 + 0 - 100) (/ 10000000) = true) by (apply Rleb_true; lra). assert (Rleb (Rabs (1 * 0 + 0 - 0)) (/ 10000000) = true) by (apply Rleb_true; replace (1 * 0 + 0 - 0) with 0 by ring; rewrite Rabs_R0; lra).
    assert (Rleb (Rabs (1 * 0 + 0 - 10)) (/ 10000000) = false) by (apply Rleb_false; rewrite Rabs_left; lra). rewrite H, H0, H1. split; [reflexivity|]. split; [reflexivity|].
    replace (Rmax (1 * 0 + 0 - 100) (1 * 0 + 0 - 100)) with (1 * 0 + 0 - 100) by (unfold Rmax; destruct (Rle_dec _ _); reflexivity).
    replace (Rmax (1 * 0 + 0 - 10) (1 * 0 + 0 - 0)) with (1 * 0 + 0 - 0) by (unfold Rmax; destruct (Rle_dec _ _); [reflexivity|lra]). rewrite H, H0. reflexivity.
Qed.
(*@ Theorem C89_product : The same for the cartesian product of two polyhedra that have an inequality each. *)
Lemma contains_product p1 p2 m1 me1 n1 m2 me2 n2 x y tol : wf p1 m1 me1 n1 -> wf p2 m2 me2 n2 -> (0 < m1)%nat -> (0 < m2)%nat -> length x = n1 -> length y = n2 ->
  exists p3 r1 r2 r3, cartesian_product p1 p2 = Ok p3 /\ contains tol p1 x = Ok r1 /\ contains tol p2 y = Ok r2 /\ contains tol p3 (x ++ y) = Ok r3 /\
    (r1 = true -> r2 = true -> r3 = true) /\ (me1 = 0%nat \/ me2 = 0%nat -> r3 = andb r1 r2).
Proof.
  intros W1 W2 M1 M2 Lx Ly. destruct (cartesian_product_ok p1 p2 m1 me1 n1 m2 me2 n2 W1 W2) as (p3 & E & W3 & _). exists p3.
  destruct (contains_acc p1 m1 me1 n1 x tol W1 M1 Lx) as (r1 & E1 & H1). destruct (contains_acc p2 m2 me2 n2 y tol W2 M2 Ly) as (r2 & E2 & H2). destruct (contains_acc p3 (m1 + m2) (me1 + me2) (n1 + n2) (x ++ y) tol W3 ltac:(lia) ltac:(len)) as (r3 & E3 & H3).
  exists r1, r2, r3. split; [exact E|]. split; [exact E1|]. split; [exact E2|]. split; [exact E3|].
  pose proof W1 as (WA1 & Wb1 & WC1 & Wd1). pose proof W2 as (WA2 & Wb2 & WC2 & Wd2). assert (LA : length (rows (pA p1)) = m1) by apply WA1. assert (LC : length (rows (pC p1)) = me1) by apply WC1.
  assert (EA : pA p3 = bdiag2 (pA p1) (pA p2) /\ pb p3 = pb p1 ++ pb p2 /\ pC p3 = bdiag2 (pC p1) (pC p2) /\ pd p3 = pd p1 ++ pd p2).
  { unfold cartesian_product, Polyhedron, same_number_rows in E. cbn [block_diag] in E. destruct (Nat.eqb _ _) in E; [|discriminate]. cbn [bind] in E. destruct (Nat.eqb _ _) in E; [|discriminate]. injection E as <-. repeat split. }
  destruct EA as (EA & Eb & EC & Ed). rewrite EA, Eb, EC, Ed in H3. rewrite (mv_bdiag2 _ _ m1 n1 m2 n2), (mv_bdiag2 _ _ me1 n1 me2 n2) in H3 by auto. rewrite !vsub_app in H3 by len. split.
  - intros T1 T2. apply H3, acc_app; [apply H1, T1|apply H2, T2].
  - intros Z. assert (Z' : vsub (mv (pC p1) x) (pd p1) = [] \/ vsub (mv (pC p2) y) (pd p2) = []) by (destruct Z as [Z | Z]; [rewrite Z in W1|rewrite Z in W2]; [left; exact (no_eqs p1 m1 n1 W1 x)|right; exact (no_eqs p2 m2 n2 W2 y)]).
    apply Bool.eq_true_iff_eq. rewrite Bool.andb_true_iff, H1, H2, H3. split; [intros G; apply acc_split in G; tauto|intros (G1 & G2); apply acc_app; assumption].
Qed.
(*@ Theorem C89_tolerance : A larger tolerance accepts more, for every polyhedron: whatever is accepted with tol is accepted with tol' >= tol, and the test raises with one tolerance iff it does with the other. *)
Lemma contains_monotone p m me n x tol tol' : wf p m me n -> length x = n -> tol <= tol' ->
  (contains tol p x = Ok true -> contains tol' p x = Ok true) /\ forall e, contains tol p x = Err e <-> contains tol' p x = Err e.
Proof.
  intros W Lx Ht. destruct m as [|m].
  - destruct (contains_exact p 0 me n x tol W Lx) as (H & _). destruct (contains_exact p 0 me n x tol' W Lx) as (H' & _). rewrite H, H' by reflexivity. split; [discriminate|]. intros e. tauto.
  - destruct (contains_acc p (S m) me n x tol W ltac:(lia) Lx) as (r & -> & H). destruct (contains_acc p (S m) me n x tol' W ltac:(lia) Lx) as (r' & -> & H'). split.
    + intros [= ->]. f_equal. apply H'. apply (acc_mono tol tol'); [exact Ht|]. apply H. reflexivity.
    + intros e. split; discriminate.
Qed.
(*@ Theorem C89_members : Every point of a polyhedron with an inequality is accepted, for every tol >= 0, before and after normalize. *)
Lemma contains_members p m me n x tol tol' : wf p m me n -> (0 < m)%nat -> 0 <= tol -> 0 <= tol' -> in_poly p x -> contains tol p x = Ok true /\ contains tol (normalize tol' p) x = Ok true.
Proof.
  intros W Hm Ht Ht' Hx. assert (G : forall p, wf p m me n -> in_poly p x -> contains tol p x = Ok true).
  { clear p W Hx. intros p W Hx. pose proof W as (WA & Wb & WC & Wd). assert (LA : length (rows (pA p)) = m) by apply WA. assert (LC : length (rows (pC p)) = me) by apply WC.
    assert (Lx : length x = n) by (destruct Hx as (L & _); rewrite L; apply WA). destruct (contains_acc p m me n x tol W Hm Lx) as (r & -> & H). f_equal. apply H. clear H. destruct Hx as (_ & HI & HE). unfold ineq_holds in HI. unfold eq_holds in HE.
    split; [apply forall_residual; [lia|]; eapply Forall2_impl; [|exact HI]; cbn; intros; lra|]. split; [apply forall_residual; [lia|]; eapply Forall2_impl; [|exact HE]; cbn; intros; lra|].
    intros N. destruct (vsub (mv (pC p) x) (pd p)) as [|z l] eqn:EV; [congruence|]. left. unfold mv in EV. destruct HE as [|c d rs ds Hc HE]; [discriminate EV|]. cbn in EV. injection EV as <- _. lra. }
  split; [apply G; assumption|]. destruct (normalize_ok p m me n tol' W Ht') as (W' & H' & _). apply G; [exact W'|]. apply H'. exact Hx.
Qed.
(*@ Theorem C89_normalize_refuted : normalize changes the answer for other points: {1e6 x <= 0} does not accept 1e-7, the normalised polyhedron {x <= 0} does; and {1e-6 x <= 0} accepts 1/100, the normalised one does not. *)
Lemma contains_normalize_refuted : exists p1 x1 p2 x2, wf p1 1 0 1 /\ wf p2 1 0 1 /\ contains tol7 p1 x1 = Ok false /\ contains tol7 (normalize tol7 p1) x1 = Ok true /\ contains tol7 p2 x2 = Ok true /\ contains tol7 (normalize tol7 p2) x2 = Ok false.
Proof.
  set (pp := fun a => Poly (Mat 1 [[a]]) [0] (Mat 1 []) [] None None None None None).
  assert (W : forall a, wf (pp a) 1 0 1) by (intros a; unfold wf; cbn; repeat split; repeat constructor).
  assert (N : forall a, tol7 < a -> normalize tol7 (pp a) = pp 1).
  { intros a Ha. unfold tol7 in Ha. unfold normalize, normalize_with, normalize_lhs, normalize_rhs, pp. cbn [pA pb pC pd rows ncols map map2 p_empty p_bounded p_radius p_center p_vertices]. assert (E : norm [a] = a) by (unfold norm; cbn; replace (a * a + 0) with (a * a) by ring; apply sqrt_square; lra). rewrite E.
    assert (Rltb tol7 a = true) as -> by (apply Rltb_true; unfold tol7; lra). f_equal; [f_equal; f_equal; f_equal; field; lra|f_equal; field; lra]. }
  assert (C : forall a x, contains tol7 (pp a) [x] = Ok (Rleb (a * x) tol7)) by (intros a x; unfold contains, np_mv; cbn; rewrite Bool.andb_true_r; f_equal; f_equal; ring).
  exists (pp 1000000), [/ 10000000], (pp (/ 1000000)), [/ 100]. split; [apply W|]. split; [apply W|]. rewrite !N by (unfold tol7; lra). rewrite !C.
  split; [f_equal; apply Rleb_false; unfold tol7; lra|]. split; [f_equal; apply Rleb_true; unfold tol7; lra|]. split; [f_equal; apply Rleb_true; unfold tol7; lra|f_equal; apply Rleb_false; unfold tol7; lra].
Qed.
(*@ Theorem C89_inclusion : If P1 is non-empty and bounded and is_included_in(P2) returned True, then P2 (with an inequality and at most one equality) accepts every point of P1 with the same tolerance; if it returned False, P1 has a point that P2 rejects. *)
Lemma contains_inclusion np tol p1 p2 m1 me1 m2 me2 n : exact_np np -> wf p1 m1 me1 n -> wf p2 m2 me2 n -> (exists x, in_poly p1 x) -> bounded_set (in_poly p1) -> (0 < m2)%nat -> (me2 <= 1)%nat ->
  (is_included_in np tol p1 p2 = Ok true -> forall x, in_poly p1 x -> contains tol p2 x = Ok true) /\
  (is_included_in np tol p1 p2 = Ok false -> exists x, in_poly p1 x /\ contains tol p2 x = Ok false).
Proof.
  intros Hnp W1 W2 NE BD H2 H1. destruct (inclusion np tol p1 p2 m1 me1 m2 me2 n Hnp W1 W2 NE BD) as (r & -> & Hr).
  assert (CT : forall x, in_poly p1 x -> exists b, contains tol p2 x = Ok b /\ (b = true <-> in_poly_tol p2 tol x)).
  { intros x Hx. assert (Lx : length x = n) by (destruct Hx as (L & _); rewrite L; apply W1). destruct (contains_ok p2 m2 me2 n x tol W2 H2 H1 Lx) as (b & E & Hb). exists b. split; [exact E|exact Hb]. }
  split.
  - intros [= ->] x Hx. destruct (CT x Hx) as (b & -> & Hb). f_equal. apply Hb. apply Hr; auto.
  - intros [= ->]. apply Classical_Prop.NNPP. intros N. assert (false = true); [|discriminate]. apply Hr. intros x Hx. destruct (CT x Hx) as (b & E & Hb). apply Hb. destruct b; [reflexivity|]. elim N. exists x. auto.
Qed.
(*@ Theorem C89_product_refuted : For two polyhedra with equalities the product can accept a pair of which one component is rejected: {x <= 100, x = 0} and {x <= 100, x = 10} with the pair (0, 0). *)
Lemma contains_product_refuted : exists p1 p2 p3, wf p1 1 1 1 /\ wf p2 1 1 1 /\ cartesian_product p1 p2 = Ok p3 /\
  contains tol7 p2 [0] = Ok false /\ contains tol7 p3 [0; 0] = Ok true.
Proof.
  set (p1 := Poly (Mat 1 [[1]]) [100] (Mat 1 [[1]]) [0] None None None None None). set (p2 := Poly (Mat 1 [[1]]) [100] (Mat 1 [[1]]) [10] None None None None None).
  assert (W1 : wf p1 1 1 1) by (unfold wf; cbn; repeat split; repeat constructor). assert (W2 : wf p2 1 1 1) by (unfold wf; cbn; repeat split; repeat constructor).
  assert (E : cartesian_product p1 p2 = Ok (Poly (Mat 2 [[1; 0]; [0; 1]]) [100; 100] (Mat 2 [[1; 0]; [0; 1]]) [0; 10] None None None None None)) by reflexivity.
  exists p1, p2, (Poly (Mat 2 [[1; 0]; [0; 1]]) [100; 100] (Mat 2 [[1; 0]; [0; 1]]) [0; 10] None None None None None). split; [exact W1|]. split; [exact W2|]. split; [exact E|]. split.
  - destruct (contains_acc p2 1 1 1 [0] tol7 W2 ltac:(lia) eq_refl) as ([|] & Ec & H); [exfalso|exact Ec]. destruct (proj1 H eq_refl) as (_ & _ & C). cbn in C. specialize (C ltac:(discriminate)). inversion C as [? ? C0|? ? C0]; subst; [unfold tol7 in C0; lra|inversion C0].
  - destruct (cartesian_product_ok p1 p2 1 1 1 1 1 1 W1 W2) as (p3 & E' & W3 & _). rewrite E in E'. injection E' as <-.
    match type of W3 with wf ?p _ _ _ => destruct (contains_acc p (1 + 1) (1 + 1) (1 + 1) [0; 0] tol7 W3 ltac:(lia) eq_refl) as (r & -> & H) end. f_equal. apply H. cbn. unfold tol7. split; [repeat constructor; lra|]. split; [repeat constructor; lra|]. intros _. left. lra.
Qed.
(*@ Example C89_example : The segment [0, 1] and {x <= 5, x = 1}: the hypotheses of C89_intersection and C89_product hold, both accept 1, the second rejects 0 and so do intersection and product. *)
Lemma contains_ops_example : let p1 := Poly (Mat 1 [[1]; [-1]]) [1; 0] (Mat 1 []) [] None None None None None in let p2 := Poly (Mat 1 [[1]]) [5] (Mat 1 [[1]]) [1] None None None None None in
  wf p1 2 0 1 /\ wf p2 1 1 1 /\ exists pi pp, intersection p1 p2 = Ok pi /\ cartesian_product p1 p2 = Ok pp /\
    contains tol7 p1 [1] = Ok true /\ contains tol7 p2 [1] = Ok true /\ contains tol7 pi [1] = Ok true /\ contains tol7 pp [1; 1] = Ok true /\
    contains tol7 p1 [0] = Ok true /\ contains tol7 p2 [0] = Ok false /\ contains tol7 pi [0] = Ok false /\ contains tol7 pp [0; 0] = Ok false.
Proof.
  cbv zeta. set (p1 := Poly (Mat 1 [[1]; [-1]]) [1; 0] (Mat 1 []) [] None None None None None). set (p2 := Poly (Mat 1 [[1]]) [5] (Mat 1 [[1]]) [1] None None None None None).
  assert (W1 : wf p1 2 0 1) by (unfold wf; cbn; repeat split; repeat constructor). assert (W2 : wf p2 1 1 1) by (unfold wf; cbn; repeat split; repeat constructor). split; [exact W1|]. split; [exact W2|].
  assert (T1 : forall x, 0 <= x <= 1 -> contains tol7 p1 [x] = Ok true).
  { intros x Hx. destruct (contains_acc p1 2 0 1 [x] tol7 W1 ltac:(lia) eq_refl) as (r & -> & H). f_equal. apply H. cbn. unfold tol7. split; [repeat constructor; lra|]. split; [constructor|congruence]. }
  assert (T2 : contains tol7 p2 [1] = Ok true).
  { destruct (contains_acc p2 1 1 1 [1] tol7 W2 ltac:(lia) eq_refl) as (r & -> & H). f_equal. apply H. cbn. unfold tol7. split; [repeat constructor; lra|]. split; [repeat constructor; lra|]. intros _. left. lra. }
  assert (F2 : contains tol7 p2 [0] = Ok false).
  { destruct (contains_acc p2 1 1 1 [0] tol7 W2 ltac:(lia) eq_refl) as ([|] & Ec & H); [exfalso|exact Ec]. destruct (proj1 H eq_refl) as (_ & _ & C). cbn in C. specialize (C ltac:(discriminate)). inversion C as [? ? C0|? ? C0]; subst; [unfold tol7 in C0; lra|inversion C0]. }
  destruct (contains_intersection p1 p2 2 0 1 1 1 [1] tol7 W1 W2 ltac:(lia) ltac:(lia) eq_refl) as (pi & a1 & a2 & a3 & Ei & Ea1 & Ea2 & Ea3 & _ & Ha). destruct (contains_intersection p1 p2 2 0 1 1 1 [0] tol7 W1 W2 ltac:(lia) ltac:(lia) eq_refl) as (pi' & b1 & b2 & b3 & Ei' & Eb1 & Eb2 & Eb3 & _ & Hb).
  destruct (contains_product p1 p2 2 0 1 1 1 1 [1] [1] tol7 W1 W2 ltac:(lia) ltac:(lia) eq_refl eq_refl) as (pp & c1 & c2 & c3 & Ep & Ec1 & Ec2 & Ec3 & _ & Hc). destruct (contains_product p1 p2 2 0 1 1 1 1 [0] [0] tol7 W1 W2 ltac:(lia) ltac:(lia) eq_refl eq_refl) as (pp' & d1 & d2 & d3 & Ep' & Ed1 & Ed2 & Ed3 & _ & Hd).
  rewrite Ei in Ei'. injection Ei' as <-. rewrite Ep in Ep'. injection Ep' as <-. pose proof (T1 1 ltac:(lra)) as T11. pose proof (T1 0 ltac:(lra)) as T10.
  rewrite T11 in Ea1, Ec1. rewrite T10 in Eb1, Ed1. rewrite T2 in Ea2, Ec2. rewrite F2 in Eb2, Ed2. injection Ea1 as <-. injection Ec1 as <-. injection Eb1 as <-. injection Ed1 as <-. injection Ea2 as <-. injection Ec2 as <-. injection Eb2 as <-. injection Ed2 as <-.
  rewrite Ha in Ea3 by auto. rewrite Hb in Eb3 by auto. rewrite Hc in Ec3 by auto. rewrite Hd in Ed3 by auto. exists pi, pp. cbn in *. repeat split; assumption.
Qed.
(*@ Example C89_inclusion_example : [0, 1] is non-empty and bounded; its inclusion in [0, 2] makes [0, 2] accept its points, and its non-inclusion in [0, 1/2] gives a point that is rejected. *)
Lemma contains_inclusion_example : let seg a := Poly (Mat 1 [[1]; [-1]]) [a; 0] (Mat 1 []) [] None None None None None in
  (exists x, in_poly (seg 1) x) /\ bounded_set (in_poly (seg 1)) /\ is_included_in np0 tol7 (seg 1) (seg 2) = Ok true /\ is_included_in np0 tol7 (seg 1) (seg (/ 2)) = Ok false /\
  contains tol7 (seg 2) [1] = Ok true /\ exists x, in_poly (seg 1) x /\ contains tol7 (seg (/ 2)) x = Ok false.
Proof.
  cbv zeta. set (seg := fun a => Poly (Mat 1 [[1]; [-1]]) [a; 0] (Mat 1 []) [] None None None None None).
  assert (W : forall a, wf (seg a) 2 0 1) by (intros a; unfold wf; cbn; repeat split; repeat constructor).
  assert (I : forall a x, in_poly (seg a) [x] <-> 0 <= x <= a).
  { intros a x. split; [intros (_ & H' & _); unfold ineq_holds in H'; cbn in H'; inv2 H'; lra|]. intros H. split; [reflexivity|]. split; [|constructor]. apply Forall2_cons; [cbn; lra|]. apply Forall2_cons; [cbn; lra|constructor]. }
  assert (NE : exists x, in_poly (seg 1) x) by (exists [0]; apply I; lra).
  assert (BD : bounded_set (in_poly (seg 1))).
  { exists 1. intros x Hx. pose proof Hx as (Lx & _). destruct x as [|a [|]]; try discriminate Lx. apply I in Hx. unfold norm. cbn. rewrite <- sqrt_1. apply sqrt_le_1; nra. }
  destruct inclusion_example as (I1 & I2). split; [exact NE|]. split; [exact BD|]. split; [exact I1|]. split; [exact I2|]. split.
  - apply (proj1 (contains_inclusion np0 tol7 (seg 1) (seg 2) 2 0 2 0 1 np0_exact (W 1) (W 2) NE BD ltac:(lia) ltac:(lia)) I1). apply I. lra.
  - apply (proj2 (contains_inclusion np0 tol7 (seg 1) (seg (/ 2)) 2 0 2 0 1 np0_exact (W 1) (W (/ 2)) NE BD ltac:(lia) ltac:(lia)) I2).
Qed.
