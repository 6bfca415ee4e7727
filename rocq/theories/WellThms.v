(** * WellThms: well-posedness of piecewise affine systems (C29), proofs *)
From Coq Require Import ZArith Classical.
From Verif Require Import Arr ArrFacts Spec SpecDyn Numpy Pnnls PnnlsFacts QpFacts GeomUtils Polyhedron PolyThms Oracle SolverThms NullFacts PolySolveThms PolySetThms PolyBoundThms PolyChebThms PolyMore Dynamics DynThms.

(** a ball of radius r contained in both polyhedra *)
Definition common_ball (n : nat) (D1 D2 : poly) (r : R) : Prop :=
  exists c, length c = n /\ forall y, length y = n -> dist2 y c <= r * r -> in_poly D1 y /\ in_poly D2 y.
(** the two domains penetrate each other by more than tol *)
Definition overlap (n : nat) (tol : R) (D1 D2 : poly) : Prop := exists r, tol < r /\ 0 <= r /\ common_ball n D1 D2 r.
(** domains handled by the function: inequalities only, none of them 0 x <= b *)
Definition plain (n : nat) (D : poly) : Prop :=
  exists m, wf D m 0 n /\ forall i, (i < m)%nat -> row (pA D) i <> zeros n.
Definition finite_overlap (n : nat) (D1 D2 : poly) : Prop := exists M, forall r, 0 <= r -> common_ball n D1 D2 r -> r <= M.

Lemma self_dot_nz v n : length v = n -> v <> zeros n -> dot v v <> dot v (zeros n).
Proof. intros L N E. autorewrite with dotx in E. apply N. rewrite <- L. apply dot_self_zero. exact E. Qed.

Lemma pair_radius np n tol D1 D2 : exact_np np -> 0 <= tol -> plain n D1 -> plain n D2 -> finite_overlap n D1 D2 ->
  exists D r, intersection D1 D2 = Ok D /\ fst (get_radius np D) = Ok (Some r) /\ (tol < r <-> overlap n tol D1 D2).
Proof.
  intros Hnp Ht (m1 & W1 & Z1) (m2 & W2 & Z2) (M & HM).
  pose proof (intersection_all D1 D2 m1 0 m2 0 n W1 W2) as E.
  destruct (intersection_ok D1 D2 m1 0 m2 0 n W1 W2) as (D & E' & WD & HD & _). rewrite E in E'. injection E' as ED.
  exists D. 
  assert (Fr : p_radius D = None) by (rewrite <- ED; reflexivity). assert (Fc : p_center D = None) by (rewrite <- ED; reflexivity).
  assert (EA : pA D = vstack (pA D2) (pA D1)) by (rewrite <- ED; reflexivity).
  assert (NE : forall y, eq_holds (pC D) (pd D) y).
  { intros y. destruct WD as (_ & _ & (LC & _) & Ld). unfold eq_holds. destruct (rows (pC D)); [|discriminate]. destruct (pd D); [constructor|discriminate]. }
  assert (NC : ncols (pA D) = n) by apply WD.
  assert (BI : forall r, (exists c, ball_in D c r) <-> common_ball n D1 D2 r).
  { intros r. split.
    - intros (c & Lc & _ & B). rewrite NC in *. exists c. split; [exact Lc|]. intros y Ly Dy. apply HD. apply B; auto.
    - intros (c & Lc & B). exists c. unfold ball_in. rewrite NC. split; [exact Lc|]. split; [apply NE|]. intros y Ly _ Dy. apply HD. apply B; auto. }
  destruct (classic (exists x, in_poly D x)) as [NEm|Em].
  - destruct (chebyshev_ok np D (m2 + m1) 0 n Hnp WD (or_introl eq_refl) Fr Fc NEm) as (r & c & D' & Er & _ & _ & _ & (R0 & B & Opt)).
    { exists M. intros c r R0 B. apply HM; [exact R0|]. apply BI. eauto. }
    exists r. split; [congruence|]. rewrite Er. split; [reflexivity|]. split.
    + intros H. exists r. split; [exact H|]. split; [exact R0|]. apply BI. eauto.
    + intros (r' & H1 & H2 & H3). apply BI in H3 as (c' & B'). specialize (Opt c' r' H2 B'). lra.
  - destruct (chebyshev_empty np D (m2 + m1) 0 n Hnp WD (or_introl eq_refl) Fr) as (r & D' & Er & Rn).
    { intros x Hx. apply Em. eauto. }
    { intros i Hi. assert (Li : length (row (pA D) i) = n) by (eapply shape_row; [apply WD|exact Hi]).
      exists (row (pA D) i), (zeros n). split; [exact Li|]. split; [len|]. split; [apply NE|]. split; [apply NE|].
      apply self_dot_nz; [exact Li|]. rewrite EA. unfold row, vstack. cbn [rows].
      assert (L2 : length (rows (pA D2)) = m2) by apply W2.
      destruct (Nat.lt_ge_cases i m2) as [Hl|Hg].
      - rewrite app_nth1 by lia. apply Z2. exact Hl.
      - rewrite app_nth2 by lia. rewrite L2. apply Z1. lia. }
    exists r. split; [congruence|]. rewrite Er. split; [reflexivity|]. split; [lra|].
    intros (r' & _ & H2 & (c & Lc & B)). exfalso. apply Em. exists c. apply HD. apply B; [exact Lc|].
    rewrite dist2_self. nra.
Qed.

Lemma against_ok np n tol D Ds : exact_np np -> 0 <= tol -> plain n D -> Forall (plain n) Ds -> Forall (finite_overlap n D) Ds ->
  exists b, well_posed_against np tol D Ds = Ok b /\ (b = true <-> Forall (fun D' => ~ overlap n tol D D') Ds).
Proof.
  intros Hnp Ht PD. induction Ds as [|D' Ds IH]; intros HP HF.
  - exists true. split; [reflexivity|]. split; auto.
  - inversion HP as [|? ? P1 P2]; subst. inversion HF as [|? ? F1 F2]; subst.
    destruct (pair_radius np n tol D D' Hnp Ht PD P1 F1) as (Dij & r & E1 & E2 & Hr). cbn [well_posed_against]. rewrite E1. cbn [bind]. rewrite E2. cbn [bind].
    destruct (Rltb tol r) eqn:Er.
    + exists false. split; [reflexivity|]. split; [discriminate|]. intros H. inversion H; subst. exfalso. apply Rltb_true, Hr in Er. auto.
    + destruct (IH P2 F2) as (b & E & Hb). exists b. split; [exact E|]. rewrite Hb. split.
      * intros H. constructor; [|exact H]. rewrite <- Hr. apply Rltb_false in Er. lra.
      * intros H. inversion H; auto.
Qed.
Lemma list_ok np n tol Ds : exact_np np -> 0 <= tol -> Forall (plain n) Ds -> ForallOrdPairs (finite_overlap n) Ds ->
  exists b, well_posed_list np tol Ds = Ok b /\ (b = true <-> ForallOrdPairs (fun D D' => ~ overlap n tol D D') Ds).
Proof.
  intros Hnp Ht. induction Ds as [|D Ds IH]; intros HP HF.
  - exists true. split; [reflexivity|]. split; [constructor|reflexivity].
  - inversion HP as [|? ? P1 P2]; subst. inversion HF as [|? ? F1 F2]; subst.
    destruct (against_ok np n tol D Ds Hnp Ht P1 P2 F1) as (b & E & Hb). destruct (IH P2 F2) as (b' & E' & Hb').
    cbn [well_posed_list]. rewrite E. cbn [bind]. destruct b.
    + exists b'. split; [exact E'|]. rewrite Hb'. split.
      * intros H. constructor; [apply Hb; reflexivity|exact H].
      * intros H. inversion H; auto.
    + exists false. split; [reflexivity|]. split; [discriminate|]. intros H. inversion H; subst. apply Hb. assumption.
Qed.
Lemma pairs_nth {T} (Rel : T -> T -> Prop) l d : ForallOrdPairs Rel l <-> forall i j, (i < j < length l)%nat -> Rel (nth i l d) (nth j l d).
Proof.
  induction l as [|a l IH].
  - split; [intros _ i j H; cbn in H; lia|constructor].
  - split.
    + intros H i j Hij. cbn [length] in Hij. inversion H as [|? ? H1 H2]; subst. destruct j as [|j]; [lia|]. destruct i as [|i]; cbn [nth].
      * rewrite Forall_forall in H1. apply H1. apply nth_In. lia.
      * apply IH; [exact H2|lia].
    + intros H. constructor.
      * apply Forall_forall. intros x Hx. apply (In_nth _ _ d) in Hx as (j & Hj & <-). apply (H 0%nat (S j)). cbn [length]. lia.
      * apply IH. intros i j Hij. apply (H (S i) (S j)). cbn [length]. lia.
Qed.
(*@ Theorem C29_well_posed_partial : For domains described by inequalities (none with a zero row) no two of which have arbitrarily large balls in common, is_well_posed(tol) returns True iff no two distinct domains share a ball of radius larger than tol.
   Missing: pairs of domains that share arbitrarily large balls, for which an exception is raised (see the refutation), domains with equalities. *)
Lemma well_posed_ok np n tol W d : exact_np np -> 0 <= tol -> Forall (plain n) (w_dom W) ->
  (forall i j, (i < j < length (w_dom W))%nat -> finite_overlap n (nth i (w_dom W) d) (nth j (w_dom W) d)) ->
  exists b, is_well_posed np tol W = Ok b /\
    (b = true <-> forall i j, (i < j < length (w_dom W))%nat -> ~ overlap n tol (nth i (w_dom W) d) (nth j (w_dom W) d)).
Proof.
  intros Hnp Ht HP HF. destruct (list_ok np n tol (w_dom W) Hnp Ht HP) as (b & E & Hb); [apply (pairs_nth _ _ d); exact HF|].
  exists b. split; [exact E|]. rewrite Hb. apply (pairs_nth (fun D D0 => ~ overlap n tol D D0) _ d).
Qed.
(*@ Theorem C29_bounded : In particular for bounded domains. *)
Lemma well_posed_bounded np n tol W d : exact_np np -> 0 <= tol -> (0 < n)%nat -> Forall (plain n) (w_dom W) ->
  Forall (fun D => bounded_set (in_poly D)) (w_dom W) ->
  exists b, is_well_posed np tol W = Ok b /\
    (b = true <-> forall i j, (i < j < length (w_dom W))%nat -> ~ overlap n tol (nth i (w_dom W) d) (nth j (w_dom W) d)).
Proof.
  intros Hnp Ht Hn HP HB. apply well_posed_ok; auto. intros i j Hij. rewrite Forall_forall in HB.
  destruct (HB (nth i (w_dom W) d)) as (M & HM); [apply nth_In; lia|]. exists (2 * M). intros r Hr (c & Lc & B).
  (* c and c + r e_1 are in the domain *)
  assert (B0 : in_poly (nth i (w_dom W) d) c) by (apply B; [exact Lc|rewrite dist2_self; nra]).
  assert (U : dot (unit n 0) (unit n 0) = 1). { rewrite dot_unit by (auto; len). rewrite nth_unit by auto. reflexivity. }
  assert (LU : length (unit n 0) = n) by len.
  assert (B1 : in_poly (nth i (w_dom W) d) (vadd c (vscale r (unit n 0)))).
  { apply B; [len|]. unfold dist2. replace (vsub (vadd c (vscale r (unit n 0))) c) with (vscale r (unit n 0)) by vring. autorewrite with dotx. rewrite U. lra. }
  pose proof (HM _ B0) as N0. pose proof (HM _ B1) as N1. set (u := unit n 0) in *.
  pose proof (dot_le_norm u (vadd c (vscale r u))) as D1. pose proof (dot_le_norm (vneg u) c) as D2.
  assert (NU : norm u = 1) by (unfold norm; rewrite U; apply sqrt_1). rewrite norm_vneg, NU in *. 
  rewrite dot_vadd_r in D1 by len. autorewrite with dotx in D1, D2. rewrite U in D1. lra.
Qed.
Lemma cheb_halfline2 np : exact_np np -> lp np (zeros 1 ++ ones 1) (cheb_A (Mat 1 [[-1]; [-1]])) [0; 0] None None = Ok sol_none.
Proof.
  intros Hnp.
  destruct (lp_any np (zeros 1 ++ ones 1) (cheb_A (Mat 1 [[-1]; [-1]])) [0; 0] 2 2 Hnp (shape_cheb (Mat 1 [[-1]; [-1]]) 2 1 ltac:(repeat split; repeat constructor)) eq_refl eq_refl)
      as (s & -> & [(-> & _)|(x & l & _ & _ & Lx & Hx & Ll & Nl & _ & Hz)]); [reflexivity|exfalso].
  destruct l as [|a [|b [|]]]; try discriminate Ll. assert (Ha := nonneg_nth _ 0 Nl). assert (Hb := nonneg_nth _ 1 Nl). cbn in Ha, Hb.
  assert (Hn : norm [-1] = 1). { unfold norm. cbn. transitivity (sqrt 1); [f_equal; ring|apply sqrt_1]. }
  assert (N1 : norm [1; 0] = 1). { unfold norm. cbn. transitivity (sqrt 1); [f_equal; ring|apply sqrt_1]. }
  assert (N2 : norm [0; 1] = 1). { unfold norm. cbn. transitivity (sqrt 1); [f_equal; ring|apply sqrt_1]. }
  pose proof (Hz [1; 0] eq_refl) as H1. pose proof (Hz [0; 1] eq_refl) as H2. cbn in H1, H2. rewrite N1 in H1. rewrite N2, Hn in H2.
  match type of H1 with Rabs ?e <= _ => replace e with (- (a + b)) in H1 by ring end.
  match type of H2 with Rabs ?e <= _ => replace e with (1 - (a + b)) in H2 by ring end.
  rewrite Rabs_Ropp in H1. pose proof (Rle_abs (a + b)). pose proof (Rle_abs (1 - (a + b))). unfold tol7 in *. lra.
Qed.
Definition halfline : poly := Poly (Mat 1 [[-1]]) [0] (Mat 1 []) [] None None None None None.
(*@ Theorem C29_unbounded_refuted : Two copies of the half line {x >= 0}: instead of False, is_well_posed() raises TypeError (None > tol, Python 3). *)
Lemma unbounded_domains_refuted : exists W, Forall (plain 1) (w_dom W) /\ overlap 1 1 (nth 0 (w_dom W) halfline) (nth 1 (w_dom W) halfline) /\
  forall np, exact_np np -> is_well_posed np tol7 W = Err TypeError.
Proof.
  exists (PWA 1 0 [] [halfline; halfline]). cbn [w_dom nth].
  assert (P : plain 1 halfline).
  { exists 1%nat. split; [unfold wf; cbn; repeat split; repeat constructor|]. intros [|i] Hi; [|lia]. cbn. intros [= H]. lra. }
  split; [auto|]. split.
  - exists 2. split; [lra|]. split; [lra|]. exists [2]. split; [reflexivity|]. intros y Ly D. destruct y as [|a [|]]; try discriminate Ly. unfold dist2 in D. cbn in D.
    assert (in_poly halfline [a]); [|tauto]. split; [reflexivity|]. split; [apply Forall2_cons; [cbn; nra|constructor]|constructor].
  - intros np Hnp. unfold is_well_posed. cbn [w_dom well_posed_list well_posed_against].
    rewrite (intersection_all halfline halfline 1 0 1 0 1) by (unfold wf; cbn; repeat split; repeat constructor). cbn [bind].
    unfold get_radius, pbind, pget, plift. cbn [p_radius pA pb pC pd halfline app].
    change (vstack (Mat 1 [[-1]]) (Mat 1 [[-1]])) with (Mat 1 [[-1]; [-1]]). change (vstack (Mat 1 []) (Mat 1 [])) with (Mat 1 []). unfold chebyshev.
    change (0 <? nrows (Mat 1 []))%nat with false. cbn [bind]. fold (cheb_A (Mat 1 [[-1]; [-1]])).
    change (ncols (Mat 1 [[-1]; [-1]])) with 1%nat. rewrite (cheb_halfline2 np Hnp). cbn. reflexivity.
Qed.
Definition seg (lo hi : R) : poly := Poly (Mat 1 [[1]; [-1]]) [hi; - lo] (Mat 1 []) [] None None None None None.
Lemma in_seg lo hi a : in_poly (seg lo hi) [a] <-> lo <= a <= hi.
Proof.
  split.
  - intros (_ & H' & _). unfold ineq_holds in H'. cbn in H'. inv2 H'. lra.
  - intros H'. split; [reflexivity|]. split; [|constructor]. cbn. repeat (apply Forall2_cons; [cbn; lra|]). constructor.
Qed.
Lemma plain_seg lo hi : plain 1 (seg lo hi).
Proof.
  exists 2%nat. split; [unfold wf; cbn; repeat split; repeat constructor|]. intros [|[|i]] Hi; [| |lia]; cbn; intros [= H]; lra.
Qed.
Lemma bounded_seg lo hi : bounded_set (in_poly (seg lo hi)).
Proof.
  exists (Rabs lo + Rabs hi). intros x Hx. pose proof Hx as (Lx & _). destruct x as [|a [|]]; try discriminate Lx. apply in_seg in Hx.
  pose proof (Rabs_pos lo). pose proof (Rabs_pos hi). apply norm_le_sqr; [lra|]. cbn.
  pose proof (Rle_abs hi). pose proof (Rle_abs (- lo)) as Q. rewrite Rabs_Ropp in Q. nra.
Qed.
(*@ Example C29_example : [-1,0] and [0,1] are well posed; [-1,0], [0,2] and [1,3] are not. *)
Lemma well_posed_example : is_well_posed np0 tol7 (PWA 1 0 nil [seg (-1) 0; seg 0 1]) = Ok true /\
  is_well_posed np0 tol7 (PWA 1 0 nil [seg (-1) 0; seg 0 2; seg 1 3]) = Ok false.
Proof.
  pose proof tol7_pos as Tp. split.
  - destruct (well_posed_bounded np0 1 tol7 (PWA 1 0 nil [seg (-1) 0; seg 0 1]) halfline np0_exact) as (b & E & Hb); [lra|lia| | |].
    + repeat constructor; apply plain_seg.
    + repeat constructor; apply bounded_seg.
    + rewrite E. f_equal. apply Hb. cbn [w_dom length]. intros i j Hij. destruct j as [|[|j]]; [lia| |lia]. destruct i as [|i]; [|lia]. cbn [nth].
      intros (r & H1 & H2 & (c & Lc & B)). destruct c as [|c [|]]; try discriminate Lc.
      destruct (B [c + r] eq_refl) as (B1 & _); [unfold dist2; cbn; nra|]. destruct (B [c - r] eq_refl) as (_ & B2); [unfold dist2; cbn; nra|].
      apply in_seg in B1, B2. lra.
  - destruct (well_posed_bounded np0 1 tol7 (PWA 1 0 nil [seg (-1) 0; seg 0 2; seg 1 3]) halfline np0_exact) as (b & E & Hb); [lra|lia| | |].
    + repeat constructor; apply plain_seg.
    + repeat constructor; apply bounded_seg.
    + rewrite E. f_equal. destruct b; [|reflexivity]. exfalso. apply (proj1 Hb eq_refl 1%nat 2%nat); [cbn; lia|]. cbn [w_dom nth].
      exists (1 / 2). split; [unfold tol7; lra|]. split; [lra|]. exists [3 / 2]. split; [reflexivity|]. intros y Ly D. destruct y as [|a [|]]; try discriminate Ly.
      unfold dist2 in D. cbn in D. rewrite !in_seg. nra.
Qed.
