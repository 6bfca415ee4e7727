(** * CoverThms: how much of the feasible set the explicit solver covers when there is one parameter (C43), proofs *)
From Coq Require Import ZArith Classical Permutation Sorted.
From Verif Require Import Arr ArrFacts Spec SpecMpc Numpy Pnnls PnnlsFacts QpFacts GeomUtils Polyhedron PolyThms Oracle SolverThms NullFacts PolySolveThms PolyMore PolyChebThms PolyCacheThms GeomThms SpecDyn Dynamics DynThms CondenseThms LqrThms Mpqp MpqpThms NeighThms TermThms.

(** ** Intervals *)
(** the rows of a polyhedron of one dimension are zero or normalized *)
Definition unit_rows (p : poly) : Prop := forall i, (i < length (pb p))%nat -> row (pA p) i = [0] \/ row (pA p) i = [1] \/ row (pA p) i = [-1].
Lemma in1 p m y : wf p m 0 1 -> (in_poly p [y] <-> forall i, (i < m)%nat -> dot (row (pA p) i) [y] <= nth i (pb p) 0).
Proof.
  intros W. rewrite <- (sat_all p m 0 1 [y] W). pose proof W as (WA & Wb & WC & Wd). unfold sat. split.
  - intros (_ & _ & H) i Hi. apply H, in_seq. lia.
  - intros H. split; [symmetry; apply WA|]. split; [|intros j Hj; apply in_seq in Hj; apply H; lia].
    destruct WC as (L & _). unfold eq_holds. destruct (rows (pC p)); [|discriminate L]. destruct (pd p); [constructor|discriminate Wd].
Qed.
Definition sign (s : R) : Prop := s = 1 \/ s = -1.
Lemma row_sign p m s i : wf p m 0 1 -> unit_rows p -> sign s -> (i < m)%nat -> row (pA p) i = [0] \/ row (pA p) i = [s] \/ row (pA p) i = [- s].
Proof. intros (_ & Wb & _) U S Hi. destruct (U i ltac:(lia)) as [->|[->| ->]]; [auto| |]; destruct S as [->| ->]; auto; replace (- -1) with 1 by lra; auto. Qed.
Lemma convex1 p m s a b c : wf p m 0 1 -> unit_rows p -> sign s -> in_poly p [a] -> in_poly p [b] -> s * a <= s * c -> s * c <= s * b -> in_poly p [c].
Proof.
  intros W U S Ia Ib H1 H2. rewrite (in1 p m) in * by exact W. intros i Hi. specialize (Ia i Hi). specialize (Ib i Hi).
  destruct (row_sign p m s i W U S Hi) as [E|[E|E]]; rewrite E in *; cbn in *; lra.
Qed.
Lemma least_row p s k : (forall i, (i < k)%nat -> row (pA p) i <> [s]) \/
  exists i, (i < k)%nat /\ row (pA p) i = [s] /\ forall j, (j < k)%nat -> row (pA p) j = [s] -> nth i (pb p) 0 <= nth j (pb p) 0.
Proof.
  induction k as [|k [H|(i & Hi & Er & Hm)]].
  - left. intros i Hi. lia.
  - destruct (classic (row (pA p) k = [s])) as [E|E].
    + right. exists k. split; [lia|]. split; [exact E|]. intros j Hj Ej. destruct (Nat.eq_dec j k) as [->|N]; [lra|]. exfalso. apply (H j); [lia|exact Ej].
    + left. intros i Hi. destruct (Nat.eq_dec i k) as [->|N]; [exact E|apply H; lia].
  - right. destruct (classic (row (pA p) k = [s] /\ nth k (pb p) 0 < nth i (pb p) 0)) as [(E & L)|N].
    + exists k. split; [lia|]. split; [exact E|]. intros j Hj Ej. destruct (Nat.eq_dec j k) as [->|N]; [lra|]. specialize (Hm j ltac:(lia) Ej). lra.
    + exists i. split; [lia|]. split; [exact Er|]. intros j Hj Ej. destruct (Nat.eq_dec j k) as [->|N']; [|apply Hm; [lia|exact Ej]].
      destruct (Rle_lt_dec (nth i (pb p) 0) (nth k (pb p) 0)); [assumption|]. exfalso. apply N. auto.
Qed.
(** in each direction the interval has no end, or a row whose point is the end *)
Lemma end_row p m s y0 : wf p m 0 1 -> unit_rows p -> sign s -> in_poly p [y0] ->
  (forall t, exists y, in_poly p [y] /\ t <= s * y) \/
  exists i, (i < m)%nat /\ row (pA p) i = [s] /\ in_poly p [s * nth i (pb p) 0].
Proof.
  intros W U S I0. rewrite (in1 p m) in I0 by exact W. assert (SS : s * s = 1) by (destruct S; subst s; lra).
  destruct (least_row p s m) as [H|(i & Hi & Er & Hm)].
  - left. intros t. exists (s * Rmax t (s * y0)). pose proof (Rmax_l t (s * y0)). pose proof (Rmax_r t (s * y0)). set (r := Rmax t (s * y0)) in *. split; [|replace (s * (s * r)) with (s * s * r) by ring; rewrite SS; lra].
    apply (in1 p m _ W). intros j Hj. specialize (I0 j Hj). destruct (row_sign p m s j W U S Hj) as [E|[E|E]]; [rewrite E in *; cbn in *; lra|destruct (H j Hj E)|].
    rewrite E in *; cbn in *. replace (- s * (s * r) + 0) with (- (s * s) * r) by ring. rewrite SS. lra.
  - right. exists i. split; [exact Hi|]. split; [exact Er|]. apply (in1 p m _ W). intros j Hj. pose proof (I0 i Hi) as Ii. specialize (I0 j Hj).
    rewrite Er in Ii. cbn in Ii. set (bi := nth i (pb p) 0) in *. destruct (row_sign p m s j W U S Hj) as [E|[E|E]]; rewrite E in *; cbn in *; [lra| |].
    + replace (s * (s * bi) + 0) with (s * s * bi) by ring. rewrite SS. specialize (Hm j Hj E). lra.
    + replace (- s * (s * bi) + 0) with (- (s * s) * bi) by ring. rewrite SS. lra.
Qed.
Lemma within_near p m y z0 : wf p m 0 1 -> unit_rows p -> in_poly p [z0] -> within tol7 p [y] -> exists z, in_poly p [z] /\ Rabs (z - y) <= tol7.
Proof.
  intros W U I0 Hw. pose proof W as (_ & Wb & _). assert (T : 0 < tol7) by (unfold tol7; lra).
  assert (S : exists s, sign s /\ s * z0 <= s * y) by (destruct (Rle_lt_dec z0 y); [exists 1|exists (-1)]; split; try (left; reflexivity); try (right; reflexivity); lra).
  destruct S as (s & S & L). assert (SS : s * s = 1) by (destruct S; subst s; lra).
  assert (Z0 : Rabs (y - y) <= tol7) by (unfold Rminus; rewrite Rplus_opp_r, Rabs_R0; lra).
  destruct (end_row p m s z0 W U S I0) as [H|(i & Hi & Er & Ie)].
  - destruct (H (s * y)) as (y' & I' & L'). exists y. split; [apply (convex1 p m s z0 y' y); assumption|exact Z0].
  - set (b := nth i (pb p) 0) in *. assert (EB : s * (s * b) = b) by (replace (s * (s * b)) with (s * s * b) by ring; rewrite SS; ring).
    destruct (Rle_lt_dec (s * y) b) as [L2|L2].
    + exists y. split; [apply (convex1 p m s z0 (s * b) y); try assumption; lra|exact Z0].
    + exists (s * b). split; [exact Ie|]. specialize (Hw i ltac:(lia)). rewrite Er in Hw. fold b in Hw. cbn in Hw.
      replace (s * b - y) with (s * (b - s * y)) by (replace (s * (b - s * y)) with (s * b - s * s * y) by ring; rewrite SS; ring).
      rewrite Rabs_mult. replace (Rabs s) with 1; [|destruct S; subst s; [rewrite Rabs_R1; reflexivity|rewrite Rabs_left; lra]]. rewrite Rabs_left by lra. lra.
Qed.
Lemma remove_length_lt' (i : nat) l : In i l -> (length (remove Nat.eq_dec i l) < length l)%nat.
Proof. apply remove_length_lt. Qed.
(** the row of an end is kept, or one that is at most one tolerance per row removed further out *)
Lemma removal_end p m s y0 S S' : wf p m 0 1 -> unit_rows p -> sign s -> in_poly p [y0] -> (forall i, In i S -> (i < m)%nat) -> removal p tol7 S S' ->
  forall j0, In j0 S -> row (pA p) j0 = [s] -> exists j, In j S' /\ row (pA p) j = [s] /\ nth j (pb p) 0 <= nth j0 (pb p) 0 + INR (length S) * tol7.
Proof.
  intros W U Sg I0 R H. assert (T : 0 < tol7) by (unfold tol7; lra). pose proof (proj1 (in1 p m y0 W) I0) as I1. assert (SS : s * s = 1) by (destruct Sg; subst s; lra).
  induction H as [S|i S S' Hi Himp H IH]; intros j0 Hj0 E0.
  - exists j0. split; [exact Hj0|]. split; [exact E0|]. pose proof (pos_INR (length S)). nra.
  - pose proof (remove_length_lt Nat.eq_dec S i Hi) as LT. assert (R' : forall k, In k (remove Nat.eq_dec i S) -> (k < m)%nat) by (intros k Hk; apply in_remove in Hk; apply R, Hk).
    assert (LR : INR (length (remove Nat.eq_dec i S)) + 1 <= INR (length S)) by (rewrite <- S_INR; apply le_INR; lia).
    assert (K : exists j1, In j1 (remove Nat.eq_dec i S) /\ row (pA p) j1 = [s] /\ nth j1 (pb p) 0 <= nth j0 (pb p) 0 + tol7).
    { destruct (Nat.eq_dec j0 i) as [->|N]; [|exists j0; split; [apply in_in_remove; assumption|]; split; [exact E0|lra]].
      apply NNPP. intros NE. set (bi := nth i (pb p) 0) in *. specialize (Himp [s * (bi + tol7)]). rewrite E0 in Himp. cbn in Himp.
      assert (SA : sat p (remove Nat.eq_dec i S) [s * (bi + tol7)]).
      { split; [symmetry; apply W|]. split; [pose proof (proj2 (sat_all p m 0 1 [y0] W) I0) as (_ & Q & _); destruct W as (_ & _ & (L & _) & L'); unfold eq_holds; destruct (rows (pC p)); [|discriminate L]; destruct (pd p); [constructor|discriminate L']|].
        intros k Hk. pose proof (I1 i (R i Hi)) as Ii. rewrite E0 in Ii. cbn in Ii. fold bi in Ii. pose proof (I1 k (R' k Hk)) as Ik. destruct (row_sign p m s k W U Sg (R' k Hk)) as [E|[E|E]]; rewrite E in *; cbn in *; [lra| |].
        - replace (s * (s * (bi + tol7)) + 0) with (s * s * (bi + tol7)) by ring. rewrite SS. destruct (Rle_lt_dec (bi + tol7) (nth k (pb p) 0)); [lra|]. exfalso. apply NE. exists k. split; [exact Hk|]. split; [exact E|lra].
        - replace (- s * (s * (bi + tol7)) + 0) with (- (s * s) * (bi + tol7)) by ring. rewrite SS. lra. }
      specialize (Himp SA). replace (s * (s * (bi + tol7)) + 0) with (s * s * (bi + tol7)) in Himp by ring. rewrite SS in Himp. lra. }
    destruct K as (j1 & H1 & E1 & L1). destruct (IH R' j1 H1 E1) as (j & Hj & Ej & Lj). exists j. split; [exact Hj|]. split; [exact Ej|]. nra.
Qed.

(** ** What the loop leaves behind *)
Section Loop.
Variables (np : numpy) (q : mpqp) (nu nx m : nat) (step : R).
Hypothesis Hnp : exact_np np.
Hypothesis Hq : coherent q nu nx m.
Hypothesis Hm : (0 < m)%nat.
Hypothesis Hcl : forall x, exploration_point np q step x -> clear_multipliers np q x.
(** x is in a region up to the tolerance, or the solver found no region there *)
Definition reached (crs : list critical_region) (x : vec) : Prop :=
  (exists c, In c crs /\ within tol7 (cr_poly c) x) \/
  (exploration_point np q step x /\ length x = nx /\ exists guess, active_list m guess /\ explicit_solve_given_point np q x (Some guess) = Ok None).
Definition surrounded (crs : list critical_region) (known : vec -> Prop) : Prop := forall c, In c crs -> exists act c0 mf,
  explicit_solve_given_active_set np q act = Ok (Some c0) /\ minimal_facets np tol7 (cr_poly c0) = (Ok (Some mf), cr_poly c) /\
  forall i, In i mf -> exists ctr, facet_center np (cr_poly c) i = Ok (Some ctr) /\ known (vadd ctr (vscale step (row (pA (cr_poly c)) i))).
Lemma reached_mono crs crs' x : incl crs crs' -> reached crs x -> reached crs' x.
Proof. intros I [(c & Hc & E)|H]; [left; eauto|right; exact H]. Qed.
Lemma loop_reached x0 fuel : forall buf crs res, Forall (waiting np q nx m step) buf -> Forall (kept np q nx m) crs ->
  let known crs buf x := In x (map fst buf) \/ reached crs x in
  known crs buf x0 -> surrounded crs (known crs buf) -> explicit_loop np fuel step q buf crs = Ok res ->
  reached res x0 /\ surrounded res (reached res) /\ Forall (kept np q nx m) res.
Proof.
  induction fuel as [|fuel IH]; intros buf crs res Fw Fk known K0 KF; cbn [explicit_loop]; [discriminate|].
  assert (DONE : (forall x, known crs buf x -> reached crs x) -> reached crs x0 /\ surrounded crs (reached crs) /\ Forall (kept np q nx m) crs).
  { intros D. split; [apply D, K0|]. split; [|exact Fk]. intros c Hc. destruct (KF c Hc) as (act & c0 & mf & E & E' & H). exists act, c0, mf. split; [exact E|]. split; [exact E'|]. intros i Hi. destruct (H i Hi) as (ctr & Ec & Hk). eauto. }
  destruct buf as [|xg0 buf0]; [intros E; injection E as <-; apply DONE; intros x [[]|H]; exact H|].
  assert (Fwf : Forall (fun c => wf (cr_poly c) m 0 nx) crs) by (apply (Forall_impl _ (fun c (H : kept np q nx m c) => proj1 (proj2 H)) Fk)).
  set (buf := xg0 :: buf0) in *. destruct (uncovered crs buf) as [buf'|e] eqn:Eu; cbn [bind]; [|discriminate]. pose proof (uncovered_split crs buf buf' Eu) as US.
  destruct (uncovered_cases crs m nx Hm Fwf buf (Forall_impl _ (fun xg (H : waiting np q nx m step xg) => proj1 H) Fw)) as (buf2 & Eu2 & _ & Iu & _). rewrite Eu in Eu2. injection Eu2 as <-.
  assert (NX : forall x, known crs buf x -> In x (map fst buf') \/ reached crs x).
  { intros x [H|H]; [|right; exact H]. apply in_map_iff in H. destruct H as (xg & <- & H). destruct (US xg H) as [Q|(c & Hc & Q)]; [left; apply in_map; exact Q|right; left].
    exists c. split; [exact Hc|]. rewrite Forall_forall in Fwf, Fw. destruct (cr_contains_ok c m nx (fst xg) (Fwf c Hc) Hm (proj1 (Fw xg H))) as (r & Er & Hr). rewrite Q in Er. injection Er as <-. apply Hr. reflexivity. }
  assert (Fw' : Forall (waiting np q nx m step) buf') by (apply Forall_forall; intros y Hy; rewrite Forall_forall in Fw; apply Fw, Iu, Hy).
  destruct buf' as [|(x & guess) rest]; [intros E; injection E as <-; apply DONE; intros x Hx; destruct (NX x Hx) as [[]|Q]; exact Q|].
  pose proof (Forall_inv Fw') as (W1 & W2 & W3). pose proof (Forall_inv_tail Fw') as Fr. cbn [fst snd] in W1, W2, W3.
  destruct (solve_point np q nu nx m x guess Hnp Hq Hm W1 W3 (Hcl x W2)) as [E|(cr & E & AL & Er & W & PE & Hx)]; rewrite E; cbn [bind].
  - assert (STEP : forall y, known crs buf y -> In y (map fst rest) \/ reached crs y).
    { intros y Hy. destruct (NX y Hy) as [[<-|H]|H]; [right; right; eauto|left; exact H|right; exact H]. }
    apply IH; [exact Fr|exact Fk|apply STEP, K0|]. intros d Hd. destruct (KF d Hd) as (a & p & mf' & E1 & E2 & H). exists a, p, mf'. split; [exact E1|]. split; [exact E2|]. intros i Hi. destruct (H i Hi) as (ctr & Ec & Hk). exists ctr. split; [exact Ec|]. apply STEP, Hk.
  - pose proof (facets_fields np tol7 (cr_poly cr)) as Q. cbv zeta in Q. destruct (facets_cases np (cr_poly cr) m nx Hnp W PE) as (r & p' & Em & Cr). rewrite Em in *. cbn [snd] in Q.
    destruct Cr as [(mf & -> & Lmf & Rmf)|[->| ->]]; [|discriminate|discriminate].
    destruct (mapM _ mf) as [new|e] eqn:En; cbn [bind]; [|discriminate]. set (c' := CR _ _ _ _ _ _ _ _ _).
    assert (Wp : wf p' m 0 nx). { destruct Q as (Q1 & Q2 & Q3 & Q4). unfold wf. rewrite Q1, Q2, Q3, Q4. exact W. }
    assert (IC : incl crs (crs ++ [c'])) by (intros a Ha; apply in_or_app; left; exact Ha).
    assert (K' : kept np q nx m c'). { split; [exact AL|]. split; [exact Wp|]. exists cr. split; [exact Er|]. split; [reflexivity|]. split; [reflexivity|]. split; [reflexivity|]. exact Q. }
    assert (STEP : forall y, known crs buf y -> In y (map fst (rest ++ new)) \/ reached (crs ++ [c']) y).
    { intros y Hy. destruct (NX y Hy) as [[<-|H]|H].
      - right. left. exists c'. split; [apply in_or_app; right; left; reflexivity|]. unfold within. cbn [c' cr_poly]. destruct Q as (Q1 & Q2 & _). rewrite Q1, Q2. exact Hx.
      - left. rewrite map_app. apply in_or_app. left. exact H.
      - right. apply (reached_mono crs); assumption. }
    apply IH; [|apply Forall_app; auto|apply STEP, K0|].
    + apply Forall_app. split; [exact Fr|]. apply Forall_forall. intros xg Hxg. destruct (proj2 (mapM_in _ _ _ En) xg Hxg) as (i & Hi & Exg).
      destruct (facet_center_cases np p' m nx i Hnp Wp (Rmf i Hi)) as [(ctr & Ec & Lc)|[Ec|Ec]]; rewrite Ec in Exg; cbn [bind] in Exg; try discriminate Exg. injection Exg as <-.
      assert (Lri : length (row (pA p') i) = nx). { destruct Wp as ((LL & _ & FF) & _). rewrite Forall_forall in FF. apply FF, nth_In. rewrite LL. apply Rmf, Hi. }
      split; [cbn [fst]; rewrite vadd_length, vscale_length; lia|]. split; [|apply flip_active; [exact AL|apply Rmf, Hi]]. right. exists (cr_active cr), cr, mf, p', i, ctr. auto.
    + intros d Hd. apply in_app_or in Hd. destruct Hd as [Hd|[<-|[]]].
      * destruct (KF d Hd) as (a & p & mf' & E1 & E2 & H). exists a, p, mf'. split; [exact E1|]. split; [exact E2|]. intros i Hi. destruct (H i Hi) as (ctr & Ec & Hk). exists ctr. split; [exact Ec|]. apply STEP, Hk.
      * exists (cr_active cr), cr, mf. split; [exact Er|]. split; [exact Em|]. intros i Hi. destruct (proj1 (mapM_in _ _ _ En) i Hi) as (xg & Exg & Hxg).
        unfold c'. cbn [cr_poly]. destruct (facet_center np p' i) as [[ctr|]|e]; cbn [bind] in Exg; try discriminate. injection Exg as <-. exists ctr. split; [reflexivity|]. left.
        rewrite map_app. apply in_or_app. right. apply (in_map fst _ _ Hxg).
Qed.
End Loop.

(** ** Coverage *)
(** the on-line solver answers at x, and the region of the active set it reports exists *)
Definition answered np q x : Prop := exists s act cr, mpqp_solve np q x = Ok s /\ s_active_set s = Some act /\ explicit_solve_given_active_set np q act = Ok (Some cr).
Lemma answered_some np q nu nx m x guess : exact_np np -> coherent q nu nx m -> (0 < m)%nat -> length x = nx -> active_list m guess -> answered np q x -> explicit_solve_given_point np q x (Some guess) <> Ok None.
Proof.
  intros Hnp Hq Hm Lx (_ & Gr) (s & act & cr & Es & Ea & Er). unfold explicit_solve_given_point. rewrite Es. cbn [bind]. rewrite Ea, Er.
  destruct (active_set_ok np q nu nx m guess Hnp Hq Gr) as [(_ & c & Ec & RO)|(_ & Ec)]; rewrite Ec; cbn [bind]; [|discriminate].
  destruct RO as (_ & _ & W & _). destruct (cr_contains_ok c m nx x W Hm Lx) as (r & Eb & _). rewrite Eb. cbn [bind]. destruct r; discriminate.
Qed.
Lemma feasible_between q nu m x1 u1 x2 u2 x : coherent q nu 1 m -> q_feasible q [x1] u1 -> q_feasible q [x2] u2 -> x1 <= x -> x <= x2 -> exists u, q_feasible q [x] u.
Proof.
  intros Hq (L1 & F1) (L2 & F2) H1 H2. destruct (Req_dec x1 x2) as [->|N]; [exists u1; replace x with x2 by lra; split; assumption|].
  set (t := (x - x1) / (x2 - x1)). assert (T : 0 <= t <= 1) by (unfold t; split; [apply Rmult_le_pos; [lra|left; apply Rinv_0_lt_compat; lra]|apply Rmult_le_reg_r with (x2 - x1); [lra|]; field_simplify; lra]).
  assert (X : x = (1 - t) * x1 + t * x2) by (unfold t; field; lra).
  exists (vadd (vscale (1 - t) u1) (vscale t u2)). pose proof Hq as (_ & _ & _ & _ & _ & _ & SAu & SAx & Lb & _).
  split; [rewrite vadd_length, !vscale_length; lia|]. intros i Hi. specialize (F1 i Hi). specialize (F2 i Hi).
  assert (Lr : length (row (q_Au q) i) = ncols (q_Au q)). { destruct SAu as (L & Nc & F). rewrite Forall_forall in F. rewrite Nc. apply F, nth_In. lia. }
  assert (Lx : length (row (q_Ax q) i) = 1%nat). { destruct SAx as (L & Nc & F). rewrite Forall_forall in F. apply F, nth_In. lia. }
  rewrite dot_vadd_r by (rewrite ?vscale_length; lia). rewrite !dot_vscale_r. destruct (row (q_Ax q) i) as [|a [|]]; try discriminate Lx. cbn [dot] in *. rewrite X. nra.
Qed.
Lemma max_end {A} (l : list A) (P : A -> R -> Prop) : (forall a e e', P a e -> P a e' -> e = e') -> (exists a e, In a l /\ P a e) -> exists a e, In a l /\ P a e /\ forall a' e', In a' l -> P a' e' -> e' <= e.
Proof.
  intros Un. induction l as [|a l IH]; intros (b & e & Hb & Pb); [destruct Hb|].
  destruct (classic (exists a e, In a l /\ P a e)) as [H|H].
  - destruct (IH H) as (c & e1 & Hc & Pc & M). destruct (classic (exists e2, P a e2 /\ e1 < e2)) as [(e2 & P2 & L)|N].
    + exists a, e2. split; [left; reflexivity|]. split; [exact P2|]. intros a' e' [<-|Ha'] P'; [rewrite (Un _ _ _ P' P2); lra|]. specialize (M a' e' Ha' P'). lra.
    + exists c, e1. split; [right; exact Hc|]. split; [exact Pc|]. intros a' e' [<-|Ha'] P'; [|apply (M a'); assumption]. destruct (Rle_lt_dec e' e1); [assumption|]. exfalso. apply N. eauto.
  - destruct Hb as [<-|Hb]; [|exfalso; apply H; eauto]. exists a, e. split; [left; reflexivity|]. split; [exact Pb|]. intros a' e' [<-|Ha'] P'; [rewrite (Un _ _ _ P' Pb); lra|]. exfalso. apply H. eauto.
Qed.
Lemma beyond_end np q nu m step crs c known : exact_np np -> coherent q nu 1 m ->
  (forall act cr, explicit_solve_given_active_set np q act = Ok (Some cr) -> unit_rows (cr_poly cr)) ->
  In c crs -> surrounded np q step crs known ->
  wf (cr_poly c) m 0 1 /\ unit_rows (cr_poly c) /\ (exists y0, in_poly (cr_poly c) [y0]) /\
  (forall y, in_poly (cr_poly c) [y] -> exists v, q_feasible q [y] v) /\
  forall s i, sign s -> (i < m)%nat -> row (pA (cr_poly c)) i = [s] -> in_poly (cr_poly c) [s * nth i (pb (cr_poly c)) 0] ->
    exists r, nth i (pb (cr_poly c)) 0 <= r <= nth i (pb (cr_poly c)) 0 + INR m * tol7 /\ known [s * (r + step)].
Proof.
  intros Hnp Hq Hu Hc Hs. destruct (Hs c Hc) as (act & c0 & mf & Er & Em & Hf).
  destruct (some_region np q nu 1 m act c0 Hnp Hq Er) as (_ & _ & (_ & _ & W & PE & RO)). specialize (Hu act c0 Er).
  pose proof (facets_fields np tol7 (cr_poly c0)) as Q. rewrite Em in Q. cbv zeta in Q. cbn [snd] in Q. destruct Q as (Q1 & Q2 & Q3 & Q4).
  assert (W' : wf (cr_poly c) m 0 1) by (unfold wf; rewrite Q1, Q2, Q3, Q4; exact W).
  assert (U' : unit_rows (cr_poly c)) by (unfold unit_rows; rewrite Q1, Q2; exact Hu).
  assert (IN : forall x, in_poly (cr_poly c) x <-> in_poly (cr_poly c0) x) by (intros x; unfold in_poly, in_set; rewrite Q1, Q2, Q3, Q4; reflexivity).
  assert (NE : exists x, in_poly (cr_poly c0) x /\ near x).
  { destruct (get_empty_ok np (cr_poly c0) m 0 1 Hnp W PE) as (e & Eg & He). apply NNPP. intros N. apply He in N. subst e.
    unfold minimal_facets in Em. unfold pbind at 1 in Em. rewrite Eg in Em. discriminate Em. }
  destruct NE as (x0 & I0 & N0). assert (X0 : exists y0, x0 = [y0]). { destruct I0 as (L & _). rewrite (proj1 (proj2 (proj1 W))) in L. destruct x0 as [|y [|]]; try discriminate L. eauto. } destruct X0 as (y0 & ->).
  split; [exact W'|]. split; [exact U'|]. split; [exists y0; apply IN, I0|]. split.
  { intros y Iy. apply IN in Iy. destruct (RO [y] eq_refl) as (_ & _ & _ & _ & _ & _ & H). exists (cr_u c0 [y]). apply H, Iy. }
  intros s i Sg Hi Ei Ie. rewrite Q2 in *. rewrite Q1 in *.
  destruct (minimal_facets_ok np (cr_poly c0) m 0 1 tol7 Hnp W ltac:(unfold tol7; lra) (or_introl eq_refl) ltac:(rewrite PE; discriminate) ltac:(exists [y0]; auto)) as (mf' & p1 & Em' & _ & Hr & _ & _).
  rewrite Em in Em'. injection Em' as <- _.
  destruct (removal_end (cr_poly c0) m s y0 (seq 0 m) mf W Hu Sg I0 ltac:(intros k Hk; apply in_seq in Hk; lia) Hr i ltac:(apply in_seq; lia) Ei) as (j & Hj & Ej & Lj). rewrite seq_length in Lj.
  assert (SS : s * s = 1) by (destruct Sg; subst s; lra).
  assert (LO : nth i (pb (cr_poly c0)) 0 <= nth j (pb (cr_poly c0)) 0).
  { assert (Hj' : (j < m)%nat) by (apply removal_incl in Hr; apply Hr, in_seq in Hj; lia). apply IN in Ie. rewrite (in1 _ m) in Ie by exact W. specialize (Ie j Hj'). rewrite Ej in Ie. cbn in Ie.
    replace (s * (s * nth i (pb (cr_poly c0)) 0) + 0) with (s * s * nth i (pb (cr_poly c0)) 0) in Ie by ring. rewrite SS in Ie. lra. }
  exists (nth j (pb (cr_poly c0)) 0). split; [lra|]. destruct (Hf j Hj) as (ctr & Ec & Hk).
  unfold facet_center in Ec. rewrite Q1 in Ec. rewrite (proj1 (proj2 (proj1 W))) in Ec. cbn [Nat.eqb] in Ec. rewrite Q2, Ej in Ec. injection Ec as <-. rewrite Ej in Hk.
  replace [s * (nth j (pb (cr_poly c0)) 0 + step)] with (vadd [nth j (pb (cr_poly c0)) 0 / s] (vscale step [s])); [exact Hk|]. cbn. f_equal. destruct Sg; subst s; field.
Qed.

(*@ Theorem C43_one_parameter_partial : With one parameter: if the origin is feasible, the step exceeds 1e-7, the rows of the regions are zero or normalized, and at the points explored the on-line solver answers, its multipliers are zero or above 1e-7 and the active constraints it reports are independent, then every feasible parameter is at distance at most step + (m+1) 1e-7 from a region found. Missing: the gaps do exist (C43_gap_refuted), and nothing of the kind holds when the origin is infeasible (C43_cover_refuted) or is claimed here for several parameters. *)
Lemma cover_1d np Huu Hux Hxx fu fx g Au Ax b nu m q fuel step crs x u :
  exact_np np -> mp_data Huu Hux Hxx fu fx Au Ax b nu 1 m -> (0 < m)%nat -> tol7 < step ->
  MultiParametricQuadraticProgram np Huu Hux Hxx fu fx g Au Ax b = Ok q ->
  (forall act cr, explicit_solve_given_active_set np q act = Ok (Some cr) -> unit_rows (cr_poly cr)) ->
  (forall y, exploration_point np q step y -> clear_multipliers np q y /\ ((exists v, mp_feasible Au Ax b y v) -> answered np q y)) ->
  explicit_solve np fuel step q = Ok crs ->
  (exists v, mp_feasible Au Ax b [0] v) -> mp_feasible Au Ax b [x] u ->
  exists c y, In c crs /\ in_poly (cr_poly c) [y] /\ Rabs (x - y) <= step + INR (m + 1) * tol7.
Proof.
  intros Hnp D Hm Hst E1 Hu Hex ES (v0 & F0) Fx. destruct (constructed _ _ _ _ _ _ _ _ _ _ _ _ _ _ Hnp D E1) as (Hq & Hi & EQ).
  assert (T : 0 < tol7) by (unfold tol7; lra).
  assert (QF : forall y v, q_feasible q y v <-> mp_feasible Au Ax b y v) by (intros y v; subst q; reflexivity).
  assert (Lfx : length (q_fx q) = 1%nat) by apply Hq.
  unfold explicit_solve in ES. rewrite Lfx in ES. change (zeros 1) with [0] in ES.
  assert (X0 : exploration_point np q step [0]) by (left; rewrite Lfx; reflexivity).
  assert (AN : active_list m []) by (split; [constructor|intros ? []]).
  destruct (loop_reached np q nu 1 m step Hnp Hq Hm ltac:(intros y Hy; apply Hex, Hy) [0] fuel [([0], [])] [] crs) with (5 := ES) as (R0 & SU & FK).
  { constructor; [|constructor]. split; [reflexivity|]. split; assumption. } { constructor. } { left. left. reflexivity. } { intros c []. }
  assert (REACH : forall y, reached np q 1 m step crs y -> (exists v, mp_feasible Au Ax b y v) -> exists c, In c crs /\ within tol7 (cr_poly c) y).
  { intros y [H|(Xp & Ly & gs & Ag & En)] Fy; [exact H|]. exfalso. apply (answered_some np q nu 1 m y gs Hnp Hq Hm Ly Ag); [apply Hex; assumption|exact En]. }
  pose proof (fun c Hc => beyond_end np q nu m step crs c _ Hnp Hq Hu Hc SU) as BE.
  apply NNPP. intros NO. assert (NN : 0 <= INR (m + 1)) by apply pos_INR. rewrite plus_INR in NO, NN. cbn [INR] in NO, NN. assert (NM : 0 <= INR m) by apply pos_INR. set (d := step + (INR m + 1) * tol7) in *. assert (Dp : tol7 < d) by (unfold d; nra).
  assert (FAR : forall c y, In c crs -> in_poly (cr_poly c) [y] -> d < Rabs (x - y)). { intros c y Hc Iy. destruct (Rle_lt_dec (Rabs (x - y)) d); [|assumption]. exfalso. apply NO. exists c, y. auto. }
  assert (S : exists s, sign s /\ 0 <= s * x) by (destruct (Rle_lt_dec 0 x); [exists 1|exists (-1)]; split; try (left; reflexivity); try (right; reflexivity); lra).
  destruct S as (s & Sg & Sx). assert (SS : s * s = 1) by (destruct Sg; subst s; lra).
  assert (ABS : forall y, s * y <= s * x -> s * x - s * y <= Rabs (x - y) /\ Rabs (x - y) <= s * x - s * y).
  { intros y Hy. destruct Sg; subst s; unfold Rabs; destruct (Rcase_abs (x - y)); lra. }
  (* the region that reaches farthest among those with a point before x *)
  set (P := fun c e => (exists y, in_poly (cr_poly c) [y] /\ s * y <= s * x) /\ in_poly (cr_poly c) [s * e] /\ forall y, in_poly (cr_poly c) [y] -> s * y <= e).
  assert (CL : forall c y, In c crs -> in_poly (cr_poly c) [y] -> s * y <= s * x -> (forall z, in_poly (cr_poly c) [z] -> s * z < s * x - d) /\ exists i, (i < m)%nat /\ row (pA (cr_poly c)) i = [s] /\ P c (nth i (pb (cr_poly c)) 0)).
  { intros c y Hc Iy Ly. destruct (BE c Hc) as (W & U & _).
    assert (B : forall z, in_poly (cr_poly c) [z] -> s * z < s * x - d).
    { intros z Iz. destruct (Rlt_le_dec (s * z) (s * x - d)) as [|G]; [assumption|exfalso]. destruct (Rle_lt_dec (s * z) (s * x)) as [L|L].
      - specialize (FAR c z Hc Iz). destruct (ABS z L). lra.
      - assert (Ix : in_poly (cr_poly c) [x]) by (apply (convex1 _ m s y z x); try assumption; lra). specialize (FAR c x Hc Ix). unfold Rminus in FAR. rewrite Rplus_opp_r, Rabs_R0 in FAR. lra. }
    split; [exact B|]. destruct (end_row (cr_poly c) m s y W U Sg Iy) as [H|(i & Hi' & Er & Ie)].
    - exfalso. destruct (H (s * x)) as (z & Iz & Lz). specialize (B z Iz). lra.
    - exists i. split; [exact Hi'|]. split; [exact Er|]. split; [eauto|]. split; [exact Ie|]. intros z Iz. rewrite (in1 _ m) in Iz by exact W. specialize (Iz i Hi'). rewrite Er in Iz. cbn in Iz. lra. }
  assert (ST : exists c e, In c crs /\ P c e).
  { destruct (REACH [0] R0 (ex_intro _ v0 F0)) as (c & Hc & Wc). destruct (BE c Hc) as (W & U & (y0 & Iy0) & _). destruct (within_near (cr_poly c) m 0 y0 W U Iy0 Wc) as (z & Iz & Lz).
    assert (s * z <= s * x).
    { destruct (Rle_lt_dec (s * z) (s * x)) as [|G]; [assumption|exfalso]. specialize (FAR c z Hc Iz). destruct Sg; subst s; unfold Rabs in *; destruct (Rcase_abs (x - z)); destruct (Rcase_abs (z - 0)); lra. }
    destruct (CL c z Hc Iz H) as (_ & i & _ & _ & HP). eauto. }
  destruct (max_end crs P) with (2 := ST) as (c & e & Hc & Pc & MX).
  { intros a e e' ((y & _) & I1 & M1) (_ & I2 & M2). specialize (M1 _ I2). specialize (M2 _ I1). replace (s * (s * e')) with (s * s * e') in M1 by ring. replace (s * (s * e)) with (s * s * e) in M2 by ring. rewrite SS in M1, M2. lra. }
  pose proof Pc as ((y & Iy & Ly) & Ie & Me). destruct (CL c y Hc Iy Ly) as (B & i & Hi' & Er & Pi).
  assert (EE : e = nth i (pb (cr_poly c)) 0). { destruct Pi as (_ & I2 & M2). specialize (M2 _ Ie). specialize (Me _ I2). replace (s * (s * e)) with (s * s * e) in M2 by ring. replace (s * (s * nth i (pb (cr_poly c)) 0)) with (s * s * nth i (pb (cr_poly c)) 0) in Me by ring. rewrite SS in *. lra. }
  destruct (BE c Hc) as (W & U & _ & FE & BY). destruct (BY s i Sg Hi' Er ltac:(rewrite <- EE; exact Ie)) as (r & (r1 & r2) & Kr). rewrite <- EE in *.
  pose proof (B _ Ie) as Be. replace (s * (s * e)) with (s * s * e) in Be by ring. rewrite SS in Be. rewrite Rmult_1_l in Be.
  assert (YX : r + step < s * x - tol7) by (unfold d in Be; lra).
  assert (FY : exists v, mp_feasible Au Ax b [s * (r + step)] v).
  { destruct (FE _ Ie) as (v & Fv). apply QF in Fx. destruct Sg as [->| ->].
    - destruct (feasible_between q nu m (1 * e) v x u (1 * (r + step)) Hq Fv Fx) as (w & Fw); [lra|lra|]. exists w. apply QF, Fw.
    - destruct (feasible_between q nu m x u (-1 * e) v (-1 * (r + step)) Hq Fx Fv) as (w & Fw); [lra|lra|]. exists w. apply QF, Fw. }
  destruct (REACH _ Kr FY) as (c' & Hc' & Wc'). destruct (BE c' Hc') as (W' & U' & (y0' & Iy0') & _). destruct (within_near (cr_poly c') m _ y0' W' U' Iy0' Wc') as (z & Iz & Lz).
  assert (Z : r + step - tol7 <= s * z <= r + step + tol7).
  { destruct Sg; subst s; unfold Rabs in Lz; destruct (Rcase_abs _); lra. }
  destruct (CL c' z Hc' Iz ltac:(lra)) as (_ & i' & _ & _ & Pi'). specialize (MX c' _ Hc' Pi'). destruct Pi' as (_ & _ & Mz). specialize (Mz z Iz). lra.
Qed.

(** ** A region jumped over: min 1/2 u^2 s.t. u >= x, u >= 3 x - 2e-6 *)
Definition gp_q Hi := MPQP (Mat 1 [[1]]) (Mat 1 [[0]]) (Mat 1 [[0]]) [0] [0] 0 lp_Au lp_Ax lp_b Hi.
Lemma gp_data : mp_data (Mat 1 [[1]]) (Mat 1 [[0]]) (Mat 1 [[0]]) [0] [0] lp_Au lp_Ax lp_b 1 1 2.
Proof.
  unfold mp_data. repeat match goal with |- _ /\ _ => split end; try (apply scalar_shape); try reflexivity; try (repeat constructor; fail). apply scalar_pd. lra.
Qed.
(** the rows of a region with known u and p *)
Lemma gp_rows np Hi act cr (al be : R) (cs : list (R * R)) : exact_np np -> coherent (gp_q Hi) 1 1 2 -> explicit_solve_given_active_set np (gp_q Hi) act = Ok (Some cr) ->
  (forall x, cr_u cr [x] = [al * x + be]) ->
  (forall i, (i < 2)%nat -> forall x, (if (i <? length act)%nat then - nth (facet_constraint act 2 i) (cr_p cr [x]) 0 else
     nth (facet_constraint act 2 i) [1; 3] 0 * x - (al * x + be) - nth (facet_constraint act 2 i) lp_b 0) = fst (nth i cs (0, 0)) * x - snd (nth i cs (0, 0))) ->
  forall i, (i < 2)%nat -> exists s, 0 < s /\ (s = 1 \/ Rabs (s * fst (nth i cs (0, 0))) = 1) /\ nth i (rows (pA (cr_poly cr))) [] = [s * fst (nth i cs (0, 0))] /\ nth i (pb (cr_poly cr)) 0 = s * snd (nth i cs (0, 0)).
Proof.
  intros Hnp Hq Er HU HR i Hi'. destruct (some_region np _ 1 1 2 act cr Hnp Hq Er) as (_ & _ & (_ & _ & W & _)).
  destruct (region_rows np (gp_q Hi) 1 1 2 act cr i Hnp Hq Er Hi') as (Hc & _ & s & Ps & Hs & Hx). exists s. split; [exact Ps|].
  assert (Lri : length (row (pA (cr_poly cr)) i) = 1%nat). { destruct W as ((L & _ & F) & _). rewrite Forall_forall in F. apply F, nth_In. lia. }
  destruct (row (pA (cr_poly cr)) i) as [|a [|]] eqn:Erow; try discriminate Lri. rewrite norm1 in Hs.
  assert (K : a = s * fst (nth i cs (0, 0)) /\ nth i (pb (cr_poly cr)) 0 = s * snd (nth i cs (0, 0))).
  { apply row_coeff. intros x. specialize (Hx [x] eq_refl). specialize (HR i Hi' x). rewrite <- HR. rewrite HU in Hx. set (k := facet_constraint act 2 i) in *.
    destruct (i <? length act)%nat; [cbn in Hx |- *; lra|]. destruct k as [|[|]]; [| |lia]; cbn in Hx |- *; lra. }
  destruct K as (Ka & Kb). unfold row in Erow. rewrite Erow, Ka, Kb. rewrite <- Ka. auto.
Qed.
Lemma gp_free np Hi : exact_np np -> coherent (gp_q Hi) 1 1 2 -> exists cr, explicit_solve_given_active_set np (gp_q Hi) [] = Ok (Some cr) /\ cr_active cr = [] /\ wf (cr_poly cr) 2 0 1 /\ p_empty (cr_poly cr) = None /\
  nth 0 (rows (pA (cr_poly cr))) [] = [1] /\ nth 0 (pb (cr_poly cr)) 0 = 0 /\
  exists s, (s = 1 \/ s = / 3) /\ nth 1 (rows (pA (cr_poly cr))) [] = [s * 3] /\ nth 1 (pb (cr_poly cr)) 0 = s * / 500000.
Proof.
  intros Hnp Hq. destruct (active_set_ok np (gp_q Hi) 1 1 2 [] Hnp Hq ltac:(intros i [])) as [(_ & cr & Er & RO)|(NI & _)].
  2:{ exfalso. apply NI. intros y Ly _. destruct y; [reflexivity|discriminate]. }
  pose proof RO as (_ & EA & W & PE & H).
  assert (U0 : forall x, cr_u cr [x] = [0 * x + 0]).
  { intros x. destruct (H [x] eq_refl) as (Lu & Lp & St & _ & Ze & _). destruct (cr_u cr [x]) as [|u [|]]; try discriminate Lu. specialize (St [1] eq_refl).
    destruct (cr_p cr [x]) as [|l0 [|l1 [|]]]; try discriminate Lp. pose proof (Ze 0%nat ltac:(intros [])) as Z0. pose proof (Ze 1%nat ltac:(intros [])) as Z1. cbn [nth] in Z0, Z1. subst l0 l1. cbn in St. f_equal. lra. }
  pose proof (gp_rows np Hi [] cr 0 0 [(1, 0); (3, / 500000)] Hnp Hq Er U0) as RW.
  assert (K : forall i, (i < 2)%nat -> forall x, (if (i <? length (@nil nat))%nat then - nth (facet_constraint [] 2 i) (cr_p cr [x]) 0 else nth (facet_constraint [] 2 i) [1; 3] 0 * x - (0 * x + 0) - nth (facet_constraint [] 2 i) lp_b 0) = fst (nth i [(1, 0); (3, / 500000)] (0, 0)) * x - snd (nth i [(1, 0); (3, / 500000)] (0, 0))).
  { intros i Hi' x. destruct i as [|[|]]; [| |lia]; cbn; lra. }
  specialize (RW K). exists cr. split; [exact Er|]. split; [exact EA|]. split; [exact W|]. split; [exact PE|].
  destruct (RW 0%nat ltac:(lia)) as (s0 & P0 & S0 & R0 & B0). destruct (RW 1%nat ltac:(lia)) as (s1 & P1 & S1 & R1 & B1). cbn [nth fst snd] in *.
  assert (s0 = 1) by (destruct S0 as [|S0]; [assumption|rewrite Rabs_right in S0 by lra; lra]). subst s0.
  split; [rewrite R0; f_equal; lra|]. split; [lra|]. exists s1. split; [|auto]. destruct S1 as [|S1]; [auto|]. rewrite Rabs_right in S1 by lra. right. lra.
Qed.
Lemma gp_one np Hi : exact_np np -> coherent (gp_q Hi) 1 1 2 -> exists cr, explicit_solve_given_active_set np (gp_q Hi) [0%nat] = Ok (Some cr) /\ cr_contains cr [/ 100000] = Ok false.
Proof.
  intros Hnp Hq. assert (RG : forall i, In i [0%nat] -> (i < 2)%nat) by (intros i [<-|[]]; lia).
  destruct (active_set_ok np (gp_q Hi) 1 1 2 [0%nat] Hnp Hq RG) as [(_ & cr & Er & RO)|(NI & _)].
  2:{ exfalso. apply NI. intros y Ly E. destruct y as [|y [|]]; try discriminate Ly. cbn in E. injection E as E. cbn. f_equal. lra. }
  exists cr. split; [exact Er|]. pose proof RO as (_ & _ & W & _ & H).
  assert (UP : forall x, cr_u cr [x] = [1 * x + 0] /\ nth 0 (cr_p cr [x]) 0 = x).
  { intros x. destruct (H [x] eq_refl) as (Lu & Lp & St & Ti & Ze & _). destruct (cr_u cr [x]) as [|u [|]]; try discriminate Lu. specialize (Ti 0%nat (or_introl eq_refl)). specialize (St [1] eq_refl).
    destruct (cr_p cr [x]) as [|l0 [|l1 [|]]]; try discriminate Lp. pose proof (Ze 1%nat ltac:(intros [|[]]; discriminate)) as Z1. cbn [nth] in Z1. subst l1. cbn in Ti, St |- *. split; [f_equal|]; lra. }
  destruct (gp_rows np Hi [0%nat] cr 1 0 [(-1, 0); (2, / 500000)] Hnp Hq Er (fun x => proj1 (UP x))) with (i := 1%nat) as (s & Ps & Hs & R1 & B1); [|lia|].
  { intros i Hi' x. destruct i as [|[|]]; [| |lia]; cbn; [rewrite (proj2 (UP x))|]; lra. }
  destruct (cr_contains_ok cr 2 1 [/ 100000] W ltac:(lia) eq_refl) as (r & Ec & Hr). rewrite Ec. destruct r; [exfalso|reflexivity].
  pose proof (proj1 Hr eq_refl 1%nat) as C. assert (Lb : length (pb (cr_poly cr)) = 2%nat) by apply W. specialize (C ltac:(lia)). unfold row in C. rewrite R1, B1 in C. cbn in C, Hs.
  unfold tol7 in C. destruct Hs as [->|Hs]; [lra|]. rewrite Rabs_right in Hs by lra. nra.
Qed.
Lemma gp_two np Hi : exact_np np -> coherent (gp_q Hi) 1 1 2 -> exists cr, explicit_solve_given_active_set np (gp_q Hi) [1%nat] = Ok (Some cr) /\ cr_active cr = [1%nat] /\ wf (cr_poly cr) 2 0 1 /\ p_empty (cr_poly cr) = None /\
  (exists s, (s = 1 \/ s = / 3) /\ nth 0 (rows (pA (cr_poly cr))) [] = [s * -3] /\ nth 0 (pb (cr_poly cr)) 0 = s * - / 500000) /\
  (exists s, (s = 1 \/ s = / 2) /\ nth 1 (rows (pA (cr_poly cr))) [] = [s * -2] /\ nth 1 (pb (cr_poly cr)) 0 = s * - / 500000).
Proof.
  intros Hnp Hq. assert (RG : forall i, In i [1%nat] -> (i < 2)%nat) by (intros i [<-|[]]; lia).
  destruct (active_set_ok np (gp_q Hi) 1 1 2 [1%nat] Hnp Hq RG) as [(_ & cr & Er & RO)|(NI & _)].
  2:{ exfalso. apply NI. intros y Ly E. destruct y as [|y [|]]; try discriminate Ly. cbn in E. injection E as E. cbn. f_equal. lra. }
  exists cr. split; [exact Er|]. pose proof RO as (_ & EA & W & PE & H). split; [exact EA|]. split; [exact W|]. split; [exact PE|].
  assert (UP : forall x, cr_u cr [x] = [3 * x + - / 500000] /\ nth 1 (cr_p cr [x]) 0 = 3 * x - / 500000).
  { intros x. destruct (H [x] eq_refl) as (Lu & Lp & St & Ti & Ze & _). destruct (cr_u cr [x]) as [|u [|]]; try discriminate Lu. specialize (Ti 1%nat (or_introl eq_refl)). specialize (St [1] eq_refl).
    destruct (cr_p cr [x]) as [|l0 [|l1 [|]]]; try discriminate Lp. pose proof (Ze 0%nat ltac:(intros [|[]]; discriminate)) as Z1. cbn [nth] in Z1. subst l0. cbn in Ti, St |- *. split; [f_equal|]; lra. }
  assert (RW : forall i, (i < 2)%nat -> exists s, 0 < s /\ (s = 1 \/ Rabs (s * fst (nth i [(-3, - / 500000); (-2, - / 500000)] (0, 0))) = 1) /\ nth i (rows (pA (cr_poly cr))) [] = [s * fst (nth i [(-3, - / 500000); (-2, - / 500000)] (0, 0))] /\ nth i (pb (cr_poly cr)) 0 = s * snd (nth i [(-3, - / 500000); (-2, - / 500000)] (0, 0))).
  { apply (gp_rows np Hi [1%nat] cr 3 (- / 500000) _ Hnp Hq Er (fun x => proj1 (UP x))). intros i Hi' x. destruct i as [|[|]]; [| |lia]; cbn -[cr_p]; [change (nth (facet_constraint [1%nat] 2 0) (cr_p cr [x]) 0) with (nth 1 (cr_p cr [x]) 0); rewrite (proj2 (UP x))|]; lra. }
  destruct (RW 0%nat ltac:(lia)) as (s0 & P0 & S0 & R0 & B0). destruct (RW 1%nat ltac:(lia)) as (s1 & P1 & S1 & R1 & B1). cbn [nth fst snd] in *.
  split; [exists s0; split; [|auto]|exists s1; split; [|auto]]; [destruct S0 as [|S0]; [auto|rewrite Rabs_left in S0 by lra]|destruct S1 as [|S1]; [auto|rewrite Rabs_left in S1 by lra]]; right; lra.
Qed.
(** of two rows the one that implies the other is kept *)
Lemma facets_two np p i j : exact_np np -> wf p 2 0 1 -> p_empty p = None -> (i = 0 /\ j = 1 \/ i = 1 /\ j = 0)%nat -> (exists x, in_poly p [x] /\ near [x]) ->
  (exists x, dot (row (pA p) j) [x] <= nth j (pb p) 0 /\ nth i (pb p) 0 + tol7 <= dot (row (pA p) i) [x]) ->
  (forall x, dot (row (pA p) i) [x] <= nth i (pb p) 0 -> dot (row (pA p) j) [x] < nth j (pb p) 0 + tol7) ->
  exists p', minimal_facets np tol7 p = (Ok (Some [i]), p').
Proof.
  intros Hnp W PE Hij (y & Iy & Ny) (z & Z1 & Z2) Hw.
  assert (EQ : forall x, eq_holds (pC p) (pd p) x). { intros x. destruct W as (_ & _ & (L & _) & L'). unfold eq_holds. destruct (rows (pC p)); [|discriminate L]. destruct (pd p); [constructor|discriminate L']. }
  assert (NC : ncols (pA p) = 1%nat) by apply W.
  destruct (minimal_facets_ok np p 2 0 1 tol7 Hnp W ltac:(unfold tol7; lra) (or_introl eq_refl) ltac:(rewrite PE; discriminate) ltac:(eauto)) as (mf & p1 & E & _ & Hr & (kp & Hk) & Hwit).
  assert (NI : forall S, (forall x, sat p S x -> dot (row (pA p) i) x < nth i (pb p) 0 + tol7) -> (forall k, In k S -> k = j) -> False).
  { intros S HS HO. specialize (HS [z]). assert (SS : sat p S [z]) by (split; [cbn; lia|]; split; [apply EQ|]; intros k Hk'; rewrite (HO k Hk'); exact Z1). specialize (HS SS). lra. }
  assert (RI : forall S S', removal p tol7 S S' -> (forall k, In k S -> k = i \/ k = j) -> In i S -> In i S').
  { induction 1 as [S|k S S' Hk' Himp H IH]; intros HS Hi; [exact Hi|]. apply IH; [intros l Hl; apply in_remove in Hl; apply HS, Hl|].
    destruct (Nat.eq_dec k i) as [->|N]; [exfalso; apply (NI _ Himp); intros l Hl; apply in_remove in Hl; destruct Hl as (Hl & Nl); destruct (HS l Hl); [contradiction|assumption]|]. apply in_in_remove; auto. }
  assert (Z : In i mf). { apply (RI _ _ Hr); [intros k Hk'; apply in_seq in Hk'; lia|apply in_seq; lia]. }
  assert (O : ~ In j mf).
  { intros H1. destruct (Hwit j H1) as (x & (Lx & _ & Hx) & V). rewrite NC in Lx. destruct x as [|x [|]]; try discriminate Lx.
    assert (I0 : In i (remove Nat.eq_dec j mf)) by (apply in_in_remove; [lia|exact Z]). specialize (Hw x (Hx i I0)). lra. }
  exists p1. rewrite E. do 3 f_equal. rewrite Hk in Z, O |- *. cbn [seq filter] in *. clear - Z O Hij.
  destruct (kp 0%nat), (kp 1%nat), Hij as [(-> & ->)|(-> & ->)]; cbn [In] in *; try reflexivity; exfalso; first [apply O; now auto|intuition discriminate].
Qed.
Lemma gp_solve np Hi : exact_np np -> coherent (gp_q Hi) 1 1 2 -> exists s, mpqp_solve np (gp_q Hi) [/ 100000] = Ok s /\ s_active_set s = Some [1%nat].
Proof.
  intros Hnp Hq. destruct (mpqp_solve_ok np (gp_q Hi) 1 1 2 [/ 100000] [0] Hnp Hq eq_refl eq_refl) as (s & Es & Cases); [cbn; f_equal; ring|]. exists s. split; [exact Es|].
  destruct Cases as [(_ & C)|(_ & u & l & _ & _ & ((Lu & Fu) & _) & El & (Ll & Pl & St & Cs))].
  - exfalso. specialize (C [1]). assert (Q : q_feasible (gp_q Hi) [/ 100000] [1]). { split; [reflexivity|]. intros i Hi'. cbn in Hi'. destruct i as [|[|]]; [| |lia]; cbn; lra. }
    specialize (C Q). cbn in C. unfold tol7 in C. lra.
  - destruct u as [|u [|]]; try discriminate Lu. destruct l as [|l0 [|l1 [|]]]; try discriminate Ll.
    pose proof (Fu 1%nat ltac:(cbn; lia)) as F1. specialize (St [1] eq_refl). pose proof (Cs 0%nat ltac:(cbn; lia)) as C0. pose proof (Cs 1%nat ltac:(cbn; lia)) as C1. cbn in F1, St, C0, C1.
    assert (Z0 : l0 = 0). { apply Rmult_integral in C0. destruct C0 as [C0|C0]; [exact C0|lra]. } subst l0.
    assert (Z1 : l1 = 28 / 1000000). { apply Rmult_integral in C1. destruct C1 as [C1|C1]; [subst l1|]; lra. }
    rewrite (mpqp_active np _ _ _ Es), El. unfold where_. cbn [length seq combine filter snd map]. rewrite (proj2 (Rltb_false tol7 0)) by (unfold tol7; lra). rewrite (proj2 (Rltb_true tol7 l1)) by (unfold tol7; lra). reflexivity.
Qed.
(*@ Theorem C43_gap_refuted : A feasible origin and clear multipliers do not save the coverage: for min 1/2 u^2 s.t. u >= x, u >= 3 x - 2e-6 explicit_solve with its default step ends after two of the three regions; the step of 1e-5 beyond {x <= 0} jumps over the region 0 <= x <= 1e-6, and at x = 5e-7 the explicit solution returns None although the minimizer is 5e-7. *)
Lemma gap_refuted : exists Huu Hux Hxx fu fx g Au Ax b x u, mp_data Huu Hux Hxx fu fx Au Ax b 1 1 2 /\
  (exists v, mp_feasible Au Ax b [0] v) /\ mp_minimizer Huu Hux Hxx fu fx g Au Ax b x u /\
  forall np fuel, exact_np np -> exists q crs, MultiParametricQuadraticProgram np Huu Hux Hxx fu fx g Au Ax b = Ok q /\
    explicit_solve np (3 + fuel) (/ 100000) q = Ok crs /\ map cr_active crs = [[]; [1%nat]] /\ es_u crs x = Ok None.
Proof.
  exists (Mat 1 [[1]]), (Mat 1 [[0]]), (Mat 1 [[0]]), [0], [0], 0, lp_Au, lp_Ax, lp_b, [/ 2000000], [/ 2000000]. split; [exact gp_data|]. split.
  { exists [0]. split; [reflexivity|]. intros i Hi. cbn in Hi. destruct i as [|[|]]; [| |lia]; cbn; lra. } split.
  { split; [split; [reflexivity|]; intros i Hi; cbn in Hi; destruct i as [|[|]]; [| |lia]; cbn; lra|].
    intros v (Lv & Fv). destruct v as [|v [|]]; try discriminate Lv. pose proof (Fv 0%nat ltac:(cbn; lia)) as F0. cbn in F0. unfold mp_cost. cbn. split; [nra|]. intros E. f_equal. nra. }
  intros np fuel Hnp. pose proof gp_data as (D1 & D2 & D3 & D4 & D5 & D6 & D7 & D8 & D9).
  destruct (constructor_coherent np _ _ _ _ _ 0 _ _ _ 1 1 2 Hnp D1 D2 D3 D4 D5 D6 D7 D8 D9) as (Hi & E & Hq). fold (gp_q Hi) in *.
  destruct (gp_free np Hi Hnp Hq) as (cr & Er & EA & W & PE & R0 & B0 & s & Hs & R1 & B1). destruct (gp_one np Hi Hnp Hq) as (cr1 & Er1 & Ec1). destruct (gp_solve np Hi Hnp Hq) as (sl & Es & Ea).
  destruct (gp_two np Hi Hnp Hq) as (cr2 & Er2 & EA2 & W2 & PE2 & (t0 & T0 & R20 & B20) & (t1 & T1 & R21 & B21)).
  destruct (lp_facets np cr Hnp W PE R0 B0 ltac:(exists s; auto)) as (p' & Em).
  destruct (facets_two np (cr_poly cr2) 1 0 Hnp W2 PE2 ltac:(auto)) as (p2 & Em2).
  { exists 1. split; [|unfold near; cbn; unfold tol7; lra]. apply (in1 _ 2 1 W2). intros i Hi'. unfold row. destruct i as [|[|]]; [rewrite R20, B20|rewrite R21, B21|lia]; cbn; destruct T0, T1; subst; lra. }
  { exists (/ 1000000 - 2 * tol7). unfold row. rewrite R20, B20, R21, B21. cbn. unfold tol7. split; destruct T0, T1; subst; lra. }
  { intros x Hx. unfold row in *. rewrite R20, B20. rewrite R21, B21 in Hx. cbn in *. unfold tol7. destruct T0, T1; subst; lra. }
  pose proof (facets_fields np tol7 (cr_poly cr)) as Q. rewrite Em in Q. cbv zeta in Q. cbn [snd] in Q. destruct Q as (Q1 & Q2 & Q3 & Q4).
  pose proof (facets_fields np tol7 (cr_poly cr2)) as P. rewrite Em2 in P. cbv zeta in P. cbn [snd] in P. destruct P as (P1 & P2 & P3 & P4).
  assert (Wp : wf p' 2 0 1) by (unfold wf; rewrite Q1, Q2, Q3, Q4; exact W). assert (Wp2 : wf p2 2 0 1) by (unfold wf; rewrite P1, P2, P3, P4; exact W2).
  set (c' := CR (cr_active cr) (cr_ux cr) (cr_u0 cr) (cr_px cr) (cr_p0 cr) (cr_Vxx cr) (cr_Vx cr) (cr_V0 cr) p').
  set (c2 := CR (cr_active cr2) (cr_ux cr2) (cr_u0 cr2) (cr_px cr2) (cr_p0 cr2) (cr_Vxx cr2) (cr_Vx cr2) (cr_V0 cr2) p2).
  assert (CT : forall x, exists r, cr_contains c' [x] = Ok r /\ (r = true <-> x <= tol7)).
  { intros x. destruct (cr_contains_ok c' 2 1 [x] Wp ltac:(lia) eq_refl) as (r & Ec & Hr). exists r. split; [exact Ec|]. rewrite Hr. unfold within. cbn [c' cr_poly]. rewrite Q1, Q2. assert (Lb : length (pb (cr_poly cr)) = 2%nat) by apply W. split.
    - intros H. specialize (H 0%nat ltac:(lia)). unfold row in H. rewrite R0, B0 in H. cbn in H. lra.
    - intros H i Hi'. unfold row. destruct i as [|[|]]; [rewrite R0, B0|rewrite R1, B1|lia]; cbn; unfold tol7 in *; destruct Hs; subst s; lra. }
  assert (C2 : forall x, x <= / 2000000 -> cr_contains c2 [x] = Ok false).
  { intros x Hx. destruct (cr_contains_ok c2 2 1 [x] Wp2 ltac:(lia) eq_refl) as (r & Ec & Hr). rewrite Ec. destruct r; [exfalso|reflexivity]. pose proof (proj1 Hr eq_refl 1%nat) as H. cbn [c2 cr_poly] in H. rewrite P1, P2 in H.
    assert (Lb : length (pb (cr_poly cr2)) = 2%nat) by apply W2. specialize (H ltac:(lia)). unfold row in H. rewrite R21, B21 in H. cbn in H. unfold tol7 in H. destruct T1; subst t1; lra. }
  assert (NX : mapM (fun i => ctr <- facet_center np p' i ;; match ctr with None => Err TypeError | Some ctr => Ok (vadd ctr (vscale (/ 100000) (row (pA p') i)), flip (cr_active cr) i) end) [0%nat] = Ok [([/ 100000], [0%nat])]).
  { cbn [mapM]. unfold facet_center. rewrite (proj1 (proj2 (proj1 Wp))). cbn [Nat.eqb bind]. unfold row. rewrite Q1, Q2, R0, B0, EA. cbn. do 3 f_equal. f_equal. field. }
  assert (NX2 : exists x3, x3 <= 0 /\ mapM (fun i => ctr <- facet_center np p2 i ;; match ctr with None => Err TypeError | Some ctr => Ok (vadd ctr (vscale (/ 100000) (row (pA p2) i)), flip (cr_active cr2) i) end) [1%nat] = Ok [([x3], [])]).
  { cbn [mapM]. unfold facet_center. rewrite (proj1 (proj2 (proj1 Wp2))). cbn [Nat.eqb bind]. unfold row. rewrite P1, P2, R21, B21, EA2. cbn. eexists. split; [|reflexivity]. destruct T1; subst t1; lra. }
  destruct NX2 as (x3 & L3 & NX2).
  assert (C0 : cr_contains cr [0] = Ok true).
  { destruct (cr_contains_ok cr 2 1 [0] W ltac:(lia) eq_refl) as (r & Ec & Hr). rewrite Ec. f_equal. apply Hr. intros i Hi'. assert (Lb : length (pb (cr_poly cr)) = 2%nat) by apply W. unfold row.
    destruct i as [|[|]]; [rewrite R0, B0|rewrite R1, B1|lia]; cbn; unfold tol7; destruct Hs; subst s; lra. }
  assert (CF : forall x, tol7 < x -> cr_contains c' [x] = Ok false). { intros x Hx. destruct (CT x) as (r & Ec & Hr). rewrite Ec. destruct r; [|reflexivity]. pose proof (proj1 Hr eq_refl). lra. }
  exists (gp_q Hi), [c'; c2]. split; [exact E|]. split; [|split; [cbn; rewrite EA, EA2; reflexivity|]].
  - unfold explicit_solve. change (zeros (length (q_fx (gp_q Hi)))) with [0]. change (3 + fuel)%nat with (S (S (S fuel))). remember (S (S fuel)) as f eqn:Ef. cbn [explicit_loop uncovered fst covered mapM bind existsb].
    unfold explicit_solve_given_point at 1. rewrite Er. cbn [bind]. rewrite C0. cbn [bind]. rewrite Em, NX. cbn [bind app]. fold c'. subst f.
    remember (S fuel) as f eqn:Ef. cbn [explicit_loop uncovered fst]. unfold covered at 1. cbn [mapM]. rewrite (CF (/ 100000)) by (unfold tol7; lra). cbn [bind existsb orb].
    unfold explicit_solve_given_point at 1. rewrite Er1. cbn [bind]. rewrite Ec1, Es. cbn [bind]. rewrite Ea, Er2. cbn [bind]. rewrite Em2, NX2. cbn [bind app]. fold c2. subst f.
    cbn [explicit_loop uncovered fst]. unfold covered at 1. cbn [mapM]. destruct (CT x3) as (r & Ec & Hr). rewrite Ec. cbn [bind]. rewrite (C2 x3) by lra. assert (r = true) by (apply Hr; unfold tol7; lra). subst r. cbn [bind existsb orb]. reflexivity.
  - unfold es_u, es_eval. cbn [get_critical_region]. rewrite (CF (/ 2000000)) by (unfold tol7; lra). cbn [bind]. rewrite (C2 (/ 2000000)) by lra. reflexivity.
Qed.
(*@ Example C43_one_parameter_example : The hypotheses of the coverage theorem are met by min 1/2 u^2 s.t. x <= u, with the default step. *)
Lemma cover_example np : exact_np np -> exists q crs,
  mp_data (Mat 1 [[1]]) (Mat 1 [[0]]) (Mat 1 [[0]]) [0] [0] (Mat 1 [[-1]]) (Mat 1 [[1]]) [0] 1 1 1 /\ tol7 < / 100000 /\
  MultiParametricQuadraticProgram np (Mat 1 [[1]]) (Mat 1 [[0]]) (Mat 1 [[0]]) [0] [0] 0 (Mat 1 [[-1]]) (Mat 1 [[1]]) [0] = Ok q /\
  (forall act cr, explicit_solve_given_active_set np q act = Ok (Some cr) -> unit_rows (cr_poly cr)) /\
  (forall y, exploration_point np q (/ 100000) y -> clear_multipliers np q y /\ answered np q y) /\
  explicit_solve np 10 (/ 100000) q = Ok crs /\ (exists v, mp_feasible (Mat 1 [[-1]]) (Mat 1 [[1]]) [0] [0] v).
Proof.
  intros Hnp. destruct (ex_loop np (/ 100000) 7 Hnp ltac:(unfold tol7; lra)) as (e0 & e1 & EL). exists (ex_q ex_I). eexists. split; [exact ex_data|]. split; [unfold tol7; lra|]. split; [apply ex_ctor; exact Hnp|].
  destruct (constructed _ _ _ _ _ _ _ _ _ _ _ _ _ _ Hnp ex_data (ex_ctor np Hnp)) as (Hq & _).
  assert (A : forall act cr, explicit_solve_given_active_set np (ex_q ex_I) act = Ok (Some cr) -> act = [] \/ act = [0%nat]).
  { intros act cr Er. destruct (some_region np _ 1 1 1 act cr Hnp Hq Er) as (R & _ & (ND & _)). destruct act as [|a act]; [auto|right]. pose proof (R a (or_introl eq_refl)). assert (a = 0%nat) by lia. subst a. destruct act as [|a act]; [reflexivity|exfalso].
    pose proof (R a (or_intror (or_introl eq_refl))). assert (a = 0%nat) by lia. subst a. inversion ND as [|? ? N _]; subst. apply N. left. reflexivity. }
  split; [|split; [|split; [exact EL|]]].
  - intros act cr Er. destruct (A act cr Er) as [->| ->]; [rewrite (ex_region0 np Hnp) in Er|rewrite (ex_region1 np Hnp) in Er]; injection Er as <-; intros i Hi; cbn in Hi; assert (i = 0%nat) by lia; subst i; cbn; auto.
  - assert (AN : forall x, Rabs x <= 1 -> answered np (ex_q ex_I) [x]).
    { intros x Hx. destruct (mpqp_solve_ok np (ex_q ex_I) 1 1 1 [x] [0] Hnp Hq eq_refl eq_refl) as (s & Es & Cases); [cbn; f_equal; ring|]. destruct Cases as [(_ & C)|(_ & u & l & _ & _ & _ & El & (Ll & _))].
      - exfalso. specialize (C [1]). assert (Q : q_feasible (ex_q ex_I) [x] [1]). { split; [reflexivity|]. intros i Hi. cbn in Hi. assert (i = 0%nat) by lia. subst i. cbn. unfold Rabs in Hx. destruct (Rcase_abs x); lra. } specialize (C Q). cbn in C. unfold tol7 in C. lra.
      - pose proof (mpqp_active np _ _ _ Es) as Ea. rewrite El in Ea. set (act := where_ _ l) in Ea. assert (AL : active_list 1 act) by (apply where_active; rewrite Ll; reflexivity).
        assert (act = [] \/ act = [0%nat]). { destruct AL as (SL & R). destruct act as [|a act']; [auto|right]. pose proof (R a (or_introl eq_refl)). assert (a = 0%nat) by lia. subst a. destruct act' as [|a act']; [reflexivity|exfalso]. pose proof (R a (or_intror (or_introl eq_refl))). inversion SL as [|? ? _ F]; subst. apply Forall_inv in F. lia. }
        exists s, act. destruct H as [->| ->]; eexists; (split; [exact Es|]); (split; [exact Ea|]); [apply ex_region0|apply ex_region1]; exact Hnp. }
    intros y Hy. assert (Y : y = [0] \/ y = [/ 100000] \/ y = [- / 100000]).
    { destruct Hy as [->|(act & cr & mf & p' & i & c & Er & Em & Hi & Ec & ->)]; [left; reflexivity|right].
      destruct (ex_facets np 1 Hnp ltac:(auto)) as (f0 & F0). destruct (ex_facets np (-1) Hnp ltac:(auto)) as (f1 & F1). destruct (A act cr Er) as [->| ->].
      - rewrite (ex_region0 np Hnp) in Er. injection Er as <-. cbn [ex_r0 cr_poly] in Em. rewrite F0 in Em. injection Em as <- <-. destruct Hi as [<-|[]]. cbn in Ec. injection Ec as <-. left. cbn. f_equal. field.
      - rewrite (ex_region1 np Hnp) in Er. injection Er as <-. cbn [ex_r1 cr_poly] in Em. rewrite F1 in Em. injection Em as <- <-. destruct Hi as [<-|[]]. cbn in Ec. injection Ec as <-. right. cbn. f_equal. field. }
    destruct Y as [->|[->| ->]]; (split; [apply ex_clear; [exact Hnp|unfold tol7; lra]|apply AN; unfold Rabs; destruct (Rcase_abs _); lra]).
  - exists [0]. split; [reflexivity|]. intros i Hi. cbn in Hi. assert (i = 0%nat) by lia. subst i. cbn. lra.
Qed.
