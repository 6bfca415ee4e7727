(** * PolyVertThms: vertices of segments (C16), proofs *)
From Coq Require Import ZArith.
From Verif Require Import Arr ArrFacts Spec Numpy Pnnls PnnlsFacts QpFacts GeomUtils Polyhedron PolyThms Oracle SolverThms NullFacts PolySolveThms PolySetThms PolyBoundThms PolyChebThms PolyCacheThms.

Lemma two_elements (l : list nat) i j : NoDup l -> i <> j -> (forall k, In k l <-> k = i \/ k = j) -> l = [i; j] \/ l = [j; i].
Proof.
  intros ND Hij H. assert (L : length l = 2%nat).
  { apply Nat.le_antisymm.
    - apply (NoDup_incl_length ND (l' := [i; j])). intros k Hk. apply H in Hk. simpl. destruct Hk; auto.
    - apply (NoDup_incl_length (l := [i; j])); [repeat constructor; simpl; intuition|]. intros k [<-|[<-|[]]]; apply H; auto. }
  destruct l as [|a [|c [|]]]; try discriminate L. inversion ND as [|? ? N1 _].
  assert (Ha : a = i \/ a = j) by (apply H; simpl; auto). assert (Hc : c = i \/ c = j) by (apply H; simpl; auto). simpl in N1.
  destruct Ha, Hc; subst; intuition.
Qed.

(** the kept rows of a segment *)
Lemma segment_rows p m me mf lo hi : wf p m me 1 -> (forall z, eq_holds (pC p) (pd p) z) -> lo < hi ->
  (forall a, in_poly p [a] <-> lo <= a <= hi) ->
  NoDup mf -> (forall j, In j mf -> (j < m)%nat) -> (forall x, sat p mf x <-> in_poly p x) ->
  (forall i, In i mf -> exists x, sat p (remove Nat.eq_dec i mf) x /\ nth i (pb p) 0 + tol7 <= dot (row (pA p) i) x) ->
  exists i j, mf = [i; j] /\
   ((nth i (pb p) 0 / nth 0 (row (pA p) i) 0 = hi /\ nth j (pb p) 0 / nth 0 (row (pA p) j) 0 = lo) \/
    (nth i (pb p) 0 / nth 0 (row (pA p) i) 0 = lo /\ nth j (pb p) 0 / nth 0 (row (pA p) j) 0 = hi)).
Proof.
  intros W Heq Hlh Hin ND Hlt Hsat Hirr. pose proof tol7_pos as Tp.
  assert (NA : ncols (pA p) = 1%nat) by apply W.
  set (a := fun i => nth 0 (row (pA p) i) 0). set (b := fun i => nth i (pb p) 0).
  assert (Drow : forall i z, (i < m)%nat -> dot (row (pA p) i) [z] = a i * z).
  { intros i z Hi. destruct W as (WA & _). assert (L : length (row (pA p) i) = 1%nat) by (eapply shape_row; eauto). unfold a.
    destruct (row (pA p) i) as [|r [|]]; try discriminate L. cbn. ring. }
  assert (HS : forall S z, (forall j, In j S -> (j < m)%nat) -> sat p S [z] <-> forall j, In j S -> a j * z <= b j).
  { intros S z HSm. unfold sat. split.
    - intros (_ & _ & H) j Hj. specialize (H j Hj). rewrite Drow in H; auto.
    - intros H. split; [auto|]. split; [auto|]. intros j Hj. rewrite Drow by auto. now apply H. }
  assert (HM : forall z, (forall j, In j mf -> a j * z <= b j) <-> lo <= z <= hi).
  { intros z. rewrite <- Hin, <- Hsat. symmetry. now apply HS. }
  assert (Irr : forall i, In i mf -> exists z, (forall j, In j mf -> j <> i -> a j * z <= b j) /\ b i + tol7 <= a i * z).
  { intros i Hi. destruct (Hirr i Hi) as (x & (Lx & _ & Hx) & Vx). rewrite NA in Lx. destruct x as [|z [|]]; try discriminate Lx.
    exists z. rewrite Drow in Vx by auto. split; [|exact Vx]. intros j Hj Hne. specialize (Hx j). rewrite Drow in Hx by auto. apply Hx. apply in_in_remove; auto. }
  assert (Z : forall i, In i mf -> a i <> 0).
  { intros i Hi E. destruct (Irr i Hi) as (z & _ & Vz). pose proof (proj2 (HM lo) ltac:(lra) i Hi) as Q. rewrite E in *. lra. }
  assert (PosU : forall i j, In i mf -> In j mf -> 0 < a i -> 0 < a j -> i = j).
  { intros i j Hi Hj Pi Pj. destruct (Nat.eq_dec i j) as [|Hne]; auto. exfalso.
    destruct (Irr i Hi) as (zi & Si & Vi). destruct (Irr j Hj) as (zj & Sj & Vj).
    specialize (Si j Hj ltac:(auto)). specialize (Sj i Hi Hne).
    assert (a i * zj < a i * zi) by lra. assert (a j * zi < a j * zj) by lra. assert (zj < zi) by nra. nra. }
  assert (NegU : forall i j, In i mf -> In j mf -> a i < 0 -> a j < 0 -> i = j).
  { intros i j Hi Hj Pi Pj. destruct (Nat.eq_dec i j) as [|Hne]; auto. exfalso.
    destruct (Irr i Hi) as (zi & Si & Vi). destruct (Irr j Hj) as (zj & Sj & Vj).
    specialize (Si j Hj ltac:(auto)). specialize (Sj i Hi Hne).
    assert (a i * zj < a i * zi) by lra. assert (a j * zi < a j * zj) by lra. assert (zi < zj) by nra. nra. }
  assert (PosE : exists i, In i mf /\ 0 < a i).
  { destruct (Classical_Prop.classic (exists i, In i mf /\ 0 < a i)) as [|N]; auto. exfalso.
    assert (lo <= hi + 1 <= hi); [|lra]. apply HM. intros j Hj.
    assert (a j <= 0) by (apply Rnot_lt_le; intros P; apply N; eauto). pose proof (proj2 (HM hi) ltac:(lra) j Hj). nra. }
  assert (NegE : exists i, In i mf /\ a i < 0).
  { destruct (Classical_Prop.classic (exists i, In i mf /\ a i < 0)) as [|N]; auto. exfalso.
    assert (lo <= lo - 1 <= hi); [|lra]. apply HM. intros j Hj.
    assert (0 <= a j) by (apply Rnot_lt_le; intros P; apply N; eauto). pose proof (proj2 (HM lo) ltac:(lra) j Hj). nra. }
  destruct PosE as (i & Hi & Pi). destruct NegE as (j & Hj & Pj).
  assert (Hall : forall k, In k mf <-> k = i \/ k = j).
  { intros k. split; [|intros [->| ->]; auto]. intros Hk. destruct (Rtotal_order (a k) 0) as [N|[E|P]].
    - right. now apply NegU. - exfalso. now apply (Z k). - left. now apply PosU. }
  assert (Hij : i <> j) by (intros ->; lra).
  assert (Ehi : b i / a i = hi).
  { pose proof (proj2 (HM hi) ltac:(lra) i Hi) as Q. apply Rle_antisym.
    - apply HM. intros k Hk. apply Hall in Hk. destruct Hk as [->| ->]; [right; field; lra|].
      pose proof (proj2 (HM hi) ltac:(lra) j Hj). assert (hi <= b i / a i); [|nra].
      apply Rmult_le_reg_l with (a i); [lra|]. replace (a i * (b i / a i)) with (b i) by (field; lra). lra.
    - apply Rmult_le_reg_l with (a i); [lra|]. replace (a i * (b i / a i)) with (b i) by (field; lra). lra. }
  assert (Elo : b j / a j = lo).
  { pose proof (proj2 (HM lo) ltac:(lra) j Hj) as Q.
    assert (L : b j / a j <= lo).
    { apply Rmult_le_reg_l with (- a j); [lra|]. replace (- a j * (b j / a j)) with (- b j) by (field; lra). lra. }
    apply Rle_antisym; [exact L|].
    apply HM. intros k Hk. apply Hall in Hk. destruct Hk as [->| ->]; [|right; field; lra].
    pose proof (proj2 (HM lo) ltac:(lra) i Hi). nra. }
  destruct (two_elements mf i j ND Hij Hall) as [->| ->]; [exists i, j|exists j, i]; split; auto.
Qed.

Lemma vertices_1d_ok np p m lo hi : exact_np np -> wf p m 0 1 -> lo < hi -> (forall a, in_poly p [a] <-> lo <= a <= hi) ->
  (exists x, in_poly p x /\ near x) -> redundancy_gap p m tol7 ->
  vertices_1d np (pA p) (pb p) = Ok [[hi]; [lo]] \/ vertices_1d np (pA p) (pb p) = Ok [[lo]; [hi]].
Proof.
  intros Hnp W Hlh Hin (x0 & Hx0 & Nx0) Gap. pose proof W as (HA & Hb & HC & Hd).
  assert (NA : ncols (pA p) = 1%nat) by apply HA.
  assert (EqT : forall C d z, length (rows C) = 0%nat -> length d = 0%nat -> eq_holds C d z).
  { intros C d z LC Ld. unfold eq_holds. destruct (rows C); [|discriminate LC]. destruct d; [|discriminate Ld]. constructor. }
  set (p0 := Poly (pA p) (pb p) (zmat 0 (ncols (pA p))) (zeros 0) None None None None None).
  assert (W0 : wf p0 m 0 1). { split; [exact HA|]. split; [exact Hb|]. split; [|reflexivity]. unfold p0. cbn [pC]. rewrite NA. repeat split. constructor. }
  assert (Sat : forall S x, sat p0 S x <-> sat p S x).
  { intros S x. unfold sat. cbn [p0 pA pb pC pd]. split; intros (L & _ & H); (split; [auto|]); (split; [|auto]); apply EqT; auto; apply HC. }
  assert (In0 : forall x, in_poly p0 x <-> in_poly p x). { intros x. rewrite <- (sat_all p0 m 0 1 x W0), <- (sat_all p m 0 1 x W). apply Sat. }
  assert (Gap0 : redundancy_gap p0 m tol7).
  { intros S i Hi Hn HS. destruct (Gap S i Hi Hn HS) as [H|(x & Hx & Vx)].
    - left. intros x Hx. apply H. now apply Sat. - right. exists x. split; [now apply Sat|auto]. }
  destruct (minimal_facets_ok np p0 m 0 1 tol7 Hnp W0 ltac:(unfold tol7; lra) (or_introl eq_refl) ltac:(discriminate) ltac:(exists x0; split; [now apply In0|auto]))
    as (mf & p1 & Emf & Hp1 & Rem & (kp & Ekp) & Irr).
  assert (Hlt : forall j, In j mf -> (j < m)%nat). { intros j Hj. rewrite Ekp in Hj. apply filter_In in Hj. destruct Hj as (Hj & _). apply in_seq in Hj. lia. }
  assert (ND : NoDup mf) by (rewrite Ekp; apply NoDup_filter, seq_NoDup).
  assert (Q1 : forall z, eq_holds (pC p0) (pd p0) z) by (intros z; apply EqT; reflexivity).
  assert (Q2 : forall a, in_poly p0 [a] <-> lo <= a <= hi) by (intros a; rewrite In0; apply Hin).
  assert (Q3 : forall x, sat p0 mf x <-> in_poly p0 x).
  { intros x. split; intros H.
    - apply (sat_all p0 m 0 1 x W0). apply (removal_exact p0 m tol7 (seq 0 m) mf); auto. intros k Hk. apply in_seq in Hk. lia.
    - apply (sat_all p0 m 0 1 x W0) in H. destruct H as (L & Q & H). split; [auto|]. split; [auto|]. intros k Hk. apply H. apply in_seq. specialize (Hlt k Hk). lia. }
  destruct (segment_rows p0 m 0 mf lo hi W0 Q1 Hlh Q2 ND Hlt Q3 Irr) as (i & j & Em & Hv).
  assert (EV : vertices_1d np (pA p) (pb p) = Ok [[nth i (pb p) 0 / nth 0 (row (pA p) i) 0]; [nth j (pb p) 0 / nth 0 (row (pA p) j) 0]]).
  { unfold vertices_1d, Polyhedron, same_number_rows. cbn [nd_size]. replace (nrows (pA p)) with (length (pb p)) by (rewrite Hb; symmetry; apply HA).
    rewrite Nat.eqb_refl. cbn [bind run_on]. fold p0. unfold remove_redundant_inequalities, pbind. rewrite Emf. unfold pget, pput. cbn [bind].
    assert (EA : pA p1 = pA p /\ pb p1 = pb p) by (destruct Hp1 as [->| ->]; auto). destruct EA as (EA & EB). cbn [set_b set_A pA pb]. rewrite EA, EB, Em. reflexivity. }
  rewrite EV. cbn [p0 pA pb] in Hv. destruct Hv as [(Hv1 & Hv2)|(Hv1 & Hv2)]; rewrite Hv1, Hv2; auto.
Qed.

(*@ Theorem C16_segment : For a segment lo < hi of length at least 2 tol, given by any inequalities none of which is redundant by less than tol (and with a point of norm below 10^7), vertices are exactly the two endpoints. *)
Lemma segment_vertices np p m lo hi : exact_np np -> wf p m 0 1 -> fresh p = p -> 2 * tol7 <= hi - lo ->
  (forall a, in_poly p [a] <-> lo <= a <= hi) -> (exists x, in_poly p x /\ near x) -> redundancy_gap p m tol7 ->
  exists v p', get_vertices np p = (Ok (Some v), p') /\ (v = [[hi]; [lo]] \/ v = [[lo]; [hi]]).
Proof.
  intros Hnp W Fr Hlh Hin Near Gap. pose proof tol7_pos as Tp. assert (NA : ncols (pA p) = 1%nat) by apply W.
  assert (LC : length (rows (pC p)) = 0%nat) by apply W.
  destruct (segment_radius np p m lo hi Hnp W Fr ltac:(lra) Hin) as (pr & Er & _).
  assert (EB : fst (get_bounded np p) = Ok true).
  { destruct (polytope_is_bounded np p m 0 1 Hnp W) as (p' & ->); try (rewrite <- Fr; reflexivity); [|reflexivity].
    exists (Rmax (Rabs lo) (Rabs hi)). intros x Hx. pose proof Hx as (Lx & _). rewrite NA in Lx. destruct x as [|a [|]]; try discriminate Lx.
    apply Hin in Hx. pose proof (Rmax_l (Rabs lo) (Rabs hi)). pose proof (Rmax_r (Rabs lo) (Rabs hi)).
    assert (norm [a] = Rabs a) as ->. { unfold norm. cbn. rewrite Rplus_0_r. apply sqrt_Rsqr_abs. }
    pose proof (Rle_abs hi). pose proof (Rle_abs (- lo)). rewrite Rabs_Ropp in *. unfold Rabs at 1. destruct (Rcase_abs a); lra. }
  assert (ER : fst (get_radius np p) = Ok (Some ((hi - lo) / 2))) by (now rewrite Er).
  assert (EC : exists c, fst (get_center np p) = Ok c).
  { unfold get_radius, get_center, pbind, pget, plift, pput, pret in *. rewrite <- Fr in Er |- *. cbn [fresh p_radius p_center] in Er |- *.
    destruct (chebyshev np _ _ _ _) as [[r c]|]; [|discriminate Er]. exists c. reflexivity. }
  destruct EC as (c & EC).
  assert (CO : cache_ok np p) by (rewrite <- Fr; apply cache_fresh).
  destruct (bounded_coh np p CO) as (_ & F1 & H1). destruct (get_bounded np p) as [rb p1] eqn:Gb. cbn [fst snd] in *. subst rb.
  destruct (radius_coh np p1 H1) as (E2 & F2 & H2). rewrite F1, Fr in E2, F2. rewrite ER in E2. destruct (get_radius np p1) as [rr p2] eqn:Gr. cbn [fst snd] in *. subst rr.
  destruct (center_coh np p2 H2) as (E3 & F3 & H3). rewrite F2, EC in E3. destruct (get_center np p2) as [rc p3] eqn:Gc. cbn [fst snd] in *. subst rc.
  assert (EA : pA p2 = pA p /\ pb p2 = pb p /\ pC p2 = pC p). { rewrite <- F2. auto. } destruct EA as (EA1 & EA2 & EA3).
  assert (X : exists v, vertices_1d np (pA p) (pb p) = Ok v /\ (v = [[hi]; [lo]] \/ v = [[lo]; [hi]])).
  { destruct (vertices_1d_ok np p m lo hi Hnp W ltac:(lra) Hin Near Gap) as [E|E]; eexists; eauto. }
  destruct X as (v & Ev & Hv). exists v. eexists. split; [|exact Hv].
  rewrite vertices_eq. unfold pbind at 1, pget at 1. replace (p_vertices p) with (@None (list vec)) by (rewrite <- Fr; reflexivity).
  unfold pbind at 1. rewrite Gb. cbn [negb]. unfold pbind at 1. rewrite Gr.
  replace (Rltb ((hi - lo) / 2) tol7) with false by (symmetry; apply Rltb_false; lra).
  unfold vertices_body, pbind, pget, plift. rewrite EA3. unfold nrows. rewrite LC. cbn [Nat.ltb Nat.leb]. rewrite Gc, EA1, EA2, NA, Nat.eqb_refl, Ev. reflexivity.
Qed.

(*@ Example C16_example : {x <= 3, -x <= 1, x <= 7}: the hypotheses hold, and the vertices are 3 and -1. *)
Lemma vertices_example :
  let p := Poly (Mat 1 [[1]; [-1]; [1]]) [3; 1; 7] (Mat 1 []) [] None None None None None in
  exists v p', get_vertices np0 p = (Ok (Some v), p') /\ (v = [[3]; [-1]] \/ v = [[-1]; [3]]).
Proof.
  intros p. assert (W : wf p 3 0 1) by (unfold wf; simpl; repeat split; repeat constructor).
  assert (Hin : forall a, in_poly p [a] <-> -1 <= a <= 3).
  { intros a. split.
    - intros (_ & H & _). unfold ineq_holds in H. simpl in H. inv2 H. lra.
    - intros H. split; [reflexivity|]. split; [repeat (apply Forall2_cons; [cbn; lra|]); constructor|constructor]. }
  apply (segment_vertices np0 p 3 (-1) 3 np0_exact W eq_refl); auto; [unfold tol7; lra| |].
  - exists [0]. split; [apply Hin; lra|]. unfold near. cbn. unfold tol7. lra.
  - intros S i Hi Hn HS. unfold sat.
    assert (T : tol7 <= 1) by (unfold tol7; lra).
    assert (Dec : forall z, (forall j, In j S -> dot (row (pA p) j) [z] <= nth j (pb p) 0) -> sat p S [z]).
    { intros z H. split; [reflexivity|]. split; [constructor|exact H]. }
    destruct i as [|[|[|]]]; try lia.
    + right. destruct (in_dec Nat.eq_dec 2%nat S) as [I2|I2].
      * exists [7]. split; [apply Dec|cbn; lra]. intros j Hj. specialize (HS j Hj). destruct j as [|[|[|]]]; try lia; cbn; lra || contradiction.
      * exists [7]. split; [apply Dec|cbn; lra]. intros j Hj. specialize (HS j Hj). destruct j as [|[|[|]]]; try lia; cbn; lra || contradiction.
    + right. exists [-2]. split; [apply Dec|cbn; lra]. intros j Hj. specialize (HS j Hj). destruct j as [|[|[|]]]; try lia; cbn; lra || contradiction.
    + destruct (in_dec Nat.eq_dec 0%nat S) as [I0|I0].
      * left. intros x (Lx & _ & H). destruct x as [|z [|]]; try discriminate Lx. specialize (H 0%nat I0). cbn in H |- *. lra.
      * right. exists [8]. split; [apply Dec|cbn; lra]. intros j Hj. specialize (HS j Hj). destruct j as [|[|[|]]]; try lia; cbn; lra || contradiction.
Qed.

(*@ Theorem C16_tolerance_refuted : For the segment [0,1] given as {x <= 1, x <= 1 + tol/2, -x <= 0} the upper vertex is 1 + tol/2, which is not an endpoint. *)
Lemma vertices_refuted np : exact_np np ->
  exists p, wf p 3 0 1 /\ (forall a, in_poly p [a] <-> 0 <= a <= 1) /\ exists p', get_vertices np p = (Ok (Some [[1 + tol7 / 2]; [0]]), p').
Proof.
  intros Hnp. pose proof tol7_pos as Tp. exists p_three. split; [exact wf_p_three|].
  assert (Hin : forall a, in_poly p_three [a] <-> 0 <= a <= 1).
  { intros a. split.
    - intros (_ & H & _). unfold ineq_holds in H. simpl in H. inv2 H. lra.
    - intros H. split; [reflexivity|]. split; [repeat (apply Forall2_cons; [cbn; lra|]); constructor|constructor]. }
  split; [exact Hin|].
  assert (V : vertices_1d np (pA p_three) (pb p_three) = Ok [[1 + tol7 / 2]; [0]]).
  { assert (EV : vertices_1d np (pA p_three) (pb p_three) = Ok [[(1 + tol7 / 2) / 1]; [0 / -1]]).
    { unfold vertices_1d, Polyhedron, same_number_rows. cbn [nd_size p_three pA pb nrows rows length Nat.eqb bind run_on ncols].
      set (p0 := Poly _ _ _ _ _ _ _ _ _). unfold remove_redundant_inequalities, minimal_facets, pbind.
      assert (W0 : wf p0 3 0 1) by (unfold wf; simpl; repeat split; repeat constructor).
      destruct (get_empty_ok np p0 3 0 1 Hnp W0 eq_refl) as ([|] & Ee & He).
      { exfalso. apply (proj1 He eq_refl). exists [0]. split; [split; [reflexivity|]; split; [repeat (apply Forall2_cons; [cbn; lra|]); constructor|constructor]|unfold near; cbn; unfold tol7; lra]. }
      rewrite Ee. unfold pget, plift. cbn [p0 set_empty pA pb pC pd nrows rows length Nat.ltb Nat.leb seq zmat repeat].
      rewrite (three_loop np Hnp). reflexivity. }
    rewrite EV. replace ((1 + tol7 / 2) / 1) with (1 + tol7 / 2) by field. replace (0 / -1) with 0 by field. reflexivity. }
  destruct (get_vertices np p_three) as [r p'] eqn:E. exists p'. f_equal.
  assert (Er : fst (get_vertices np p_three) = r) by (now rewrite E). rewrite <- Er. clear E Er p'.
  (* as in the theorem above *)
  destruct (segment_radius np p_three 3 0 1 Hnp wf_p_three eq_refl ltac:(lra) Hin) as (pr & Gr0 & _).
  assert (EB : fst (get_bounded np p_three) = Ok true).
  { destruct (polytope_is_bounded np p_three 3 0 1 Hnp wf_p_three) as (p' & ->); try reflexivity.
    exists 1. intros x Hx. pose proof Hx as (Lx & _). destruct x as [|a [|]]; try discriminate Lx. apply Hin in Hx. apply norm_le_sqr; [lra|]. cbn. nra. }
  assert (EC : exists c, fst (get_center np p_three) = Ok c).
  { unfold get_radius, get_center, pbind, pget, plift, pput, pret in *. cbn [p_three p_radius p_center] in Gr0 |- *. fold p_three in Gr0 |- *.
    destruct (chebyshev np _ _ _ _) as [[r' c]|]; [|discriminate Gr0]. exists c. reflexivity. }
  destruct EC as (c & EC).
  assert (CO : cache_ok np p_three) by apply (cache_fresh np p_three).
  destruct (bounded_coh np p_three CO) as (_ & F1 & H1). destruct (get_bounded np p_three) as [rb p1] eqn:Gb. cbn [fst snd] in *. subst rb.
  destruct (radius_coh np p1 H1) as (E2 & F2 & H2). rewrite F1 in E2, F2. change (fresh p_three) with p_three in E2, F2. rewrite Gr0 in E2. destruct (get_radius np p1) as [rr p2] eqn:Gr. cbn [fst snd] in *. subst rr.
  destruct (center_coh np p2 H2) as (E3 & F3 & H3). rewrite F2, EC in E3. destruct (get_center np p2) as [rc p3] eqn:Gc. cbn [fst snd] in *. subst rc.
  assert (EA : pA p2 = pA p_three /\ pb p2 = pb p_three /\ pC p2 = pC p_three). { rewrite <- F2. auto. } destruct EA as (EA1 & EA2 & EA3).
  rewrite vertices_eq. unfold pbind at 1, pget at 1. change (p_vertices p_three) with (@None (list vec)). cbv beta iota.
  unfold pbind at 1. rewrite Gb. cbn [negb]. unfold pbind at 1. rewrite Gr.
  replace (Rltb ((1 - 0) / 2) tol7) with false by (symmetry; apply Rltb_false; unfold tol7; lra).
  unfold vertices_body, pbind, pget, plift. rewrite EA3. change (0 <? nrows (pC p_three))%nat with false. cbv beta iota. rewrite Gc, EA1, EA2.
  change (ncols (pA p_three) =? 1)%nat with true. cbv beta iota. rewrite V. reflexivity.
Qed.
