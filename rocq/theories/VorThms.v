(** * VorThms: Voronoi partitions of the examples (C56), proofs *)
From Coq Require Import ZArith String Lra Lia Permutation Sorted.
From Verif Require Import Arr ArrFacts Spec SpecGeom Numpy Pnnls GeomUtils Polyhedron PolyThms PolyMore PolySolveThms Dynamics DynThms GeomThms Voronoi SolverThms.
Local Open Scope list_scope.

(** ** Distances *)
Lemma norm_le_sqr u v : norm u <= norm v <-> dot u u <= dot v v.
Proof.
  pose proof (norm_nonneg u). pose proof (norm_nonneg v). rewrite <- !norm_sqr. split; intros; [nra|]. apply Rsqr_incr_0; unfold Rsqr; assumption.
Qed.
Definition sqd (x p : vec) : R := dot (vsub x p) (vsub x p).
Lemma bisector_ok x p t : length p = length x -> length t = length x ->
  dot (fst (bisector p t)) x <= snd (bisector p t) <-> norm (vsub x p) <= norm (vsub x t).
Proof.
  intros Lp Lt. rewrite norm_le_sqr. unfold bisector. cbn [fst snd].
  assert (E : dot (vsub x t) (vsub x t) - dot (vsub x p) (vsub x p) = 2 * (dot (vsub t p) (vadd p (vscale (/ 2) (vsub t p))) - dot (vsub t p) x)).
  { revert p t Lp Lt. induction x as [|a x IH]; intros [|b p] [|c t] Lp Lt; try discriminate; [cbn; lra|].
    injection Lp as Lp. injection Lt as Lt. specialize (IH p t Lp Lt). unfold vsub, vadd, vscale in *. cbn [map2 map dot] in *. lra. }
  lra.
Qed.
Lemma cell_of_ok p tips n : length p = n -> tips <> [] -> Forall (fun t => length t = n) tips ->
  exists c, cell_of p tips = Ok c /\ wf c (length tips) 0 n /\
    forall x, in_poly c x <-> length x = n /\ forall t, In t tips -> norm (vsub x p) <= norm (vsub x t).
Proof.
  intros Lp NE FL. unfold cell_of. destruct tips as [|t0 tips0] eqn:ET; [congruence|]. rewrite <- ET in *. clear ET NE t0 tips0.
  set (p0 := Poly (Mat (length p) (map fst (map (bisector p) tips))) (map snd (map (bisector p) tips)) (zmat 0 (length p)) (zeros 0) None None None None None).
  assert (E : Polyhedron (Mat (length p) (map fst (map (bisector p) tips))) (D1 (map snd (map (bisector p) tips))) None None = Ok p0).
  { unfold Polyhedron, same_number_rows, nrows, nd_size. cbn [rows]. rewrite !map_length, Nat.eqb_refl. reflexivity. }
  rewrite E. cbn [bind].
  assert (W : wf p0 (length tips) 0 n).
  { unfold wf, p0. cbn [pA pb pC pd]. split; [|split; [now rewrite !map_length|split; [|reflexivity]]].
    - unfold shape. cbn [rows ncols]. rewrite !map_length. split; [reflexivity|]. split; [exact Lp|]. rewrite Forall_forall. intros r Hr. rewrite map_map in Hr. apply in_map_iff in Hr. destruct Hr as (t & <- & Ht).
      pose proof (proj1 (Forall_forall _ _) FL t Ht) as Q. cbn beta in Q. cbn [bisector fst]. len.
    - unfold shape. cbn. auto. }
  destruct (normalize_ok p0 _ _ _ tol7 W (Rlt_le _ _ tol7_pos)) as (W' & H & _).
  exists (normalize tol7 p0). split; [reflexivity|]. split; [exact W'|]. intros x. rewrite H. unfold in_poly, in_set, p0, ineq_holds, eq_holds. cbn [pA pb pC pd ncols rows zmat repeat].
  rewrite Lp. split.
  - intros (Lx & F & _). split; [exact Lx|]. intros t Ht. apply bisector_ok; [lia|rewrite Lx; apply (proj1 (Forall_forall _ _) FL t Ht)|].
    clear - F Ht. induction tips as [|t' tips IH]; [contradiction|]. cbn [map] in F. inversion F as [|? ? ? ? F1 F2]; subst. destruct Ht as [->|Ht]; [exact F1|apply IH; assumption].
  - intros (Lx & F). split; [exact Lx|]. split; [|constructor]. clear - F FL Lx Lp. induction tips as [|t tips IH]; cbn [map]; constructor.
    + apply bisector_ok; [lia|rewrite Lx; apply (Forall_inv FL)|]. apply F. left; reflexivity.
    + apply IH; [apply (Forall_inv_tail FL)|]. intros; apply F. right; assumption.
Qed.

(** ** Coordinates on which all the points agree do not matter *)
Lemma sqd_sum x p n : length x = n -> length p = n -> sqd x p = vsum (map (fun i => (nth i x 0 - nth i p 0) * (nth i x 0 - nth i p 0)) (seq 0 n)).
Proof.
  intros Lx Lp. unfold sqd. replace (vsub x p) with (map (fun i => nth i x 0 - nth i p 0) (seq 0 n)); [apply dot_map_seq|].
  apply vec_ext; [len|]. intros i Hi. lenh Hi. rewrite nth_map_seq by lia. autorewrite with nthv; [reflexivity|lia..].
Qed.
Lemma sqd_lower f x p n : length x = n -> length p = n -> let l := filter f (seq 0 n) in sqd (lower l x) (lower l p) = vsum (map (fun i => (nth i x 0 - nth i p 0) * (nth i x 0 - nth i p 0)) l).
Proof.
  intros Lx Lp l. unfold sqd, lower. generalize l. clear. induction l as [|i l IH]; [reflexivity|]. unfold vsub in *. cbn [map map2 dot]. rewrite IH, vsum_cons. reflexivity.
Qed.
Lemma lower_dist f x p q n : length x = n -> length p = n -> length q = n -> (forall i, (i < n)%nat -> f i = false -> nth i p 0 = nth i q 0) ->
  let l := filter f (seq 0 n) in
  norm (vsub x p) <= norm (vsub x q) <-> norm (vsub (lower l x) (lower l p)) <= norm (vsub (lower l x) (lower l q)).
Proof.
  intros Lx Lp Lq H l. rewrite !norm_le_sqr. fold (sqd x p) (sqd x q) (sqd (lower l x) (lower l p)) (sqd (lower l x) (lower l q)). unfold l.
  rewrite !(sqd_sum x _ n), !(sqd_lower f x _ n) by assumption. rewrite !vsum_filter.
  enough (E : forall is, (forall i, In i is -> (i < n)%nat) -> vsum (map (fun i => (nth i x 0 - nth i p 0) * (nth i x 0 - nth i p 0)) is) - vsum (map (fun i => (nth i x 0 - nth i q 0) * (nth i x 0 - nth i q 0)) is) =
     vsum (map (fun i => if f i then (nth i x 0 - nth i p 0) * (nth i x 0 - nth i p 0) else 0) is) - vsum (map (fun i => if f i then (nth i x 0 - nth i q 0) * (nth i x 0 - nth i q 0) else 0) is)).
  { specialize (E (seq 0 n) ltac:(intros i Hi; apply in_seq in Hi; lia)). lra. }
  induction is as [|i is IH]; intros HI; [cbn; lra|]. cbn [map]. rewrite !vsum_cons. specialize (IH ltac:(intros; apply HI; right; assumption)).
  destruct (f i) eqn:Ef; [lra|]. rewrite (H i (HI i (or_introl eq_refl)) Ef) in *. lra.
Qed.
Lemma keep_filter f n : keep (Some (map Z.of_nat (filter f (seq 0 n)))) n = filter f (seq 0 n).
Proof.
  cbn [keep]. apply filter_ext_in. intros i Hi. destruct (f i) eqn:Ef.
  - apply existsb_exists. exists (Z.of_nat i). split; [|apply Z.eqb_refl]. apply in_map, filter_In. auto.
  - apply Bool.not_true_iff_false. intros H. apply existsb_exists in H. destruct H as (z & Hz & Ez). apply Z.eqb_eq in Ez. subst z. apply in_map_iff in Hz. destruct Hz as (j & Ej & Hj). apply Nat2Z.inj in Ej. subst j.
    apply filter_In in Hj. destruct Hj. congruence.
Qed.
Lemma coords_filter f n x : length x = n -> coords (Some (map Z.of_nat (filter f (seq 0 n)))) x = lower (filter f (seq 0 n)) x.
Proof. intros L. cbn [coords]. rewrite L. unfold lower. f_equal. apply (keep_filter f n). Qed.
Definition in_X (X : option poly) (x : vec) : Prop := forall P, X = Some P -> in_poly P x.
Lemma wf_rect p m me n : wf p m me n -> rect (pA p).
Proof. intros ((L & C & F) & _). unfold rect, shape, nrows. rewrite C. auto. Qed.
Lemma constrained_cell_ok f n X c m : wf c m 0 (length (filter f (seq 0 n))) -> (forall P, X = Some P -> exists mx, wf P mx 0 n) ->
  exists c', constrained_cell n (filter f (seq 0 n)) X c = Ok c' /\ (exists m', wf c' m' 0 n) /\
    forall x, in_poly c' x <-> length x = n /\ in_poly c (lower (filter f (seq 0 n)) x) /\ in_X X x.
Proof.
  intros Wc WX. set (l := filter f (seq 0 n)) in *. unfold constrained_cell, run_on.
  set (p0 := Poly (Mat n []) [] (zmat 0 n) (zeros 0) None None None None None). change (Polyhedron (Mat n []) (D1 []) None None) with (Ok p0). cbn [bind].
  assert (W0 : wf p0 0 0 n) by (unfold wf, shape; cbn; auto 10).
  assert (I0 : forall x, in_poly p0 x <-> length x = n) by (intros x; unfold in_poly, in_set, p0, ineq_holds, eq_holds; cbn; split; [tauto|intros; repeat split; auto]).
  assert (IC : forall y, in_poly c y <-> length y = length l /\ ineq_holds (pA c) (pb c) y).
  { intros y. unfold in_poly, in_set. destruct Wc as ((_ & CA & _) & _ & (LC & _) & Ld). rewrite CA. destruct (pC c) as [kc rc]. cbn in LC. destruct rc; [|discriminate]. destruct (pd c); [|discriminate]. unfold eq_holds. cbn [rows]. split; [tauto|]. intros (H1 & H2). split; [exact H1|]. split; [exact H2|constructor]. }
  assert (E1 : exists p1, add_inequality (pA c) (D1 (pb c)) (Some (map Z.of_nat l)) p0 = (Ok tt, p1)).
  { rewrite add_inequality_eq. destruct Wc as ((LA & CA & _) & Lb & _). unfold nrows. rewrite LA. cbn [nd_size]. rewrite Lb, Nat.eqb_refl, CA. change (ncols (pA p0)) with n. unfold l. rewrite keep_filter, Nat.eqb_refl. eauto. }
  destruct E1 as (p1 & E1). destruct (add_inequality_step _ _ _ _ _ _ _ _ W0 (wf_rect _ _ _ _ Wc) E1) as (bv & Eb & W1 & H1). injection Eb as <-.
  assert (I1 : forall x, in_poly p1 x <-> length x = n /\ in_poly c (lower l x)).
  { intros x. rewrite H1, I0, IC. split.
    - intros (Lx & H). split; [exact Lx|]. split; [unfold lower; now rewrite map_length|]. unfold l in H. rewrite coords_filter in H by exact Lx. exact H.
    - intros (Lx & _ & H). split; [exact Lx|]. unfold l. rewrite coords_filter by exact Lx. exact H. }
  unfold pbind. rewrite E1. destruct X as [P|].
  - destruct (WX P eq_refl) as (mx & WP).
    assert (E2 : exists p2, add_inequality (pA P) (D1 (pb P)) None p1 = (Ok tt, p2)).
    { rewrite add_inequality_eq. destruct WP as ((LA & CA & _) & Lb & _). unfold nrows. rewrite LA. cbn [nd_size]. rewrite Lb, Nat.eqb_refl, CA. replace (ncols (pA p1)) with n by (symmetry; apply W1). cbn [keep]. rewrite seq_length, Nat.eqb_refl. eauto. }
    destruct E2 as (p2 & E2). destruct (add_inequality_step _ _ _ _ _ _ _ _ W1 (wf_rect _ _ _ _ WP) E2) as (bv & Eb & W2 & H2). injection Eb as <-. rewrite E2.
    exists p2. split; [reflexivity|]. split; [eauto|]. intros x. rewrite H2, I1. cbn [coords]. unfold in_X. split.
    + intros ((Lx & H) & HP). split; [exact Lx|]. split; [exact H|]. intros Q EQ. injection EQ as <-. unfold in_poly, in_set. destruct WP as ((_ & CA & _) & _ & (LC & _) & Ld). split; [lia|]. split; [exact HP|].
      destruct (pC P) as [kc rc]. cbn in LC. destruct rc; [|discriminate]. destruct (pd P); [|discriminate]. constructor.
    + intros (Lx & H & HP). split; [auto|]. destruct (HP P eq_refl) as (_ & Q & _). exact Q.
  - exists p1. split; [reflexivity|]. split; [eauto|]. intros x. rewrite I1. unfold in_X. split; [|tauto]. intros (Lx & H). split; [exact Lx|]. split; [exact H|discriminate].
Qed.

(** ** Sorting *)
Definition key (p : vec) : R := nth 0 p 0.
Lemma insert1_perm p l : Permutation (insert1 p l) (p :: l).
Proof.
  induction l as [|q l IH]; [reflexivity|]. cbn [insert1]. destruct (Rltb (nth 0 q 0) (nth 0 p 0)); [|reflexivity].
  rewrite IH. apply perm_swap.
Qed.
Lemma sort1_perm l : Permutation (sort1 l) l.
Proof. induction l as [|p l IH]; [reflexivity|]. cbn [sort1 fold_right]. fold (sort1 l). rewrite insert1_perm. now constructor. Qed.
Lemma insert1_sorted p l : StronglySorted (fun p q => key p <= key q) l -> StronglySorted (fun p q => key p <= key q) (insert1 p l).
Proof.
  induction l as [|q l IH]; intros H; cbn [insert1]; [repeat constructor|]. inversion H as [|? ? H1 H2]; subst.
  destruct (Rltb (nth 0 q 0) (nth 0 p 0)) eqn:E.
  - apply Rltb_true in E. constructor; [apply IH; exact H1|]. rewrite Forall_forall in *. intros r Hr. apply (Permutation_in _ (insert1_perm p l)) in Hr. destruct Hr as [<-|Hr]; [unfold key; lra|auto].
  - apply Rltb_false in E. constructor; [exact H|]. constructor; [unfold key; lra|]. rewrite Forall_forall in *. intros r Hr. specialize (H2 r Hr). unfold key in *. lra.
Qed.
Lemma sort1_sorted l : StronglySorted (fun p q => key p <= key q) (sort1 l).
Proof. induction l as [|p l IH]; [constructor|]. cbn [sort1 fold_right]. apply insert1_sorted, IH. Qed.
Lemma sort1_id l : StronglySorted (fun p q => key p < key q) l -> sort1 l = l.
Proof.
  induction 1 as [|p l H IH F]; [reflexivity|]. cbn [sort1 fold_right]. fold (sort1 l). rewrite IH. destruct l as [|q l]; [reflexivity|]. cbn [insert1].
  pose proof (Forall_inv F) as Q. cbn beta in Q. unfold key in Q. assert (E : Rltb (nth 0 q 0) (nth 0 p 0) = false) by (apply Rltb_false; lra). rewrite E. reflexivity.
Qed.
Lemma sorted_strict l : StronglySorted (fun p q => key p <= key q) l -> NoDup (map key l) -> StronglySorted (fun p q => key p < key q) l.
Proof.
  induction 1 as [|p l H IH F]; intros ND; [constructor|]. cbn [map] in ND. inversion ND as [|? ? N1 N2]; subst. constructor; [auto|]. rewrite Forall_forall in *. intros q Hq.
  destruct (F q Hq) as [L|E]; [exact L|]. exfalso. apply N1. rewrite E. apply in_map, Hq.
Qed.
Lemma sorted_nth (P : vec -> vec -> Prop) l : StronglySorted P l -> forall i j, (i < j < length l)%nat -> P (nth i l []) (nth j l []).
Proof.
  induction 1 as [|p l H IH F]; intros i j L; [cbn in L; lia|]. destruct j as [|j]; [lia|]. destruct i as [|i]; cbn [nth].
  - rewrite Forall_forall in F. apply F, nth_In. cbn in L. lia.
  - apply IH. cbn in L. lia.
Qed.

(** ** One dimension *)
Lemma norm1d a b : norm (vsub [a] [b]) = Rabs (a - b).
Proof. unfold norm, vsub. cbn [map2 dot]. replace ((a - b) * (a - b) + 0) with (Rsqr (a - b)) by (unfold Rsqr; ring). apply sqrt_Rsqr_abs. Qed.
Lemma near_left y a b : a < b -> Rabs (y - a) <= Rabs (y - b) <-> y <= (a + b) / 2.
Proof. intros L. unfold Rabs. destruct (Rcase_abs (y - a)); destruct (Rcase_abs (y - b)); split; intros; lra. Qed.
Lemma near_right y a b : a < b -> Rabs (y - b) <= Rabs (y - a) <-> (a + b) / 2 <= y.
Proof. intros L. unfold Rabs. destruct (Rcase_abs (y - a)); destruct (Rcase_abs (y - b)); split; intros; lra. Qed.
Lemma len1 (p : vec) : length p = 1%nat -> p = [key p].
Proof. destruct p as [|a [|]]; try discriminate. reflexivity. Qed.
Lemma neighbours_in l i t : In t (neighbours l i) <-> ((0 < i)%nat /\ t = nth (i - 1) l []) \/ ((i < length l - 1)%nat /\ t = nth (i + 1) l []).
Proof.
  unfold neighbours. rewrite in_app_iff. destruct (Nat.ltb_spec 0 i); destruct (Nat.ltb_spec i (length l - 1)); cbn [In]; intuition (auto; lia).
Qed.
Lemma neighbours_closest l i y : Forall (fun p => length p = 1%nat) l -> StronglySorted (fun p q => key p < key q) l -> (i < length l)%nat -> length y = 1%nat ->
  (forall t, In t (neighbours l i) -> norm (vsub y (nth i l [])) <= norm (vsub y t)) <-> closest (nth i l []) l y.
Proof.
  intros HL HS Hi Ly. assert (L1 : forall j, (j < length l)%nat -> nth j l [] = [key (nth j l [])]). { intros j Hj. apply len1. rewrite Forall_forall in HL. apply HL, nth_In, Hj. }
  destruct y as [|y0 [|]]; try discriminate. assert (ND : forall j, (j < length l)%nat -> norm (vsub [y0] (nth j l [])) = Rabs (y0 - key (nth j l []))) by (intros j Hj; rewrite (L1 j Hj) at 1; apply norm1d).
  assert (SL : forall a b, (a < b < length l)%nat -> key (nth a l []) < key (nth b l [])) by (intros a b Hab; apply (sorted_nth _ l HS a b Hab)).
  split.
  - intros H q Hq. apply (In_nth _ _ []) in Hq. destruct Hq as (j & Hj & <-). rewrite !ND by assumption. destruct (Nat.lt_trichotomy i j) as [Lij|[->|Lij]]; [|apply Rle_refl|].
    + apply near_left; [apply SL; lia|]. specialize (H (nth (i + 1) l [])). rewrite !ND in H by lia. rewrite near_left in H by (apply SL; lia).
      assert (H' : y0 <= (key (nth i l []) + key (nth (i + 1) l [])) / 2) by (apply H, neighbours_in; right; split; [lia|reflexivity]).
      destruct (Nat.eq_dec (i + 1) j) as [<-|N]; [exact H'|]. pose proof (SL (i + 1)%nat j ltac:(lia)). lra.
    + apply near_right; [apply SL; lia|]. specialize (H (nth (i - 1) l [])). rewrite !ND in H by lia. rewrite near_right in H by (apply SL; lia).
      assert (H' : (key (nth (i - 1) l []) + key (nth i l [])) / 2 <= y0) by (apply H, neighbours_in; left; split; [lia|reflexivity]).
      destruct (Nat.eq_dec (i - 1) j) as [<-|N]; [exact H'|]. pose proof (SL j (i - 1)%nat ltac:(lia)). lra.
  - intros H t Ht. apply neighbours_in in Ht. destruct Ht as [(L & ->)|(L & ->)]; apply H, nth_In; lia.
Qed.
Lemma closest_perm p l l' x : (forall q, In q l <-> In q l') -> closest p l x <-> closest p l' x.
Proof. intros H. unfold closest. split; intros C q Hq; apply C, H, Hq. Qed.
Lemma mapM_rel {A B} (f : A -> res B) (Q : A -> B -> Prop) l : (forall a, In a l -> exists b, f a = Ok b /\ Q a b) -> exists bs, mapM f l = Ok bs /\ Forall2 Q l bs.
Proof.
  induction l as [|a l IH]; intros H; [exists []; split; [reflexivity|constructor]|]. destruct (H a (or_introl eq_refl)) as (b & Eb & Qb). destruct IH as (bs & Es & Qs); [intros; apply H; right; assumption|].
  exists (b :: bs). cbn [mapM]. rewrite Eb. cbn [bind]. rewrite Es. split; [reflexivity|auto].
Qed.
Lemma Forall2_seq {B} (P : vec -> B -> Prop) l bs : Forall2 (fun i b => P (nth i l []) b) (seq 0 (length l)) bs -> Forall2 P l bs.
Proof.
  revert bs. induction l as [|a l IH]; intros bs H; cbn [length seq] in H; inversion H as [|? b ? bs' H1 H2]; subst; constructor; [exact H1|]. apply IH.
  clear - H2. rewrite <- seq_shift in H2. remember (seq 0 (length l)) as s eqn:Es. clear Es. revert bs' H2. induction s as [|i s IH]; intros bs' H2; cbn [map] in H2; inversion H2; subst; constructor; [assumption|auto].
Qed.
(** c is the cell of q in the partition of R^n by the points *)
Definition is_cell (n : nat) (points : list vec) (X : option poly) (q : vec) (c : poly) : Prop :=
  (exists m, wf c m 0 n) /\ forall x, in_poly c x <-> length x = n /\ in_X X x /\ closest q points x.
Lemma voronoi_1d_ok points : (2 <= length points)%nat -> Forall (fun p => length p = 1%nat) points -> NoDup (map key points) ->
  exists cells, voronoi_1d points = Ok cells /\ Forall2 (is_cell 1 points None) (sort1 points) cells.
Proof.
  intros L2 HL ND. unfold voronoi_1d. set (s := sort1 points). pose proof (sort1_perm points) as PS. fold s in PS.
  assert (LS : length s = length points) by (apply Permutation_length, PS). assert (FS : Forall (fun p => length p = 1%nat) s) by (rewrite Forall_forall in *; intros p Hp; apply HL; apply (Permutation_in _ PS Hp)).
  assert (SS : StronglySorted (fun p q => key p < key q) s). { apply sorted_strict; [apply sort1_sorted|]. eapply Permutation_NoDup; [|exact ND]. apply Permutation_map. symmetry. exact PS. }
  destruct (mapM_rel (fun i => cell_of (nth i s []) (neighbours s i)) (fun i c => is_cell 1 points None (nth i s []) c) (seq 0 (length s))) as (cells & E & F).
  - intros i Hi. apply in_seq in Hi. rewrite Forall_forall in FS.
    destruct (cell_of_ok (nth i s []) (neighbours s i) 1) as (c & Ec & Wc & Hc).
    + apply FS, nth_In. lia.
    + intros EN. destruct (Nat.eq_dec i 0) as [->|N0].
      * assert (Q : In (nth 1 s []) (neighbours s 0)) by (apply neighbours_in; right; split; [lia|reflexivity]). rewrite EN in Q. contradiction.
      * assert (Q : In (nth (i - 1) s []) (neighbours s i)) by (apply neighbours_in; left; split; [lia|reflexivity]). rewrite EN in Q. contradiction.
    + rewrite Forall_forall. intros t Ht. apply neighbours_in in Ht. destruct Ht as [(Q & ->)|(Q & ->)]; apply FS, nth_In; lia.
    + exists c. split; [exact Ec|]. split; [eauto|]. intros y. rewrite Hc. split.
      * intros (Ly & H). split; [exact Ly|]. split; [discriminate|]. apply (closest_perm _ s points); [intros q; split; apply Permutation_in; [exact PS|symmetry; exact PS]|]. apply neighbours_closest; auto; [rewrite Forall_forall; exact FS|lia].
      * intros (Ly & _ & H). split; [exact Ly|]. apply neighbours_closest; auto; [rewrite Forall_forall; exact FS|lia|]. apply (closest_perm _ s points); [intros q; split; apply Permutation_in; [exact PS|symmetry; exact PS]|exact H].
  - exists cells. split; [exact E|]. apply Forall2_seq. exact F.
Qed.

(** ** Several dimensions *)
(** contract of scipy.spatial.Voronoi: the ridges between point i and other points bound exactly the cell of point i *)
Definition ridges_ok (ridges : list vec -> res (list (nat * nat))) : Prop :=
  forall points rs n, Forall (fun p => length p = n) points -> NoDup points -> ridges points = Ok rs ->
    (forall r, In r rs -> fst r <> snd r /\ (fst r < length points)%nat /\ (snd r < length points)%nat) /\
    forall i x, (i < length points)%nat -> length x = n ->
      (forall j, In (i, j) rs \/ In (j, i) rs -> norm (vsub x (nth i points [])) <= norm (vsub x (nth j points []))) -> closest (nth i points []) points x.
Lemma ridge_tips_in points rs i t : In t (ridge_tips points rs i) <-> exists j, t = nth j points [] /\ ((In (i, j) rs) \/ (j <> i /\ In (j, i) rs)).
Proof.
  unfold ridge_tips. rewrite in_map_iff. split.
  - intros ((a & b) & <- & H). apply filter_In in H. cbn [fst snd] in *. destruct H as (H & Q). destruct (Nat.eqb_spec a i) as [->|N]; [eauto|]. cbn [orb] in Q. apply Nat.eqb_eq in Q. subst b. eauto.
  - intros (j & -> & [H|(N & H)]).
    + exists (i, j). cbn [fst snd]. rewrite Nat.eqb_refl. split; [reflexivity|]. apply filter_In. split; [exact H|]. cbn [fst snd]. now rewrite Nat.eqb_refl.
    + exists (j, i). cbn [fst snd]. destruct (Nat.eqb_spec j i); [contradiction|]. split; [reflexivity|]. apply filter_In. split; [exact H|]. cbn [fst snd]. rewrite Nat.eqb_refl. apply Bool.orb_true_r.
Qed.
Lemma voronoi_nd_ok ridges points n vor : ridges_ok ridges -> (2 <= length points)%nat -> Forall (fun p => length p = n) points -> NoDup points ->
  voronoi_nd ridges points = Ok vor -> Forall2 (is_cell n points None) points vor.
Proof.
  intros RO L2 HL ND E. unfold voronoi_nd in E.
  assert (exists rs, ridges points = Ok rs) as (rs & ER). { destruct (ridges points) as [rs|e] eqn:ER; [eauto|]. destruct points as [|p0 ps]; [cbn in L2; lia|]. cbn in E. discriminate. }
  destruct (RO points rs n HL ND ER) as (RB & RC). rewrite ER in E. cbn [bind] in E.
  assert (HN : forall i, (i < length points)%nat -> length (nth i points []) = n) by (intros i Hi; rewrite Forall_forall in HL; apply HL, nth_In, Hi).
  destruct (mapM_rel (fun i => cell_of (nth i points []) (ridge_tips points rs i)) (fun i c => is_cell n points None (nth i points []) c) (seq 0 (length points))) as (cells & E' & F).
  - intros i Hi. apply in_seq in Hi. assert (Hi' : (i < length points)%nat) by lia.
    assert (C : forall x, length x = n -> (forall t, In t (ridge_tips points rs i) -> norm (vsub x (nth i points [])) <= norm (vsub x t)) -> closest (nth i points []) points x).
    { intros x Lx H. apply RC; [exact Hi'|exact Lx|]. intros j Hj. apply H, ridge_tips_in. exists j. split; [reflexivity|]. destruct Hj as [Hj|Hj]; [auto|]. right. split; [apply (RB _ Hj)|exact Hj]. }
    destruct (cell_of_ok (nth i points []) (ridge_tips points rs i) n) as (c & Ec & Wc & Hc).
    + apply HN, Hi'.
    + intros EN. assert (exists j, (j < length points)%nat /\ j <> i) as (j & Hj & Nij) by (destruct (Nat.eq_dec i 0); [exists 1%nat|exists 0%nat]; lia).
      pose proof (C (nth j points []) (HN j Hj) ltac:(rewrite EN; intros t []) (nth j points []) (nth_In _ _ Hj)) as Q.
      assert (Z : norm (vsub (nth j points []) (nth j points [])) = 0). { apply norm_zero_iff. apply vec_ext; [len|]. intros k Hk. lenh Hk. autorewrite with nthv; [lra|lia..]. }
      rewrite Z in Q. pose proof (norm_nonneg (vsub (nth j points []) (nth i points []))). assert (Z' : norm (vsub (nth j points []) (nth i points [])) = 0) by lra. apply norm_zero_iff in Z'.
      apply Nij. apply (proj1 (NoDup_nth points []) ND j i Hj Hi'). pose proof (HN j Hj) as L1. pose proof (HN i Hi') as L3. apply vec_ext; [lia|]. intros k Hk.
      apply (f_equal (fun v => nth k v 0)) in Z'. autorewrite with nthv in Z'; [lra|lia..].
    + rewrite Forall_forall. intros t Ht. apply ridge_tips_in in Ht. destruct Ht as (j & -> & [H|(_ & H)]); apply HN, (RB _ H).
    + exists c. split; [exact Ec|]. split; [eauto|]. intros y. rewrite Hc. split.
      * intros (Ly & H). split; [exact Ly|]. split; [discriminate|]. apply C; assumption.
      * intros (Ly & _ & H). split; [exact Ly|]. intros t Ht. apply ridge_tips_in in Ht. destruct Ht as (j & -> & [Hr|(_ & Hr)]); apply H, nth_In, (RB _ Hr).
  - rewrite E' in E. injection E as <-. apply Forall2_seq. exact F.
Qed.

(** ** Spread of the points *)
(** all the points have the same coordinate i *)
Definition agree (points : list vec) (i : nat) : Prop := forall p q, In p points -> In q points -> nth i p 0 = nth i q 0.
(** the extreme values of coordinate i are farther apart than the tolerance of np.isclose *)
Definition spread (points : list vec) (i : nat) : Prop :=
  exists p q, In p points /\ In q points /\ (forall r, In r points -> nth i p 0 <= nth i r 0 <= nth i q 0) /\
    / 100000000 + / 100000 * Rabs (nth i q 0) < nth i q 0 - nth i p 0.
Lemma fold_min l : forall a, (fold_left Rmin l a = a \/ In (fold_left Rmin l a) l) /\ fold_left Rmin l a <= a /\ forall b, In b l -> fold_left Rmin l a <= b.
Proof.
  induction l as [|c l IH]; intros a; cbn [fold_left]; [split; [auto|split; [lra|contradiction]]|]. destruct (IH (Rmin a c)) as (H1 & H2 & H3). pose proof (Rmin_l a c). pose proof (Rmin_r a c). split; [|split].
  - destruct H1 as [H1|H1]; [|right; right; exact H1]. rewrite H1. unfold Rmin. destruct (Rle_dec a c); [auto|right; left; reflexivity].
  - lra.
  - intros b [<-|Hb]; [lra|auto].
Qed.
Lemma fold_max l : forall a, (fold_left Rmax l a = a \/ In (fold_left Rmax l a) l) /\ a <= fold_left Rmax l a /\ forall b, In b l -> b <= fold_left Rmax l a.
Proof.
  induction l as [|c l IH]; intros a; cbn [fold_left]; [split; [auto|split; [lra|contradiction]]|]. destruct (IH (Rmax a c)) as (H1 & H2 & H3). pose proof (Rmax_l a c). pose proof (Rmax_r a c). split; [|split].
  - destruct H1 as [H1|H1]; [|right; right; exact H1]. rewrite H1. unfold Rmax. destruct (Rle_dec a c); [right; left; reflexivity|auto].
  - lra.
  - intros b [<-|Hb]; [lra|auto].
Qed.
Lemma lmin_ok l : l <> [] -> In (lmin l) l /\ forall b, In b l -> lmin l <= b.
Proof. destruct l as [|a l]; [congruence|]. intros _. cbn [lmin]. destruct (fold_min l a) as (H1 & H2 & H3). split; [destruct H1 as [->|H1]; cbn; auto|]. intros b [<-|Hb]; auto. Qed.
Lemma lmax_ok l : l <> [] -> In (lmax l) l /\ forall b, In b l -> b <= lmax l.
Proof. destruct l as [|a l]; [congruence|]. intros _. cbn [lmax]. destruct (fold_max l a) as (H1 & H2 & H3). split; [destruct H1 as [->|H1]; cbn; auto|]. intros b [<-|Hb]; auto. Qed.
Definition spread_at (points : list vec) (i : nat) : bool :=
  negb (isclose (lmin (map (fun p => nth i p 0) points)) (lmax (map (fun p => nth i p 0) points))).
Lemma spread_agree points i : agree points i -> spread_at points i = false.
Proof.
  intros H. unfold spread_at. apply Bool.negb_false_iff. unfold isclose, Rleb. destruct (Rle_dec _ _) as [|N]; [reflexivity|]. exfalso. apply N. destruct points as [|p points].
  - cbn. rewrite Rminus_0_r, Rabs_R0. lra.
  - set (l := map (fun p => nth i p 0) (p :: points)). destruct (lmin_ok l ltac:(discriminate)) as (H1 & _). destruct (lmax_ok l ltac:(discriminate)) as (H2 & _). apply in_map_iff in H1, H2.
    destruct H1 as (p1 & <- & I1). destruct H2 as (p2 & <- & I2). rewrite (H p1 p2 I1 I2). unfold Rminus. rewrite Rplus_opp_r, Rabs_R0. pose proof (Rabs_pos (nth i p2 0)). lra.
Qed.
Lemma spread_spread points i : spread points i -> spread_at points i = true.
Proof.
  intros (p & q & Ip & Iq & B & G). unfold spread_at. apply Bool.negb_true_iff. set (l := map (fun p => nth i p 0) points). assert (NE : l <> []) by (intros E; assert (Q : In (nth i p 0) l) by (unfold l; apply in_map_iff; eauto); rewrite E in Q; contradiction).
  assert (E1 : lmin l = nth i p 0). { destruct (lmin_ok l NE) as (H1 & H2). apply in_map_iff in H1. destruct H1 as (p1 & E1 & I1). pose proof (H2 (nth i p 0) ltac:(unfold l; apply in_map_iff; eauto)). pose proof (B p1 I1). lra. }
  assert (E2 : lmax l = nth i q 0). { destruct (lmax_ok l NE) as (H1 & H2). apply in_map_iff in H1. destruct H1 as (p1 & E2 & I1). pose proof (H2 (nth i q 0) ltac:(unfold l; apply in_map_iff; eauto)). pose proof (B p1 I1). lra. }
  rewrite E1, E2. unfold isclose, Rleb. destruct (Rle_dec _ _) as [Q|]; [|reflexivity]. exfalso. rewrite Rabs_minus_sym, Rabs_pos_eq in Q; [lra|]. destruct (B p Ip). lra.
Qed.

(** ** Partition of X *)
Lemma lift_cells X n points f qs vor : Forall (fun p => length p = n) points -> (forall P, X = Some P -> exists mx, wf P mx 0 n) ->
  (forall i, (i < n)%nat -> f i = false -> agree points i) -> (forall q, In q qs -> In q points) ->
  let l := filter f (seq 0 n) in
  Forall2 (is_cell (length l) (map (lower l) points) None) (map (lower l) qs) vor ->
  exists cells, mapM (constrained_cell n l X) vor = Ok cells /\ Forall2 (is_cell n points X) qs cells.
Proof.
  intros HL WX HA HQ l. revert vor. induction qs as [|q qs IH]; intros vor H; cbn [map] in H; inversion H as [|? c ? vor' Hc H']; subst; [exists []; split; [reflexivity|constructor]|].
  destruct Hc as ((m & Wc) & Hc). destruct (constrained_cell_ok f n X c m Wc WX) as (c' & Ec & Wc' & Hc').
  destruct IH with (vor := vor') as (cells & Es & Hs); [intros; apply HQ; right; assumption|exact H'|]. cbn [mapM]. fold l in Ec. rewrite Ec. cbn [bind]. rewrite Es. exists (c' :: cells). split; [reflexivity|]. constructor; [|exact Hs].
  split; [exact Wc'|]. intros x. rewrite Hc'. fold l. rewrite Hc. assert (Iq : In q points) by (apply HQ; left; reflexivity). rewrite Forall_forall in HL. split.
  - intros (Lx & (_ & _ & C) & IX). split; [exact Lx|]. split; [exact IX|]. intros r Ir. apply (lower_dist f x q r n); [exact Lx|apply HL, Iq|apply HL, Ir| |].
    + intros i Hi Fi. apply (HA i Hi Fi); assumption.
    + apply C. apply in_map. exact Ir.
  - intros (Lx & IX & C). split; [exact Lx|]. split; [|exact IX]. split; [unfold lower; now rewrite map_length|]. split; [discriminate|]. intros r Ir. apply in_map_iff in Ir. destruct Ir as (r' & <- & Ir).
    apply (lower_dist f x q r' n); [exact Lx|apply HL, Iq|apply HL, Ir| |apply C, Ir]. intros i Hi Fi. apply (HA i Hi Fi); assumption.
Qed.
Lemma constrained_voronoi_eq ridges points X n : points <> [] -> Forall (fun p => length p = n) points ->
  constrained_voronoi ridges points X =
  (vor <- (if Nat.eqb (length (filter (spread_at points) (seq 0 n))) 1 then voronoi_1d (map (lower (filter (spread_at points) (seq 0 n))) points)
           else voronoi_nd ridges (map (lower (filter (spread_at points) (seq 0 n))) points)) ;;
   mapM (constrained_cell n (filter (spread_at points) (seq 0 n)) X) vor).
Proof.
  intros NE HL. destruct points as [|p0 ps]; [congruence|]. pose proof (Forall_inv HL) as L0. cbn beta in L0.
  assert (FB : forallb (fun p => Nat.eqb (length p) n) (p0 :: ps) = true) by (apply forallb_forall; intros p Hp; rewrite Forall_forall in HL; apply Nat.eqb_eq, HL, Hp).
  unfold constrained_voronoi. rewrite L0, FB. reflexivity.
Qed.
Lemma filter_single f k n : (k < n)%nat -> f k = true -> (forall i, (i < n)%nat -> i <> k -> f i = false) -> filter f (seq 0 n) = [k].
Proof.
  intros Hk Fk H. replace n with (k + S (n - k - 1))%nat by lia. rewrite seq_app, filter_app. cbn [Nat.add seq filter]. rewrite Fk.
  assert (N : forall l, (forall i, In i l -> f i = false) -> filter f l = []). { induction l as [|i l IH]; intros Q; [reflexivity|]. cbn [filter]. rewrite (Q i) by (left; reflexivity). apply IH. intros; apply Q; right; assumption. }
  rewrite !N; [reflexivity|..]; intros i Hi; apply in_seq in Hi; apply H; lia.
Qed.

Lemma vor1_core ridges points X n k : (2 <= length points)%nat -> Forall (fun p => length p = n) points -> NoDup points -> (k < n)%nat ->
  spread points k -> (forall i, (i < n)%nat -> i <> k -> agree points i) -> (forall P, X = Some P -> exists mx, wf P mx 0 n) ->
  exists qs cells, map (lower [k]) qs = sort1 (map (lower [k]) points) /\ NoDup (map key (map (lower [k]) points)) /\
    constrained_voronoi ridges points X = Ok cells /\ Permutation qs points /\ Forall2 (is_cell n points X) qs cells.
Proof.
  intros L2 HL ND Hk HS HA WX. assert (FI : filter (spread_at points) (seq 0 n) = [k]).
  { apply filter_single; [exact Hk|apply spread_spread, HS|]. intros i Hi Ni. apply spread_agree, HA; assumption. }
  assert (NK : NoDup (map key (map (lower [k]) points))).
  { rewrite map_map. assert (KE : forall p, key (lower [k] p) = nth k p 0) by reflexivity. clear - ND HL HA.
    assert (HA' : forall p q, In p points -> In q points -> nth k p 0 = nth k q 0 -> p = q).
    { intros p q Ip Iq E. rewrite Forall_forall in HL. pose proof (HL p Ip) as L1. pose proof (HL q Iq) as L3. apply vec_ext; [lia|]. intros i Hi. destruct (Nat.eq_dec i k) as [->|N]; [exact E|]. apply (HA i ltac:(lia) N); assumption. }
    clear HA HL. induction ND as [|p l Np ND IH]; [constructor|]. cbn [map]. constructor.
    - intros H. apply in_map_iff in H. destruct H as (q & E & Iq). cbn in E. apply Np. rewrite <- (HA' q p); [exact Iq|right; exact Iq|left; reflexivity|exact E].
    - apply IH. intros; apply HA'; [right|right|]; assumption. }
  destruct (voronoi_1d_ok (map (lower [k]) points)) as (vor & EV & FV); [now rewrite map_length|rewrite Forall_forall; intros p Hp; apply in_map_iff in Hp; destruct Hp as (r & <- & _); reflexivity|exact NK|].
  destruct (Permutation_map_inv _ _ (sort1_perm (map (lower [k]) points))) as (qs & EQ & PQ).
  rewrite EQ in FV. destruct (lift_cells X n points (spread_at points) qs vor) as (cells & EC & FC); auto.
  - intros i Hi Fi. destruct (Nat.eq_dec i k) as [->|N]; [rewrite (spread_spread _ _ HS) in Fi; discriminate|auto].
  - intros q Iq. apply (Permutation_in _ (Permutation_sym PQ)), Iq.
  - rewrite FI. exact FV.
  - exists qs, cells. split; [symmetry; exact EQ|]. split; [exact NK|]. split; [|split; [symmetry; exact PQ|exact FC]].
    rewrite (constrained_voronoi_eq _ _ _ n) by (try assumption; intros ->; cbn in L2; lia). rewrite FI in *. cbn [length Nat.eqb]. rewrite EV. cbn [bind]. exact EC.
Qed.
(*@ Theorem C56_one_dimension_partial : distinct points that differ in one coordinate k only (by more than the tolerance of isclose between the extremes), X a polyhedron without equalities or None: constrained_voronoi returns one cell per point, and each cell contains exactly the points of X that are closest to its generator; the generators of the cells are the given points in increasing order of coordinate k, hence in the given order if this was increasing.
   Missing: the given order (see C56_order_refuted), equalities of X and small spreads (see the refutations). *)
Lemma vor_1d ridges points X n k : (2 <= length points)%nat -> Forall (fun p => length p = n) points -> NoDup points -> (k < n)%nat ->
  spread points k -> (forall i, (i < n)%nat -> i <> k -> agree points i) -> (forall P, X = Some P -> exists mx, wf P mx 0 n) ->
  exists qs cells, constrained_voronoi ridges points X = Ok cells /\ Permutation qs points /\
    (forall i j, (i < j < length qs)%nat -> nth k (nth i qs []) 0 < nth k (nth j qs []) 0) /\
    Forall2 (is_cell n points X) qs cells /\
    ((forall i j, (i < j < length points)%nat -> nth k (nth i points []) 0 < nth k (nth j points []) 0) -> qs = points).
Proof.
  intros L2 HL ND Hk HS HA WX. destruct (vor1_core ridges points X n k L2 HL ND Hk HS HA WX) as (qs & cells & EQ & NK & E & PQ & F). exists qs, cells. split; [exact E|]. split; [exact PQ|].
  assert (SS : StronglySorted (fun p q => key p < key q) (map (lower [k]) qs)).
  { rewrite EQ. apply sorted_strict; [apply sort1_sorted|]. eapply Permutation_NoDup; [|exact NK]. apply Permutation_map. symmetry. apply sort1_perm. }
  assert (KN : forall l i, (i < length l)%nat -> key (nth i (map (lower [k]) l) []) = nth k (nth i l []) 0). { intros l i Hi. rewrite (nth_indep _ [] (lower [k] [])) by (rewrite map_length; exact Hi). rewrite map_nth. reflexivity. }
  split; [|split; [exact F|]].
  - intros i j Hij. pose proof (sorted_nth _ _ SS i j ltac:(rewrite map_length; lia)) as Q. cbn beta in Q. rewrite !KN in Q by lia. exact Q.
  - intros HI. assert (SP : StronglySorted (fun p q => key p < key q) (map (lower [k]) points)).
    { assert (G : forall l, (forall i j, (i < j < length l)%nat -> nth k (nth i l []) 0 < nth k (nth j l []) 0) -> StronglySorted (fun p q => key p < key q) (map (lower [k]) l)).
      { induction l as [|p l IH]; intros H; cbn [map]; constructor.
        - apply IH. intros i j Hij. apply (H (S i) (S j)). cbn [length]. lia.
        - rewrite Forall_forall. intros q Hq. apply in_map_iff in Hq. destruct Hq as (r & <- & Ir). apply (In_nth _ _ []) in Ir. destruct Ir as (j & Hj & <-). apply (H 0%nat (S j)). cbn [length]. lia. }
      apply G, HI. }
    rewrite (sort1_id _ SP) in EQ. assert (LQ : length qs = length points) by (apply Permutation_length, PQ).
    apply nth_ext with (d := []) (d' := []); [exact LQ|]. intros i Hi. assert (Iq : In (nth i qs []) points) by (apply (Permutation_in _ PQ), nth_In, Hi). assert (Ip : In (nth i points []) points) by (apply nth_In; lia).
    rewrite Forall_forall in HL. pose proof (HL _ Iq) as La. pose proof (HL _ Ip) as Lb. apply vec_ext; [lia|]. intros j Hj. destruct (Nat.eq_dec j k) as [->|N]; [|apply (HA j ltac:(lia) N); assumption].
    pose proof (KN qs i Hi) as K1. pose proof (KN points i ltac:(lia)) as K2. rewrite EQ in K1. congruence.
Qed.
(*@ Theorem C56_many_dimensions : distinct points that differ in several coordinates (in each coordinate they agree or differ by more than the tolerance of isclose), X without equalities or None, ridges computed by a Voronoi routine meeting its contract: if constrained_voronoi returns, cell i contains exactly the points of X closest to points[i] *)
Lemma vor_nd ridges points X n cells : ridges_ok ridges -> (2 <= length points)%nat -> Forall (fun p => length p = n) points -> NoDup points ->
  (forall i, (i < n)%nat -> agree points i \/ spread points i) ->
  (exists i j, (i < j < n)%nat /\ spread points i /\ spread points j) -> (forall P, X = Some P -> exists mx, wf P mx 0 n) ->
  constrained_voronoi ridges points X = Ok cells -> Forall2 (is_cell n points X) points cells.
Proof.
  intros RO L2 HL ND HD (a & b & Hab & Sa & Sb) WX E. rewrite (constrained_voronoi_eq _ _ _ n) in E by (try assumption; intros ->; cbn in L2; lia). set (l := filter (spread_at points) (seq 0 n)) in *.
  assert (HA : forall i, (i < n)%nat -> spread_at points i = false -> agree points i). { intros i Hi Fi. destruct (HD i Hi) as [A|S]; [exact A|]. rewrite (spread_spread _ _ S) in Fi. discriminate. }
  assert (LL : Nat.eqb (length l) 1 = false).
  { apply Nat.eqb_neq. assert (Ia : In a l) by (apply filter_In; split; [apply in_seq; lia|apply spread_spread, Sa]). assert (Ib : In b l) by (apply filter_In; split; [apply in_seq; lia|apply spread_spread, Sb]).
    destruct l as [|c [|d l']]; cbn in *; try lia. }
  rewrite LL in E. destruct (voronoi_nd ridges (map (lower l) points)) as [vor|] eqn:EV; [|discriminate]. cbn [bind] in E.
  assert (INJ : forall p q, In p points -> In q points -> lower l p = lower l q -> p = q).
  { intros p q Ip Iq Q. rewrite Forall_forall in HL. pose proof (HL p Ip) as L1. pose proof (HL q Iq) as L3. apply vec_ext; [lia|]. intros i Hi. destruct (spread_at points i) eqn:Fi; [|apply (HA i ltac:(lia) Fi); assumption].
    assert (Il : In i l) by (apply filter_In; split; [apply in_seq; lia|exact Fi]). unfold lower in Q. clear - Q Il. induction l as [|j l IH]; [contradiction|]. cbn [map] in Q. injection Q as Q1 Q2. destruct Il as [->|Il]; auto. }
  assert (FV : Forall2 (is_cell (length l) (map (lower l) points) None) (map (lower l) points) vor).
  { apply (voronoi_nd_ok ridges); [exact RO|now rewrite map_length| | |exact EV].
    - rewrite Forall_forall. intros p Hp. apply in_map_iff in Hp. destruct Hp as (r & <- & _). unfold lower. now rewrite map_length.
    - clearbody l. clear - ND INJ. induction ND as [|p ps Np ND IH]; cbn [map]; constructor.
      + intros H. apply in_map_iff in H. destruct H as (q & Q & Iq). apply Np. rewrite <- (INJ q p); [exact Iq|right; exact Iq|left; reflexivity|exact Q].
      + apply IH. intros; apply INJ; [right|right|]; assumption. }
  destruct (lift_cells X n points (spread_at points) points vor HL WX HA ltac:(auto) FV) as (cells' & EC & FC). fold l in EC. rewrite EC in E. injection E as <-. exact FC.
Qed.
(*@ Theorem C56_cover : cells that contain exactly the points of X closest to their generators (as in the two theorems above) cover X *)
Lemma vor_cover n points X qs cells x : points <> [] -> Permutation qs points -> Forall2 (is_cell n points X) qs cells -> length x = n -> in_X X x -> exists c, In c cells /\ in_poly c x.
Proof.
  intros NE PQ F Lx IX. assert (exists q, In q points /\ closest q points x) as (q & Iq & Cq).
  { clear - NE. induction points as [|p ps IH]; [congruence|]. destruct ps as [|p' ps].
    - exists p. split; [left; reflexivity|]. intros r [<-|[]]. lra.
    - destruct IH as (q & Iq & Cq); [discriminate|]. destruct (Rle_dec (norm (vsub x p)) (norm (vsub x q))) as [L|L].
      + exists p. split; [left; reflexivity|]. intros r [<-|Ir]; [lra|]. specialize (Cq r Ir). lra.
      + exists q. split; [right; exact Iq|]. intros r [<-|Ir]; [lra|]. apply Cq, Ir. }
  apply (Permutation_in _ (Permutation_sym PQ)) in Iq. clear NE PQ. induction F as [|q' c qs cells Hc F IH]; [contradiction|]. destruct Iq as [->|Iq].
  - exists c. split; [left; reflexivity|]. apply Hc. auto.
  - destruct (IH Iq) as (c' & Ic & Pc). exists c'. split; [right; exact Ic|exact Pc].
Qed.

(** ** Piecewise affine approximation of a plant *)
Definition mode_dom (n : nat) (points : list vec) (X U : poly) (q : vec) (D : poly) : Prop :=
  forall x u, length x = n -> in_poly D (x ++ u) <-> in_poly X x /\ closest q points x /\ in_poly U u.
Lemma plant_core ridges np taylor points X U h method n mu meu nu qs cells W : wf U mu meu nu ->
  constrained_voronoi ridges points (Some X) = Ok cells -> Forall2 (is_cell n points (Some X)) qs cells ->
  pwa_from_plant ridges np taylor points X U h method = Ok W ->
  Forall2 (fun p S => let '(A, B, f0) := taylor p in aff_from_continuous np A B (D1 f0) h method = Ok S) points (w_sys W) /\
  Forall2 (mode_dom n points X U) qs (w_dom W).
Proof.
  intros WU EV FC E. unfold pwa_from_plant in E. rewrite EV in E. cbn [bind] in E.
  destruct (mapM (fun Xi => cartesian_product Xi U) cells) as [doms|] eqn:ED; [|discriminate]. cbn [bind] in E.
  destruct (mapM (fun x => let '(A, B, f0) := taylor x in aff_from_continuous np A B (D1 f0) h method) points) as [ss|] eqn:ES; [|discriminate]. cbn [bind] in E.
  unfold PieceWiseAffineSystem in E. destruct (negb _); [discriminate|]. destruct (only _) as [nx|]; [|discriminate]. destruct (only _) as [nu'|]; [|discriminate]. destruct (only _) as [nxu|]; [|discriminate]. destruct (negb _); [discriminate|].
  rewrite (mapM_map _ (fun s => match s with Aff s => s | Lin _ => ASys (Mat 0 []) (Mat 0 []) [] end)) in E by (intros a Ha; apply in_map_iff in Ha; destruct Ha as (s & <- & _); reflexivity). cbn [bind] in E. injection E as <-. cbn [w_sys w_dom].
  rewrite map_map, map_id. split.
  - clear - ES. revert ss ES. induction points as [|p ps IH]; intros ss ES; cbn [mapM] in ES; [injection ES as <-; constructor|].
    destruct (let '(A, B, f0) := taylor p in _) as [s|] eqn:E1; [|discriminate]. cbn [bind] in ES. destruct (mapM _ ps) as [ss'|] eqn:E2; [|discriminate]. cbn [bind] in ES. injection ES as <-. constructor; [destruct (taylor p) as [[? ?] ?]; exact E1|]. apply IH. reflexivity.
  - clear ES EV. revert doms ED. induction FC as [|q c qs cells Hc FC IH]; intros doms ED; cbn [mapM] in ED; [injection ED as <-; constructor|].
    destruct Hc as ((m & Wc) & Hc). destruct (cartesian_product_ok c U m 0 n mu meu nu Wc WU) as (D & E1 & _ & HD). rewrite E1 in ED. cbn [bind] in ED. destruct (mapM _ cells) as [ds|] eqn:E2; [|discriminate]. cbn [bind] in ED. injection ED as <-. constructor; [|apply IH; reflexivity].
    intros x u Lx. rewrite (HD x u Lx), Hc. split.
    + intros ((_ & I & C) & IU). split; [apply I; reflexivity|auto].
    + intros (I & C & IU). split; [|exact IU]. split; [exact Lx|]. split; [|exact C]. intros P EP. injection EP as <-. exact I.
Qed.
(*@ Theorem C56_plant_one_dimension_partial : linearization points that differ in one coordinate, listed in increasing order: in the PWA system returned by pwa_from_RigidBodyPlant, mode i is the discretized linearization at point i, on the product of the states of X closest to point i and of U.
   Missing: points in another order (see C56_plant_refuted) *)
Lemma plant_1d ridges np taylor points X U h method n k mx mu meu nu W : (2 <= length points)%nat -> Forall (fun p => length p = n) points -> (k < n)%nat ->
  spread points k -> (forall i, (i < n)%nat -> i <> k -> agree points i) -> wf X mx 0 n -> wf U mu meu nu ->
  (forall i j, (i < j < length points)%nat -> nth k (nth i points []) 0 < nth k (nth j points []) 0) ->
  pwa_from_plant ridges np taylor points X U h method = Ok W ->
  Forall2 (fun p S => let '(A, B, f0) := taylor p in aff_from_continuous np A B (D1 f0) h method = Ok S) points (w_sys W) /\
  Forall2 (fun p D => forall x u, length x = n -> in_poly D (x ++ u) <-> in_poly X x /\ closest p points x /\ in_poly U u) points (w_dom W).
Proof.
  intros L2 HL Hk HS HA WX WU HI E.
  assert (ND : NoDup points). { apply (NoDup_nth points []). intros i j Hi Hj Q. destruct (Nat.lt_trichotomy i j) as [L|[L|L]]; [|exact L|]; [pose proof (HI i j ltac:(lia))|pose proof (HI j i ltac:(lia))]; rewrite Q in *; lra. }
  destruct (vor_1d ridges points (Some X) n k L2 HL ND Hk HS HA) as (qs & cells & EV & _ & _ & F & EQ); [intros P Q; injection Q as <-; eauto|]. rewrite (EQ HI) in F.
  exact (plant_core _ _ _ _ _ _ _ _ _ _ _ _ _ _ _ WU EV F E).
Qed.
(*@ Theorem C56_plant_many_dimensions : the same for points that differ in several coordinates, in any order, for a Voronoi routine meeting its contract *)
Lemma plant_nd ridges np taylor points X U h method n mx mu meu nu W : ridges_ok ridges -> (2 <= length points)%nat -> Forall (fun p => length p = n) points -> NoDup points ->
  (forall i, (i < n)%nat -> agree points i \/ spread points i) -> (exists i j, (i < j < n)%nat /\ spread points i /\ spread points j) -> wf X mx 0 n -> wf U mu meu nu ->
  pwa_from_plant ridges np taylor points X U h method = Ok W ->
  Forall2 (fun p S => let '(A, B, f0) := taylor p in aff_from_continuous np A B (D1 f0) h method = Ok S) points (w_sys W) /\
  Forall2 (fun p D => forall x u, length x = n -> in_poly D (x ++ u) <-> in_poly X x /\ closest p points x /\ in_poly U u) points (w_dom W).
Proof.
  intros RO L2 HL ND HD H2 WX WU E. assert (exists cells, constrained_voronoi ridges points (Some X) = Ok cells) as (cells & EV). { unfold pwa_from_plant in E. destruct (constrained_voronoi ridges points (Some X)) as [c|]; [eauto|discriminate]. }
  pose proof (vor_nd ridges points (Some X) n cells RO L2 HL ND HD H2) as F. refine (plant_core _ _ _ _ _ _ _ _ _ _ _ _ _ _ _ WU EV (F _ EV) E). intros P Q; injection Q as <-; eauto.
Qed.

(** ** Examples and refutations *)
Lemma mapM_exists {A B} (f : A -> res B) l : (forall a, In a l -> exists b, f a = Ok b) -> exists ys, mapM f l = Ok ys.
Proof. intros H. destruct (mapM_rel f (fun _ _ => True) l) as (ys & E & _); [intros a Ha; destruct (H a Ha); eauto|eauto]. Qed.
Lemma spread2 a b i : nth i a 0 <= nth i b 0 -> / 100000000 + / 100000 * Rabs (nth i b 0) < nth i b 0 - nth i a 0 -> spread [a; b] i.
Proof. intros H G. exists a, b. split; [left; reflexivity|]. split; [right; left; reflexivity|]. split; [|exact G]. intros r [<-|[<-|[]]]; lra. Qed.
Lemma spread2' a b i : nth i b 0 <= nth i a 0 -> / 100000000 + / 100000 * Rabs (nth i a 0) < nth i a 0 - nth i b 0 -> spread [a; b] i.
Proof. intros H G. exists b, a. split; [right; left; reflexivity|]. split; [left; reflexivity|]. split; [|exact G]. intros r [<-|[<-|[]]]; lra. Qed.
Lemma norm1 a : norm [a] = Rabs a.
Proof. unfold norm. cbn. rewrite Rplus_0_r. apply sqrt_Rsqr_abs. Qed.
Definition seg (a b : R) : poly := Poly (Mat 1 [[-1]; [1]]) [- a; b] (Mat 1 []) [] None None None None None.
Lemma seg_wf a b : wf (seg a b) 2 0 1.
Proof. unfold wf, shape, seg; cbn. repeat split; repeat constructor. Qed.
Lemma seg_in a b x : in_poly (seg a b) [x] <-> a <= x <= b.
Proof.
  unfold in_poly, in_set, ineq_holds, eq_holds, seg. cbn. split.
  - intros (_ & H & _). inversion H as [|? ? ? ? H1 H2]; subst. inversion H2 as [|? ? ? ? H3 H4]; subst. cbn in *. lra.
  - intros H. split; [reflexivity|]. split; [|constructor]. apply Forall2_cons; [cbn; lra|]. apply Forall2_cons; [cbn; lra|]. apply Forall2_nil.
Qed.
Lemma two_eq a b qs : Permutation qs [[a]; [b]] -> (forall i j, (i < j < length qs)%nat -> nth 0 (nth i qs []) 0 < nth 0 (nth j qs []) 0) -> b < a -> qs = [[b]; [a]].
Proof.
  intros P S L. pose proof (Permutation_length P) as LQ. destruct qs as [|q1 [|q2 [|? ?]]]; try discriminate. pose proof (S 0%nat 1%nat ltac:(cbn; lia)) as Q. cbn in Q.
  apply Permutation_length_2 in P. destruct P as [(-> & ->)|(-> & ->)]; [cbn in Q; lra|reflexivity].
Qed.
Lemma vor_two ridges a b X : / 100000000 + / 100000 * Rabs a < a - b -> (forall P, X = Some P -> exists mx, wf P mx 0 1) ->
  exists cells, constrained_voronoi ridges [[a]; [b]] X = Ok cells /\ Forall2 (is_cell 1 [[a]; [b]] X) [[b]; [a]] cells.
Proof.
  intros H WX. assert (L : b < a) by (pose proof (Rabs_pos a); lra).
  destruct (vor_1d ridges [[a]; [b]] X 1 0) as (qs & cells & E & P & S & F & _).
  - cbn; lia.
  - repeat constructor.
  - repeat constructor; cbn; [|tauto]. intros [Q|[]]. injection Q. lra.
  - lia.
  - apply spread2'; cbn; [lra|exact H].
  - intros i Hi Ni. lia.
  - exact WX.
  - exists cells. split; [exact E|]. rewrite <- (two_eq a b qs P S L). exact F.
Qed.
(*@ Theorem C56_order_refuted : the cells of constrained_voronoi are not in the order of the points: for the points 1 and 0 the first cell contains -3, which is not closest to the point 1 *)
Lemma vor_order_refuted ridges : exists points cells, Forall (fun p => length p = 1%nat) points /\ NoDup points /\
  constrained_voronoi ridges points (Some (seg (-5) 5)) = Ok cells /\ exists x, in_poly (nth 0 cells (seg 0 0)) x /\ ~ closest (nth 0 points []) points x.
Proof.
  destruct (vor_two ridges 1 0 (Some (seg (-5) 5))) as (cells & E & F); [rewrite Rabs_pos_eq; lra|intros P Q; injection Q as <-; eexists; apply seg_wf|].
  exists [[1]; [0]], cells. split; [repeat constructor|]. split; [repeat constructor; cbn; [intros [Q|[]]; injection Q; lra|tauto]|]. split; [exact E|]. exists [-3].
  inversion F as [|? c ? cs (_ & Hc) F1]; subst. cbn [nth]. split.
  - apply Hc. split; [reflexivity|]. split; [intros P Q; injection Q as <-; apply seg_in; lra|]. intros q [<-|[<-|[]]]; cbn [vsub map2]; rewrite !norm1; unfold Rabs; repeat destruct Rcase_abs; lra.
  - intros Q. specialize (Q [0] ltac:(cbn; auto)). cbn [vsub map2] in Q. rewrite !norm1 in Q. unfold Rabs in Q. repeat destruct Rcase_abs in Q; lra.
Qed.
(*@ Theorem C56_equalities_refuted : the equalities of X are ignored: with X = {2} a cell contains -3 *)
Lemma vor_equalities_refuted ridges : let X := Poly (Mat 1 [[-1]; [1]]) [5; 5] (Mat 1 [[1]]) [2] None None None None None in
  exists cells c x, wf X 2 1 1 /\ constrained_voronoi ridges [[1]; [0]] (Some X) = Ok cells /\ In c cells /\ in_poly c x /\ ~ in_poly X x.
Proof.
  intros X. destruct (vor_two ridges 1 0 (Some (Poly (Mat 1 [[-1]; [1]]) [5; 5] (Mat 1 []) [] None None None None None))) as (cells & E & F); [rewrite Rabs_pos_eq; lra|intros P Q; injection Q as <-; exists 2%nat; unfold wf, shape; cbn; repeat split; repeat constructor|].
  inversion F as [|? c ? cs (_ & Hc) F1]; subst. exists (c :: cs), c, [-3]. split; [unfold wf, shape; cbn; repeat split; repeat constructor|]. split; [exact E|]. split; [left; reflexivity|]. split.
  - apply Hc. split; [reflexivity|]. split.
    + intros P Q; injection Q as <-. unfold in_poly, in_set, ineq_holds, eq_holds. cbn. split; [reflexivity|]. split; [|apply Forall2_nil]. apply Forall2_cons; [cbn; lra|]. apply Forall2_cons; [cbn; lra|]. apply Forall2_nil.
    + intros q [<-|[<-|[]]]; cbn [vsub map2]; rewrite !norm1; unfold Rabs; repeat destruct Rcase_abs; lra.
  - intros (_ & _ & Q). unfold eq_holds, X in Q. cbn in Q. inversion Q as [|? ? ? ? Q1]; subst. cbn in Q1. lra.
Qed.
(*@ Theorem C56_isclose_refuted : a coordinate with a small relative spread is dropped: for the points (0,1000) and (1,1000.009), the cell of the second contains (0.9,900), which is closer to the first *)
Lemma vor_isclose_refuted ridges : let p := [0; 1000] in let q := [1; 1000 + 9 / 1000] in let x := [9 / 10; 900] in
  exists c1 c2, constrained_voronoi ridges [p; q] None = Ok [c1; c2] /\ in_poly c2 x /\ norm (vsub x p) < norm (vsub x q).
Proof.
  intros p q x. assert (FI : filter (spread_at [p; q]) (seq 0 2) = [0%nat]).
  { apply filter_single; [lia|apply spread_spread, spread2; cbn; [lra|rewrite Rabs_pos_eq; lra]|]. intros i Hi Ni. replace i with 1%nat by lia.
    unfold spread_at, p, q. cbn [map nth lmin lmax fold_left]. apply Bool.negb_false_iff. rewrite Rmin_left, Rmax_right by lra. unfold isclose, Rleb. destruct (Rle_dec _ _) as [|N]; [reflexivity|]. exfalso. apply N. rewrite Rabs_minus_sym, !Rabs_pos_eq; lra. }
  rewrite (constrained_voronoi_eq _ _ _ 2) by (try discriminate; repeat constructor).
  destruct (voronoi_1d_ok (map (lower [0%nat]) [p; q])) as (vor & EV & FV); [cbn; lia|repeat constructor|cbn; repeat constructor; cbn; [intros [Q|[]]; unfold key in Q; cbn in Q; lra|tauto]|].
  assert (ES : sort1 (map (lower [0%nat]) [p; q]) = [[0]; [1]]). { cbn. assert (Q : Rltb 1 0 = false) by (apply Rltb_false; lra). rewrite Q. reflexivity. }
  rewrite ES in FV. inversion FV as [|? d1 ? ds ((m1 & W1) & H1) FV1]; subst. inversion FV1 as [|? d2 ? ds' ((m2 & W2) & H2) FV2]; subst. inversion FV2; subst.
  pose proof (constrained_cell_ok (spread_at [p; q]) 2 None d1 m1) as CC1. pose proof (constrained_cell_ok (spread_at [p; q]) 2 None d2 m2) as CC2. rewrite FI in *.
  destruct (CC1 W1 ltac:(discriminate)) as (c1 & E1 & _ & _). destruct (CC2 W2 ltac:(discriminate)) as (c2 & E2 & _ & I2). exists c1, c2. split.
  - cbn [length Nat.eqb]. rewrite EV. cbn [bind mapM]. rewrite E1. cbn [bind]. rewrite E2. reflexivity.
  - split.
    + apply I2. split; [reflexivity|]. split; [|discriminate]. apply H2. split; [reflexivity|]. split; [discriminate|]. intros r [<-|[<-|[]]]; cbn; rewrite !norm1; unfold Rabs; repeat destruct Rcase_abs; lra.
    + apply Rnot_le_lt. intros Q. apply norm_le_sqr in Q. cbn in Q. lra.
Qed.
Definition taylor1 (x : vec) : mat * mat * vec := (Mat 1 [[nth 0 x 0]], Mat 1 [[1]], [0]).
Lemma taylor1_ok p : exists S, (let '(A, B, f0) := taylor1 p in aff_from_continuous np0 A B (D1 f0) 1 "explicit_euler") = Ok S /\ anx S = 1%nat /\ anu S = 1%nat /\ aA S = Mat 1 [[1 + nth 0 p 0]].
Proof.
  unfold taylor1. assert (X : forall M, nrows M = 1%nat -> ncols M = 1%nat -> check_affine_system M (Mat 1 [[1]]) (Some (D1 [0])) (Some 1) = Ok tt).
  { intros M H1 H2. unfold check_affine_system. rewrite H1, H2. cbn. assert (Q : Rltb 1 0 = false) by (apply Rltb_false; lra). rewrite Q. reflexivity. }
  unfold aff_from_continuous, explicit_euler. rewrite !X by reflexivity. cbn [bind]. change (String.eqb "explicit_euler" "zero_order_hold") with false. change (String.eqb "explicit_euler" "explicit_euler") with true. cbv iota. cbn [bind].
  eexists. split; [reflexivity|]. split; [reflexivity|]. split; [reflexivity|]. unfold madd, mscale, eye. cbn [aA rows nrows ncols length seq map]. unfold vadd, unit, vscale. cbn. f_equal. f_equal. f_equal. ring.
Qed.
Lemma plant_runs ridges points X U n mx mu meu cells qs : points <> [] -> n = 1%nat -> length qs = length points -> wf X mx 0 n -> wf U mu meu 1 -> constrained_voronoi ridges points (Some X) = Ok cells -> Forall2 (is_cell n points (Some X)) qs cells ->
  exists W, pwa_from_plant ridges np0 taylor1 points X U 1 "explicit_euler" = Ok W.
Proof.
  intros NE -> LQ WX WU EV F. unfold pwa_from_plant. rewrite EV. cbn [bind].
  destruct (mapM_rel (fun Xi => cartesian_product Xi U) (fun _ D => ncols (pA D) = 2%nat) cells) as (ds & ED & FD).
  { intros c Ic. assert (exists m, wf c m 0 1) as (m & Wc). { clear - F Ic. induction F as [|? c' ? ? (H & _)]; [contradiction|]. destruct Ic as [->|Ic]; auto. }
    destruct (cartesian_product_ok c U m 0 1 mu meu 1 Wc WU) as (D & E & ((_ & Q & _) & _) & _). eauto. }
  rewrite ED. cbn [bind].
  destruct (mapM_rel (fun x => let '(A, B, f0) := taylor1 x in aff_from_continuous np0 A B (D1 f0) 1 "explicit_euler") (fun _ S => anx S = 1%nat /\ anu S = 1%nat) points) as (ss & ES & FS).
  { intros p _. destruct (taylor1_ok p) as (S & E & H1 & H2 & _). eauto. }
  rewrite ES. cbn [bind]. pose proof (Forall2_len _ _ _ FS) as L1. pose proof (Forall2_len _ _ _ FD) as L2. pose proof (Forall2_len _ _ _ F) as L3.
  assert (A1 : forall s, In s ss -> anx s = 1%nat /\ anu s = 1%nat). { clear - FS. induction FS as [|? ? ? ? H]; [contradiction|]. intros s [<-|Hs]; auto. }
  assert (A2 : forall d, In d ds -> ncols (pA d) = 2%nat). { clear - FD. induction FD as [|? ? ? ? H]; [contradiction|]. intros s [<-|Hs]; auto. }
  assert (NP : (0 < length points)%nat) by (destruct points; [congruence|cbn; lia]).
  unfold PieceWiseAffineSystem. rewrite map_length. replace (Nat.eqb (length ss) (length ds)) with true by (symmetry; apply Nat.eqb_eq; lia). cbn [negb].
  rewrite map_map. cbn [sys_nx]. assert (O1 : only (map (fun s => anx s) ss) = Some 1%nat). { apply only_spec. split; [destruct ss; [cbn in *; lia|discriminate]|]. intros k Hk. apply in_map_iff in Hk. destruct Hk as (s & <- & Is). apply A1, Is. }
  rewrite map_map. cbn [sys_nu]. assert (O2 : only (map (fun s => anu s) ss) = Some 1%nat). { apply only_spec. split; [destruct ss; [cbn in *; lia|discriminate]|]. intros k Hk. apply in_map_iff in Hk. destruct Hk as (s & <- & Is). apply A1, Is. }
  assert (O3 : only (map (fun d => ncols (pA d)) ds) = Some 2%nat). { apply only_spec. split; [destruct ds; [cbn in *; lia|discriminate]|]. intros k Hk. apply in_map_iff in Hk. destruct Hk as (s & <- & Is). apply A2, Is. }
  rewrite O1, O2, O3. cbn [Nat.add Nat.eqb negb]. rewrite (mapM_map _ (fun s => match s with Aff s => s | Lin _ => ASys (Mat 0 []) (Mat 0 []) [] end)) by (intros a Ha; apply in_map_iff in Ha; destruct Ha as (s & <- & _); reflexivity). cbn [bind]. eauto.
Qed.
(*@ Theorem C56_plant_refuted : for the linearization points 1 and 0 (dynamics x' = x_i x + u at x_i) the state -3 belongs to the domain of mode 0 only, although it is closer to the second point, and mode 0 has the dynamics of the first point *)
Lemma plant_refuted ridges : exists W, pwa_from_plant ridges np0 taylor1 [[1]; [0]] (seg (-5) 5) (seg (-1) 1) 1 "explicit_euler" = Ok W /\
  in_poly (nth 0 (w_dom W) (seg 0 0)) [-3; 0] /\ ~ in_poly (nth 1 (w_dom W) (seg 0 0)) [-3; 0] /\ aA (nth 0 (w_sys W) (ASys (Mat 0 []) (Mat 0 []) [])) = Mat 1 [[1 + 1]] /\
  norm (vsub [-3] [0]) < norm (vsub [-3] [1]).
Proof.
  destruct (vor_two ridges 1 0 (Some (seg (-5) 5))) as (cells & E & F); [rewrite Rabs_pos_eq; lra|intros P Q; injection Q as <-; eexists; apply seg_wf|].
  destruct (plant_runs ridges [[1]; [0]] (seg (-5) 5) (seg (-1) 1) 1 2 2 0 cells [[0]; [1]]) as (W & EW); auto using seg_wf; [discriminate|].
  destruct (plant_core _ _ _ _ _ _ _ _ _ _ _ _ _ _ _ (seg_wf (-1) 1) E F EW) as (FS & FD). exists W. split; [exact EW|].
  assert (NN : norm (vsub [-3] [0]) < norm (vsub [-3] [1])) by (cbn [vsub map2]; rewrite !norm1; unfold Rabs; repeat destruct Rcase_abs; lra).
  inversion FD as [|? D0 ? ? HD0 FD1 E3 E4]; subst. inversion FD1 as [|? D1' ? ? HD1 FD2 E5 E6]; subst. inversion FS as [|? S0 ? ? HS0 FS1 E7 E8]; subst. cbn [nth]. split; [|split; [|split; [|exact NN]]].
  - apply (HD0 [-3] [0] eq_refl). split; [apply seg_in; lra|]. split; [|apply seg_in; lra]. intros q [<-|[<-|[]]]; lra.
  - intros Q. apply (HD1 [-3] [0] eq_refl) in Q. destruct Q as (_ & Q & _). specialize (Q [0] ltac:(cbn; auto)). lra.
  - destruct (taylor1_ok [1]) as (S & ES & _ & _ & EA). cbn [nth] in EA. rewrite <- EA. f_equal. unfold taylor1 in ES, HS0. cbv beta iota in ES, HS0. congruence.
Qed.
(*@ Example C56_example : the points (0,3), (1,3), (4,3) with a box: the hypotheses of C56_one_dimension_partial hold; the first two of these and (0,5): those of C56_many_dimensions with all the pairs as ridges; the points 0 and 1: pwa_from_RigidBodyPlant returns a system *)
Lemma vor_example : let points := [[0; 3]; [1; 3]; [4; 3]] in let X := Poly (Mat 2 [[1; 0]; [-1; 0]; [0; 1]; [0; -1]]) [5; 5; 5; 5] (Mat 2 []) [] None None None None None in
  let all := fun points : list vec => Ok (filter (fun r => negb (Nat.eqb (fst r) (snd r))) (list_prod (seq 0 (length points)) (seq 0 (length points)))) in
  let three := [[0; 3]; [1; 3]; [0; 5]] in
  (NoDup points /\ spread points 0 /\ agree points 1 /\ wf X 4 0 2) /\
  (ridges_ok all /\ NoDup three /\ spread three 0 /\ spread three 1 /\ exists cells, constrained_voronoi all three (Some X) = Ok cells) /\
  (spread [[0]; [1]] 0 /\ exists W, pwa_from_plant all np0 taylor1 [[0]; [1]] (seg (-5) 5) (seg (-1) 1) 1 "explicit_euler" = Ok W).
Proof.
  intros points X all three.
  assert (WX : wf X 4 0 2) by (unfold wf, shape, X; cbn; repeat split; repeat constructor).
  assert (S3 : spread three 0). { exists [0; 3], [1; 3]. split; [cbn; auto|]. split; [cbn; auto|]. split; [intros r [<-|[<-|[<-|[]]]]; cbn; lra|cbn; rewrite Rabs_pos_eq; lra]. }
  assert (S4 : spread three 1). { exists [0; 3], [0; 5]. split; [cbn; auto|]. split; [cbn; auto|]. split; [intros r [<-|[<-|[<-|[]]]]; cbn; lra|cbn; rewrite Rabs_pos_eq; lra]. }
  split; [|split].
  - split; [|split; [|split; [|exact WX]]].
    + repeat constructor; cbn; intuition; match goal with H : _ :: _ = _ :: _ |- _ => injection H; lra end.
    + exists [0; 3], [4; 3]. split; [cbn; auto|]. split; [cbn; auto|]. split; [intros r [<-|[<-|[<-|[]]]]; cbn; lra|cbn; rewrite Rabs_pos_eq; lra].
    + intros p q [<-|[<-|[<-|[]]]] [<-|[<-|[<-|[]]]]; reflexivity.
  - split; [|split; [|split; [exact S3|split; [exact S4|]]]].
    + intros ps rs n HL ND E. injection E as <-. split.
      * intros [i j] H. apply filter_In in H. destruct H as (H & N). apply in_prod_iff in H. rewrite !in_seq in H. cbn in *. apply Bool.negb_true_iff, Nat.eqb_neq in N. lia.
      * intros i x Hi Lx H q Iq. apply (In_nth _ _ []) in Iq. destruct Iq as (j & Hj & <-). destruct (Nat.eq_dec i j) as [->|N]; [lra|]. apply H. left. apply filter_In. split; [apply in_prod_iff; rewrite !in_seq; lia|]. cbn. apply Bool.negb_true_iff, Nat.eqb_neq, N.
    + repeat constructor; cbn; intuition; match goal with H : _ :: _ = _ :: _ |- _ => injection H; lra end.
    + rewrite (constrained_voronoi_eq _ _ _ 2) by (try discriminate; repeat constructor). cbn [seq filter]. rewrite (spread_spread _ _ S3), (spread_spread _ _ S4). cbn [length Nat.eqb].
      assert (exists vor, voronoi_nd all (map (lower [0; 1]%nat) three) = Ok vor /\ Forall2 (fun _ c => exists m, wf c m 0 2) (seq 0 3) vor) as (vor & EV & FV).
      { unfold voronoi_nd. change (length (map (lower [0; 1]%nat) three)) with 3%nat. apply mapM_rel. intros i Hi. apply in_seq in Hi. unfold all. cbn [bind].
        destruct (cell_of_ok (nth i (map (lower [0; 1]%nat) three) []) (ridge_tips (map (lower [0; 1]%nat) three) (filter (fun r => negb (Nat.eqb (fst r) (snd r))) (list_prod (seq 0 (length (map (lower [0; 1]%nat) three))) (seq 0 (length (map (lower [0; 1]%nat) three))))) i) 2) as (c & Ec & Wc & _); [| |..]; destruct i as [|[|[|]]]; try lia; try reflexivity; try discriminate; try (repeat constructor); eauto. }
      rewrite EV. cbn [bind].
      change [0%nat; 1%nat] with (filter (fun _ => true) (seq 0 2)). apply mapM_exists. intros c Ic. assert (exists m, wf c m 0 2) as (m & Wc). { clear - FV Ic. induction FV as [|? c' ? ? H]; [contradiction|]. destruct Ic as [->|Ic]; auto. }
      destruct (constrained_cell_ok (fun _ => true) 2 (Some X) c m Wc) as (c' & Ec & _); [intros P Q; injection Q as <-; eauto|]. eauto.
  - assert (S5 : spread [[0]; [1]] 0) by (apply spread2; cbn; [lra|rewrite Rabs_pos_eq; lra]). split; [exact S5|].
    destruct (vor_1d all [[0]; [1]] (Some (seg (-5) 5)) 1 0) as (qs & cells & E & P & _ & F & _); [cbn; lia|repeat constructor|repeat constructor; cbn; [intros [Q|[]]; injection Q; lra|tauto]|lia|exact S5|intros; lia|intros P Q; injection Q as <-; eexists; apply seg_wf|].
    apply (plant_runs all [[0]; [1]] (seg (-5) 5) (seg (-1) 1) 1 2 2 0 cells qs); auto using seg_wf; [discriminate|apply Permutation_length, P].
Qed.
