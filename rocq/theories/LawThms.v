(** * LawThms: the optimizer of the parametric program on the whole feasible set: finitely many affine pieces, Lipschitz (C81), proofs *)
From Coq Require Import ZArith Classical.
From Verif Require Import Arr ArrFacts Spec SpecMpc Numpy Pnnls PnnlsFacts QpFacts GeomUtils Polyhedron PolyThms Oracle SolverThms NullFacts PolySolveThms PolyMore PolyChebThms SpecDyn Dynamics DynThms CondenseThms LqrThms Mpqp MpqpThms Controllers CtrlThms VertThms ContThms.

(** ** Minimizers and multipliers exist wherever the program is feasible: the solver finds them with a small enough tolerance *)
Lemma minimizer_kkt np q nu nx m x v : exact_np np -> MpqpThms.coherent q nu nx m -> length x = nx -> q_feasible q x v -> exists u l, q_minimizer q x u /\ q_multipliers q x u l.
Proof.
  intros (Hn & _ & Hc & Hi & _) Hq Lx Fv. destruct (free_minimizer q nu nx m x Hq) as (v0 & L0 & E0). pose proof Hq as (H1 & PD & H2 & H3 & L1 & L2 & H4 & H5 & L3 & H6 & M1 & M2).
  assert (L4 : length (mv (q_Hux q) x) = nu) by (rewrite mv_length; apply H2). assert (L5 : length (mv (q_Ax q) x) = m) by (rewrite mv_length; apply H5).
  set (f := vadd (mv (q_Hux q) x) (q_fu q)) in *. set (b := vsub (q_b q) (mv (q_Ax q) x)). assert (Lf : length f = nu) by (unfold f; len). assert (Lb : length b = m) by (unfold b; len).
  assert (EA : eq_args nu None None (zmat 0 nu) []) by (right; auto). assert (HZ : shape (zmat 0 nu) 0 nu) by apply shape_zmat.
  assert (FS : forall v, q_feasible q x v <-> in_set (q_Au q) b (zmat 0 nu) [] v) by (intros w; apply (q_feasible_split q nu nx m x w Hq Lx)).
  assert (Lv : length v = nu) by (rewrite (proj1 Fv); apply H4).
  set (d := dot (vsub v v0) (mv (q_Huu q) (vsub v v0))). assert (Hd : 0 <= d) by (apply (proj2 (pd_psd _ _ PD)); rewrite vsub_length; lia).
  set (tol := / (2 + d)). assert (T : 0 < tol) by (apply Rinv_0_lt_compat; lra).
  assert (SM : tol * tol * (1 + d) < 1).
  { assert (E : tol * (2 + d) = 1) by (unfold tol; field; lra). assert (tol * (1 + d) < 1) by lra. assert (tol < 1) by nra. nra. }
  destruct (qp_none_iff np tol (q_Huu q) f (q_Au q) b None None (zmat 0 nu) [] m 0 nu v0 Hn Hc Hi T H1 PD H4 Lb HZ eq_refl Lf EA L0 E0) as (s & Es & N1 & N2).
  assert (NS : s <> sol_none) by (intros G; apply (proj1 N2 G); exists v; split; [apply FS, Fv|exact SM]).
  destruct (s_argmin s) as [u|] eqn:Ea.
  - destruct (qp_optimality np tol (q_Huu q) f (q_Au q) b None None (zmat 0 nu) [] m 0 nu s u Hn Hc Hi ltac:(lra) H1 PD H4 Lb HZ eq_refl Lf EA Es Ea) as ((F & O) & U & Emin & l & nn & El & _ & Ll & _ & Hl & St & Cs).
    apply FS in F. assert (Lu : length u = nu) by (rewrite (proj1 F); apply H4). exists u, l.
    assert (HM : q_multipliers q x u l).
    { split; [lia|]. split; [exact Hl|]. split.
      - intros w Lw. rewrite (proj1 (proj2 H4)) in Lw. specialize (St w Lw). unfold f in St. assert (L6 : length (mv (q_Huu q) u) = nu) by (rewrite mv_length; apply H1).
        rewrite !dot_vadd_l in St by len. replace (dot nn (mv (zmat 0 nu) w)) with 0 in St by (rewrite mv_zmat; destruct nn; reflexivity). lra.
      - intros i Hi'. rewrite L3 in Hi'. specialize (Cs i ltac:(lia)). unfold b in Cs. rewrite nth_vsub in Cs by lia. rewrite nth_mv in Cs. unfold row in *. etransitivity; [|exact Cs]. ring. }
    split; [apply (kkt_minimizer q nu nx m x u l Hq Lx F HM)|exact HM].
  - exfalso. apply NS. apply N1. rewrite (quadratic_program_core _ _ _ _ _ _ _ _ (zmat 0 nu) [] m nu H4 EA) in Es.
    destruct (qp_core_spec np tol (q_Huu q) f (q_Au q) b (zmat 0 nu) [] m 0 nu Hn Hc Hi H1 PD H4 Lb HZ eq_refl Lf) as (u & l & nn & r & E' & _). rewrite E' in Es. injection Es as <-.
    destruct (Rltb tol r); [discriminate|reflexivity].
Qed.

(** ** Multipliers with independent rows *)
Definition nz (l : vec) (i : nat) : bool := if Req_EM_T (nth i l 0) 0 then false else true.
Definition supp (m : nat) (l : vec) : list nat := filter (nz l) (seq 0 m).
Lemma nz_spec l i : nz l i = true <-> nth i l 0 <> 0.
Proof. unfold nz. destruct (Req_EM_T (nth i l 0) 0); split; congruence. Qed.
Lemma in_supp m l i : In i (supp m l) <-> (i < m)%nat /\ nth i l 0 <> 0.
Proof. unfold supp. rewrite filter_In, in_seq, nz_spec. split; intros (H & G); split; try exact G; lia. Qed.
Lemma supp_nodup m l : NoDup (supp m l).
Proof. apply NoDup_filter, seq_NoDup. Qed.
Fixpoint emb (m : nat) (act : list nat) (y : vec) : vec :=
  match act, y with a :: act', c :: y' => vadd (vscale c (unit m a)) (emb m act' y') | _, _ => zeros m end.
Lemma emb_length m act : forall y, length (emb m act y) = m.
Proof. induction act as [|a act IH]; intros [|c y]; cbn [emb]; try apply zeros_length. rewrite vadd_length, vscale_length, unit_length, IH. lia. Qed.
Lemma emb_dot m act : forall y w, length w = m -> (forall i, In i act -> (i < m)%nat) -> dot (emb m act y) w = dot y (vtake w act).
Proof.
  induction act as [|a act IH]; intros [|c y] w Lw H; cbn [emb vtake map dot]; try (autorewrite with dotx; reflexivity).
  rewrite dot_vadd_l by (rewrite vscale_length, unit_length, emb_length; reflexivity). rewrite IH by (auto; intros; apply H; right; assumption). autorewrite with dotx. rewrite dot_unit by (auto; apply H; left; reflexivity). reflexivity.
Qed.
Lemma emb_out m act i : forall y, ~ In i act -> nth i (emb m act y) 0 = 0.
Proof.
  destruct (Nat.lt_ge_cases i m) as [Hi|Hi]; [|intros y _; apply nth_overflow; rewrite emb_length; exact Hi].
  induction act as [|a act IH]; intros [|c y] H; cbn [emb]; try apply nth_zeros. rewrite nth_vadd_in by (rewrite vadd_length, vscale_length, unit_length, emb_length; lia).
  rewrite IH by (intros G; apply H; right; exact G). rewrite nth_vscale, nth_unit by exact Hi. destruct (Nat.eqb_spec i a) as [->|]; [destruct H; left; reflexivity|ring].
Qed.
Lemma emb_in m act : forall y j, NoDup act -> (forall i, In i act -> (i < m)%nat) -> length y = length act -> (j < length act)%nat -> nth (nth j act 0%nat) (emb m act y) 0 = nth j y 0.
Proof.
  induction act as [|a act IH]; intros [|c y] j ND H L Hj; try discriminate L; [cbn in Hj; lia|]. inversion ND as [|? ? Na ND']; subst. cbn [emb].
  assert (Hm : forall i, In i act -> (i < m)%nat) by (intros; apply H; right; assumption).
  destruct j as [|j]; cbn [nth].
  - rewrite nth_vadd_in by (rewrite vadd_length, vscale_length, unit_length, emb_length, Nat.min_id; apply H; left; reflexivity). rewrite emb_out by exact Na. rewrite nth_vscale, nth_unit by (apply H; left; reflexivity). rewrite Nat.eqb_refl. ring.
  - cbn in Hj, L. assert (I : In (nth j act 0%nat) act) by (apply nth_In; lia).
    rewrite nth_vadd_in by (rewrite vadd_length, vscale_length, unit_length, emb_length, Nat.min_id; apply Hm, I). rewrite IH by (auto; lia). rewrite nth_vscale, nth_unit by (apply Hm, I). destruct (Nat.eqb_spec (nth j act 0%nat) a) as [E|]; [destruct Na; rewrite <- E; exact I|ring].
Qed.
Lemma argmin_list (l : list nat) (f : nat -> R) : l <> [] -> exists k, In k l /\ forall i, In i l -> f k <= f i.
Proof.
  induction l as [|a l IH]; intros H; [congruence|]. destruct l as [|b l]; [exists a; split; [left; reflexivity|]; intros i [->|[]]; lra|].
  destruct IH as (k & Ik & Hk); [discriminate|]. destruct (Rle_lt_dec (f a) (f k)) as [G|G].
  - exists a. split; [left; reflexivity|]. intros i [->|Hi]; [lra|]. specialize (Hk i Hi). lra.
  - exists k. split; [right; exact Ik|]. intros i [->|Hi]; [lra|apply Hk, Hi].
Qed.
(** one step: a dependence among the rows with nonzero multipliers removes one of them *)
Lemma reduce_support m l y : length l = m -> nonneg l -> length y = m -> (forall i, nth i l 0 = 0 -> nth i y 0 = 0) -> (exists i, 0 < nth i y 0) ->
  exists t, nonneg (vsub l (vscale t y)) /\ (length (supp m (vsub l (vscale t y))) < length (supp m l))%nat /\ forall i, nth i l 0 = 0 -> nth i (vsub l (vscale t y)) 0 = 0.
Proof.
  intros Ll Hl Ly H0 (i0 & Hi0). set (pos := filter (fun i => if Rlt_dec 0 (nth i y 0) then true else false) (seq 0 m)).
  assert (HP : forall i, In i pos <-> (i < m)%nat /\ 0 < nth i y 0). { intros i. unfold pos. rewrite filter_In, in_seq. destruct (Rlt_dec 0 (nth i y 0)); split; intros (A & B); split; try assumption; try lia; try discriminate; lra. }
  assert (I0 : (i0 < m)%nat). { destruct (Nat.lt_ge_cases i0 m) as [|G]; [assumption|]. rewrite nth_overflow in Hi0 by lia. lra. }
  destruct (argmin_list pos (fun i => nth i l 0 / nth i y 0)) as (k & Ik & Hk). { intros E. assert (In i0 pos) as G by (apply HP; auto). rewrite E in G. destruct G. }
  apply HP in Ik. destruct Ik as (Km & Ky). set (t := nth k l 0 / nth k y 0). exists t.
  assert (Lk : 0 <= nth k l 0) by (apply nonneg_nth, Hl). assert (Ht : 0 <= t) by (apply Rmult_le_pos; [exact Lk|left; apply Rinv_0_lt_compat, Ky]).
  assert (N : forall i, nth i (vsub l (vscale t y)) 0 = nth i l 0 - t * nth i y 0) by (intros i; rewrite nth_vsub by (rewrite vscale_length; lia); rewrite nth_vscale; reflexivity).
  split; [|split].
  - apply nonneg_of_nth. intros i Hi. rewrite N. pose proof (nonneg_nth l i Hl) as Li. destruct (Rle_lt_dec (nth i y 0) 0) as [G|G]; [nra|].
    assert (Im : (i < m)%nat) by (rewrite vsub_length, vscale_length in Hi; lia). specialize (Hk i (proj2 (HP i) (conj Im G))). cbn beta in Hk. fold t in Hk.
    assert (t * nth i y 0 <= nth i l 0); [|lra]. apply Rle_trans with (nth i l 0 / nth i y 0 * nth i y 0); [apply Rmult_le_compat_r; lra|right; field; lra].
  - assert (Z : nth k (vsub l (vscale t y)) 0 = 0) by (rewrite N; unfold t; field; lra).
    assert (Kl : nth k l 0 <> 0) by (intros E; apply H0 in E; lra).
    apply (NoDup_incl_length (l := k :: supp m (vsub l (vscale t y)))).
    + constructor; [|apply supp_nodup]. rewrite in_supp, Z. tauto.
    + intros i [<-|Hi]; apply in_supp; [split; assumption|]. apply in_supp in Hi. destruct Hi as (Im & Hi). split; [exact Im|]. intros E. apply Hi. rewrite N, E, (H0 i E). ring.
  - intros i E. rewrite N, E, (H0 i E). ring.
Qed.
Lemma dot_mtake q nu nx m act y v : MpqpThms.coherent q nu nx m -> (forall i, In i act -> (i < m)%nat) -> length y = length act -> length v = nu ->
  dot (emb m act y) (mv (q_Au q) v) = dot (mv (tr (mtake (q_Au q) act)) y) v.
Proof.
  intros (_ & _ & _ & _ & _ & _ & H4 & _) Hm Ly Lv. rewrite emb_dot by (auto; rewrite mv_length; apply H4).
  rewrite (dot_mv_tr (mtake (q_Au q) act) (length act) nu) by (auto; apply (shape_mtake (q_Au q) m); assumption). f_equal. unfold vtake, mtake, mv, row. cbn [rows]. rewrite !map_map. apply map_ext. intros i. exact (map_nth (fun r => dot r v) (rows (q_Au q)) [] i).
Qed.
Lemma independent_multipliers q nu nx m x u : MpqpThms.coherent q nu nx m -> forall k l, q_multipliers q x u l -> (length (supp m l) <= k)%nat ->
  exists l', q_multipliers q x u l' /\ indep_rows (mtake (q_Au q) (supp m l')) (length (supp m l')).
Proof.
  intros Hq. pose proof Hq as (_ & _ & _ & _ & _ & _ & H4 & H5 & L3 & _). induction k as [|k IH]; intros l HM Hk.
  - exists l. split; [exact HM|]. destruct (supp m l) as [|a r]; [|cbn in Hk; lia]. intros [|] L _; [reflexivity|discriminate L].
  - destruct (classic (indep_rows (mtake (q_Au q) (supp m l)) (length (supp m l)))) as [G|G]; [exists l; auto|].
    apply not_all_ex_not in G. destruct G as (y & G). apply imply_to_and in G. destruct G as (Ly & G). apply imply_to_and in G. destruct G as (Ey & Ny).
    assert (SS : forall i, In i (supp m l) -> (i < m)%nat) by (intros i Hi; apply in_supp in Hi; apply Hi).
    pose proof HM as (Ll & Hl & St & Cs).
    assert (DZ : forall v, length v = nu -> dot (emb m (supp m l) y) (mv (q_Au q) v) = 0).
    { intros v Lv. rewrite (dot_mtake q nu nx m) by assumption. rewrite Ey. autorewrite with dotx. reflexivity. }
    assert (RED : forall z, length z = m -> (forall i, nth i l 0 = 0 -> nth i z 0 = 0) -> (exists i, 0 < nth i z 0) -> (forall v, length v = nu -> dot z (mv (q_Au q) v) = 0) ->
      exists l', q_multipliers q x u l' /\ indep_rows (mtake (q_Au q) (supp m l')) (length (supp m l'))).
    { intros z Lz Hz Pz Dz. destruct (reduce_support m l z ltac:(lia) Hl Lz Hz Pz) as (t & R1 & R2 & R3). apply (IH (vsub l (vscale t z))); [|lia].
      split; [rewrite vsub_length, vscale_length; lia|]. split; [exact R1|]. split.
      - intros v Lv. rewrite dot_vsub_l by (rewrite ?vscale_length, ?mv_length; lia || (rewrite vscale_length; lia)). autorewrite with dotx. rewrite Dz by (rewrite Lv; apply H4). specialize (St v Lv). lra.
      - intros i Hi. destruct (Req_dec (nth i l 0) 0) as [E|E]; [rewrite (R3 i E); ring|]. specialize (Cs i Hi). apply Rmult_integral in Cs. destruct Cs as [|Cs]; [contradiction|]. rewrite Cs. ring. }
    assert (EO : forall i, nth i l 0 = 0 -> nth i (emb m (supp m l) y) 0 = 0) by (intros i E; apply emb_out; rewrite in_supp; tauto).
    assert (EX : exists j, (j < length y)%nat /\ nth j y 0 <> 0).
    { apply NNPP. intros N. apply Ny. apply vec_ext; [rewrite zeros_length; exact Ly|]. intros j Hj. rewrite nth_zeros.
      apply NNPP. intros E. apply N. exists j. auto. }
    destruct EX as (j & Hj & NE). assert (EI : nth (nth j (supp m l) 0%nat) (emb m (supp m l) y) 0 = nth j y 0) by (apply emb_in; [apply supp_nodup|exact SS|exact Ly|lia]).
    destruct (Rlt_le_dec 0 (nth j y 0)) as [P|P].
    + apply (RED (emb m (supp m l) y)); [apply emb_length|exact EO|eexists; rewrite EI; exact P|exact DZ].
    + apply (RED (vscale (-1) (emb m (supp m l) y))); [rewrite vscale_length; apply emb_length|intros i E; rewrite nth_vscale, (EO i E); ring|exists (nth j (supp m l) 0%nat); rewrite nth_vscale, EI; lra|].
      intros v Lv. autorewrite with dotx. rewrite (DZ v Lv). ring.
Qed.

(** ** All regions *)
Fixpoint subs {A} (l : list A) : list (list A) := match l with [] => [[]] | a :: l' => map (cons a) (subs l') ++ subs l' end.
Lemma subs_length {A} (l : list A) : length (subs l) = (2 ^ length l)%nat.
Proof. induction l as [|a l IH]; [reflexivity|]. cbn [subs length Nat.pow]. rewrite app_length, map_length, IH. lia. Qed.
Lemma filter_subs {A} (f : A -> bool) l : In (filter f l) (subs l).
Proof. induction l as [|a l IH]; [left; reflexivity|]. cbn [filter subs]. apply in_or_app. destruct (f a); [left; apply in_map, IH|right; exact IH]. Qed.
Definition all_regions np q m : list critical_region := flat_map (fun act => match explicit_solve_given_active_set np q act with Ok (Some c) => [c] | _ => [] end) (subs (seq 0 m)).
Lemma all_regions_in np q m c : In c (all_regions np q m) -> exists act, explicit_solve_given_active_set np q act = Ok (Some c).
Proof.
  unfold all_regions. intros H. apply in_flat_map in H. destruct H as (act & _ & H). exists act. destruct (explicit_solve_given_active_set np q act) as [[c'|]|]; [|destruct H|destruct H]. destruct H as [->|[]]. reflexivity.
Qed.
Lemma flat_map_short {A B} (f : A -> list B) l : (forall a, (length (f a) <= 1)%nat) -> (length (flat_map f l) <= length l)%nat.
Proof. intros H. induction l as [|a l IH]; [cbn; lia|]. cbn [flat_map length]. rewrite app_length. specialize (H a). lia. Qed.
Lemma all_regions_length np q m : (length (all_regions np q m) <= 2 ^ m)%nat.
Proof.
  unfold all_regions. eapply Nat.le_trans; [apply flat_map_short|rewrite subs_length, seq_length; lia]. intros act. destruct (explicit_solve_given_active_set np q act) as [[c|]|]; cbn; lia.
Qed.
Lemma same_region_refl c : same_region c c.
Proof. unfold same_region. repeat split. Qed.
Lemma all_regions_ok np q m : Forall (fun c' => exists act c, explicit_solve_given_active_set np q act = Ok (Some c) /\ same_region c c') (all_regions np q m).
Proof. apply Forall_forall. intros c Hc. destruct (all_regions_in np q m c Hc) as (act & E). exists act, c. split; [exact E|apply same_region_refl]. Qed.
Lemma all_regions_cover np Huu Hux Hxx fu fx g Au Ax b nu nx m q x v :
  exact_np np -> mp_data Huu Hux Hxx fu fx Au Ax b nu nx m -> MultiParametricQuadraticProgram np Huu Hux Hxx fu fx g Au Ax b = Ok q -> length x = nx ->
  mp_feasible Au Ax b x v -> exists c, In c (all_regions np q m) /\ in_poly (cr_poly c) x.
Proof.
  intros Hnp D E Lx Fv. destruct (constructed _ _ _ _ _ _ _ _ _ _ _ _ _ _ Hnp D E) as (Hq & Hi & Eq).
  assert (Fq : q_feasible q x v) by (rewrite Eq; exact Fv). destruct (minimizer_kkt np q nu nx m x v Hnp Hq Lx Fq) as (u & l & (Fu & _) & HM).
  destruct (independent_multipliers q nu nx m x u Hq (length (supp m l)) l HM (le_n _)) as (l' & HM' & Ind). set (act := supp m l') in *.
  destruct (region_returned np Huu Hux Hxx fu fx g Au Ax b nu nx m Hnp D) as (q' & E' & RR). rewrite E in E'. injection E' as <-.
  assert (AO : forall i, In i act -> (i < m)%nat) by (intros i Hi'; apply in_supp in Hi'; apply Hi').
  assert (EA : exists cr, explicit_solve_given_active_set np q act = Ok (Some cr)). { destruct (RR act) as (_ & R2). apply R2; [exact AO|]. rewrite Eq in Ind. exact Ind. }
  destruct EA as (cr & EC). exists cr. split.
  - unfold all_regions. apply in_flat_map. exists act. split; [apply filter_subs|]. rewrite EC. left. reflexivity.
  - apply (region_exact np Huu Hux Hxx fu fx g Au Ax b nu nx m q act cr x Hnp D E EC Lx). pose proof D as (_ & _ & _ & _ & _ & _ & _ & _ & Lb).
    rewrite Eq in Fu, HM'. exists u, l'. split; [exact Fu|]. split; [exact HM'|]. destruct HM' as (Ll & _ & _ & Cs). cbn [q_b q_Au q_Ax] in *. split.
    + intros i Hi'. apply in_supp in Hi'. destruct Hi' as (Im & Ni). specialize (Cs i ltac:(lia)). apply Rmult_integral in Cs. destruct Cs as [Cs|Cs]; [contradiction|lra].
    + intros i Ni. apply NNPP. intros N. apply Ni, in_supp. split; [|exact N]. destruct (Nat.lt_ge_cases i m) as [|G]; [assumption|]. destruct N. apply nth_overflow. lia.
Qed.

(** ** Pieces with a common Lipschitz constant along a segment *)
Lemma norm_tri3 a b c n : length a = n -> length b = n -> length c = n -> norm (vsub a c) <= norm (vsub a b) + norm (vsub b c).
Proof.
  intros La Lb Lc. replace (vsub a c) with (vadd (vsub a b) (vsub b c)); [apply norm_triangle; rewrite !vsub_length; lia|].
  apply vec_ext; [rewrite vadd_length, !vsub_length; lia|]. intros i Hi. rewrite nth_vadd_in by exact Hi. rewrite !nth_vsub by lia. ring.
Qed.
Lemma norm_anti a b n : length a = n -> length b = n -> norm (vsub a b) = norm (vsub b a).
Proof. intros La Lb. rewrite <- (norm_vneg (vsub b a)). f_equal. apply vec_ext; [rewrite vneg_length, !vsub_length; lia|]. intros i Hi. rewrite nth_vneg, !nth_vsub by lia. ring. Qed.
Section Segment.
Variables (T : Type) (In1 : T -> R -> Prop) (F : T -> R -> vec) (n : nat) (L : R).
Hypothesis HL : 0 <= L.
Hypothesis Flen : forall c s, length (F c s) = n.
Lemma lip_segment k : forall (ps : list T) a b, (length ps <= k)%nat -> a <= b ->
  (forall s, a <= s <= b -> exists c, In c ps /\ In1 c s) ->
  (forall c s t, In c ps -> In1 c s -> In1 c t -> a <= s <= b -> a <= t <= b -> norm (vsub (F c s) (F c t)) <= L * Rabs (s - t)) ->
  (forall c s, In c ps -> a <= s <= b -> ~ In1 c s -> exists d, 0 < d /\ forall t, Rabs (t - s) < d -> ~ In1 c t) ->
  (forall c s eps, In c ps -> a <= s <= b -> In1 c s -> 0 < eps -> exists d, 0 < d /\ forall c' t, In c' ps -> a <= t <= b -> In1 c' t -> Rabs (t - s) < d -> norm (vsub (F c' t) (F c s)) <= eps) ->
  forall c c', In c ps -> In c' ps -> In1 c a -> In1 c' b -> norm (vsub (F c a) (F c' b)) <= L * (b - a).
Proof.
  induction k as [|k IH]; intros ps a b Hk Hab HC HLip HCl HCo c c' Ic Ic' Ha Hb; [destruct ps; [destruct Ic|cbn in Hk; lia]|].
  destruct (completeness (fun s => a <= s <= b /\ In1 c s)) as (z & Ub & Lub); [exists b; intros s (H & _); lra|exists a; split; [lra|exact Ha]|].
  assert (Za : a <= z) by (apply Ub; split; [lra|exact Ha]). assert (Zb : z <= b) by (apply Lub; intros s (H & _); lra).
  assert (Iz : In1 c z).
  { apply NNPP. intros N. destruct (HCl c z Ic ltac:(lra) N) as (d & Pd & Hd). assert (z <= z - d / 2); [|lra]. apply Lub. intros s (Hs & Is). destruct (Rle_lt_dec s (z - d / 2)) as [|G]; [assumption|exfalso].
    assert (s <= z) by (apply Ub; split; assumption). apply (Hd s); [|exact Is]. unfold Rabs. destruct (Rcase_abs _); lra. }
  assert (G1 : norm (vsub (F c a) (F c z)) <= L * (z - a)) by (eapply Rle_trans; [apply (HLip c a z); auto; lra|]; right; f_equal; unfold Rabs; destruct (Rcase_abs _); lra).
  assert (OUT : forall s, z < s -> s <= b -> ~ In1 c s) by (intros s H1 H2 Is; assert (s <= z) by (apply Ub; split; [lra|exact Is]); lra).
  apply Rle_trans with (L * (z - a) + L * (b - z)); [|right; ring]. eapply Rle_trans; [apply (norm_tri3 (F c a) (F c z) (F c' b) n); apply Flen|]. apply Rplus_le_compat; [exact G1|].
  apply le_epsilon. intros eps He. destruct (HCo c z eps Ic ltac:(lra) Iz He) as (d & Pd & Hd).
  destruct (Req_dec z b) as [E|E].
  - subst z. specialize (Hd c' b Ic' ltac:(lra) Hb). rewrite Rminus_diag_eq, Rabs_R0 in Hd by reflexivity. specialize (Hd Pd).
    assert (norm (vsub (F c b) (F c' b)) <= eps); [|nra]. eapply Rle_trans; [|exact Hd]. right. apply (norm_anti _ _ n); apply Flen.
  - set (s := Rmin (z + d / 2) b). assert (Hs : z < s <= b) by (unfold s; split; [apply Rmin_glb_lt; lra|apply Rmin_r]).
    assert (Hsd : Rabs (s - z) < d) by (assert (s <= z + d / 2) by apply Rmin_l; unfold Rabs; destruct (Rcase_abs _); lra).
    destruct (in_split c ps Ic) as (l1 & l2 & Eps). 
    assert (SUB : forall e, In e (l1 ++ l2) -> In e ps) by (intros e He'; rewrite Eps; apply in_app_or in He'; apply in_or_app; destruct He'; [left|right; right]; assumption).
    assert (PUT : forall e t, In e ps -> In1 e t -> z < t <= b -> In e (l1 ++ l2)).
    { intros e t Ie It Ht. rewrite Eps in Ie. apply in_app_or in Ie. apply in_or_app. destruct Ie as [Ie|[->|Ie]]; [left; exact Ie|destruct (OUT t ltac:(lra) ltac:(lra) It)|right; exact Ie]. }
    destruct (HC s ltac:(lra)) as (e & Ie & Is).
    assert (G2 : norm (vsub (F e s) (F c' b)) <= L * (b - s)).
    { apply (IH (l1 ++ l2) s b); [rewrite Eps, app_length in Hk; rewrite app_length; cbn in Hk; lia|lra| | | | |apply (PUT e s); auto; lra|apply (PUT c' b); auto; lra|exact Is|exact Hb].
      - intros t Ht. destruct (HC t ltac:(lra)) as (e' & Ie' & It). exists e'. split; [apply (PUT e' t); auto; lra|exact It].
      - intros e' t r Ie' It Ir Ht Hr. apply HLip; auto; lra.
      - intros e' t Ie' Ht It. apply HCl; auto; lra.
      - intros e' t eps' Ie' Ht It He'. destruct (HCo e' t eps' (SUB e' Ie') ltac:(lra) It He') as (d' & Pd' & Hd'). exists d'. split; [exact Pd'|]. intros e'' r Ie'' Hr Ir Hrd. apply Hd'; auto; lra. }
    specialize (Hd e s Ie ltac:(lra) Is Hsd). eapply Rle_trans; [apply (norm_tri3 (F c z) (F e s) (F c' b) n); apply Flen|].
    assert (G3 : norm (vsub (F c z) (F e s)) <= eps). { eapply Rle_trans; [|exact Hd]. right. apply (norm_anti _ _ n); apply Flen. }
    nra.
Qed.
End Segment.

(** ** The law *)
Lemma row_in_bound l i : norm (nth i l []) <= fold_right (fun r s => norm r + s) 0 l.
Proof.
  assert (G : 0 <= fold_right (fun r s => norm r + s) 0 l) by (induction l as [|r l IH]; cbn; [lra|pose proof (norm_nonneg r); lra]).
  revert i. induction l as [|r l IH]; intros [|i]; cbn [nth fold_right]; try (replace (norm []) with 0 by (symmetry; apply (norm_zeros 0)); cbn in *; lra); pose proof (norm_nonneg r).
  - assert (0 <= fold_right (fun r s => norm r + s) 0 l) by (clear - l; induction l as [|a l IH]; cbn; [lra|pose proof (norm_nonneg a); lra]). lra.
  - assert (0 <= fold_right (fun r s => norm r + s) 0 l) by (clear - l; induction l as [|a l IH']; cbn; [lra|pose proof (norm_nonneg a); lra]). specialize (IH H0 i). lra.
Qed.
Definition piece_const (nu : nat) (c : critical_region) : R := INR nu * fold_right (fun r s => norm r + s) 0 (rows (cr_ux c)).
Lemma abs_dot a v : Rabs (dot a v) <= norm a * norm v.
Proof. pose proof (dot_le_norm a v) as D1. pose proof (dot_le_norm (vneg a) v) as D2. rewrite norm_vneg, dot_vneg_l in D2. unfold Rabs. destruct (Rcase_abs _); lra. Qed.
Lemma fold_norm_nonneg l : 0 <= fold_right (fun r s => norm r + s) 0 l.
Proof. induction l as [|r l IH]; cbn; [lra|pose proof (norm_nonneg r); lra]. Qed.
Lemma piece_lip nu nx c x y : (forall z, length z = nx -> length (cr_u c z) = nu) -> length x = nx -> length y = nx -> norm (vsub (cr_u c x) (cr_u c y)) <= piece_const nu c * norm (vsub x y).
Proof.
  intros LU Lx Ly. unfold piece_const. rewrite Rmult_assoc. pose proof (norm_nonneg (vsub x y)). pose proof (fold_norm_nonneg (rows (cr_ux c))).
  apply norm_small; [rewrite vsub_length, !LU by assumption; apply Nat.min_id|apply Rmult_le_pos; assumption|]. intros j Hj. rewrite nth_vsub by (rewrite !LU by assumption; reflexivity).
  assert (K : forall z, length z = nx -> nth j (cr_u c z) 0 = dot (row (cr_ux c) j) z + nth j (cr_u0 c) 0) by (intros z Lz; unfold cr_u; rewrite nth_vadd_in by (fold (cr_u c z); rewrite LU by exact Lz; lia); rewrite nth_mv; reflexivity).
  rewrite !K by assumption. replace (dot (row (cr_ux c) j) x + nth j (cr_u0 c) 0 - (dot (row (cr_ux c) j) y + nth j (cr_u0 c) 0)) with (dot (row (cr_ux c) j) (vsub x y)) by (rewrite dot_vsub_gen by lia; ring).
  eapply Rle_trans; [apply abs_dot|]. apply Rmult_le_compat_r; [assumption|apply row_in_bound].
Qed.
Lemma common_const nu crs : exists L, 0 <= L /\ forall c, In c crs -> piece_const nu c <= L.
Proof.
  induction crs as [|c crs (L & HL & IH)]; [exists 0; split; [lra|intros c []]|]. exists (Rmax L (piece_const nu c)). split; [eapply Rle_trans; [exact HL|apply Rmax_l]|].
  intros c' [<-|Hc]; [apply Rmax_r|eapply Rle_trans; [apply IH, Hc|apply Rmax_l]].
Qed.
Definition seg (x y : vec) (s : R) : vec := vadd (vscale (1 - s) x) (vscale s y).
Lemma seg_length x y s n : length x = n -> length y = n -> length (seg x y s) = n.
Proof. intros Lx Ly. unfold seg. rewrite vadd_length, !vscale_length. lia. Qed.
Lemma seg_nth x y s n i : length x = n -> length y = n -> (i < n)%nat -> nth i (seg x y s) 0 = (1 - s) * nth i x 0 + s * nth i y 0.
Proof. intros Lx Ly Hi. unfold seg. rewrite nth_vadd_in by (rewrite vadd_length, !vscale_length; lia). rewrite !nth_vscale. reflexivity. Qed.
Lemma seg_dist x y s t n : length x = n -> length y = n -> norm (vsub (seg x y s) (seg x y t)) = Rabs (s - t) * norm (vsub x y).
Proof.
  intros Lx Ly. rewrite (norm_anti x y n) by assumption. rewrite <- GeomThms.norm_vscale. f_equal. apply vec_ext; [rewrite vsub_length, vscale_length, vsub_length, !(seg_length x y _ n) by assumption; lia|].
  intros i Hi. rewrite vsub_length, !(seg_length x y _ n) in Hi by assumption. rewrite nth_vsub by (rewrite !(seg_length x y _ n) by assumption; reflexivity). rewrite nth_vscale, nth_vsub by lia. rewrite !(seg_nth x y _ n) by (assumption || lia). ring.
Qed.
Lemma seg_0 x y n : length x = n -> length y = n -> seg x y 0 = x.
Proof. intros Lx Ly. apply vec_ext; [rewrite (seg_length x y 0 n) by assumption; lia|]. intros i Hi. rewrite (seg_length x y 0 n) in Hi by assumption. rewrite (seg_nth x y 0 n) by assumption. ring. Qed.
Lemma seg_1 x y n : length x = n -> length y = n -> seg x y 1 = y.
Proof. intros Lx Ly. apply vec_ext; [rewrite (seg_length x y 1 n) by assumption; lia|]. intros i Hi. rewrite (seg_length x y 1 n) in Hi by assumption. rewrite (seg_nth x y 1 n) by assumption. ring. Qed.
Lemma feasible_seg Au Ax b x y u v s nu nx m : shape Au m nu -> shape Ax m nx -> length x = nx -> length y = nx -> mp_feasible Au Ax b x u -> mp_feasible Au Ax b y v -> 0 <= s <= 1 -> mp_feasible Au Ax b (seg x y s) (seg u v s).
Proof.
  intros SA SX Lx Ly (Lu & Fu) (Lv & Fv) Hs. split; [apply seg_length; assumption|]. intros i Hi. specialize (Fu i Hi). specialize (Fv i Hi). unfold seg. rewrite !dot_vadd_r by (rewrite !vscale_length; lia). rewrite !dot_vscale_r. nra.
Qed.
(*@ Theorem C81_pieces : For every strictly convex program there are at most 2^m regions, each returned by explicit_solve_given_active_set for some active set, whose union is exactly the set of parameters with a feasible point; on each of them u is the minimizer and V the optimal value. No assumption of non-degeneracy. *)
Lemma law_pieces np Huu Hux Hxx fu fx g Au Ax b nu nx m q :
  exact_np np -> mp_data Huu Hux Hxx fu fx Au Ax b nu nx m -> MultiParametricQuadraticProgram np Huu Hux Hxx fu fx g Au Ax b = Ok q ->
  exists crs, (length crs <= 2 ^ m)%nat /\ (forall c, In c crs -> exists act, explicit_solve_given_active_set np q act = Ok (Some c)) /\
    (forall x, length x = nx -> ((exists v, mp_feasible Au Ax b x v) <-> exists c, In c crs /\ in_poly (cr_poly c) x)) /\
    forall c x, In c crs -> in_poly (cr_poly c) x -> mp_minimizer Huu Hux Hxx fu fx g Au Ax b x (cr_u c x) /\ cr_V c x = mp_cost Huu Hux Hxx fu fx g x (cr_u c x).
Proof.
  intros Hnp D E. exists (all_regions np q m). split; [apply all_regions_length|]. split; [apply all_regions_in|].
  assert (G : forall c x, In c (all_regions np q m) -> in_poly (cr_poly c) x -> mp_minimizer Huu Hux Hxx fu fx g Au Ax b x (cr_u c x) /\ cr_V c x = mp_cost Huu Hux Hxx fu fx g x (cr_u c x)).
  { intros c x. apply (sound np Huu Hux Hxx fu fx g Au Ax b nu nx m q); auto. apply all_regions_ok. }
  split; [|exact G]. intros x Lx. split.
  - intros (v & Fv). apply (all_regions_cover np Huu Hux Hxx fu fx g Au Ax b nu nx m q x v); assumption.
  - intros (c & Hc & Hx). exists (cr_u c x). apply (G c x Hc Hx).
Qed.
(*@ Theorem C81_lipschitz : The minimizer of the program is a Lipschitz continuous function of the parameter on the whole feasible set. *)
Lemma law_lipschitz np Huu Hux Hxx fu fx g Au Ax b nu nx m q :
  exact_np np -> mp_data Huu Hux Hxx fu fx Au Ax b nu nx m -> MultiParametricQuadraticProgram np Huu Hux Hxx fu fx g Au Ax b = Ok q ->
  exists L, 0 <= L /\ forall x y u v, length x = nx -> length y = nx -> mp_minimizer Huu Hux Hxx fu fx g Au Ax b x u -> mp_minimizer Huu Hux Hxx fu fx g Au Ax b y v ->
    norm (vsub u v) <= L * norm (vsub x y).
Proof.
  intros Hnp D E. set (crs := all_regions np q m). pose proof (all_regions_ok np q m) as OK. fold crs in OK. destruct (common_const nu crs) as (L & HL & HLc). exists L. split; [exact HL|].
  intros x y u v Lx Ly (Fu & Mu) (Fv & Mv). pose proof D as (_ & _ & _ & _ & _ & _ & SA & SX & _).
  assert (LU : forall c z, In c crs -> length z = nx -> length (cr_u c z) = nu) by (intros c z Hc; apply (pieces np Huu Hux Hxx fu fx g Au Ax b nu nx m q crs Hnp D E OK c Hc)).
  assert (UQ : forall c z w, In c crs -> in_poly (cr_poly c) z -> mp_minimizer Huu Hux Hxx fu fx g Au Ax b z w -> w = cr_u c z).
  { intros c z w Hc Hz (Fw & Mw). destruct (sound np Huu Hux Hxx fu fx g Au Ax b nu nx m q crs Hnp D E OK c z Hc Hz) as ((F1 & M1) & _). apply M1; [exact Fw|]. destruct (M1 w Fw). destruct (Mw _ F1). lra. }
  set (Fs := fun c s => if length (cr_u c (seg x y s)) =? nu then cr_u c (seg x y s) else zeros nu).
  assert (FsE : forall c s, In c crs -> Fs c s = cr_u c (seg x y s)) by (intros c s Hc; unfold Fs; rewrite (LU c (seg x y s) Hc) by (apply seg_length; assumption); rewrite Nat.eqb_refl; reflexivity).
  assert (FsL : forall c s, length (Fs c s) = nu) by (intros c s; unfold Fs; destruct (Nat.eqb_spec (length (cr_u c (seg x y s))) nu); [assumption|apply zeros_length]).
  destruct (all_regions_cover np Huu Hux Hxx fu fx g Au Ax b nu nx m q x u Hnp D E Lx Fu) as (cx & Icx & Hcx). destruct (all_regions_cover np Huu Hux Hxx fu fx g Au Ax b nu nx m q y v Hnp D E Ly Fv) as (cy & Icy & Hcy). fold crs in Icx, Icy.
  rewrite (UQ cx x u Icx Hcx (conj Fu Mu)), (UQ cy y v Icy Hcy (conj Fv Mv)).
  pose proof (norm_nonneg (vsub x y)) as Nn. set (r := norm (vsub x y)) in *. assert (HLr : 0 <= L * r) by (apply Rmult_le_pos; assumption).
  assert (CLO : forall s d, 0 < d -> forall t, Rabs (t - s) < d / (r + 1) -> norm (vsub (seg x y t) (seg x y s)) < d).
  { intros s d Hd t Ht. rewrite (seg_dist x y t s nx) by assumption. fold r. pose proof (Rabs_pos (t - s)). apply Rle_lt_trans with (Rabs (t - s) * (r + 1)); [nra|]. apply Rlt_le_trans with (d / (r + 1) * (r + 1)); [apply Rmult_lt_compat_r; lra|right; field; lra]. }
  pose proof (lip_segment critical_region (fun c s => in_poly (cr_poly c) (seg x y s)) Fs nu (L * r) HLr FsL (length crs) crs 0 1 (le_n _) ltac:(lra)) as G.
  rewrite <- (seg_0 x y nx Lx Ly) at 1. rewrite <- (seg_1 x y nx Lx Ly) at 2. rewrite <- (FsE cx 0 Icx), <- (FsE cy 1 Icy). replace (L * r) with (L * r * (1 - 0)) by ring.
  apply G; [| | | |exact Icx|exact Icy|rewrite (seg_0 x y nx Lx Ly); exact Hcx|rewrite (seg_1 x y nx Lx Ly); exact Hcy].
  - intros s Hs. destruct (all_regions_cover np Huu Hux Hxx fu fx g Au Ax b nu nx m q (seg x y s) (seg u v s) Hnp D E) as (c & Ic & Hc); [apply seg_length; assumption|apply (feasible_seg Au Ax b x y u v s nu nx m); assumption|]. exists c. auto.
  - intros c s t Hc _ _ _ _. rewrite !FsE by exact Hc. eapply Rle_trans; [apply (piece_lip nu nx); [intros z; apply LU, Hc|apply seg_length; assumption|apply seg_length; assumption]|].
    rewrite (seg_dist x y s t nx) by assumption. fold r. pose proof (Rabs_pos (s - t)). replace (L * r * Rabs (s - t)) with (L * (Rabs (s - t) * r)) by ring. apply Rmult_le_compat_r; [apply Rmult_le_pos; assumption|apply HLc, Hc].
  - intros c s Hc _ Ns. destruct (away np Huu Hux Hxx fu fx g Au Ax b nu nx m q crs Hnp D E OK c (seg x y s) Hc ltac:(apply seg_length; assumption) Ns) as (d & Pd & Hd).
    exists (d / (r + 1)). split; [apply Rdiv_lt_0_compat; lra|]. intros t Ht. apply Hd; [apply seg_length; assumption|apply CLO; assumption].
  - intros c s eps Hc _ Is He. destruct (continuous np Huu Hux Hxx fu fx g Au Ax b nu nx m q crs Hnp D E OK c (seg x y s) eps Hc Is He) as (d & Pd & Hd).
    exists (d / (r + 1)). split; [apply Rdiv_lt_0_compat; lra|]. intros c' t Hc' _ It Ht. rewrite !FsE by assumption. apply (Hd c' (seg x y t) Hc' It). apply CLO; assumption.
Qed.

(** ** The controller *)
Lemma optimal_minimizer np S N Q Rm P D X_N nx nu q m x us xs : MpqpThms.coherent q (nu * N) nx m ->
  (forall x us xs, length x = nx -> length us = N -> Forall (fun v => length v = nu) us -> is_trajectory (linear_step (lA S) (lB S)) x us xs ->
      q_cost q x (List.concat us) = trajectory_cost Q Rm P us xs /\
      (q_feasible q x (List.concat us) <-> mpc_admissible (lA S) (lB S) nu N (in_poly D) (in_poly X_N) x us xs)) ->
  mpc_data S N Q Rm P D X_N nx nu -> exact_np np -> length x = nx -> mpc_optimal (lA S) (lB S) Q Rm P nu N (in_poly D) (in_poly X_N) x us xs ->
  q_minimizer q x (List.concat us) /\ q_cost q x (List.concat us) = trajectory_cost Q Rm P us xs.
Proof.
  intros Hq HC HD Hnp Lx (HA & HO). pose proof HD as ((SA & SB & _) & _). pose proof Hq as (_ & _ & _ & _ & _ & _ & S4 & _). pose proof HA as (Lu & Fu & Tr & _).
  destruct (HC x us xs Lx Lu Fu Tr) as (C1 & F1). split; [|exact C1]. split; [apply F1, HA|]. intros v Fv.
  assert (Lv : length v = (nu * N)%nat) by (rewrite (proj1 Fv); apply S4). destruct (chunks nu N v ltac:(lia)) as (vs & LV & FV & EV).
  destruct (trajectory_exists (lA S) (lB S) nx nu x vs SA SB Lx) as (ys & Ty). destruct (HC x vs ys Lx LV FV Ty) as (C2 & F2). rewrite EV in C2, F2.
  destruct (HO vs ys (proj1 F2 Fv)) as (O1 & O2). unfold q_cost in C1, C2. rewrite C1, C2. split; [exact O1|]. intros Ec. rewrite <- EV. f_equal. apply O2, Ec.
Qed.
Lemma first_block us us' n : us <> [] -> length us = length us' -> Forall (fun v => length v = n) us -> Forall (fun v => length v = n) us' -> norm (vsub (nth 0 us []) (nth 0 us' [])) <= norm (vsub (List.concat us) (List.concat us')).
Proof.
  destruct us as [|a us]; [congruence|]. intros _ L F F'. destruct us' as [|a' us']; [discriminate L|]. cbn [nth List.concat].
  assert (E : vsub (a ++ List.concat us) (a' ++ List.concat us') = vsub a a' ++ vsub (List.concat us) (List.concat us')).
  { pose proof (Forall_inv F : length a = n) as La. pose proof (Forall_inv F' : length a' = n) as La'. rewrite <- La' in La. clear - La. revert a' La. induction a as [|c a IH]; intros [|c' a'] La; try discriminate La; [reflexivity|].
    change (vsub ((c :: a) ++ List.concat us) ((c' :: a') ++ List.concat us')) with ((c - c') :: vsub (a ++ List.concat us) (a' ++ List.concat us')). rewrite IH by (cbn in La; lia). reflexivity. }
  rewrite E. apply norm_app_l.
Qed.
(*@ Theorem C81_mpc_law : The linear MPC controller is a Lipschitz continuous, piecewise affine state feedback: there are finitely many polyhedral regions (returned by explicit_solve_given_active_set) that cover exactly the states with an admissible input sequence, on each of them the answers of feedforward are the affine function u and the quadratic function V of the region, and one constant L bounds the change of the inputs, and of feedback, from one state to another. *)
Lemma mpc_law np S N Q Rm P D X_N nx nu C : exact_np np -> mpc_data S N Q Rm P D X_N nx nu -> ModelPredictiveController np S N Q Rm P D X_N = Ok C ->
  exists crs L, 0 <= L /\ (forall c, In c crs -> exists act, explicit_solve_given_active_set np (c_mpqp C) act = Ok (Some c)) /\
    (forall x, length x = nx -> ((exists us xs, mpc_admissible (lA S) (lB S) nu N (in_poly D) (in_poly X_N) x us xs) <-> exists c, In c crs /\ in_poly (cr_poly c) x)) /\
    (forall x us V c, length x = nx -> feedforward np C x = Ok (Some us, Some V) -> In c crs -> in_poly (cr_poly c) x -> List.concat us = cr_u c x /\ V = cr_V c x) /\
    (forall x y us us' V V', length x = nx -> length y = nx -> feedforward np C x = Ok (Some us, Some V) -> feedforward np C y = Ok (Some us', Some V') ->
       norm (vsub (List.concat us) (List.concat us')) <= L * norm (vsub x y)) /\
    (forall x y u u', length x = nx -> length y = nx -> feedback np C x = Ok (Some u) -> feedback np C y = Ok (Some u') -> norm (vsub u u') <= L * norm (vsub x y)).
Proof.
  intros Hnp HD E. pose proof (mpc_constructed np S N Q Rm P D X_N nx nu C HD E) as ED. cbv zeta in ED.
  destruct (mpc_program np S N Q Rm P D X_N nx nu Hnp HD) as (q & m & E' & Hq & HC). rewrite E in E'. injection E' as ->. cbn [c_mpqp] in *.
  pose proof HD as ((SA & SB & HN & _) & _). pose proof Hq as (S1 & PD & S2 & S3 & L3 & L4 & S4 & S5 & Lb & _).
  assert (MD : mp_data (q_Huu q) (q_Hux q) (q_Hxx q) (q_fu q) (q_fx q) (q_Au q) (q_Ax q) (q_b q) (nu * N) nx m) by (unfold mp_data; tauto).
  destruct (law_pieces np _ _ _ _ _ _ _ _ _ _ _ _ _ Hnp MD ED) as (crs & _ & R1 & R2 & R3). destruct (law_lipschitz np _ _ _ _ _ _ _ _ _ _ _ _ _ Hnp MD ED) as (L & HL & HLip).
  assert (OPT : forall x us V, length x = nx -> feedforward np (MPC S N q) x = Ok (Some us, Some V) -> length us = N /\ Forall (fun v => length v = nu) us /\ q_minimizer q x (List.concat us) /\ V = q_cost q x (List.concat us) /\ feedback np (MPC S N q) x = Ok (Some (nth 0 us []))).
  { intros x us V Lx EF. destruct (mpc_none np S N Q Rm P D X_N nx nu _ x Hnp HD E Lx) as (us0 & xs0 & _ & [(EN & _)|(us' & xs' & E1 & E2 & HO & _)]); rewrite EF in *; [discriminate|]. injection E1 as -> ->.
    destruct (optimal_minimizer np S N Q Rm P D X_N nx nu q m x us' xs' Hq HC HD Hnp Lx HO) as (G1 & G2). destruct HO as ((Lu & Fu & _) & _). auto. }
  assert (LIP : forall x y us us' V V', length x = nx -> length y = nx -> feedforward np (MPC S N q) x = Ok (Some us, Some V) -> feedforward np (MPC S N q) y = Ok (Some us', Some V') ->
       norm (vsub (List.concat us) (List.concat us')) <= L * norm (vsub x y)).
  { intros x y us us' V V' Lx Ly Ex Ey. apply HLip; [exact Lx|exact Ly|apply (OPT x us V Lx Ex)|apply (OPT y us' V' Ly Ey)]. }
  exists crs, L. split; [exact HL|]. split; [exact R1|]. split; [|split; [|split; [exact LIP|]]].
  - intros x Lx. rewrite <- (R2 x Lx). split.
    + intros (us & xs & HA). exists (List.concat us). pose proof HA as (Lu & Fu & Tr & _). apply (HC x us xs Lx Lu Fu Tr), HA.
    + intros (v & Fv). assert (Lv : length v = (nu * N)%nat) by (rewrite (proj1 Fv); apply S4). destruct (chunks nu N v ltac:(lia)) as (vs & LV & FV & EV).
      destruct (trajectory_exists (lA S) (lB S) nx nu x vs SA SB Lx) as (ys & Ty). exists vs, ys. apply (HC x vs ys Lx LV FV Ty). rewrite EV. exact Fv.
  - intros x us V c Lx EF Ic Hx. destruct (OPT x us V Lx EF) as (_ & _ & (F1 & M1) & EV & _). destruct (R3 c x Ic Hx) as ((F2 & M2) & EV2).
    assert (EU : List.concat us = cr_u c x) by (apply M2; [exact F1|]; destruct (M1 _ F2); destruct (M2 _ F1); lra). split; [exact EU|]. rewrite EV, EV2, EU. reflexivity.
  - intros x y u u' Lx Ly Ex Ey. destruct (feedback_optimal np S N Q Rm P D X_N nx nu _ x u Hnp HD E Lx Ex) as (us & xs & Fx & -> & _). destruct (feedback_optimal np S N Q Rm P D X_N nx nu _ y u' Hnp HD E Ly Ey) as (us' & xs' & Fy & -> & _).
    destruct (OPT x us _ Lx Fx) as (Lu & Fu & _). destruct (OPT y us' _ Ly Fy) as (Lu' & Fu' & _).
    eapply Rle_trans; [apply (first_block us us' nu); [intros ->; cbn in Lu; lia|lia|assumption|assumption]|]. apply (LIP x y us us' _ _ Lx Ly Fx Fy).
Qed.
(*@ Example C81_example : x+ = x + u with Q = R = P = 1, N = 1, |x| <= 1, |u| <= 1, |x(1)| <= 1 satisfies the hypotheses of C81_mpc_law, and feedforward answers at 1 and at -1. *)
Lemma law_mpc_example np : exact_np np -> mpc_data S_1 1 I_1 I_1 I_1 D_box X_int 1 1 /\
  exists C us2, ModelPredictiveController np S_1 1 I_1 I_1 I_1 D_box X_int = Ok C /\
    feedforward np C [1] = Ok (Some [[- (1 / 2)]], Some (3 / 4)) /\ feedforward np C [-1] = Ok (Some us2, Some (3 / 4)).
Proof. apply cont_mpc_example. Qed.
(*@ Example C81_degenerate_example : A degenerate program, with both constraints equal (min 1/2 u^2 s.t. x <= u twice): the two active sets {0} and {1} have the same region {x >= 0} and {0, 1} has none, but the feasible set is covered. *)
Lemma law_degenerate_example : mp_data (Mat 1 [[1]]) (Mat 1 [[0]]) (Mat 1 [[0]]) [0] [0] (Mat 1 [[-1]; [-1]]) (Mat 1 [[1]; [1]]) [0; 0] 1 1 2 /\
  mp_feasible (Mat 1 [[-1]; [-1]]) (Mat 1 [[1]; [1]]) [0; 0] [3] [3] /\
  forall np, exact_np np -> exists q, MultiParametricQuadraticProgram np (Mat 1 [[1]]) (Mat 1 [[0]]) (Mat 1 [[0]]) [0] [0] 0 (Mat 1 [[-1]; [-1]]) (Mat 1 [[1]; [1]]) [0; 0] = Ok q /\
    explicit_solve_given_active_set np q [0%nat; 1%nat] = Ok None.
Proof.
  assert (MD : mp_data (Mat 1 [[1]]) (Mat 1 [[0]]) (Mat 1 [[0]]) [0] [0] (Mat 1 [[-1]; [-1]]) (Mat 1 [[1]; [1]]) [0; 0] 1 1 2).
  { split; [apply scalar_shape|]. split; [apply ex_data|]. repeat split; repeat constructor. }
  split; [exact MD|]. split; [split; [reflexivity|]; intros [|[|i]] Hi; cbn in *; try lra; lia|].
  intros np Hnp. destruct (region_returned np _ _ _ _ _ 0 _ _ _ _ _ _ Hnp MD) as (q & E & RR). exists q. split; [exact E|]. destruct (RR [0%nat; 1%nat]) as (_ & R2). apply R2; [intros i [<-|[<-|[]]]; lia|].
  intros G. specialize (G [1; -1] eq_refl). assert (Z : [1; -1] = zeros 2) by (apply G; cbn; f_equal; lra). injection Z as Z _. lra.
Qed.
