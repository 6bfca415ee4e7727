(** * NeighThms: facets of critical regions, the active sets guessed beyond them, and the points from which the exploration goes on (C63, C64), proofs *)
From Coq Require Import ZArith Classical Permutation Sorted.
From Verif Require Import Arr ArrFacts Spec SpecMpc Numpy Pnnls PnnlsFacts QpFacts GeomUtils Polyhedron PolyThms Oracle SolverThms NullFacts PolySolveThms PolyMore PolyChebThms GeomThms SpecDyn Dynamics DynThms CondenseThms LqrThms Mpqp MpqpThms.

(** the constraint of the program behind row i of the region of an active set: the rows of the multipliers of the active constraints
    come first (parametric_programs.py:93-100) *)
Definition facet_constraint (act : list nat) (m i : nat) : nat :=
  nth i (act ++ filter (fun j => negb (existsb (Nat.eqb j) act)) (seq 0 m)) 0%nat.

(** ** Flipping *)
Lemma insert_perm i l : Permutation (insert i l) (i :: l).
Proof. induction l as [|a l IH]; cbn; [apply Permutation_refl|]. destruct (i <=? a)%nat; [apply Permutation_refl|]. eapply Permutation_trans; [apply perm_skip, IH|apply perm_swap]. Qed.
Lemma sort_perm l : Permutation (sort l) l.
Proof. induction l as [|a l IH]; [constructor|]. change (sort (a :: l)) with (insert a (sort l)). eapply Permutation_trans; [apply insert_perm|apply perm_skip, IH]. Qed.
Lemma insert_sorted i l : StronglySorted le l -> StronglySorted le (insert i l).
Proof.
  induction 1 as [|a l H IH F]; cbn; [repeat constructor|]. destruct (i <=? a)%nat eqn:E.
  - apply Nat.leb_le in E. constructor; [constructor; assumption|]. constructor; [exact E|]. eapply Forall_impl; [|exact F]. intros; lia.
  - apply Nat.leb_gt in E. constructor; [exact IH|]. apply Forall_forall. intros b Hb. apply (Permutation_in _ (insert_perm i l)) in Hb. destruct Hb as [<-|Hb]; [lia|]. rewrite Forall_forall in F. apply F, Hb.
Qed.
Lemma sort_sorted l : StronglySorted le (sort l).
Proof. induction l as [|a l IH]; [constructor|]. apply insert_sorted, IH. Qed.
Lemma strict l : StronglySorted le l -> NoDup l -> StronglySorted lt l.
Proof.
  induction 1 as [|a l H IH F]; intros N; [constructor|]. inversion N as [|? ? N1 N2]; subst. constructor; [apply IH, N2|]. apply Forall_forall. intros b Hb. rewrite Forall_forall in F. specialize (F b Hb).
  destruct (Nat.eq_dec a b) as [ -> |]; [contradiction|lia].
Qed.
(*@ Theorem C63_guess : The guessed active set is the active set with one index added or removed, in increasing order. *)
Lemma flip_ok act i : StronglySorted lt (flip act i) /\ forall j, In j (flip act i) <-> (if Nat.eq_dec j i then ~ In j act else In j act).
Proof.
  unfold flip. set (s := nodup Nat.eq_dec act). assert (Ns : NoDup s) by apply NoDup_nodup. assert (Is : forall j, In j s <-> In j act) by (intros j; apply nodup_In).
  assert (K : forall l, NoDup l -> StronglySorted lt (sort l) /\ forall j, In j (sort l) <-> In j l).
  { intros l Nl. split; [apply strict; [apply sort_sorted|apply (Permutation_NoDup (Permutation_sym (sort_perm l))), Nl]|]. intros j. split; apply Permutation_in; [apply sort_perm|apply Permutation_sym, sort_perm]. }
  destruct (existsb (Nat.eqb i) s) eqn:E.
  - apply existsb_In in E. destruct (K (remove Nat.eq_dec i s)) as (K1 & K2).
    { clear - Ns. induction s as [|a s IH]; [constructor|]. inversion Ns as [|? ? N1 N2]; subst. cbn. destruct (Nat.eq_dec i a); [apply IH, N2|]. constructor; [|apply IH, N2]. intros Q. apply in_remove in Q. tauto. }
    split; [exact K1|]. intros j. rewrite K2. destruct (Nat.eq_dec j i) as [ -> |Hj].
    + split; [intros Q; apply in_remove in Q; tauto|]. intros Q. exfalso. apply Q, Is, E.
    + rewrite <- Is. split; [intros Q; apply in_remove in Q; tauto|]. intros Q. apply in_in_remove; assumption.
  - assert (NI : ~ In i s) by (intros Q; apply existsb_In in Q; congruence). destruct (K (i :: s)) as (K1 & K2); [constructor; assumption|]. split; [exact K1|]. intros j. rewrite K2. cbn [In]. destruct (Nat.eq_dec j i) as [ -> |Hj].
    + rewrite <- Is. tauto.
    + rewrite Is. split; [intros [Q|Q]; [congruence|exact Q]|auto].
Qed.

(** ** Rows of a region *)
Lemma active_unpack np q act cr : explicit_solve_given_active_set np q act = Ok (Some cr) -> exists M,
  let Aua := mtake (q_Au q) act in let Hi := q_Huu_inv q in
  let ina := filter (fun i => negb (existsb (Nat.eqb i) act)) (seq 0 (nrows (q_Ax q))) in
  let pax := mm M (msub (mtake (q_Ax q) act) (mm (mm Aua Hi) (q_Hux q))) in
  let pa0 := vneg (mv M (vadd (vtake (q_b q) act) (mv (mm Aua Hi) (q_fu q)))) in
  let Acr := vstack (mneg pax) (madd (mm (mtake (q_Au q) ina) (cr_ux cr)) (mtake (q_Ax q) ina)) in
  let bcr := pa0 ++ vsub (vtake (q_b q) ina) (mv (mtake (q_Au q) ina) (cr_u0 cr)) in
  np_inv np (mm (mm Aua Hi) (tr Aua)) = Ok M /\
  cr_ux cr = mneg (mm Hi (madd (q_Hux q) (mm (tr Aua) pax))) /\ cr_u0 cr = vneg (mv Hi (vadd (q_fu q) (mv (tr Aua) pa0))) /\
  cr_px cr = Mat (ncols (q_Ax q)) (scatter (rows (zmat (nrows (q_Ax q)) (ncols (q_Ax q)))) act (rows pax)) /\
  cr_p0 cr = scatter (zeros (nrows (q_Ax q))) act pa0 /\
  exists P, Polyhedron Acr (D1 bcr) None None = Ok P /\ cr_poly cr = normalize tol7 P.
Proof.
  unfold explicit_solve_given_active_set. destruct (negb _); [discriminate|]. cbv zeta. destruct (_ && _)%bool; [discriminate|]. destruct (np_inv np _) as [M|] eqn:EM; cbn [bind]; [|discriminate].
  destruct (Polyhedron _ _ _ _) as [P|] eqn:EP; cbn [bind]; [|discriminate]. intros E. injection E as <-. exists M. cbn [cr_ux cr_u0 cr_px cr_p0 cr_poly]. split; [reflexivity|]. split; [reflexivity|]. split; [reflexivity|]. split; [reflexivity|]. split; [reflexivity|]. exists P. split; [exact EP|reflexivity].
Qed.
Lemma normalize_row_scaled p m me n i : wf p m me n -> (i < m)%nat -> exists s, 0 < s /\ (s = 1 \/ norm (row (pA (normalize tol7 p)) i) = 1) /\ forall x, dot (row (pA (normalize tol7 p)) i) x - nth i (pb (normalize tol7 p)) 0 = s * (dot (row (pA p) i) x - nth i (pb p) 0).
Proof.
  intros (SA & Lb & _) Hi. unfold normalize, normalize_with, normalize_lhs, normalize_rhs, row. cbn [pA pb rows].
  assert (Hr : (i < length (rows (pA p)))%nat) by (rewrite (proj1 SA); exact Hi).
  set (f := fun r : vec => if Rltb tol7 (norm r) then map (fun a => a / norm r) r else r). set (g := fun (r : vec) bi => if Rltb tol7 (norm r) then bi / norm r else bi).
  rewrite (nth_indep (map f (rows (pA p))) [] (f [])) by (rewrite map_length; exact Hr). rewrite map_nth.
  assert (NM : forall (l : list vec) (b : vec) k, (k < length l)%nat -> length l = length b -> nth k (map2 g l b) 0 = g (nth k l []) (nth k b 0)). { clear. induction l as [|r l IH]; intros [|c b] k Hk L; cbn in *; try lia. destruct k; [reflexivity|]. apply IH; lia. }
  rewrite NM by (auto; rewrite (proj1 SA), Lb; reflexivity). unfold f, g. set (r := nth i (rows (pA p)) []). destruct (Rltb tol7 (norm r)) eqn:E.
  - apply Rltb_true in E. pose proof tol7_pos. exists (/ norm r). replace (map (fun a => a / norm r) r) with (vscale (/ norm r) r) by (apply map_ext; intros; unfold Rdiv; ring). assert (P : 0 < / norm r) by (apply Rinv_0_lt_compat; lra). split; [exact P|]. split; [right; rewrite norm_vscale, Rabs_right by lra; field; lra|]. intros x. rewrite dot_vscale_l. unfold Rdiv. ring.
  - exists 1. split; [lra|]. split; [auto|]. intros x. ring.
Qed.
Lemma region_rows np q nu nx m act cr i : exact_np np -> coherent q nu nx m -> explicit_solve_given_active_set np q act = Ok (Some cr) -> (i < m)%nat ->
  let c := facet_constraint act m i in (c < m)%nat /\ (In c act <-> (i < length act)%nat) /\ exists s, 0 < s /\ (s = 1 \/ norm (row (pA (cr_poly cr)) i) = 1) /\ forall x, length x = nx ->
    dot (row (pA (cr_poly cr)) i) x - nth i (pb (cr_poly cr)) 0 =
    s * (if (i <? length act)%nat then - nth c (cr_p cr x) 0 else dot (row (q_Au q) c) (cr_u cr x) + dot (row (q_Ax q) c) x - nth c (q_b q) 0).
Proof.
  intros Hnp Hq E Hi c. destruct (some_region np q nu nx m act cr Hnp Hq E) as (Hact & Ind & (ND & _ & W & _ & _)).
  destruct (active_unpack np q act cr E) as (M & U). cbv zeta in U. destruct U as (EM & Eux & Eu0 & Epx & Ep0 & P & EP & Epoly).
  assert (ISH : shape (q_Huu q) nu nu /\ shape (q_Hux q) nu nx /\ shape (q_Au q) m nu /\ shape (q_Ax q) m nx /\ shape (q_Huu_inv q) nu nu /\ length (q_fu q) = nu /\ length (q_b q) = m) by (unfold coherent in Hq; tauto).
  destruct ISH as (H1 & H2 & H3 & H4 & H5 & L1 & L2).
  assert (SA : shape (mtake (q_Au q) act) (length act) nu) by (apply (shape_mtake (q_Au q) m); [exact H3|exact Hact]).
  assert (SM : shape M (length act) (length act)). { destruct Hnp as (_ & _ & _ & Hinv & _). destruct (Hinv (mm (mm (mtake (q_Au q) act) (q_Huu_inv q)) (tr (mtake (q_Au q) act))) (length act)) as [(_ & M' & EM' & SM & _)|(_ & EM')]; [eauto 8 with shp| |]; rewrite EM' in EM; [injection EM as <-; exact SM|discriminate]. }
  pose proof (S_pax q nu nx m act M Hq Hact SM) as Spax. pose proof (L_pa0 q act M SM) as Lpa0. pose proof (S_ux q nu nx m act M Hq Hact SM) as Sux. pose proof (L_u0 q nu nx m act M Hq) as Lu0.
  cbv zeta beta in Spax, Lpa0, Sux, Lu0.
  set (pax := mm M (msub (mtake (q_Ax q) act) (mm (mm (mtake (q_Au q) act) (q_Huu_inv q)) (q_Hux q)))) in *.
  set (pa0 := vneg (mv M (vadd (vtake (q_b q) act) (mv (mm (mtake (q_Au q) act) (q_Huu_inv q)) (q_fu q))))) in *.
  rewrite <- Eux in Sux. rewrite <- Eu0 in Lu0.
  assert (NX : nrows (q_Ax q) = m) by apply H4. rewrite NX in *.
  set (ina := filter (fun i => negb (existsb (Nat.eqb i) act)) (seq 0 m)) in *.
  assert (Iina : forall j, In j ina <-> (j < m)%nat /\ ~ In j act).
  { intros j. unfold ina. rewrite filter_In, in_seq, Bool.negb_true_iff. rewrite <- existsb_In. split; intros (P1 & P2); split; try lia; destruct (existsb (Nat.eqb j) act); congruence. }
  assert (Bina : forall j, In j ina -> (j < m)%nat) by (intros j Hj; apply Iina, Hj).
  assert (SAi : shape (mtake (q_Au q) ina) (length ina) nu) by (apply (shape_mtake (q_Au q) m); auto).
  assert (SXi : shape (mtake (q_Ax q) ina) (length ina) nx) by (apply (shape_mtake (q_Ax q) m); auto).
  assert (Card : (length act + length ina)%nat = m).
  { rewrite <- app_length. replace m with (length (seq 0 m)) by apply seq_length. apply Nat.le_antisymm; apply NoDup_incl_length.
    - apply NoDup_app_disj; [exact ND|apply NoDup_filter, seq_NoDup|]. intros j Hj Hj'. apply Iina in Hj'. tauto.
    - intros j Hj. apply in_seq. apply in_app_or in Hj. destruct Hj as [Hj|Hj]; [apply Hact in Hj|apply Bina in Hj]; lia.
    - apply seq_NoDup.
    - intros j Hj. apply in_seq in Hj. apply in_or_app. destruct (in_dec Nat.eq_dec j act); [left|right; apply Iina; split; [lia|]]; assumption. }
  set (Acr := vstack (mneg pax) (madd (mm (mtake (q_Au q) ina) (cr_ux cr)) (mtake (q_Ax q) ina))) in *.
  set (bcr := pa0 ++ vsub (vtake (q_b q) ina) (mv (mtake (q_Au q) ina) (cr_u0 cr))) in *.
  assert (SAcr : shape Acr m nx) by (unfold Acr; rewrite <- Card; eauto 8 with shp).
  assert (Lbi : length (vtake (q_b q) ina) = length ina) by apply map_length.
  assert (Lbcr : length bcr = m). { unfold bcr. rewrite app_length, Lpa0, vsub_length, mv_length, Lbi, (proj1 SAi). lia. }
  assert (EP' : Polyhedron Acr (D1 bcr) None None = Ok (Poly Acr bcr (zmat 0 (ncols Acr)) (zeros 0) None None None None None)).
  { unfold Polyhedron, same_number_rows. cbn [nd_size]. unfold nrows. rewrite (proj1 SAcr), Lbcr, Nat.eqb_refl. reflexivity. }
  rewrite EP' in EP. injection EP as <-. set (P0 := Poly Acr bcr (zmat 0 (ncols Acr)) (zeros 0) None None None None None) in *.
  assert (W0 : wf P0 m 0 nx). { unfold wf, P0. cbn [pA pb pC pd]. split; [exact SAcr|]. split; [exact Lbcr|]. split; [|reflexivity]. rewrite (proj1 (proj2 SAcr)). apply shape_zmat. }
  destruct (normalize_row_scaled P0 m 0 nx i W0 Hi) as (s & Hs & Hs1 & ES).
  assert (EC : c = if (i <? length act)%nat then nth i act 0%nat else nth (i - length act) ina 0%nat). { unfold c, facet_constraint. fold ina. destruct (i <? length act)%nat eqn:Q; [apply Nat.ltb_lt in Q; apply app_nth1; exact Q|apply Nat.ltb_ge in Q; apply app_nth2; lia]. }
  split; [|split].
  - rewrite EC. destruct (i <? length act)%nat eqn:Q; [apply Nat.ltb_lt in Q; apply Hact, nth_In, Q|apply Nat.ltb_ge in Q; apply Bina, nth_In; lia].
  - rewrite EC. destruct (i <? length act)%nat eqn:Q; [apply Nat.ltb_lt in Q; split; [auto|intros _; apply nth_In, Q]|]. apply Nat.ltb_ge in Q. split; [|lia]. intros I. exfalso. assert (J : In (nth (i - length act) ina 0%nat) ina) by (apply nth_In; lia). apply Iina in J. tauto.
  - exists s. split; [exact Hs|]. rewrite Epoly. split; [exact Hs1|]. intros x Lx. rewrite ES. f_equal. unfold P0. cbn [pA pb].
    assert (RA : dot (row Acr i) x = nth i (mv Acr x) 0) by (symmetry; apply nth_mv). rewrite RA. unfold Acr. rewrite mv_vstack, mv_mneg. rewrite (mv_madd _ _ (length ina) nx) by eauto with shp. rewrite (mv_mm _ _ nu nx) by exact Sux.
    rewrite EC. destruct (i <? length act)%nat eqn:Q.
    + apply Nat.ltb_lt in Q. rewrite app_nth1 by (rewrite vneg_length, mv_length, (proj1 Spax); exact Q). unfold bcr. rewrite app_nth1 by lia. rewrite nth_vneg.
      assert (Ep : cr_p cr x = scatter (zeros m) act (vadd (mv pax x) pa0)).
      { unfold cr_p. rewrite Epx, Ep0. unfold mv at 1. cbn [rows]. rewrite map_scatter.
        change (map (fun r => dot r x) (rows pax)) with (mv pax x). change (map (fun r => dot r x) (rows (zmat m (ncols (q_Ax q))))) with (mv (zmat m (ncols (q_Ax q))) x).
        rewrite mv_zmat. rewrite vadd_scatter by (rewrite mv_length, (proj1 Spax); lia). rewrite vadd_zeros_l by apply zeros_length. reflexivity. }
      rewrite Ep. rewrite (nth_scatter_in act 0 0); [|exact ND|rewrite vadd_length, mv_length, (proj1 Spax); lia|intros j Hj; rewrite zeros_length; auto|exact Q]. rewrite nth_vadd by (rewrite mv_length, (proj1 Spax); lia). ring.
    + apply Nat.ltb_ge in Q. assert (LX : length (vneg (mv pax x)) = length act) by (rewrite vneg_length, mv_length; apply Spax). rewrite app_nth2 by lia. unfold bcr. rewrite app_nth2 by lia. rewrite LX, Lpa0. set (j := (i - length act)%nat) in *. assert (Hj : (j < length ina)%nat) by (unfold j; lia).
      rewrite nth_vadd by (rewrite !mv_length, (proj1 SAi), (proj1 SXi); reflexivity). rewrite nth_vsub by (rewrite mv_length, Lbi; symmetry; apply SAi). rewrite !mv_mtake_vtake. unfold vtake. rewrite !nth_map_0 by exact Hj. rewrite !nth_mv.
      unfold cr_u. fold (row (q_Au q) (nth j ina 0%nat)). fold (row (q_Ax q) (nth j ina 0%nat)). rewrite dot_vadd_r by (rewrite mv_length, (proj1 Sux); auto). ring.
Qed.

Lemma indep_flip q nu nx m act act' : coherent q nu nx m -> (forall i, In i act -> (i < m)%nat) -> NoDup act -> NoDup act' -> incl act' act ->
  indep_rows (mtake (q_Au q) act) (length act) -> indep_rows (mtake (q_Au q) act') (length act').
Proof.
  intros Hq Hact N N' I Ind y Ly Ey. pose proof Hq as (_ & _ & _ & _ & _ & _ & H4 & _).
  assert (Hact' : forall i, In i act' -> (i < m)%nat) by auto.
  assert (SA : shape (mtake (q_Au q) act) (length act) nu) by (apply (shape_mtake (q_Au q) m); assumption).
  assert (SA' : shape (mtake (q_Au q) act') (length act') nu) by (apply (shape_mtake (q_Au q) m); assumption).
  set (z := scatter (zeros m) act' y). assert (Lz : length z = m) by (unfold z; rewrite scatter_length; apply zeros_length).
  assert (Zo : forall i, ~ In i act' -> nth i z 0 = 0) by (intros i Hi; unfold z; rewrite nth_scatter_out by exact Hi; apply nth_zeros).
  assert (Zi : forall k, (k < length act')%nat -> nth (nth k act' 0%nat) z 0 = nth k y 0). { intros k Hk. unfold z. apply (nth_scatter_in act' 0 0); auto. intros i Hi. rewrite zeros_length. auto. }
  assert (LA : forall w, length (mv (q_Au q) w) = m) by (intros; rewrite mv_length; apply H4).
  assert (D : forall w, dot z (mv (q_Au q) w) = dot y (mv (mtake (q_Au q) act') w)).
  { intros w. rewrite mv_mtake_vtake. unfold z. rewrite dot_scatter; auto.
    - rewrite dot_zeros_l. ring.
    - rewrite zeros_length, LA. reflexivity.
    - intros i Hi. rewrite zeros_length. auto.
    - intros i _. apply nth_zeros. }
  assert (Z0 : z = zeros m).
  { assert (ZZ : z = scatter (zeros m) act (vtake z act)).
    { apply (nth_ext _ _ 0 0); [rewrite scatter_length, zeros_length; lia|]. intros i Hi. destruct (in_dec Nat.eq_dec i act) as [Hia|Hia].
      - destruct (In_nth _ _ 0%nat Hia) as (k & Hk & Ek). rewrite <- Ek. rewrite (nth_scatter_in act 0 0); auto.
        + unfold vtake. rewrite nth_map_0 by exact Hk. reflexivity.
        + apply map_length.
        + intros j Hj. rewrite zeros_length. auto.
      - rewrite nth_scatter_out by exact Hia. rewrite nth_zeros. apply Zo. intros Q. apply Hia, I, Q. }
    assert (P0 : vtake z act = zeros (length act)).
    { apply Ind; [apply map_length|]. rewrite (proj1 (proj2 SA)). pose proof (shape_tr _ _ _ SA) as ST. apply (nth_ext _ _ 0 0); [rewrite mv_length, zeros_length; apply ST|].
      intros i Hi. rewrite mv_length, (proj1 ST) in Hi. rewrite nth_zeros. rewrite <- (dot_unit_r nu i) by (auto; rewrite mv_length; apply ST).
      rewrite (dot_mv_tr (mtake (q_Au q) act) (length act) nu) by (first [exact SA|apply map_length]). rewrite mv_mtake_vtake.
      assert (Q : dot z (mv (q_Au q) (unit nu i)) = 0). { rewrite D. rewrite <- (dot_mv_tr (mtake (q_Au q) act') (length act') nu) by (first [exact SA'|exact Ly]). rewrite Ey. apply dot_zeros_l. }
      rewrite ZZ in Q. rewrite dot_scatter in Q; auto.
      - rewrite dot_zeros_l in Q. lra.
      - apply map_length.
      - rewrite zeros_length, LA. reflexivity.
      - intros j Hj. rewrite zeros_length. auto.
      - intros j _. apply nth_zeros. }
    rewrite ZZ, P0. apply (nth_ext _ _ 0 0); [rewrite scatter_length; reflexivity|]. intros i Hi. rewrite nth_zeros. destruct (in_dec Nat.eq_dec i act) as [Hia|Hia].
    - destruct (In_nth _ _ 0%nat Hia) as (k & Hk & Ek). rewrite <- Ek. rewrite (nth_scatter_in act 0 0); auto; [apply nth_zeros|apply zeros_length|intros j Hj; rewrite zeros_length; auto].
    - rewrite nth_scatter_out by exact Hia. apply nth_zeros. }
  apply (nth_ext _ _ 0 0); [rewrite zeros_length; exact Ly|]. intros k Hk. rewrite <- Zi by lia. rewrite Z0, !nth_zeros. reflexivity.
Qed.

(*@ Theorem C63_rows : Row i of a region belongs to constraint c of the program, where c runs through the active constraints first and the others after them: for an active one the row says that its multiplier is nonnegative, for another one that it is satisfied; the row is tight exactly where the multiplier is zero, or the constraint is tight. *)
Lemma facet_rows np Huu Hux Hxx fu fx g Au Ax b nu nx m q act cr i :
  exact_np np -> mp_data Huu Hux Hxx fu fx Au Ax b nu nx m ->
  MultiParametricQuadraticProgram np Huu Hux Hxx fu fx g Au Ax b = Ok q ->
  explicit_solve_given_active_set np q act = Ok (Some cr) -> (i < m)%nat ->
  let c := facet_constraint act m i in
  let lhs x := dot (row (pA (cr_poly cr)) i) x in let rhs := nth i (pb (cr_poly cr)) 0 in
  (c < m)%nat /\ (In c act <-> (i < length act)%nat) /\
  forall x, length x = nx ->
    (In c act -> (lhs x <= rhs <-> 0 <= nth c (cr_p cr x) 0) /\ (lhs x = rhs <-> nth c (cr_p cr x) 0 = 0)) /\
    (~ In c act -> (lhs x <= rhs <-> dot (row Au c) (cr_u cr x) + dot (row Ax c) x <= nth c b 0) /\
                   (lhs x = rhs <-> dot (row Au c) (cr_u cr x) + dot (row Ax c) x = nth c b 0)).
Proof.
  intros Hnp Hd Hc E Hi c lhs rhs. destruct (constructed _ _ _ _ _ _ _ _ _ _ _ _ _ _ Hnp Hd Hc) as (Hq & Hinv & ->).
  destruct (region_rows np _ nu nx m act cr i Hnp Hq E Hi) as (C1 & C2 & s & Hs & _ & ES). fold c in C1, C2, ES. cbn [q_Au q_Ax q_b] in ES. split; [exact C1|]. split; [exact C2|]. intros x Lx. specialize (ES x Lx). fold (lhs x) rhs in ES. split; intros Hin.
  - rewrite (proj2 (Nat.ltb_lt _ _) (proj1 C2 Hin)) in ES. split; split; intros H; nra.
  - assert (Q : (i <? length act)%nat = false) by (apply Nat.ltb_ge; destruct (Nat.le_gt_cases (length act) i) as [L|L]; [exact L|exfalso; apply Hin, C2, L]). rewrite Q in ES. split; split; intros H; nra.
Qed.
(*@ Theorem C63_neighbour : The right guess: flipping constraint c (not: row i) in the active set gives an active set that is optimal on the whole facet, with the same minimizer, value and multipliers there.  Beyond a multiplier facet its region always exists; beyond a constraint facet it exists unless row c of Au depends on the active ones. *)
Lemma neighbour np Huu Hux Hxx fu fx g Au Ax b nu nx m q act cr i x :
  exact_np np -> mp_data Huu Hux Hxx fu fx Au Ax b nu nx m ->
  MultiParametricQuadraticProgram np Huu Hux Hxx fu fx g Au Ax b = Ok q ->
  explicit_solve_given_active_set np q act = Ok (Some cr) -> (i < m)%nat ->
  in_poly (cr_poly cr) x -> dot (row (pA (cr_poly cr)) i) x = nth i (pb (cr_poly cr)) 0 ->
  let c := facet_constraint act m i in let guess := flip act c in
  (exists cr', explicit_solve_given_active_set np q guess = Ok (Some cr') /\ in_poly (cr_poly cr') x /\
     cr_u cr' x = cr_u cr x /\ cr_p cr' x = cr_p cr x /\ cr_V cr' x = cr_V cr x) \/
  (~ In c act /\ explicit_solve_given_active_set np q guess = Ok None /\ ~ indep_rows (mtake Au guess) (length guess)).
Proof.
  intros Hnp Hd Hc E Hi Hx Ht c guess. destruct (facet_rows _ _ _ _ _ _ _ _ _ _ _ _ _ _ _ _ i Hnp Hd Hc E Hi) as (C1 & C2 & CR). fold c in C1, C2, CR.
  destruct (constructed _ _ _ _ _ _ _ _ _ _ _ _ _ _ Hnp Hd Hc) as (Hq & Hinv & Eq). destruct (some_region np q nu nx m act cr Hnp Hq E) as (Hact & Ind & ROK). pose proof ROK as (ND & _ & W & _ & F).
  assert (Lx : length x = nx). { destruct Hx as (Lx & _). rewrite Lx. apply W. }
  destruct (F x Lx) as (Lu & Lp & St & Tt & Zz & VV & IN). destruct (proj1 IN Hx) as (NN & FE). specialize (CR x Lx). destruct CR as (CRa & CRi).
  destruct (flip_ok act c) as (SS & FI). fold guess in SS, FI.
  assert (NDg : NoDup guess). { clear - SS. induction SS as [|a l H IH Fa]; constructor; [|exact IH]. intros Q. rewrite Forall_forall in Fa. specialize (Fa a Q). lia. }
  assert (Hg : forall j, In j guess -> (j < m)%nat). { intros j Hj. apply FI in Hj. destruct (Nat.eq_dec j c) as [ -> |]; [exact C1|]. apply Hact, Hj. }
  pose proof (active_set_ok np q nu nx m guess Hnp Hq Hg) as [(Ig & cr' & E' & ROK')|(Ig & E')].
  - left. exists cr'. split; [exact E'|]. pose proof ROK' as (_ & _ & W' & _ & F'). destruct (F' x Lx) as (Lu' & Lp' & St' & Tt' & Zz' & VV' & IN').
    assert (TG : forall j, In j guess -> dot (row (q_Au q) j) (cr_u cr x) + dot (row (q_Ax q) j) x = nth j (q_b q) 0).
    { intros j Hj. pose proof (proj1 (FI j) Hj) as Q. destruct (Nat.eq_dec j c) as [ -> |]; [|apply Tt, Q]. rewrite Eq. cbn [q_Au q_Ax q_b]. apply (proj2 (CRi Q)). exact Ht. }
    assert (ZG : forall j, ~ In j guess -> nth j (cr_p cr x) 0 = 0).
    { intros j Hj. destruct (Nat.eq_dec j c) as [Q|Q].
      - subst j. destruct (in_dec Nat.eq_dec c act) as [I|I]; [apply (proj2 (CRa I)), Ht|apply Zz, I].
      - apply Zz. intros I. apply Hj. apply FI. destruct (Nat.eq_dec j c); [contradiction|exact I]. }
    assert (UP : cr_u cr' x = cr_u cr x /\ cr_p cr' x = cr_p cr x).
    { apply (kkt_unique q nu nx m guess x); auto. intros j Hj. specialize (TG j Hj). specialize (Tt' j Hj). lra. }
    destruct UP as (U1 & U2). split; [apply IN'; rewrite U1, U2; split; assumption|]. split; [exact U1|]. split; [exact U2|]. rewrite VV, VV', U1. reflexivity.
  - right. rewrite Eq in Ig. cbn [q_Au] in Ig. split; [|split; [exact E'|exact Ig]]. intros I. apply Ig. pose proof (indep_flip q nu nx m act guess Hq Hact ND NDg) as K. rewrite Eq in K. cbn [q_Au] in K. apply K; [|rewrite Eq in Ind; exact Ind].
    intros j Hj. apply FI in Hj. destruct (Nat.eq_dec j c) as [ -> |]; [contradiction|exact Hj].
Qed.
(*@ Theorem C63_initial : When the active constraints are the first ones, row i belongs to constraint i, and the guess of explicit_solve, which flips i, is the right one. *)
Lemma facet_initial k m i : (i < m)%nat -> (k <= m)%nat -> facet_constraint (seq 0 k) m i = i.
Proof.
  intros Hi Hk. unfold facet_constraint. replace (filter _ (seq 0 m)) with (seq k (m - k)).
  - rewrite <- seq_app. rewrite seq_nth; lia.
  - replace m with (k + (m - k))%nat at 2 by lia. rewrite seq_app, filter_app. cbn [Nat.add].
    assert (F1 : forall l, (forall j, In j l -> (j < k)%nat) -> filter (fun j => negb (existsb (Nat.eqb j) (seq 0 k))) l = []). { induction l as [|a l IH]; intros H; [reflexivity|]. cbn [filter]. assert (Q : existsb (Nat.eqb a) (seq 0 k) = true) by (apply existsb_In, in_seq; specialize (H a (or_introl eq_refl)); lia). rewrite Q. cbn [negb]. apply IH. intros; apply H; right; assumption. }
    assert (F2 : forall l, (forall j, In j l -> (k <= j)%nat) -> filter (fun j => negb (existsb (Nat.eqb j) (seq 0 k))) l = l). { induction l as [|a l IH]; intros H; [reflexivity|]. cbn [filter]. destruct (existsb (Nat.eqb a) (seq 0 k)) eqn:Q; [apply existsb_In, in_seq in Q; specialize (H a (or_introl eq_refl)); lia|]. cbn [negb]. f_equal. apply IH. intros; apply H; right; assumption. }
    rewrite F1, F2; [reflexivity|intros j Hj; apply in_seq in Hj; lia|intros j Hj; apply in_seq in Hj; lia].
Qed.

(*@ Theorem C63_guess_refuted : The guess of explicit_solve flips the number of the row instead of the number of the constraint: for min 1/2 u^2 s.t. u <= 10, u >= x, beyond the facet x = 0 of the region of the active set {1} it guesses {0, 1}, which is optimal nowhere (dependent constraints); the right guess {} is optimal on the facet. *)
Lemma guess_refuted : exists Huu Hux Hxx fu fx g Au Ax b act i x, mp_data Huu Hux Hxx fu fx Au Ax b 1 1 2 /\
  forall np, exact_np np -> exists q cr cr', MultiParametricQuadraticProgram np Huu Hux Hxx fu fx g Au Ax b = Ok q /\
    explicit_solve_given_active_set np q act = Ok (Some cr) /\ (i < 2)%nat /\ in_poly (cr_poly cr) x /\ dot (row (pA (cr_poly cr)) i) x = nth i (pb (cr_poly cr)) 0 /\
    explicit_solve_given_active_set np q (flip act i) = Ok None /\
    explicit_solve_given_active_set np q (flip act (facet_constraint act 2 i)) = Ok (Some cr') /\ in_poly (cr_poly cr') x.
Proof.
  set (Au := Mat 1 [[1]; [-1]]). set (Ax := Mat 1 [[0]; [1]]). set (b := [10; 0]).
  exists (Mat 1 [[1]]), (Mat 1 [[0]]), (Mat 1 [[0]]), [0], [0], 0, Au, Ax, b, [1%nat], 0%nat, [0].
  assert (Hd : mp_data (Mat 1 [[1]]) (Mat 1 [[0]]) (Mat 1 [[0]]) [0] [0] Au Ax b 1 1 2).
  { destruct ex_data as (D1' & D2' & D3 & D4 & D5 & D6 & _). unfold mp_data. split; [exact D1'|]. split; [exact D2'|]. split; [exact D3|]. split; [exact D4|]. split; [reflexivity|]. split; [reflexivity|].
    assert (SH : forall a c, shape (Mat 1 [[a]; [c]]) 2 1) by (intros; split; [reflexivity|]; split; [reflexivity|]; repeat constructor). split; [apply SH|]. split; [apply SH|reflexivity]. }
  split; [exact Hd|]. intros np Hnp. destruct (region_returned np _ _ _ _ _ 0 _ _ _ _ _ _ Hnp Hd) as (q & Eq & RR).
  assert (I1 : indep_rows (mtake Au [1%nat]) 1). { intros y Ly Ey. destruct y as [|y [|]]; try discriminate Ly. unfold Au in Ey. cbn in Ey. injection Ey as Ey. cbn. f_equal. lra. }
  assert (B1 : forall j, In j [1%nat] -> (j < 2)%nat) by (intros j [<-|[]]; lia).
  destruct (proj1 (proj1 (proj2 (RR [1%nat]) B1)) I1) as (cr & Ecr).
  destruct (constructed _ _ _ _ _ _ _ _ _ _ _ _ _ _ Hnp Hd Eq) as (Hq & Hinv & Eqq). destruct (some_region np q 1 1 2 [1%nat] cr Hnp Hq Ecr) as (_ & _ & (_ & _ & _ & _ & F)).
  destruct (F [0] eq_refl) as (Lu & Lp & St & Tt & Zz & _ & IN). rewrite Eqq in St, Tt, IN. cbn [q_Huu q_Hux q_fu q_Au q_Ax q_b] in St, Tt.
  destruct (cr_u cr [0]) as [|u [|]]; try discriminate Lu. destruct (cr_p cr [0]) as [|p0 [|p1 [|]]] eqn:EP; try discriminate Lp.
  specialize (Tt 1%nat (or_introl eq_refl)). specialize (St [1] eq_refl). specialize (Zz 0%nat ltac:(intros [Q|[]]; discriminate)). cbn in Tt, St, Zz.
  assert (U0 : u = 0) by lra. assert (P1 : p1 = 0) by nra. subst u p0 p1.
  assert (Hin : in_poly (cr_poly cr) [0]). { apply IN. split; [repeat apply Forall_cons; try lra; apply Forall_nil|]. split; [reflexivity|]. intros j Hj. cbn in Hj. destruct j as [|[|]]; [cbn; lra|cbn; lra|lia]. }
  destruct (facet_rows np _ _ _ _ _ _ _ _ _ _ _ _ _ _ _ 0%nat Hnp Hd Eq Ecr ltac:(lia)) as (_ & _ & FR). destruct (FR [0] eq_refl) as (FA & _).
  assert (Ht : dot (row (pA (cr_poly cr)) 0) [0] = nth 0 (pb (cr_poly cr)) 0). { apply FA; [left; reflexivity|]. rewrite EP. reflexivity. }
  destruct (neighbour np _ _ _ _ _ _ _ _ _ _ _ _ _ _ _ 0%nat [0] Hnp Hd Eq Ecr ltac:(lia) Hin Ht) as [(cr' & E' & I' & _)|(Q & _)].
  2:{ exfalso. apply Q. left. reflexivity. }
  exists q, cr, cr'. split; [exact Eq|]. split; [exact Ecr|]. split; [lia|]. split; [exact Hin|]. split; [exact Ht|]. split; [|split; [exact E'|exact I']].
  apply (proj2 (RR (flip [1%nat] 0))); [intros j Hj; cbn in Hj; lia|]. intros Q. specialize (Q [1; 1] eq_refl). cbn in Q. assert (W : [1; 1] = [0; 0]) by (apply Q; f_equal; ring). injection W as W _. lra.
Qed.

(** ** Centers of facets *)
(** c is on the hyperplane of row i, and all points of the hyperplane within distance r are in the polyhedron *)
Definition facet_ball (p : poly) (i : nat) (c : vec) (r : R) : Prop :=
  length c = ncols (pA p) /\ dot (row (pA p) i) c = nth i (pb p) 0 /\
  forall y, length y = ncols (pA p) -> dot (row (pA p) i) y = nth i (pb p) 0 -> dist2 y c <= r * r -> in_poly p y.
(*@ Theorem C64_facet_center : In two or more dimensions facet_center(i) is the center of a largest ball of the facet: a point of the region on the hyperplane of row i, and no ball of the hyperplane inside the region has a larger radius. *)
Lemma facet_center_ok np p m n i : exact_np np -> wf p m 0 n -> (2 <= n)%nat -> (i < m)%nat -> row (pA p) i <> zeros n ->
  (exists x, in_poly p x /\ dot (row (pA p) i) x = nth i (pb p) 0) -> (exists M, forall c r, 0 <= r -> facet_ball p i c r -> r <= M) ->
  exists c r, facet_center np p i = Ok (Some c) /\ in_poly p c /\ 0 <= r /\ facet_ball p i c r /\ forall c' r', 0 <= r' -> facet_ball p i c' r' -> r' <= r.
Proof.
  intros Hnp W Hn Hi Hr (x0 & Hx0 & Tx0) (M & HM). pose proof W as (WA & Wb & WC & Wd).
  assert (EC : ncols (pA p) = n) by apply WA. assert (LR : length (rows (pA p)) = m) by apply WA.
  assert (Lri : length (row (pA p) i) = n). { destruct WA as (_ & _ & F). rewrite Forall_forall in F. apply F, nth_In. lia. }
  unfold facet_center. rewrite EC. replace (Nat.eqb n 1) with false by (symmetry; apply Nat.eqb_neq; lia).
  assert (SL : forall (A : Type) (l : list A) d, (i < length l)%nat -> slice i (S i) l = [nth i l d]). { clear. intros A l d. unfold slice. revert i. induction l as [|a l IH]; intros i Hi; [cbn in Hi; lia|]. destruct i; [reflexivity|]. cbn [nth]. rewrite <- (IH i) by (cbn in Hi; lia). replace (S (S i) - S i)%nat with (S i - i)%nat by lia. reflexivity. }
  rewrite (SL _ (rows (pA p)) []) by lia. rewrite (SL _ (pb p) 0) by lia. fold (row (pA p) i).
  set (Cr := Mat n [row (pA p) i]). assert (SC : shape Cr 1 n) by (split; [reflexivity|]; split; [reflexivity|]; constructor; [exact Lri|constructor]).
  assert (pC0 : rows (pC p) = [] /\ ncols (pC p) = n). { destruct WC as (R0 & R1 & _). split; [apply length_zero_iff_nil, R0|exact R1]. } destruct pC0 as (RC0 & CC0).
  assert (pd0 : pd p = []) by (apply length_zero_iff_nil; exact Wd).
  unfold run_on. cbn [bind]. rewrite add_equality_eq by lia. unfold nrows at 1. cbn [Cr rows length nd_size Nat.eqb].
  assert (KN : length (keep None (ncols (pA p))) = n) by (cbn; rewrite seq_length; exact EC). rewrite KN. change (ncols Cr) with n. rewrite Nat.eqb_refl. rewrite selection_none, EC. fold Cr. rewrite (mm_eye_r Cr 1 n SC). cbv zeta iota. cbn [bind].
  set (fp := set_d _ _).
  assert (PA : pA fp = pA p) by reflexivity. assert (Pb : pb fp = pb p) by reflexivity.
  assert (PC : pC fp = Cr). { unfold fp, set_d, set_C, delete_attributes. cbn [pC]. unfold vstack. rewrite RC0, CC0. reflexivity. }
  assert (Pd : pd fp = [nth i (pb p) 0]). { unfold fp, set_d. cbn [pd]. rewrite pd0. reflexivity. }
  assert (Wf : wf fp m 1 n). { unfold wf. rewrite PA, Pb, PC, Pd. split; [exact WA|]. split; [exact Wb|]. split; [exact SC|reflexivity]. }
  assert (EQ : forall y, eq_holds (pC fp) (pd fp) y <-> dot (row (pA p) i) y = nth i (pb p) 0). { intros y. rewrite PC, Pd. unfold eq_holds, Cr. cbn [rows]. split; [intros H; inversion H; subst; assumption|intros H; constructor; [exact H|constructor]]. }
  assert (EQ0 : forall y, eq_holds (pC p) (pd p) y) by (intros y; unfold eq_holds; rewrite RC0, pd0; constructor).
  assert (IP : forall y, in_poly fp y <-> in_poly p y /\ dot (row (pA p) i) y = nth i (pb p) 0). { intros y. unfold in_poly, in_set. rewrite EQ, PA, Pb. specialize (EQ0 y). tauto. }
  assert (BI : forall c r, ball_in fp c r <-> facet_ball p i c r). { intros c r. unfold ball_in, facet_ball. rewrite PA. rewrite EQ. split; intros (B1 & B2 & B3); split; try exact B1; split; try exact B2; intros y Ly Hy Dy; [apply IP, B3; [exact Ly|apply EQ, Hy|exact Dy]|apply EQ in Hy; apply IP; split; [apply B3; assumption|exact Hy]]. }
  assert (GE : good_eqs fp 1 n). { right. split; [lia|]. rewrite PC. intros y Ly Ey. destruct y as [|y [|]]; try discriminate Ly. destruct (Req_dec y 0) as [ -> |Ny]; [reflexivity|exfalso]. apply Hr. apply (nth_ext _ _ 0 0); [rewrite zeros_length; exact Lri|]. intros k Hk.
    apply (f_equal (fun v => dot v (unit n k))) in Ey. rewrite (dot_mv_tr Cr 1 n) in Ey by (auto). rewrite dot_zeros_l in Ey. cbn in Ey. rewrite dot_unit_r in Ey by lia. rewrite nth_zeros. nra. }
  destruct (chebyshev_ok np fp m 1 n Hnp Wf GE eq_refl eq_refl) as (r & c & p' & _ & Ec & _ & _ & (Hr0 & B & BM)).
  - exists x0. apply IP. auto.
  - exists M. intros c r H0 HB. apply (HM c r H0). apply BI, HB.
  - exists c, r. rewrite Ec. cbn [fst]. split; [reflexivity|]. assert (FB : facet_ball p i c r) by (apply BI, B). split.
    + destruct FB as (F1 & F2 & F3). apply F3; [exact F1|exact F2|]. rewrite dist2_self. nra.
    + split; [exact Hr0|]. split; [exact FB|]. intros c' r' H' HB. apply (BM c' r' H'). apply BI, HB.
Qed.
(*@ Theorem C64_facet_center_1d : In one dimension facet_center(i) is the point of the row (when the row is not zero). *)
Lemma facet_center_1d np p m i : wf p m 0 1 -> (i < m)%nat -> row (pA p) i <> [0] -> exists c, facet_center np p i = Ok (Some [c]) /\ forall y, dot (row (pA p) i) [y] = nth i (pb p) 0 <-> y = c.
Proof.
  intros (WA & _) Hi Hr. unfold facet_center. rewrite (proj1 (proj2 WA)). cbn [Nat.eqb]. eexists. split; [reflexivity|].
  assert (Lri : length (row (pA p) i) = 1%nat). { destruct WA as (L & _ & F). rewrite Forall_forall in F. apply F, nth_In. lia. }
  destruct (row (pA p) i) as [|a [|]] eqn:E; try discriminate Lri. cbn [nth]. intros y. unfold dot. cbn. assert (Na : a <> 0) by (intros ->; apply Hr; reflexivity). split; [intros H; rewrite <- H; field; exact Na|intros ->; field; exact Na].
Qed.
(*@ Theorem C64_step : From a point c of the hyperplane of a row of norm one, the point c + step a_i violates the row by exactly the step: if the step exceeds the tolerance of contains the exploration leaves the region, and every point of the region is at distance at least step. *)
Lemma step_outside p m n i c step : wf p m 0 n -> (i < m)%nat -> norm (row (pA p) i) = 1 -> length c = n -> dot (row (pA p) i) c = nth i (pb p) 0 -> 0 <= step ->
  let x := vadd c (vscale step (row (pA p) i)) in
  dot (row (pA p) i) x = nth i (pb p) 0 + step /\ dist2 x c = step * step /\ (tol7 < step -> contains tol7 p x = Ok false) /\ forall y, in_poly p y -> step * step <= dist2 x y.
Proof.
  intros W Hi Hn Lc Tc Hs x. pose proof W as (WA & Wb & WC & Wd).
  assert (Lri : length (row (pA p) i) = n). { destruct WA as (L & _ & F). rewrite Forall_forall in F. apply F, nth_In. lia. }
  assert (NN : dot (row (pA p) i) (row (pA p) i) = 1) by (rewrite <- norm_sqr, Hn; ring).
  assert (Lx : length x = n) by (unfold x; len).
  assert (D : dot (row (pA p) i) x = nth i (pb p) 0 + step). { unfold x. rewrite dot_vadd_r by len. rewrite dot_vscale_r, NN, Tc. ring. }
  split; [exact D|]. split; [|split].
  - unfold dist2, x. replace (vsub (vadd c (vscale step (row (pA p) i))) c) with (vscale step (row (pA p) i)) by vring. rewrite dot_vscale_l, dot_vscale_r, NN. ring.
  - intros Ht. destruct (contains_ok p m 0 n x tol7 W ltac:(lia) ltac:(lia) Lx) as (r & Er & Hr). rewrite Er. f_equal. destruct r; [exfalso|reflexivity]. destruct (proj1 Hr eq_refl) as (F & _). assert (LL : length (rows (pA p)) = length (pb p)) by (destruct WA as (L & _); lia). pose proof (proj1 (Forall2_nth_rows _ _ _ LL) F i ltac:(lia)) as F'. clear F. rename F' into F. cbv beta in F. fold (row (pA p) i) in F. lra.
  - intros y Hy. apply (in_poly_vle _ _ _ _ _ W) in Hy. destruct Hy as (Ly & Vy & _). assert (Dy : dot (row (pA p) i) y <= nth i (pb p) 0). { apply vle_nth in Vy. destruct Vy as (_ & V). specialize (V i). rewrite nth_mv in V. apply V. rewrite mv_length. destruct WA as (L & _). lia. }
    assert (CS : dot (row (pA p) i) (vsub x y) * dot (row (pA p) i) (vsub x y) <= dot (row (pA p) i) (row (pA p) i) * dot (vsub x y) (vsub x y)) by (apply cauchy_schwarz). rewrite NN in CS. rewrite dot_vsub_r in CS by lia. unfold dist2. rewrite D in CS. nra.
Qed.
(*@ Example C63_example : Two constraints with active set {1}: row 0 belongs to constraint 1 and row 1 to constraint 0; the right guesses are {} and {0, 1}, the code guesses {0, 1} and {}.  For the active set {0} both agree. *)
Lemma neighbour_example : map (facet_constraint [1%nat] 2) [0%nat; 1%nat] = [1%nat; 0%nat] /\ map (fun i => flip [1%nat] (facet_constraint [1%nat] 2 i)) [0%nat; 1%nat] = [[]; [0%nat; 1%nat]] /\ map (flip [1%nat]) [0%nat; 1%nat] = [[0%nat; 1%nat]; []] /\
  map (facet_constraint [0%nat] 2) [0%nat; 1%nat] = [0%nat; 1%nat] /\ flip [4%nat; 2%nat] 3 = [2%nat; 3%nat; 4%nat].
Proof. repeat split. Qed.
(*@ Example C64_example : The facet x = 1 of the square |x| <= 1, |y| <= 1 meets the hypotheses, and its center is (1, 0). *)
Lemma facet_center_example np : exact_np np -> let p := Poly (Mat 2 [[1; 0]; [-1; 0]; [0; 1]; [0; -1]]) [1; 1; 1; 1] (Mat 2 []) [] None None None None None in
  wf p 4 0 2 /\ row (pA p) 0 <> zeros 2 /\ norm (row (pA p) 0) = 1 /\ (exists x, in_poly p x /\ dot (row (pA p) 0) x = nth 0 (pb p) 0) /\ (exists M, forall c r, 0 <= r -> facet_ball p 0 c r -> r <= M) /\ facet_center np p 0 = Ok (Some [1; 0]).
Proof.
  intros Hnp p.
  assert (W : wf p 4 0 2). { split; [split; [reflexivity|]; split; [reflexivity|]; repeat constructor|]. split; [reflexivity|]. split; [split; [reflexivity|]; split; [reflexivity|]; constructor|reflexivity]. }
  assert (IN : forall a c, in_poly p [a; c] <-> a <= 1 /\ - a <= 1 /\ c <= 1 /\ - c <= 1).
  { intros a c. unfold in_poly, in_set, ineq_holds, eq_holds, p. cbn [pA pb pC pd rows ncols]. split.
    - intros (_ & H & _). inversion H as [|? ? ? ? Q1 H1]; subst. inversion H1 as [|? ? ? ? Q2 H2]; subst. inversion H2 as [|? ? ? ? Q3 H3]; subst. inversion H3 as [|? ? ? ? Q4 H4]; subst. unfold dot in Q1, Q2, Q3, Q4. cbn in Q1, Q2, Q3, Q4. lra.
    - intros Q. split; [reflexivity|]. split; [|constructor]. repeat apply Forall2_cons; try apply Forall2_nil; unfold dot; cbn; lra. }
  assert (FB : forall c r, 0 <= r -> facet_ball p 0 c r -> exists y, c = [1; y] /\ y + r <= 1 /\ - (y - r) <= 1).
  { intros c r H0 (Lc & Tc & B). destruct c as [|a [|y [|]]]; try discriminate Lc. unfold dot in Tc. cbn in Tc. assert (a = 1) by lra. subst a. exists y. split; [reflexivity|].
    assert (K : forall t, t * t <= r * r -> in_poly p [1; y + t]). { intros t Q. apply B; [reflexivity|unfold dot; cbn; ring|]. unfold dist2, dot. cbn. nra. }
    pose proof (proj1 (IN _ _) (K r ltac:(lra))). pose proof (proj1 (IN _ _) (K (- r) ltac:(nra))). lra. }
  assert (R0 : row (pA p) 0 <> zeros 2) by (cbn; intros Q; injection Q as Q; lra).
  assert (X : exists x, in_poly p x /\ dot (row (pA p) 0) x = nth 0 (pb p) 0) by (exists [1; 0]; split; [apply IN; lra|unfold dot; cbn; ring]).
  assert (M : exists M, forall c r, 0 <= r -> facet_ball p 0 c r -> r <= M) by (exists 1; intros c r H0 HB; destruct (FB c r H0 HB) as (y & _ & Q); lra).
  split; [exact W|]. split; [exact R0|]. split; [|split; [exact X|split; [exact M|]]].
  - unfold norm. cbn. replace (1 * 1 + (0 * 0 + 0)) with (1 * 1) by ring. apply sqrt_square. lra.
  - destruct (facet_center_ok np p 4 2 0 Hnp W ltac:(lia) ltac:(lia) R0 X M) as (c & r & E & _ & Hr & B & BM). rewrite E. do 2 f_equal. destruct (FB c r Hr B) as (y & -> & Q).
    assert (1 <= r). { apply (BM [1; 0]); [lra|]. split; [reflexivity|]. split; [unfold dot; cbn; ring|]. intros v Lv Tv Dv. destruct v as [|a [|t [|]]]; try discriminate Lv. unfold dot in Tv. cbn in Tv. unfold dist2, dot in Dv. cbn in Dv. assert (a = 1) by lra. subst a. apply IN. split; [lra|]. split; [lra|]. split; nra. }
    f_equal. f_equal. lra.
Qed.
