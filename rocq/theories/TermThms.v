(** * TermThms: termination of the explicit solver (C77), proofs *)
From Coq Require Import ZArith Classical Permutation Sorted.
From Verif Require Import Arr ArrFacts Spec SpecMpc Numpy Pnnls PnnlsFacts QpFacts GeomUtils Polyhedron PolyThms Oracle SolverThms NullFacts PolySolveThms PolyMore PolyChebThms PolyCacheThms GeomThms SpecDyn Dynamics DynThms CondenseThms LqrThms Mpqp MpqpThms NeighThms.

(** ** Active sets: there are 2^m of them *)
Fixpoint subs (l : list nat) : list (list nat) :=
  match l with [] => [[]] | a :: l' => map (cons a) (subs l') ++ subs l' end.
Lemma subs_length l : length (subs l) = (2 ^ length l)%nat.
Proof. induction l as [|a l IH]; [reflexivity|]. cbn [subs length Nat.pow]. rewrite app_length, map_length, IH. lia. Qed.
Lemma subs_sorted k : forall s l, StronglySorted lt l -> (forall i, In i l -> (s <= i < s + k)%nat) -> In l (subs (seq s k)).
Proof.
  induction k as [|k IH]; intros s l S H; cbn [seq subs].
  - destruct l as [|a l]; [left; reflexivity|]. specialize (H a (or_introl eq_refl)). lia.
  - apply in_or_app. destruct l as [|a l]; [right; apply IH; [constructor|intros i []]|].
    inversion S as [|? ? S1 S2]; subst. rewrite Forall_forall in S2. destruct (Nat.eq_dec a s) as [->|Ne].
    + left. apply in_map. apply IH; [exact S1|]. intros i Hi. specialize (S2 i Hi). specialize (H i (or_intror Hi)). lia.
    + right. apply IH; [exact S|]. intros i [<-|Hi].
      * specialize (H a (or_introl eq_refl)). lia.
      * specialize (S2 i Hi). pose proof (H a (or_introl eq_refl)). specialize (H i (or_intror Hi)). lia.
Qed.
Definition active_list (m : nat) (l : list nat) : Prop := StronglySorted lt l /\ forall i, In i l -> (i < m)%nat.
Lemma count_actives m ls : NoDup ls -> Forall (active_list m) ls -> (length ls <= 2 ^ m)%nat.
Proof.
  intros ND F. replace (2 ^ m)%nat with (length (subs (seq 0 m))) by (rewrite subs_length, seq_length; reflexivity).
  apply NoDup_incl_length; [exact ND|]. intros l Hl. rewrite Forall_forall in F. destruct (F l Hl) as (S & H). apply subs_sorted; [exact S|].
  intros i Hi. specialize (H i Hi). lia.
Qed.
Lemma combine_seq_sorted {A} (p : A -> bool) (v : list A) : forall s, StronglySorted lt (map fst (filter (fun iv => p (snd iv)) (combine (seq s (length v)) v))) /\
  forall i, In i (map fst (filter (fun iv => p (snd iv)) (combine (seq s (length v)) v))) -> (s <= i)%nat.
Proof.
  induction v as [|a v IH]; intros s; [split; [constructor|intros i []]|]. cbn [length seq combine filter snd]. destruct (IH (S s)) as (I1 & I2).
  destruct (p a); cbn [map fst].
  - split; [constructor; [exact I1|]; apply Forall_forall; intros i Hi; apply I2 in Hi; lia|]. intros i [<-|Hi]; [lia|]. apply I2 in Hi. lia.
  - split; [exact I1|]. intros i Hi. apply I2 in Hi. lia.
Qed.
Lemma where_active p (v : vec) m : length v = m -> active_list m (where_ p v).
Proof. intros L. split; [apply combine_seq_sorted|]. intros i Hi. apply (In_where p v 0) in Hi. lia. Qed.
Lemma flip_active m act i : active_list m act -> (i < m)%nat -> active_list m (flip act i).
Proof.
  intros (S & H) Hi. destruct (flip_ok act i) as (F1 & F2). split; [exact F1|]. intros j Hj. apply F2 in Hj. destruct (Nat.eq_dec j i) as [->|]; [exact Hi|apply H, Hj].
Qed.

(** ** The calls of the loop *)
Lemma mpqp_active np q x s : mpqp_solve np q x = Ok s ->
  s_active_set s = match s_multiplier_inequality s with Some l => Some (where_ (fun y => Rltb tol7 y) l) | None => None end.
Proof.
  unfold mpqp_solve, qp, quadratic_program, qp_core. cbv zeta. destruct (stack_eq _ _ _ _) as (AC & bd).
  destruct (np_chol np (q_Huu q)) as [L|]; cbn [bind]; [|discriminate]. destruct (np_inv np L) as [Li|]; cbn [bind]; [|discriminate].
  destruct (np_nnls _ _ _) as (y & r). cbn [bind]. destruct (Rltb tol7 r); cbn [s_min]; intros E; injection E as <-; reflexivity.
Qed.
(** a multiplier is computed as zero, or it is recognized as positive *)
Definition clear_multipliers np q x : Prop := forall s l i, mpqp_solve np q x = Ok s -> s_multiplier_inequality s = Some l -> nth i l 0 = 0 \/ tol7 < nth i l 0.
Lemma qp_region np q nu nx m x s act cr : exact_np np -> coherent q nu nx m -> length x = nx -> mpqp_solve np q x = Ok s -> s_active_set s = Some act ->
  clear_multipliers np q x -> explicit_solve_given_active_set np q act = Ok (Some cr) -> in_poly (cr_poly cr) x.
Proof.
  intros Hnp Hq Lx Es Ea Cl Er. destruct (free_minimizer q nu nx m x Hq) as (v0 & L0 & E0).
  destruct (mpqp_solve_ok np q nu nx m x v0 Hnp Hq Lx L0 E0) as (s' & Es' & [(-> & _)|(_ & u & l & Au & _ & (Fu & _) & El & (Ll & Pl & St & Cs))]).
  { rewrite Es in Es'. injection Es' as ->. discriminate Ea. }
  rewrite Es in Es'. injection Es' as <-. specialize (Cl s l). rewrite (mpqp_active np q x s Es), El in Ea. injection Ea as Ea.
  destruct (some_region np q nu nx m act cr Hnp Hq Er) as (R & Ind & RO). pose proof RO as (ND & _ & W & _ & H).
  destruct (H x Lx) as (Lu & Lp & St' & Ti & Ze & HV & Hin). pose proof Hq as (_ & _ & _ & _ & _ & _ & SAu & _ & Lb & _).
  assert (Lu' : length u = nu) by (rewrite (proj1 Fu); apply SAu).
  assert (OUT : forall i, ~ In i act -> nth i l 0 = 0).
  { intros i Hi. destruct (Cl i Es El) as [Z|Z]; [exact Z|]. exfalso. apply Hi. rewrite <- Ea. apply (In_where _ l 0). split; [|apply Rltb_true, Z].
    destruct (Nat.lt_ge_cases i (length l)) as [|G]; [assumption|]. rewrite nth_overflow in Z by exact G. unfold tol7 in Z. lra. }
  assert (TI : forall i, In i act -> dot (row (q_Au q) i) u + dot (row (q_Ax q) i) x = nth i (q_b q) 0).
  { intros i Hi. rewrite <- Ea in Hi. apply (In_where _ l 0) in Hi. destruct Hi as (Hi & Z). apply Rltb_true in Z. unfold tol7 in Z. specialize (Cs i ltac:(lia)). apply Rmult_integral in Cs. lra. }
  destruct (kkt_unique q nu nx m act x (cr_u cr x) (cr_p cr x) u l Hq R ND Ind Lu Lu' Lp ltac:(lia) St') as (Eu & Ep); auto.
  - intros v Lv. apply St. rewrite Lv. symmetry. apply SAu.
  - intros i Hi. specialize (Ti i Hi). specialize (TI i Hi). lra.
  - apply Hin. rewrite Eu, Ep. split; [exact Pl|exact Fu].
Qed.
Lemma solve_point np q nu nx m x guess : exact_np np -> coherent q nu nx m -> (0 < m)%nat -> length x = nx -> active_list m guess -> clear_multipliers np q x ->
  explicit_solve_given_point np q x (Some guess) = Ok None \/
  exists cr, explicit_solve_given_point np q x (Some guess) = Ok (Some cr) /\ active_list m (cr_active cr) /\
    explicit_solve_given_active_set np q (cr_active cr) = Ok (Some cr) /\ wf (cr_poly cr) m 0 nx /\ p_empty (cr_poly cr) = None /\ within tol7 (cr_poly cr) x.
Proof.
  intros Hnp Hq Hm Lx (Gs & Gr) Cl. unfold explicit_solve_given_point. set (bq := (s <- mpqp_solve np q x ;; _)).
  assert (B : bq = Ok None \/ exists cr, bq = Ok (Some cr) /\ active_list m (cr_active cr) /\ explicit_solve_given_active_set np q (cr_active cr) = Ok (Some cr) /\ wf (cr_poly cr) m 0 nx /\ p_empty (cr_poly cr) = None /\ within tol7 (cr_poly cr) x).
  { unfold bq. destruct (free_minimizer q nu nx m x Hq) as (v0 & L0 & E0). destruct (mpqp_solve_ok np q nu nx m x v0 Hnp Hq Lx L0 E0) as (s & Es & Cases). rewrite Es. cbn [bind].
    destruct (s_active_set s) as [act|] eqn:Ea; [|left; reflexivity].
    destruct Cases as [(-> & _)|(_ & u & l & _ & _ & _ & El & (Ll & _))]; [discriminate Ea|].
    assert (AL : active_list m act). { rewrite (mpqp_active np q x s Es), El in Ea. injection Ea as <-. apply where_active. rewrite Ll. apply Hq. }
    destruct (active_set_ok np q nu nx m act Hnp Hq (proj2 AL)) as [(_ & cr & Er & RO)|(_ & Er)]; [right|left; exact Er].
    exists cr. split; [exact Er|]. pose proof RO as (_ & EA & W & PE & _). rewrite EA. split; [exact AL|]. split; [exact Er|]. split; [exact W|]. split; [exact PE|].
    pose proof (qp_region np q nu nx m x s act cr Hnp Hq Lx Es Ea Cl Er) as (_ & (IP & _)). intros i Hi. destruct W as ((WA & _) & Wb & _).
    unfold ineq_holds in IP. rewrite Forall2_nth_rows in IP by lia. specialize (IP i Hi). unfold row. unfold tol7. cbn beta in IP. lra. }
  destruct (active_set_ok np q nu nx m guess Hnp Hq Gr) as [(_ & cr & Er & RO)|(_ & Er)]; rewrite Er; cbn [bind]; [|exact B].
  pose proof RO as (_ & EA & W & PE & _). destruct (cr_contains_ok cr m nx x W Hm Lx) as (r & Ec & Hr). rewrite Ec. cbn [bind]. destruct r; [|exact B].
  right. exists cr. split; [reflexivity|]. rewrite EA. split; [split; assumption|]. split; [exact Er|]. split; [exact W|]. split; [exact PE|]. apply Hr. reflexivity.
Qed.
Lemma remove_length_le (i : nat) l : (length (remove Nat.eq_dec i l) <= length l)%nat.
Proof. induction l as [|a l IH]; [apply le_n|]. cbn [remove]. destruct (Nat.eq_dec i a); cbn [length]; lia. Qed.
Lemma facets_loop_cases np tol E f n : forall todo mf, (exists m, shape E m n /\ forall i, In i mf -> (i < m)%nat) ->
  (exists mf', facets_loop np tol E f todo mf = Ok mf' /\ incl mf' mf /\ (length mf' <= length mf)%nat) \/ facets_loop np tol E f todo mf = Err TypeError.
Proof.
  induction todo as [|i todo IH]; intros mf (m & SE & R); cbn [facets_loop]; [left; exists mf; split; [reflexivity|]; split; [apply incl_refl|lia]|].
  rewrite (lp_noeq np _ (mtake E mf) _ (length mf) n) by (apply (shape_mtake E m); assumption). cbn [bind].
  destruct (s_min _) as [mn|]; [|right; reflexivity]. destruct (Rltb _ _); [|apply IH; eauto].
  destruct (IH (remove Nat.eq_dec i mf)) as [(mf' & E1 & I1 & L1)|E1]; [|left|right; exact E1].
  - exists m. split; [exact SE|]. intros j Hj. apply R. apply in_remove in Hj. apply Hj.
  - exists mf'. split; [exact E1|]. split; [|pose proof (remove_length_le i mf); lia]. intros j Hj. apply I1, in_remove in Hj. apply Hj.
Qed.
Lemma facets_cases np p m n : exact_np np -> wf p m 0 n -> p_empty p = None ->
  exists r p', minimal_facets np tol7 p = (r, p') /\
    ((exists mf, r = Ok (Some mf) /\ (length mf <= m)%nat /\ forall i, In i mf -> (i < m)%nat) \/ r = Ok None \/ r = Err TypeError).
Proof.
  intros Hnp W PE. destruct (get_empty_ok np p m 0 n Hnp W PE) as (e & Eg & _). unfold minimal_facets. unfold pbind at 1. rewrite Eg.
  destruct e; [do 2 eexists; split; [reflexivity|auto]|]. pose proof W as (WA & Wb & WC & Wd).
  unfold pbind at 1. unfold pget, plift. change (pC (set_empty p false)) with (pC p). rewrite (nrows_shape _ _ _ WC). cbn [Nat.ltb Nat.leb].
  change (pA (set_empty p false)) with (pA p). change (pb (set_empty p false)) with (pb p). unfold pbind. rewrite (nrows_shape _ _ _ WA).
  destruct (facets_loop_cases np tol7 (pA p) (pb p) n (seq 0 m) (seq 0 m)) as [(mf' & E1 & I1 & L1)|E1].
  - exists m. split; [exact WA|]. intros i Hi. apply in_seq in Hi. lia.
  - rewrite E1. do 2 eexists. split; [reflexivity|]. left. exists mf'. split; [reflexivity|]. rewrite seq_length in L1. split; [exact L1|]. intros i Hi. apply I1, in_seq in Hi. lia.
  - rewrite E1. do 2 eexists. split; [reflexivity|auto].
Qed.
Lemma facet_center_cases np p m n i : exact_np np -> wf p m 0 n -> (i < m)%nat ->
  (exists c, facet_center np p i = Ok (Some c) /\ length c = n) \/ facet_center np p i = Err ValueError \/ facet_center np p i = Ok None.
Proof.
  intros Hnp W Hi. pose proof W as (WA & Wb & WC & Wd).
  assert (EC : ncols (pA p) = n) by apply WA. assert (LR : length (rows (pA p)) = m) by apply WA.
  assert (Lri : length (row (pA p) i) = n). { destruct WA as (_ & _ & F). rewrite Forall_forall in F. apply F, nth_In. lia. }
  enough (K : forall r, facet_center np p i = r -> (exists c, r = Ok (Some c) /\ length c = n) \/ r = Err ValueError \/ r = Ok None) by (apply K; reflexivity). intros r.
  unfold facet_center. rewrite EC. destruct (Nat.eqb n 1) eqn:En; [apply Nat.eqb_eq in En; subst n; intros <-; left; eexists; split; [reflexivity|auto]|].
  assert (SL : forall (A : Type) (l : list A) d, (i < length l)%nat -> slice i (S i) l = [nth i l d]). { clear. intros A l d. unfold slice. revert i. induction l as [|a l IH]; intros i Hi; [cbn in Hi; lia|]. destruct i; [reflexivity|]. cbn [nth]. rewrite <- (IH i) by (cbn in Hi; lia). replace (S (S i) - S i)%nat with (S i - i)%nat by lia. reflexivity. }
  rewrite (SL _ (rows (pA p)) []) by lia. rewrite (SL _ (pb p) 0) by lia. fold (row (pA p) i).
  set (Cr := Mat n [row (pA p) i]). assert (SC : shape Cr 1 n) by (split; [reflexivity|]; split; [reflexivity|]; constructor; [exact Lri|constructor]).
  assert (pC0 : rows (pC p) = [] /\ ncols (pC p) = n). { destruct WC as (R0 & R1 & _). split; [apply length_zero_iff_nil, R0|exact R1]. } destruct pC0 as (RC0 & CC0).
  assert (pd0 : pd p = []) by (apply length_zero_iff_nil; exact Wd).
  unfold run_on. cbn [bind]. rewrite add_equality_eq by lia. unfold nrows at 1. cbn [Cr rows length nd_size Nat.eqb].
  assert (KN : length (keep None (ncols (pA p))) = n) by (cbn; rewrite seq_length; exact EC). rewrite KN. change (ncols Cr) with n. rewrite Nat.eqb_refl. rewrite selection_none, EC. fold Cr. rewrite (mm_eye_r Cr 1 n SC). cbv zeta iota. cbn [bind].
  set (fp := set_d _ _).
  assert (PA : pA fp = pA p) by reflexivity. assert (Pb : pb fp = pb p) by reflexivity.
  assert (PC : pC fp = Cr). { unfold fp, set_d, set_C, delete_attributes. cbn [pC]. unfold vstack. rewrite RC0, CC0. reflexivity. }
  assert (Pd : pd fp = [nth i (pb p) 0]). { unfold fp, set_d. cbn [pd]. rewrite pd0. reflexivity. }
  unfold get_center, pbind, pget. change (p_center fp) with (@None vec). unfold plift, pput, pret, chebyshev. rewrite PA, Pb, PC, Pd.
  change (nrows Cr) with 1%nat. cbn [Nat.ltb Nat.leb]. pose proof Hnp as (_ & _ & _ & Hi' & _ & Hs).
  destruct (remove_equalities_ok np (pA p) (pb p) Cr [nth i (pb p) 0] m 1 n Hs Hi' WA Wb SC eq_refl)
    as [(_ & _ & E & f & N & R & X & ER & EX & SE & Lf & SN & SR & SX & Lr & _)|(_ & ER)]; rewrite ER; cbn [bind fst]; [|intros <-; auto].
  match goal with |- context [lp np ?f ?A ?b None None] => rewrite (lp_noeq np f A b m (n - 1 + 1)) end.
  2:{ assert (LE : length (rows E) = m) by apply SE. apply (shape_hstack E _ m (n - 1) 1); [exact SE|]. split; [cbn; rewrite map_length; exact LE|]. split; [reflexivity|]. apply Forall_map, Forall_forall. intros; reflexivity. }
  cbn [bind]. rewrite EX. cbn [bind]. destruct (match s_min _ with Some _ => _ | None => _ end) as [c|]; cbn [fst snd]; [|intros <-; auto].
  intros <-. left. eexists. split; [reflexivity|]. assert (LN : length (rows N) = n) by apply SN. assert (LRr : length (rows R) = n) by apply SR.
  unfold mv. rewrite map_length. unfold hstack. cbn [rows]. rewrite map2_length. lia.
Qed.
Lemma uncovered_cases crs m nx : (0 < m)%nat -> Forall (fun c => wf (cr_poly c) m 0 nx) crs -> forall buf, Forall (fun xg : vec * list nat => length (fst xg) = nx) buf ->
  exists buf', uncovered crs buf = Ok buf' /\ (length buf' <= length buf)%nat /\ incl buf' buf /\ forall xg c, In xg buf' -> In c crs -> ~ within tol7 (cr_poly c) (fst xg).
Proof.
  intros Hm Fc. assert (CV : forall x, length x = nx -> exists r, covered crs x = Ok r /\ (r = false -> forall c, In c crs -> ~ within tol7 (cr_poly c) x)).
  { intros x Lx. unfold covered. assert (M : exists bs, mapM (fun c => cr_contains c x) crs = Ok bs /\ (existsb (fun b => b) bs = false -> forall c, In c crs -> ~ within tol7 (cr_poly c) x)).
    { induction Fc as [|c crs W Fc (bs & Eb & Hb)]; [exists []; split; [reflexivity|intros _ c []]|]. destruct (cr_contains_ok c m nx x W Hm Lx) as (r & Er & Hr).
      exists (r :: bs). cbn [mapM]. rewrite Er. cbn [bind]. rewrite Eb. cbn [bind existsb]. split; [reflexivity|]. intros Hf. apply Bool.orb_false_iff in Hf. destruct Hf as (-> & Hf).
      intros d [<-|Hd]; [|apply Hb; assumption]. intros C. apply Hr in C. discriminate C. }
    destruct M as (bs & Eb & Hb). rewrite Eb. cbn [bind]. eauto. }
  induction buf as [|xg buf IH]; intros Fb; [exists []; split; [reflexivity|]; split; [apply le_n|]; split; [apply incl_refl|intros ? ? []]|].
  pose proof (Forall_inv Fb) as L1. pose proof (Forall_inv_tail Fb) as L2. destruct (IH L2) as (b' & E & Lb & Ib & Hb). destruct (CV (fst xg) L1) as (r & Er & Hr). cbn [uncovered]. rewrite Er. cbn [bind]. rewrite E. cbn [bind].
  destruct r; eexists; (split; [reflexivity|]).
  - split; [cbn [length]; lia|]. split; [intros y Hy; right; apply Ib, Hy|exact Hb].
  - split; [cbn [length]; lia|]. split; [intros y [<-|Hy]; [left; reflexivity|right; apply Ib, Hy]|]. intros y c [<-|Hy]; [apply Hr; reflexivity|apply Hb, Hy].
Qed.

(** the points at which the loop can call the QP: the origin, and the points at distance step beyond the facets of the regions of all active sets *)
Definition exploration_point np q (step : R) (x : vec) : Prop :=
  x = zeros (length (q_fx q)) \/
  exists act cr mf p' i c, explicit_solve_given_active_set np q act = Ok (Some cr) /\ minimal_facets np tol7 (cr_poly cr) = (Ok (Some mf), p') /\ In i mf /\
    facet_center np p' i = Ok (Some c) /\ x = vadd c (vscale step (row (pA p') i)).

Section Loop.
Variables (np : numpy) (q : mpqp) (nu nx m : nat) (step : R).
Hypothesis Hnp : exact_np np.
Hypothesis Hq : coherent q nu nx m.
Hypothesis Hm : (0 < m)%nat.
Hypothesis Hcl : forall x, exploration_point np q step x -> clear_multipliers np q x.
Definition kept (c : critical_region) : Prop := active_list m (cr_active c) /\ wf (cr_poly c) m 0 nx /\
  exists c0, explicit_solve_given_active_set np q (cr_active c) = Ok (Some c0) /\ same_region c0 c.
Definition waiting (xg : vec * list nat) : Prop := length (fst xg) = nx /\ exploration_point np q step (fst xg) /\ active_list m (snd xg).
Definition stopped (r : res (list critical_region)) : Prop :=
  (exists crs, r = Ok crs /\ Forall kept crs /\ NoDup (map cr_active crs)) \/ r = Err TypeError \/ r = Err ValueError.
Lemma loop_stops fuel : forall buf crs, Forall kept crs -> NoDup (map cr_active crs) -> Forall waiting buf ->
  (length buf + (2 ^ m - length crs) * (m + 1) < fuel)%nat -> stopped (explicit_loop np fuel step q buf crs).
Proof.
  induction fuel as [|fuel IH]; intros buf crs Fk ND Fw Hf; [inversion Hf|]. cbn [explicit_loop].
  assert (DONE : stopped (Ok crs)) by (left; exists crs; auto).
  destruct buf as [|xg0 buf0]; [exact DONE|]. set (buf := xg0 :: buf0) in *.
  assert (Fwf : Forall (fun c => wf (cr_poly c) m 0 nx) crs) by (apply (Forall_impl _ (fun c (H : kept c) => proj1 (proj2 H)) Fk)).
  destruct (uncovered_cases crs m nx Hm Fwf buf (Forall_impl _ (fun xg (H : waiting xg) => proj1 H) Fw)) as (buf' & Eu & Lu & Iu & Hu). rewrite Eu. cbn [bind].
  destruct buf' as [|(x & guess) rest]; [exact DONE|].
  assert (Fw' : Forall waiting ((x, guess) :: rest)) by (apply Forall_forall; intros y Hy; rewrite Forall_forall in Fw; apply Fw, Iu, Hy).
  inversion Fw' as [|? ? (W1 & W2 & W3) Fr]; subst. cbn [fst snd] in W1, W2, W3. cbn [length] in Lu.
  destruct (solve_point np q nu nx m x guess Hnp Hq Hm W1 W3 (Hcl x W2)) as [E|(cr & E & AL & Er & W & PE & Hx)]; rewrite E; cbn [bind].
  { apply IH; try assumption. lia. }
  destruct (facets_cases np (cr_poly cr) m nx Hnp W PE) as (r & p' & Em & Cr). pose proof (facets_fields np tol7 (cr_poly cr)) as Q. rewrite Em in *. cbv zeta in Q. cbn [snd] in Q.
  destruct Cr as [(mf & -> & Lmf & Rmf)|[->| ->]]; [|right; left; reflexivity|right; left; reflexivity].
  assert (Wp : wf p' m 0 nx). { destruct Q as (Q1 & Q2 & Q3 & Q4). unfold wf. rewrite Q1, Q2, Q3, Q4. exact W. }
  match goal with |- stopped (new <- mapM ?f mf ;; _) => set (fn := f) end.
  assert (MM : (exists new, mapM fn mf = Ok new /\ length new = length mf /\ Forall waiting new) \/ mapM fn mf = Err TypeError \/ mapM fn mf = Err ValueError).
  { assert (G : forall l, incl l mf -> (exists new, mapM fn l = Ok new /\ length new = length l /\ Forall waiting new) \/ mapM fn l = Err TypeError \/ mapM fn l = Err ValueError); [|apply G, incl_refl].
    induction l as [|i l IHl]; intros Il; [left; exists []; auto|]. assert (Hi : (i < m)%nat) by (apply Rmf, Il; left; reflexivity).
    destruct (facet_center_cases np p' m nx i Hnp Wp Hi) as [(c & Ec & Lc)|[Ec|Ec]]; cbn [mapM]; unfold fn at 1 3 5; rewrite Ec; cbn [bind]; [|auto|auto].
    destruct IHl as [(new & En & Ln & Fn)|[En|En]]; [intros j Hj; apply Il; right; exact Hj| | |]; rewrite En; cbn [bind]; [|auto|auto].
    left. eexists. split; [reflexivity|]. split; [cbn [length]; lia|]. constructor; [|exact Fn].
    assert (Lri : length (row (pA p') i) = nx). { destruct Wp as ((LL & _ & FF) & _). rewrite Forall_forall in FF. apply FF, nth_In. lia. }
    split; [cbn [fst]; rewrite vadd_length, vscale_length; lia|]. split; [|apply flip_active; assumption]. right. exists (cr_active cr), cr, mf, p', i, c. split; [exact Er|]. split; [exact Em|]. split; [apply Il; left; reflexivity|]. auto. }
  destruct MM as [(new & En & Ln & Fn)|[En|En]]; rewrite En; cbn [bind]; [|right; left; reflexivity|right; right; reflexivity].
  match goal with |- stopped (explicit_loop _ _ _ _ _ (_ ++ [?c])) => set (c' := c) end.
  assert (K' : kept c'). { split; [exact AL|]. split; [exact Wp|]. exists cr. split; [exact Er|]. split; [reflexivity|]. split; [reflexivity|]. split; [reflexivity|]. exact Q. }
  assert (ND' : NoDup (map cr_active (crs ++ [c']))).
  { rewrite map_app. apply NoDup_app_disj; [exact ND|constructor; [intros []|constructor]|]. intros a Ha [<-|[]]. apply in_map_iff in Ha. destruct Ha as (d & Ed & Hd).
    rewrite Forall_forall in Fk. destruct (Fk d Hd) as (_ & _ & c0 & E0 & S0). rewrite Ed in E0. change (cr_active c') with (cr_active cr) in E0. rewrite Er in E0. injection E0 as <-.
    apply (Hu (x, guess) d (or_introl eq_refl) Hd). cbn [fst]. destruct S0 as (_ & _ & _ & S1 & S2 & _). unfold within. rewrite S1, S2. exact Hx. }
  assert (Fk' : Forall kept (crs ++ [c'])) by (apply Forall_app; auto).
  pose proof (count_actives m _ ND' ltac:(apply Forall_map; apply (Forall_impl _ (fun c (H : kept c) => proj1 H) Fk'))) as CNT. rewrite map_length, app_length in CNT. cbn [length] in CNT.
  apply IH; [exact Fk'|exact ND'|apply Forall_app; auto|]. rewrite !app_length. cbn [length]. 
  replace (2 ^ m - length crs)%nat with (S (2 ^ m - (length crs + 1)))%nat in Hf by lia. cbn [Nat.mul] in Hf. lia.
Qed.
End Loop.

(*@ Theorem C77_terminates_partial : If at the origin and at the points beyond the facets of the regions every multiplier computed by the QP solver is zero or larger than 1e-7, then explicit_solve ends within 2 + 2^m (m+1) iterations, whatever the step: with a list of at most 2^m regions with pairwise different active sets, or with a TypeError or ValueError raised for a region without facets or a facet without center. Missing: the loop need not end otherwise (C77_terminates_refuted). *)
Lemma explicit_terminates np Huu Hux Hxx fu fx g Au Ax b nu nx m q step fuel :
  exact_np np -> mp_data Huu Hux Hxx fu fx Au Ax b nu nx m -> (0 < m)%nat ->
  MultiParametricQuadraticProgram np Huu Hux Hxx fu fx g Au Ax b = Ok q ->
  (forall x, exploration_point np q step x -> clear_multipliers np q x) -> (2 + 2 ^ m * (m + 1) <= fuel)%nat ->
  (exists crs, explicit_solve np fuel step q = Ok crs /\ (length crs <= 2 ^ m)%nat /\ NoDup (map cr_active crs) /\
     forall c, In c crs -> StronglySorted lt (cr_active c) /\ forall i, In i (cr_active c) -> (i < m)%nat) \/
  explicit_solve np fuel step q = Err TypeError \/ explicit_solve np fuel step q = Err ValueError.
Proof.
  intros Hnp D Hm E1 Hcl Hf. destruct (constructed _ _ _ _ _ _ _ _ _ _ _ _ _ _ Hnp D E1) as (Hq & _).
  destruct (loop_stops np q nu nx m step Hnp Hq Hm Hcl fuel [(zeros (length (q_fx q)), [])] []) as [(crs & E & Fk & ND)|[E|E]].
  - constructor.
  - constructor.
  - constructor; [|constructor]. split; [cbn [fst]; rewrite zeros_length; apply Hq|]. split; [left; reflexivity|]. split; [constructor|intros i []].
  - cbn [length]. rewrite Nat.sub_0_r. lia.
  - left. exists crs. split; [exact E|]. assert (FA : Forall (active_list m) (map cr_active crs)) by (apply Forall_map; apply (Forall_impl _ (fun c (H : kept np q nx m c) => proj1 H) Fk)).
    split; [rewrite <- (map_length cr_active); apply count_actives; assumption|]. split; [exact ND|]. intros c Hc. rewrite Forall_forall in Fk. apply (Fk c Hc).
  - right; left; exact E.
  - right; right; exact E.
Qed.

(** ** A program for which the loop does not end: min 1/2000 u^2 s.t. u >= x, u >= 3 x - 2e-6 *)
Definition lp_Au := Mat 1 [[-1]; [-1]].
Definition lp_Ax := Mat 1 [[1]; [3]].
Definition lp_b : vec := [0; / 500000].
Definition lp_q Hi := MPQP (Mat 1 [[/ 1000]]) (Mat 1 [[0]]) (Mat 1 [[0]]) [0] [0] 0 lp_Au lp_Ax lp_b Hi.
Lemma lp_data : mp_data (Mat 1 [[/ 1000]]) (Mat 1 [[0]]) (Mat 1 [[0]]) [0] [0] lp_Au lp_Ax lp_b 1 1 2.
Proof.
  unfold mp_data. repeat match goal with |- _ /\ _ => split end; try (apply scalar_shape); try reflexivity; try (repeat constructor; fail). apply scalar_pd. lra.
Qed.
Lemma row_coeff (a s c d e : R) : (forall x, a * x - e = s * (c * x - d)) -> a = s * c /\ e = s * d.
Proof. intros H. pose proof (H 0). pose proof (H 1). split; lra. Qed.
Lemma lp_free np Hi : exact_np np -> coherent (lp_q Hi) 1 1 2 -> exists cr b1, explicit_solve_given_active_set np (lp_q Hi) [] = Ok (Some cr) /\ cr_active cr = [] /\ wf (cr_poly cr) 2 0 1 /\
  p_empty (cr_poly cr) = None /\ nth 0 (rows (pA (cr_poly cr))) [] = [1] /\ nth 0 (pb (cr_poly cr)) 0 = 0 /\ 0 < b1 /\
  exists s, (s = 1 \/ s = / 3) /\ b1 = s /\ nth 1 (rows (pA (cr_poly cr))) [] = [s * 3] /\ nth 1 (pb (cr_poly cr)) 0 = s * / 500000.
Proof.
  intros Hnp Hq. destruct (active_set_ok np (lp_q Hi) 1 1 2 [] Hnp Hq ltac:(intros i [])) as [(_ & cr & Er & RO)|(NI & _)].
  2:{ exfalso. apply NI. intros y Ly _. destruct y; [reflexivity|discriminate]. }
  pose proof RO as (_ & EA & W & PE & H).
  assert (U0 : forall x, length x = 1%nat -> cr_u cr x = [0]).
  { intros x Lx. destruct (H x Lx) as (Lu & Lp & St & _ & Ze & _). destruct (cr_u cr x) as [|u [|]]; try discriminate Lu. specialize (St [1] eq_refl).
    destruct (cr_p cr x) as [|l0 [|l1 [|]]]; try discriminate Lp. pose proof (Ze 0%nat ltac:(intros [])) as Z0. pose proof (Ze 1%nat ltac:(intros [])) as Z1. cbn [nth] in Z0, Z1. subst l0 l1.
    destruct x as [|x [|]]; try discriminate Lx. cbn in St. f_equal. lra. }
  assert (RW : forall i, (i < 2)%nat -> exists a s, row (pA (cr_poly cr)) i = [a] /\ 0 < s /\ (s = 1 \/ Rabs a = 1) /\ a = s * nth i [1; 3] 0 /\ nth i (pb (cr_poly cr)) 0 = s * nth i lp_b 0).
  { intros i Hi'. destruct (region_rows np (lp_q Hi) 1 1 2 [] cr i Hnp Hq Er Hi') as (_ & _ & s & Ps & Hs & HR).
    assert (Lri : length (row (pA (cr_poly cr)) i) = 1%nat). { destruct W as ((L & _ & F) & _). rewrite Forall_forall in F. apply F, nth_In. lia. }
    destruct (row (pA (cr_poly cr)) i) as [|a [|]] eqn:Erow; try discriminate Lri. exists a, s. split; [reflexivity|]. split; [exact Ps|]. rewrite norm1 in Hs. split; [exact Hs|].
    apply row_coeff. intros x. specialize (HR [x] eq_refl). rewrite U0 in HR by reflexivity. destruct i as [|[|i]]; [| |lia]; cbn in HR |- *; lra. }
  exists cr. destruct (RW 0%nat ltac:(lia)) as (a0 & s0 & R0 & P0 & N0 & A0 & B0). destruct (RW 1%nat ltac:(lia)) as (a1 & s1 & R1 & P1 & N1 & A1 & B1). cbn [nth lp_b] in *.
  assert (s0 = 1). { destruct N0 as [|N0]; [assumption|]. rewrite Rabs_right in N0 by lra. lra. } subst s0.
  assert (S1 : s1 = 1 \/ s1 = / 3). { destruct N1 as [|N1]; [auto|]. rewrite Rabs_right in N1 by lra. right. lra. }
  exists s1. split; [exact Er|]. split; [exact EA|]. split; [exact W|]. split; [exact PE|]. split; [fold (row (pA (cr_poly cr)) 0); rewrite R0; f_equal; lra|]. split; [lra|]. split; [exact P1|].
  exists s1. split; [exact S1|]. split; [reflexivity|]. split; [fold (row (pA (cr_poly cr)) 1); rewrite R1, A1; reflexivity|exact B1].
Qed.
Lemma lp_one np Hi : exact_np np -> coherent (lp_q Hi) 1 1 2 -> exists cr, explicit_solve_given_active_set np (lp_q Hi) [0%nat] = Ok (Some cr) /\ cr_contains cr [/ 100000] = Ok false.
Proof.
  intros Hnp Hq. assert (RG : forall i, In i [0%nat] -> (i < 2)%nat) by (intros i [<-|[]]; lia).
  destruct (active_set_ok np (lp_q Hi) 1 1 2 [0%nat] Hnp Hq RG) as [(_ & cr & Er & RO)|(NI & _)].
  2:{ exfalso. apply NI. intros y Ly E. destruct y as [|y [|]]; try discriminate Ly. cbn in E. injection E as E. cbn. f_equal. lra. }
  exists cr. split; [exact Er|]. pose proof RO as (_ & _ & W & _ & H).
  assert (U0 : forall x, cr_u cr [x] = [x]).
  { intros x. destruct (H [x] eq_refl) as (Lu & _ & _ & Ti & _). destruct (cr_u cr [x]) as [|u [|]]; try discriminate Lu. specialize (Ti 0%nat (or_introl eq_refl)). cbn in Ti. f_equal. lra. }
  destruct (cr_contains_ok cr 2 1 [/ 100000] W ltac:(lia) eq_refl) as (r & Ec & Hr). rewrite Ec. destruct r; [exfalso|reflexivity].
  pose proof (proj1 Hr eq_refl 1%nat) as C. assert (Lb : length (pb (cr_poly cr)) = 2%nat) by apply W. specialize (C ltac:(lia)).
  destruct (region_rows np (lp_q Hi) 1 1 2 [0%nat] cr 1 Hnp Hq Er ltac:(lia)) as (_ & _ & s & Ps & Hs & HR).
  assert (Lri : length (row (pA (cr_poly cr)) 1) = 1%nat). { destruct W as ((L & _ & F) & _). rewrite Forall_forall in F. apply F, nth_In. lia. }
  destruct (row (pA (cr_poly cr)) 1) as [|a [|]] eqn:Erow; try discriminate Lri. rewrite norm1 in Hs.
  assert (K : a = s * 2 /\ nth 1 (pb (cr_poly cr)) 0 = s * / 500000).
  { apply row_coeff. intros x. specialize (HR [x] eq_refl). rewrite U0 in HR. cbn in HR. lra. }
  destruct K as (-> & KB). rewrite KB in C. cbn in C. unfold tol7 in C. destruct Hs as [->|Hs]; [lra|]. rewrite Rabs_right in Hs by lra. nra.
Qed.
Lemma lp_facets np cr : exact_np np -> wf (cr_poly cr) 2 0 1 -> p_empty (cr_poly cr) = None ->
  nth 0 (rows (pA (cr_poly cr))) [] = [1] -> nth 0 (pb (cr_poly cr)) 0 = 0 ->
  (exists s, (s = 1 \/ s = / 3) /\ nth 1 (rows (pA (cr_poly cr))) [] = [s * 3] /\ nth 1 (pb (cr_poly cr)) 0 = s * / 500000) ->
  exists p', minimal_facets np tol7 (cr_poly cr) = (Ok (Some [0%nat]), p').
Proof.
  intros Hnp W PE R0 B0 (s & Hs & R1 & B1). set (p := cr_poly cr) in *.
  assert (EQ : forall x, eq_holds (pC p) (pd p) x). { intros x. destruct W as (_ & _ & (L & _) & L'). unfold eq_holds. destruct (rows (pC p)); [|discriminate L]. destruct (pd p); [constructor|discriminate L']. }
  assert (NC : ncols (pA p) = 1%nat) by apply W.
  destruct (minimal_facets_ok np p 2 0 1 tol7 Hnp W ltac:(unfold tol7; lra) (or_introl eq_refl) ltac:(rewrite PE; discriminate)) as (mf & p1 & E & _ & Hr & (kp & Hk) & Hw).
  { exists [0]. split; [|unfold near; cbn; unfold tol7; lra]. apply (sat_all p 2 0 1 [0] W). split; [cbn; lia|]. split; [apply EQ|]. intros j Hj. unfold row. destruct Hj as [<-|[<-|[]]]; [rewrite R0, B0; cbn; lra|rewrite R1, B1; cbn; lra]. }
  assert (N0 : forall S, (forall x, sat p S [x] -> dot (row (pA p) 0) [x] < nth 0 (pb p) 0 + tol7) -> In 1%nat S -> ~ In 0%nat S -> (forall j, In j S -> j = 1%nat) -> False).
  { intros S HS _ _ HO. specialize (HS (6 / 10000000)). assert (SS : sat p S [6 / 10000000]). { split; [cbn; lia|]. split; [apply EQ|]. intros j Hj. rewrite (HO j Hj). unfold row. rewrite R1, B1. cbn. destruct Hs; subst s; lra. }
    specialize (HS SS). unfold row in HS. rewrite R0, B0 in HS. cbn in HS. unfold tol7 in HS. lra. }
  assert (NE : forall S, (forall x, sat p S [x] -> dot (row (pA p) 0) [x] < nth 0 (pb p) 0 + tol7) -> (forall j, ~ In j S) -> False).
  { intros S HS HO. specialize (HS 1). assert (SS : sat p S [1]). { split; [cbn; lia|]. split; [apply EQ|]. intros j Hj. destruct (HO j Hj). }
    specialize (HS SS). unfold row in HS. rewrite R0, B0 in HS. cbn in HS. unfold tol7 in HS. lra. }
  assert (Z : In 0%nat mf).
  { inversion Hr as [? E1 E2|i S0 S' Hi Hs0 Hr' E1 E2]; subst S0 S' || idtac.
    - left; reflexivity.
    - destruct Hi as [<-|[<-|[]]].
      + exfalso. cbn [seq remove Nat.eq_dec] in Hs0. apply (N0 [1%nat]); [intros x; apply Hs0|left; reflexivity|intros [|[]]; discriminate|intros j [<-|[]]; reflexivity].
      + cbn in Hr'. inversion Hr' as [? F1 F2|i S1 S1' Hi1 Hs1 Hr1 F1 F2]; [left; reflexivity|]. destruct Hi1 as [<-|[]]. exfalso. cbn in Hs1. apply (NE []); [intros x; apply Hs1|intros j []]. }
  assert (O : ~ In 1%nat mf).
  { intros H1. destruct (Hw 1%nat H1) as (x & (Lx & _ & Hx) & V). rewrite NC in Lx. destruct x as [|x [|]]; try discriminate Lx.
    assert (I0 : In 0%nat (remove Nat.eq_dec 1%nat mf)) by (apply in_in_remove; [discriminate|exact Z]). specialize (Hx 0%nat I0). unfold row in Hx, V. rewrite R0, B0 in Hx. rewrite R1, B1 in V. cbn in Hx, V. unfold tol7 in V. destruct Hs; subst s; lra. }
  exists p1. rewrite E. do 3 f_equal. rewrite Hk in Z, O |- *. cbn [seq filter] in *. destruct (kp 0%nat); [|exfalso; destruct (kp 1%nat); [destruct Z as [Z|[]]; discriminate|destruct Z]].
  destruct (kp 1%nat); [|reflexivity]. exfalso. apply O. right. left. reflexivity.
Qed.
Lemma lp_solve np Hi : exact_np np -> coherent (lp_q Hi) 1 1 2 -> exists s, mpqp_solve np (lp_q Hi) [/ 100000] = Ok s /\ s_active_set s = Some [].
Proof.
  intros Hnp Hq. destruct (mpqp_solve_ok np (lp_q Hi) 1 1 2 [/ 100000] [0] Hnp Hq eq_refl eq_refl) as (s & Es & Cases); [cbn; f_equal; ring|]. exists s. split; [exact Es|].
  destruct Cases as [(_ & C)|(_ & u & l & _ & _ & ((Lu & Fu) & _) & El & (Ll & Pl & St & Cs))].
  - exfalso. specialize (C [1]). assert (Q : q_feasible (lp_q Hi) [/ 100000] [1]). { split; [reflexivity|]. intros i Hi'. cbn in Hi'. destruct i as [|[|]]; [| |lia]; cbn; lra. }
    specialize (C Q). cbn in C. unfold tol7 in C. lra.
  - destruct u as [|u [|]]; try discriminate Lu. destruct l as [|l0 [|l1 [|]]]; try discriminate Ll.
    pose proof (Fu 1%nat ltac:(cbn; lia)) as F1. specialize (St [1] eq_refl). pose proof (Cs 0%nat ltac:(cbn; lia)) as C0. pose proof (Cs 1%nat ltac:(cbn; lia)) as C1. cbn in F1, St, C0, C1.
    assert (Z0 : l0 = 0). { apply Rmult_integral in C0. destruct C0 as [C0|C0]; [exact C0|lra]. } subst l0.
    assert (Z1 : l1 = 28 / 1000000000). { apply Rmult_integral in C1. destruct C1 as [C1|C1]; [subst l1|]; lra. }
    rewrite (mpqp_active np _ _ _ Es), El. unfold where_. cbn [length seq combine filter snd map]. rewrite (proj2 (Rltb_false tol7 0)) by (unfold tol7; lra). rewrite (proj2 (Rltb_false tol7 l1)) by (unfold tol7; lra). reflexivity.
Qed.
(*@ Theorem C77_terminates_refuted : explicit_solve does not end for min 1/2000 u^2 s.t. u >= x, u >= 3 x - 2e-6: the step of 1e-5 beyond the region {x <= 0} jumps over the region of the guess; at x = 1e-5 the multiplier 2.8e-8 is below the tolerance 1e-7 of the QP solver, so the active set it reports is the one of the region just left, which is added to the list once more, together with the same point. *)
Lemma terminates_refuted : exists Huu Hux Hxx fu fx g Au Ax b, mp_data Huu Hux Hxx fu fx Au Ax b 1 1 2 /\
  forall np fuel, exact_np np -> exists q, MultiParametricQuadraticProgram np Huu Hux Hxx fu fx g Au Ax b = Ok q /\ explicit_solve np fuel (/ 100000) q = Err OutOfFuel.
Proof.
  exists (Mat 1 [[/ 1000]]), (Mat 1 [[0]]), (Mat 1 [[0]]), [0], [0], 0, lp_Au, lp_Ax, lp_b. split; [exact lp_data|]. intros np fuel Hnp.
  pose proof lp_data as (D1 & D2 & D3 & D4 & D5 & D6 & D7 & D8 & D9).
  destruct (constructor_coherent np _ _ _ _ _ 0 _ _ _ 1 1 2 Hnp D1 D2 D3 D4 D5 D6 D7 D8 D9) as (Hi & E & Hq). exists (lp_q Hi). split; [exact E|]. fold (lp_q Hi) in Hq.
  destruct (lp_free np Hi Hnp Hq) as (cr & b1 & Er & EA & W & PE & R0 & B0 & _ & s & Hs & _ & R1 & B1).
  destruct (lp_facets np cr Hnp W PE R0 B0 ltac:(exists s; auto)) as (p' & Em). destruct (lp_one np Hi Hnp Hq) as (cr1 & Er1 & Ec1). destruct (lp_solve np Hi Hnp Hq) as (sl & Es & Ea).
  pose proof (facets_fields np tol7 (cr_poly cr)) as Q. rewrite Em in Q. cbv zeta in Q. cbn [snd] in Q. destruct Q as (Q1 & Q2 & Q3 & Q4).
  assert (Wp : wf p' 2 0 1). { unfold wf. rewrite Q1, Q2, Q3, Q4. exact W. }
  set (c' := CR (cr_active cr) (cr_ux cr) (cr_u0 cr) (cr_px cr) (cr_p0 cr) (cr_Vxx cr) (cr_Vx cr) (cr_V0 cr) p').
  assert (NC : cr_contains c' [/ 100000] = Ok false).
  { destruct (cr_contains_ok c' 2 1 [/ 100000] Wp ltac:(lia) eq_refl) as (r & Ec & Hr). rewrite Ec. destruct r; [exfalso|reflexivity]. pose proof (proj1 Hr eq_refl 0%nat) as C. cbn [c' cr_poly] in C.
    rewrite Q1, Q2 in C. assert (Lb : length (pb (cr_poly cr)) = 2%nat) by apply W. specialize (C ltac:(lia)). unfold row in C. rewrite R0, B0 in C. cbn in C. unfold tol7 in C. lra. }
  assert (NX : mapM (fun i => ctr <- facet_center np p' i ;; match ctr with None => Err TypeError | Some ctr => Ok (vadd ctr (vscale (/ 100000) (row (pA p') i)), flip (cr_active cr) i) end) [0%nat] = Ok [([/ 100000], [0%nat])]).
  { cbn [mapM]. unfold facet_center. rewrite (proj1 (proj2 (proj1 Wp))). cbn [Nat.eqb bind]. unfold row. rewrite Q1, Q2, R0, B0, EA. cbn. do 3 f_equal. f_equal. field. }
  assert (LOOP : forall fuel k, explicit_loop np fuel (/ 100000) (lp_q Hi) [([/ 100000], [0%nat])] (repeat c' k) = Err OutOfFuel).
  { clear fuel. induction fuel as [|fuel IH]; intros k; [reflexivity|]. cbn [explicit_loop uncovered fst].
    assert (CV : covered (repeat c' k) [/ 100000] = Ok false).
    { unfold covered. assert (M : mapM (fun c => cr_contains c [/ 100000]) (repeat c' k) = Ok (repeat false k)) by (induction k as [|k IHk]; [reflexivity|]; cbn [repeat mapM]; rewrite NC; cbn [bind]; rewrite IHk; reflexivity).
      rewrite M. cbn [bind]. f_equal. clear. induction k; [reflexivity|]. exact IHk. }
    rewrite CV. cbn [bind]. unfold explicit_solve_given_point. rewrite Er1. cbn [bind]. rewrite Ec1, Es. cbn [bind]. rewrite Ea, Er. cbn [bind]. rewrite Em, NX. cbn [bind app]. fold c'.
    replace (repeat c' k ++ [c']) with (repeat c' (S k)); [apply IH|]. clear. induction k as [|k IHk]; [reflexivity|]. cbn [repeat app] in *. rewrite <- IHk. reflexivity. }
  unfold explicit_solve. destruct fuel as [|fuel]; [reflexivity|]. change (zeros (length (q_fx (lp_q Hi)))) with [0]. cbn [explicit_loop uncovered fst covered mapM bind existsb].
  unfold explicit_solve_given_point. rewrite Er. cbn [bind].
  assert (C0 : cr_contains cr [0] = Ok true).
  { destruct (cr_contains_ok cr 2 1 [0] W ltac:(lia) eq_refl) as (r & Ec & Hr). rewrite Ec. f_equal. apply Hr. intros i Hi'. assert (Lb : length (pb (cr_poly cr)) = 2%nat) by apply W. unfold row.
    destruct i as [|[|]]; [rewrite R0, B0|rewrite R1, B1|lia]; cbn; unfold tol7; destruct Hs; subst s; lra. }
  rewrite C0. cbn [bind]. rewrite Em, NX. cbn [bind app]. fold c'. apply (LOOP fuel 1%nat).
Qed.
Lemma ex_clear np x : exact_np np -> (x <= 0 \/ tol7 < x) -> clear_multipliers np (ex_q ex_I) [x].
Proof.
  intros Hnp Hx s l i Es El. destruct (constructed _ _ _ _ _ _ _ _ _ _ _ _ _ _ Hnp ex_data (ex_ctor np Hnp)) as (Hq & _).
  destruct (mpqp_solve_ok np (ex_q ex_I) 1 1 1 [x] [0] Hnp Hq eq_refl eq_refl) as (s' & Es' & Cases); [cbn; f_equal; ring|]. rewrite Es in Es'. injection Es' as <-.
  destruct Cases as [(-> & _)|(_ & u & l' & _ & _ & ((Lu & Fu) & _) & El' & (Ll & Pl & St & Cs))]; [discriminate El|]. rewrite El in El'. injection El' as <-.
  destruct u as [|u [|]]; try discriminate Lu. destruct l as [|l0 [|]]; try discriminate Ll. specialize (Fu 0%nat ltac:(cbn; lia)). specialize (Cs 0%nat ltac:(cbn; lia)). specialize (St [1] eq_refl).
  cbn in Fu, Cs, St. destruct i as [|[|i]]; cbn [nth]; [|left; reflexivity|left; reflexivity]. inversion Pl as [|? ? P0 _]; subst. apply Rmult_integral in Cs.
  destruct Cs as [->|Cs]; [left; reflexivity|]. destruct Hx; [left|right]; lra.
Qed.
(*@ Example C77_example : The hypotheses are met by min 1/2 u^2 s.t. x <= u, with the default step: the points explored are 0, 1e-5 and -1e-5; the run ends with two regions. *)
Lemma terminates_example np : exact_np np -> exists q crs,
  mp_data (Mat 1 [[1]]) (Mat 1 [[0]]) (Mat 1 [[0]]) [0] [0] (Mat 1 [[-1]]) (Mat 1 [[1]]) [0] 1 1 1 /\
  MultiParametricQuadraticProgram np (Mat 1 [[1]]) (Mat 1 [[0]]) (Mat 1 [[0]]) [0] [0] 0 (Mat 1 [[-1]]) (Mat 1 [[1]]) [0] = Ok q /\
  (forall x, exploration_point np q (/ 100000) x -> clear_multipliers np q x) /\
  explicit_solve np (2 + 2 ^ 1 * (1 + 1)) (/ 100000) q = Ok crs /\ map cr_active crs = [[]; [0%nat]].
Proof.
  intros Hnp. destruct (ex_loop np (/ 100000) 3 Hnp ltac:(unfold tol7; lra)) as (e0 & e1 & EL). exists (ex_q ex_I). eexists. split; [exact ex_data|]. split; [apply ex_ctor; exact Hnp|]. split; [|split; [exact EL|reflexivity]].
  destruct (constructed _ _ _ _ _ _ _ _ _ _ _ _ _ _ Hnp ex_data (ex_ctor np Hnp)) as (Hq & _).
  intros x [->|(act & cr & mf & p' & i & c & Er & Em & Hi & Ec & ->)]; [apply ex_clear; [exact Hnp|left; lra]|].
  destruct (some_region np _ 1 1 1 act cr Hnp Hq Er) as (R & _ & (ND & _)).
  destruct (ex_facets np 1 Hnp ltac:(auto)) as (f0 & F0). destruct (ex_facets np (-1) Hnp ltac:(auto)) as (f1 & F1).
  assert (A : act = [] \/ act = [0%nat]).
  { destruct act as [|a act]; [auto|right]. pose proof (R a (or_introl eq_refl)). assert (a = 0%nat) by lia. subst a. destruct act as [|a act]; [reflexivity|exfalso].
    pose proof (R a (or_intror (or_introl eq_refl))). assert (a = 0%nat) by lia. subst a. inversion ND as [|? ? N _]; subst. apply N. left. reflexivity. }
  destruct A as [->| ->].
  - rewrite (ex_region0 np Hnp) in Er. injection Er as <-. cbn [ex_r0 cr_poly] in Em. rewrite F0 in Em. injection Em as <- <-. destruct Hi as [<-|[]]. cbn in Ec. injection Ec as <-. cbn. apply ex_clear; [exact Hnp|right; unfold tol7; lra].
  - rewrite (ex_region1 np Hnp) in Er. injection Er as <-. cbn [ex_r1 cr_poly] in Em. rewrite F1 in Em. injection Em as <- <-. destruct Hi as [<-|[]]. cbn in Ec. injection Ec as <-. cbn. apply ex_clear; [exact Hnp|left; lra].
Qed.
