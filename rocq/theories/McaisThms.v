(** * McaisThms: maximal constraint-admissible invariant set (C30, C31), proofs *)
From Coq Require Import ZArith Classical.
From Verif Require Import Arr ArrFacts Spec SpecDyn Numpy Pnnls PnnlsFacts QpFacts GeomUtils Polyhedron PolyThms Oracle SolverThms NullFacts PolySolveThms PolySetThms PolyBoundThms PolyMore Dynamics DynThms.

(** the trajectory from x stays in X forever *)
Definition admissible (A : mat) (X : poly) (x : vec) : Prop := forall t, in_poly X (flow A t x).
(** staying in X up to time T-1 implies being in X at time T *)
Definition determined (A : mat) (X : poly) (T : nat) : Prop :=
  forall x, (forall k, (k < T)%nat -> in_poly X (flow A k x)) -> in_poly X (flow A T x).
(** every inequality of O says that some inequality of X holds at some time *)
Definition rows_of_flow (A : mat) (X O : poly) (m mO n : nat) : Prop :=
  forall r, (r < mO)%nat -> exists i k, (i < m)%nat /\ nth r (pb O) 0 = nth i (pb X) 0 /\
    forall x, length x = n -> dot (row (pA O) r) x = dot (row (pA X) i) (flow A k x).

Lemma flow_length A n t x : shape A n n -> length x = n -> length (flow A t x) = n.
Proof. intros HA Hx. destruct t; cbn; [exact Hx|]. rewrite mv_length. apply HA. Qed.
Lemma flow_mpow A n t x : shape A n n -> length x = n -> flow A t x = mv (mpow A t) x.
Proof.
  intros HA Hx. induction t as [|t IH].
  - cbn [flow]. symmetry. apply (mv_mpow_0 A n); auto.
  - cbn [flow]. rewrite IH. symmetry. apply (mv_mpow_S A n); auto.
Qed.
Lemma flow_S A t x : flow A (S t) x = flow A t (mv A x).
Proof. induction t as [|t IH]; [reflexivity|]. cbn [flow] in *. rewrite IH. reflexivity. Qed.
Lemma flow_zeros A n t : shape A n n -> flow A t (zeros n) = zeros n.
Proof. intros HA. induction t as [|t IH]; [reflexivity|]. cbn [flow]. rewrite IH, mv_zeros. f_equal. apply HA. Qed.

Section Loop.
Variable np : numpy.
Hypothesis Hnp : exact_np np.
Variables (A : mat) (X : poly) (m n : nat).
Hypothesis HA : shape A n n.
Hypothesis HX : wf X m 0 n.
Hypothesis H0 : in_poly X (zeros n).
Hypothesis HB : bounded_set (in_poly X).

Lemma in_X x : in_poly X x <-> length x = n /\ vle (mv (pA X) x) (pb X).
Proof.
  rewrite (in_poly_vle X m 0 n x HX). split; [tauto|]. intros (L & V). split; [exact L|]. split; [exact V|].
  destruct HX as (_ & _ & (LC & _) & Wd). unfold mv. destruct (rows (pC X)); [|discriminate LC]. destruct (pd X); [reflexivity|discriminate Wd].
Qed.

(** the rows of D A^t, as functions of x *)
Let J (t : nat) : mat := mm (pA X) (mpow A t).
Lemma J_shape t : shape (J t) m n.
Proof. unfold J. destruct HX as (WA & _). eauto with shp. Qed.
Lemma J_flow t x : length x = n -> mv (J t) x = mv (pA X) (flow A t x).
Proof. intros Hx. unfold J. rewrite (mv_mm (pA X) (mpow A t) n n) by (auto with shp). rewrite (flow_mpow A n) by auto. reflexivity. Qed.
Lemma row_J_flow t i x : (i < m)%nat -> length x = n -> dot (row (J t) i) x = dot (row (pA X) i) (flow A t x).
Proof. intros Hi Hx. pose proof (f_equal (fun v => nth i v 0) (J_flow t x Hx)) as E. cbv beta in E. rewrite !nth_mv in E. exact E. Qed.

(** loop invariant: O is the set of points that are in X at the times 0, .., t-1 *)
Definition inv (t : nat) (O : poly) : Prop :=
  exists mO, wf O mO 0 n /\ p_empty O <> Some true /\ rows_of_flow A X O m mO n /\
  forall x, in_poly O x <-> (length x = n /\ forall k, (k < t)%nat -> in_poly X (flow A k x)).

Lemma inv_zeros t O : inv t O -> in_poly O (zeros n).
Proof. intros (mO & _ & _ & _ & H). apply H. split; [len|]. intros k _. rewrite (flow_zeros A n) by exact HA. exact H0. Qed.
Lemma inv_in_X t O x : (0 < t)%nat -> inv t O -> in_poly O x -> in_poly X x.
Proof. intros Ht (mO & _ & _ & _ & H) Hx. apply H in Hx as (_ & Hx). apply (Hx 0%nat Ht). Qed.
Lemma in_O_vle t O mO x : inv t O -> wf O mO 0 n -> in_poly O x <-> length x = n /\ vle (mv (pA O) x) (pb O).
Proof.
  intros _ W. rewrite (in_poly_vle O mO 0 n x W). split; [tauto|]. intros (L & V). split; [exact L|]. split; [exact V|].
  destruct W as (_ & _ & (LC & _) & Wd). unfold mv. destruct (rows (pC O)); [|discriminate LC]. destruct (pd O); [reflexivity|discriminate Wd].
Qed.

Lemma mapM_spec {T U} (f : T -> res U) l (Q : T -> U -> Prop) : (forall a, In a l -> exists b, f a = Ok b /\ Q a b) ->
  exists bs, mapM f l = Ok bs /\ Forall2 Q l bs.
Proof.
  induction l as [|a l IH]; intros H; cbn [mapM].
  - exists []. auto.
  - destruct (H a (or_introl eq_refl)) as (b & E & Hb). destruct IH as (bs & E' & F); [intros; apply H; right; assumption|].
    exists (b :: bs). rewrite E. cbn [bind]. rewrite E'. auto.
Qed.
Lemma Forall2_seq_nth (Q : nat -> R -> Prop) k l : Forall2 Q (seq 0 k) l -> length l = k /\ forall i, (i < k)%nat -> Q i (nth i l 0).
Proof.
  intros F. pose proof (Forall2_len _ _ _ F) as L. rewrite seq_length in L. split; [congruence|].
  assert (G : forall s k l, Forall2 Q (seq s k) l -> forall i, (i < k)%nat -> Q (s + i)%nat (nth i l 0)).
  { clear. intros s k. revert s. induction k as [|k IH]; intros s l F i Hi; [lia|]. inversion F as [|? b ? l' H1 H2]; subst.
    destruct i; cbn [nth]; [rewrite Nat.add_0_r; exact H1|]. rewrite Nat.add_succ_r, <- Nat.add_succ_l. apply IH; [exact H2|lia]. }
  intros i Hi. apply (G 0%nat k l F i Hi).
Qed.

Lemma residuals_ok t O : (0 < t)%nat -> inv t O ->
  exists rs, mcais_residuals np (J t) (pb X) O = Ok rs /\ length rs = m /\
    forall i, (i < m)%nat ->
      (forall x, in_poly O x -> dot (row (J t) i) x - nth i (pb X) 0 <= nth i rs 0) /\
      exists x, in_poly O x /\ dot (row (J t) i) x - nth i (pb X) 0 = nth i rs 0.
Proof.
  intros Ht HI. assert (JS := J_shape t). pose proof HI as (mO & WO & _ & _ & _). pose proof WO as (WA & Wb & _ & _).
  destruct (mapM_spec (fun i => s <- lp np (vneg (row (J t) i)) (pA O) (pb O) None None ;;
     match s_min s with None => Err TypeError | Some mn => Ok (- mn - nth i (pb X) 0) end) (seq 0 m)
     (fun i r => (forall x, in_poly O x -> dot (row (J t) i) x - nth i (pb X) 0 <= r) /\ exists x, in_poly O x /\ dot (row (J t) i) x - nth i (pb X) 0 = r)) as (rs & E & F).
  - intros i Hi. apply in_seq in Hi. destruct HB as (M & HM).
    assert (LJ : length (row (J t) i) = n) by (eapply shape_row; [exact JS|lia]).
    destruct (lp_solved np (vneg (row (J t) i)) (pA O) (pb O) mO n (zeros n) (- (norm (row (J t) i) * M)) Hnp WA Wb) as (s & x & l & E & Em & _ & Lx & Vx & Opt & _).
    + len.
    + len.
    + apply (in_O_vle t O mO (zeros n) HI WO). apply (inv_zeros t O HI).
    + intros x Lx Vx. assert (Ox : in_poly O x) by (apply (in_O_vle t O mO x HI WO); auto).
      pose proof (HM x (inv_in_X t O x Ht HI Ox)). pose proof (dot_le_norm (row (J t) i) x). pose proof (norm_nonneg (row (J t) i)).
      autorewrite with dotx. nra.
    + exists (dot (row (J t) i) x - nth i (pb X) 0). rewrite E. cbn [bind]. rewrite Em. split; [f_equal; autorewrite with dotx; ring|]. split.
      * intros z Hz. apply (in_O_vle t O mO z HI WO) in Hz as (Lz & Vz). specialize (Opt z Lz Vz). autorewrite with dotx in Opt. lra.
      * exists x. split; [|reflexivity]. apply (in_O_vle t O mO x HI WO). auto.
  - exists rs. unfold mcais_residuals. rewrite (nrows_shape _ _ _ JS). split; [exact E|].
    destruct (Forall2_seq_nth _ _ _ F) as (L & H). split; [exact L|]. exact H.
Qed.

Lemma no_new_determined t O rs : (0 < t)%nat -> inv t O -> length rs = m ->
  (forall i, (i < m)%nat ->
      (forall x, in_poly O x -> dot (row (J t) i) x - nth i (pb X) 0 <= nth i rs 0) /\
      exists x, in_poly O x /\ dot (row (J t) i) x - nth i (pb X) 0 = nth i rs 0) ->
  (where_ (fun r => Rltb 0 r) rs = [] <-> determined A X t).
Proof.
  intros Ht (mO & WO & _ & _ & HI) Lr HR. destruct HX as (WXA & WXb & _). assert (LD : length (rows (pA X)) = m) by apply WXA. split.
  - intros E x Hx. assert (Lx : length x = n) by (apply (in_X x); apply (Hx 0%nat Ht)).
    apply in_X. split; [apply (flow_length A n); auto|]. apply vle_nth. rewrite mv_length, WXb, LD. split; [reflexivity|]. intros i Hi.
    destruct (HR i Hi) as (U & _). assert (Ox : in_poly O x) by (apply HI; split; [exact Lx|exact Hx]). specialize (U x Ox).
    rewrite (row_J_flow t i x Hi Lx) in U.
    assert (N : ~ In i (where_ (fun r => Rltb 0 r) rs)) by (rewrite E; intros []).
    rewrite (In_where _ rs 0 i) in N. assert (nth i rs 0 <= 0).
    { destruct (Rltb 0 (nth i rs 0)) eqn:Eb; [exfalso; apply N; split; [lia|reflexivity]|apply Rltb_false; exact Eb]. }
    rewrite nth_mv. unfold row in U. lra.
  - intros D. destruct (where_ (fun r => Rltb 0 r) rs) as [|i l] eqn:E; [reflexivity|exfalso].
    assert (N : In i (where_ (fun r => Rltb 0 r) rs)) by (rewrite E; left; reflexivity).
    rewrite (In_where _ rs 0 i) in N. destruct N as (Hi & P). apply Rltb_true in P. rewrite Lr in Hi.
    destruct (HR i Hi) as (_ & x & Ox & Ex). apply HI in Ox as (Lx & Hx). specialize (D x Hx). apply in_X in D as (_ & V).
    apply vle_nth in V as (_ & V). specialize (V i). rewrite mv_length, LD in V. specialize (V Hi). rewrite nth_mv in V.
    rewrite (row_J_flow t i x Hi Lx) in Ex. unfold row in Ex. lra.
Qed.
Lemma inv_step t O rs nf : (0 < t)%nat -> inv t O -> length rs = m ->
  (forall i, (i < m)%nat ->
      (forall x, in_poly O x -> dot (row (J t) i) x - nth i (pb X) 0 <= nth i rs 0) /\
      exists x, in_poly O x /\ dot (row (J t) i) x - nth i (pb X) 0 = nth i rs 0) ->
  nf = where_ (fun r => Rltb 0 r) rs ->
  exists O', run_on (Ok O) (add_inequality (mtake (J t) nf) (D1 (vtake (pb X) nf)) None) = Ok O' /\ inv (S t) O'.
Proof.
  intros Ht HI Lr HR Enf. pose proof HI as (mO & WO & NE & RF & HIN). assert (JS := J_shape t).
  pose proof HX as (WXA & WXb & _). assert (LD : length (rows (pA X)) = m) by apply WXA.
  assert (Hnf : forall i, In i nf -> (i < m)%nat).
  { intros i Hi. subst nf. apply (In_where _ rs 0 i) in Hi. lia. }
  assert (Sm : shape (mtake (J t) nf) (length nf) n) by (eapply shape_mtake; [exact JS|exact Hnf]).
  assert (Lt : length (vtake (pb X) nf) = length nf) by (unfold vtake; now rewrite map_length).
  unfold run_on. cbn [bind]. rewrite (add_inequality_all _ _ O mO 0 (length nf) n WO Sm Lt). 
  eexists. split; [reflexivity|]. pose proof WO as (WA & Wb & WC & Wd).
  assert (LO : length (rows (pA O)) = mO) by apply WA.
  assert (W' : wf (Poly (vstack (pA O) (mtake (J t) nf)) (pb O ++ vtake (pb X) nf) (pC O) (pd O) None None None None None) (mO + length nf) 0 n).
  { split; [cbn; auto with shp|]. split; [cbn; rewrite app_length; lia|]. split; [exact WC|exact Wd]. }
  exists (mO + length nf)%nat. split; [exact W'|]. split; [cbn; discriminate|]. split.
  - intros r Hr. destruct (Nat.lt_ge_cases r mO) as [Hl|Hg].
    + destruct (RF r Hl) as (i & k & Hi & Hb & Hd). exists i, k. cbn [pA pb]. split; [exact Hi|].
      unfold row, vstack. cbn [rows]. rewrite !app_nth1 by lia. split; [exact Hb|exact Hd].
    + assert (Hn : (r - mO < length nf)%nat) by lia. exists (nth (r - mO) nf 0%nat), t. cbn [pA pb].
      assert (Hi : (nth (r - mO) nf 0 < m)%nat) by (apply Hnf, nth_In; exact Hn). split; [exact Hi|].
      unfold row at 1, vstack. cbn [rows]. rewrite !app_nth2 by lia. rewrite Wb, LO. split.
      * unfold vtake. rewrite (nth_indep _ 0 (nth 0%nat (pb X) 0)) by (rewrite map_length; exact Hn).
        rewrite (map_nth (fun i => nth i (pb X) 0)). reflexivity.
      * intros x Lx. rewrite <- row_J_flow by auto. f_equal. unfold mtake. cbn [rows].
        rewrite (nth_indep _ [] (row (J t) 0)) by (rewrite map_length; exact Hn). rewrite (map_nth (row (J t))). reflexivity.
  - intros x. rewrite (in_poly_vle _ _ _ _ x W'). cbn [pA pb pC pd]. 
    assert (Hrow : length x = n -> (vle (mv (mtake (J t) nf) x) (vtake (pb X) nf) <-> forall i, In i nf -> dot (row (pA X) i) (flow A t x) <= nth i (pb X) 0)).
    { intros Lx. rewrite mv_mtake_vtake. unfold vtake. rewrite (J_flow t x Lx). unfold vle.
      split.
      - intros F i Hi. clear -F Hi. induction nf as [|j l IH]; [destruct Hi|]. cbn [map] in F. inversion F; subst.
        destruct Hi as [->|Hi]; [rewrite nth_mv in *; assumption|auto].
      - intros F. clear -F. induction nf as [|j l IH]; cbn [map]; constructor.
        + rewrite nth_mv. apply F. left. reflexivity.
        + apply IH. intros i Hi. apply F. right. exact Hi. }
    split.
    + intros (Lx & V & Eq). rewrite (mv_vstack) in V. apply vle_app in V as (V1 & V2); [|rewrite mv_length; lia].
      pose proof (proj1 (Hrow Lx) V2) as V3. clear V2. rename V3 into V2.
      assert (Ox : in_poly O x) by (apply (in_poly_vle O mO 0 n x WO); auto).
      pose proof (proj1 (HIN x) Ox) as (_ & Hk). split; [exact Lx|]. intros k Hkt.
      destruct (Nat.eq_dec k t) as [->|Nk]; [|apply Hk; lia].
      apply in_X. split; [apply (flow_length A n); auto|]. apply vle_nth. rewrite mv_length, WXb, LD. split; [reflexivity|]. intros i Hi.
      rewrite nth_mv. destruct (in_dec Nat.eq_dec i nf) as [Yi|Ni].
      * apply V2. exact Yi.
      * destruct (HR i Hi) as (U & _). specialize (U x Ox). rewrite (row_J_flow t i x Hi Lx) in U.
        rewrite Enf in Ni. rewrite (In_where _ rs 0 i) in Ni. assert (nth i rs 0 <= 0).
        { destruct (Rltb 0 (nth i rs 0)) eqn:Eb; [exfalso; apply Ni; split; [lia|reflexivity]|apply Rltb_false; exact Eb]. }
        unfold row in U. lra.
    + intros (Lx & Hk). assert (Ox : in_poly O x) by (apply HIN; split; [exact Lx|intros k Hk'; apply Hk; lia]).
      apply (in_poly_vle O mO 0 n x WO) in Ox as (_ & V & Eq). split; [exact Lx|]. split; [|exact Eq].
      rewrite mv_vstack. apply vle_app; [rewrite mv_length; lia|]. split; [exact V|]. apply (proj2 (Hrow Lx)). intros i Hi.
      specialize (Hk t (Nat.lt_succ_diag_r t)). apply in_X in Hk as (_ & V'). apply vle_nth in V' as (_ & V'). specialize (V' i).
      rewrite mv_length, LD, nth_mv in V'. apply V'. apply Hnf. exact Hi.
Qed.

(** the while loop: it stops at the first T from which nothing new is required *)
Lemma loop_ok fuel : forall t O, (0 < t)%nat -> inv t O ->
  (exists T O', (t <= T < t + fuel)%nat /\ determined A X T /\ mcais_loop np fuel t A X O = Ok O' /\ inv T O') \/
  (mcais_loop np fuel t A X O = Err OutOfFuel /\ forall T, (t <= T < t + fuel)%nat -> ~ determined A X T).
Proof.
  induction fuel as [|fuel IH]; intros t O Ht HI.
  - right. split; [reflexivity|]. intros; lia.
  - destruct (residuals_ok t O Ht HI) as (rs & E & Lr & HR). pose proof (no_new_determined t O rs Ht HI Lr HR) as ND.
    cbn [mcais_loop]. destruct HX as (WXA & _). rewrite (np_dot_ok (pA X) (mpow A t) m n n) by (auto with shp). cbn [bind].
    fold (J t). rewrite E. cbn [bind].
    destruct (where_ (fun r => Rltb 0 r) rs) as [|i l] eqn:Ew.
    + left. exists t, O. split; [lia|]. split; [apply ND; reflexivity|]. auto.
    + destruct (inv_step t O rs (i :: l) Ht HI Lr HR (eq_sym Ew)) as (O' & E' & HI'). rewrite E'. cbn [bind].
      destruct (IH (S t) O' (Nat.lt_0_succ t) HI') as [(T & O2 & HT & D & E2 & HI2)|(E2 & HN)].
      * left. exists T, O2. split; [lia|]. auto.
      * right. split; [exact E2|]. intros T HT. destruct (Nat.eq_dec T t) as [->|NT].
        -- rewrite <- ND. discriminate.
        -- apply HN. lia.
Qed.
Lemma loop_stop fuel t O : (0 < t)%nat -> inv t O -> determined A X t -> mcais_loop np (S fuel) t A X O = Ok O.
Proof.
  intros Ht HI D. destruct (residuals_ok t O Ht HI) as (rs & E & Lr & HR). pose proof (no_new_determined t O rs Ht HI Lr HR) as ND.
  cbn [mcais_loop]. destruct HX as (WXA & _). rewrite (np_dot_ok (pA X) (mpow A t) m n n) by (auto with shp). cbn [bind].
  fold (J t). rewrite E. cbn [bind]. apply ND in D. now rewrite D.
Qed.
End Loop.

Lemma determined_forever A X n T x : shape A n n -> (forall y, in_poly X y -> length y = n) -> (0 < T)%nat -> determined A X T ->
  (forall k, (k < T)%nat -> in_poly X (flow A k x)) -> admissible A X x.
Proof.
  intros HA HL HT D H t. 
  assert (G : forall s k, (k < T)%nat -> in_poly X (flow A k (flow A s x))).
  { assert (Fc : forall a b y, flow A a (flow A b y) = flow A (a + b) y).
    { intros a b y. induction a as [|a IHa]; [reflexivity|]. cbn [flow Nat.add]. now rewrite IHa. }
    induction s as [|s IHs]; intros k Hk; [exact (H k Hk)|].
    assert (E : flow A k (flow A (S s) x) = flow A (S k) (flow A s x)).
    { rewrite !Fc. f_equal. lia. }
    rewrite E. destruct (Nat.eq_dec (S k) T) as [->|N]; [|apply IHs; lia]. apply D. exact IHs. }
  specialize (G t 0%nat HT). exact G.
Qed.

(** what mcais does once its checks have passed *)
Definition accepted (np : numpy) (A : mat) (X : poly) (m n : nat) : Prop :=
  wf X m 0 n /\ (0 < m)%nat /\ (0 < n)%nat /\ p_empty X = None /\ p_bounded X = None /\
  shape A n n /\ np_eig_max np A <= 1 /\ in_poly X (zeros n) /\ bounded_set (in_poly X).
Lemma near_zeros n : near (zeros n).
Proof. unfold near. autorewrite with dotx. unfold tol7. lra. Qed.
Lemma mcais_checked np A X m n : exact_np np -> accepted np A X m n ->
  exists X1, get_bounded np X = (Ok true, X1) /\ pA X1 = pA X /\ pb X1 = pb X /\ pC X1 = pC X /\ pd X1 = pd X /\ wf X1 m 0 n /\
   p_empty X1 <> Some true /\ (forall x, in_poly X1 x <-> in_poly X x) /\ inv A X1 m n 1 X1 /\
   forall fuel, mcais np fuel A X = (O <- mcais_loop np fuel 1 A X1 X1 ;; run_on (Ok O) (remove_redundant_inequalities np), X1).
Proof.
  intros Hnp (W & Hm & Hn & FE & FB & HA & HE & H0 & HB).
  destruct (polytope_is_bounded np X m 0 n Hnp W FE FB HB) as (X1 & Eb). exists X1. split; [exact Eb|].
  destruct (get_bounded_state _ _ _ _ Eb) as (E1 & E2 & E3 & E4 & HC).
  assert (W1 : wf X1 m 0 n) by (unfold wf; rewrite E1, E2, E3, E4; exact W).
  assert (NE : p_empty X1 <> Some true).
  { destruct HC as [->|(e & p1 & Ee & ->)]; [rewrite FE; discriminate|].
    destruct (get_empty_ok np X m 0 n Hnp W FE) as (e' & Ee' & He'). rewrite Ee' in Ee. injection Ee as <- <-. cbn. intros [= ->].
    apply (proj1 He' eq_refl). exists (zeros n). split; [exact H0|apply near_zeros]. }
  assert (SE : forall x, in_poly X1 x <-> in_poly X x) by (intros x; unfold in_poly; rewrite E1, E2, E3, E4; reflexivity).
  repeat match goal with |- _ /\ _ => split end; auto.
  - exists m. split; [exact W1|]. split; [exact NE|]. split.
    + intros r Hr. exists r, 0%nat. split; [exact Hr|]. split; [reflexivity|]. reflexivity.
    + intros x. split.
      * intros Hx. split; [apply (in_poly_vle X1 m 0 n x W1) in Hx; apply Hx|]. intros k Hk. replace k with 0%nat by lia. exact Hx.
      * intros (_ & Hx). apply (Hx 0%nat). lia.
  - intros fuel. unfold mcais, pbind, plift. rewrite (nrows_shape _ _ _ HA), (shape_cols _ _ _ HA), Nat.eqb_refl.
    replace (Nat.eqb n 0) with false by (symmetry; apply Nat.eqb_neq; lia).
    replace (Rltb 1 (np_eig_max np A)) with false by (symmetry; apply Rltb_false; exact HE).
    unfold pget. destruct W as (WA & Wb & WC & Wd). rewrite (shape_cols _ _ _ WA).
    destruct (contains_ok X m 0 n (zeros n) tol7 ltac:(repeat split; auto; apply WA || apply WC) Hm ltac:(lia) ltac:(len)) as (r & Er & Hr).
    rewrite Er. assert (r = true).
    { apply Hr. destruct H0 as (_ & HI & HQ). split.
      - eapply Forall2_impl; [|exact HI]. cbv beta. intros a b Hab. pose proof tol7_pos. lra.
      - eapply Forall2_impl; [|exact HQ]. cbv beta. intros a b Hab. pose proof tol7_pos. rewrite Hab, Rminus_diag_eq, Rabs_R0 by reflexivity. lra. }
    subst r. cbn [negb]. rewrite Eb. cbn [negb]. reflexivity.
Qed.

(** ** C30 *)
(*@ Theorem C30_mcais : If mcais returns O, there is O1, made of inequalities of X imposed at some times, containing exactly the points whose whole trajectory stays in X; O is O1 after redundancy removal: it contains all of these points, and what was dropped is implied, one row after the other, up to less than tol. *)
Lemma mcais_ok np fuel A X m n O X' : exact_np np -> accepted np A X m n ->
  mcais np fuel A X = (Ok O, X') ->
  exists O1 mO mf, wf O1 mO 0 n /\ rows_of_flow A X O1 m mO n /\ (forall x, in_poly O1 x <-> admissible A X x) /\
    pA O = mtake (pA O1) mf /\ pb O = vtake (pb O1) mf /\ pC O = Mat n [] /\ pd O = [] /\ removal O1 tol7 (seq 0 mO) mf /\
    (forall x, admissible A X x -> in_poly O x).
Proof.
  intros Hnp HX E. destruct (mcais_checked np A X m n Hnp HX) as (X1 & _ & E1 & E2 & E3 & E4 & W1 & NE & SE & HI & EM).
  destruct HX as (W & Hm & Hn & FE & FB & HA & HE & H0 & HB).
  assert (H01 : in_poly X1 (zeros n)) by (apply SE; exact H0).
  assert (HB1 : bounded_set (in_poly X1)) by (destruct HB as (M & HM); exists M; intros x Hx; apply HM, SE, Hx).
  rewrite EM in E. destruct (loop_ok np Hnp A X1 m n HA W1 H01 HB1 fuel 1 X1 ltac:(lia) HI) as [(T & O1 & HT & D & EL & HI1)|(EL & _)].
  2:{ rewrite EL in E. cbn [bind] in E. discriminate. }
  rewrite EL in E. cbn [bind] in E. pose proof HI1 as (mO & WO & NEO & RF & HO).
  destruct (redundancy_removal np O1 mO 0 n Hnp WO (or_introl eq_refl) NEO) as (O' & mf & Er & W' & P1 & P2 & P3 & P4 & Rm & Hin).
  { exists (zeros n). split; [|apply near_zeros]. apply (inv_zeros A X1 m n HA H01 T O1 HI1). }
  unfold run_on in E. cbn [bind] in E. rewrite Er in E. injection E as <- <-.
  assert (HOx : forall x, in_poly O1 x <-> admissible A X x).
  { intros x. rewrite HO. split.
    - intros (Lx & Hk) t. apply SE. revert t. change (admissible A X1 x). apply (determined_forever A X1 n T); auto; [|lia].
      intros y Hy. apply (in_poly_vle X1 m 0 n y W1) in Hy. apply Hy.
    - intros Hx. split; [|intros k _; apply SE, Hx]. specialize (Hx 0%nat). apply (in_poly_vle X m 0 n _ W) in Hx. apply Hx. }
  exists O1, mO, mf. split; [exact WO|]. split.
  { intros r Hr. destruct (RF r Hr) as (i & k & H). exists i, k. rewrite E1, E2 in H. exact H. }
  split; [exact HOx|]. split; [exact P1|]. split; [exact P2|].
  destruct WO as (_ & _ & (LC & CC & _) & Ld). split; [|split].
  - rewrite P3. destruct (pC O1) as [c rs]. cbn in *. destruct rs; [|discriminate]. congruence.
  - rewrite P4. destruct (pd O1); [reflexivity|discriminate].
  - split; [exact Rm|]. intros x Hx. apply Hin, HOx, Hx.
Qed.
(*@ Theorem C30_mcais_exact_partial : If moreover no inequality generated by the recursion is redundant by less than tol, then x0 is in O iff the trajectory from x0 stays in X for all times.
   Missing: inputs for which an inequality is redundant by less than tol (see the refutation), and X with equality constraints. *)
Lemma mcais_exact np fuel A X m n O X' : exact_np np -> accepted np A X m n ->
  mcais np fuel A X = (Ok O, X') ->
  (forall O1 mO, wf O1 mO 0 n -> rows_of_flow A X O1 m mO n -> redundancy_gap O1 mO tol7) ->
  forall x, in_poly O x <-> admissible A X x.
Proof.
  intros Hnp HX E G. destruct (mcais_ok np fuel A X m n O X' Hnp HX E) as (O1 & mO & mf & WO & RF & HO & P1 & P2 & P3 & P4 & Rm & Hin).
  intros x. split; [|apply Hin]. intros Hx. apply HO. apply (sat_all O1 mO 0 n x WO).
  apply (removal_exact O1 mO tol7 _ mf); [intros j Hj; apply in_seq in Hj; lia|eapply G; eauto|exact Rm|].
  assert (HIN : forall j, In j mf -> (j < mO)%nat) by (intros j Hj; apply (removal_incl _ _ _ _ Rm) in Hj; apply in_seq in Hj; lia).
  destruct (set_rows_poly O1 O1 mO 0 n mf WO (or_introl eq_refl) HIN) as (_ & H'). apply H'.
  unfold in_poly in *. cbn [pA pb pC pd set_A set_b]. rewrite P1, P2, P3, P4 in Hx.
  destruct WO as (_ & _ & (LC & CC & _) & Ld). destruct (pC O1) as [c rs]. cbn [ncols rows] in *. destruct rs; [|discriminate]. subst c.
  destruct (pd O1); [exact Hx|discriminate].
Qed.

(** ** C31 *)
(*@ Theorem C31_mcais_halts_iff : On an accepted input the loop of mcais ends iff for some T >= 1 staying in X at the times 0, .., T-1 implies being in X at time T; T iterations are then enough, and otherwise no number of iterations is enough. *)
Lemma mcais_halts np A X m n : exact_np np -> accepted np A X m n ->
  (forall T, (1 <= T)%nat -> determined A X T -> exists O X', mcais np T A X = (Ok O, X')) /\
  (forall fuel, (exists O X', mcais np fuel A X = (Ok O, X')) \/
     (fst (mcais np fuel A X) = Err OutOfFuel /\ forall T, (1 <= T <= fuel)%nat -> ~ determined A X T)).
Proof.
  intros Hnp HX. destruct (mcais_checked np A X m n Hnp HX) as (X1 & _ & E1 & E2 & E3 & E4 & W1 & NE & SE & HI & EM).
  destruct HX as (W & Hm & Hn & FE & FB & HA & HE & H0 & HB).
  assert (H01 : in_poly X1 (zeros n)) by (apply SE; exact H0).
  assert (HB1 : bounded_set (in_poly X1)) by (destruct HB as (M & HM); exists M; intros x Hx; apply HM, SE, Hx).
  assert (DE : forall T, determined A X1 T <-> determined A X T).
  { intros T. unfold determined. split; intros D x Hx; apply SE; apply D; intros k Hk; apply SE; auto. }
  assert (G : forall fuel, (exists O X', mcais np fuel A X = (Ok O, X')) \/
     (fst (mcais np fuel A X) = Err OutOfFuel /\ forall T, (1 <= T <= fuel)%nat -> ~ determined A X T)).
  { intros fuel. rewrite EM. destruct (loop_ok np Hnp A X1 m n HA W1 H01 HB1 fuel 1 X1 ltac:(lia) HI) as [(T & O1 & HT & D & EL & HI1)|(EL & HN)].
    - left. rewrite EL. cbn [bind]. pose proof HI1 as (mO & WO & NEO & RF & HO).
      destruct (redundancy_removal np O1 mO 0 n Hnp WO (or_introl eq_refl) NEO) as (O' & mf & Er & _).
      { exists (zeros n). split; [|apply near_zeros]. apply (inv_zeros A X1 m n HA H01 T O1 HI1). }
      unfold run_on. cbn [bind]. rewrite Er. eauto.
    - right. rewrite EL. split; [reflexivity|]. intros T HT. rewrite <- DE. apply HN. lia. }
  split; [|exact G]. intros T HT D. destruct (G T) as [H|(_ & H)]; [exact H|]. exfalso. apply (H T); [lia|exact D].
Qed.

Lemma norm_entries a e : 0 <= e -> (forall j, (j < length a)%nat -> Rabs (nth j a 0) <= e) -> norm a <= INR (length a) * e.
Proof.
  intros He H. assert (Hn : 0 <= INR (length a)) by apply pos_INR.
  assert (S : dot a a <= INR (length a) * (e * e)).
  { clear Hn. induction a as [|x a IH]; [cbn; lra|]. change (dot (x :: a) (x :: a)) with (x * x + dot a a). cbn [length]. rewrite S_INR.
    assert (Rabs x <= e) by (apply (H 0%nat); cbn [length]; lia).
    assert (dot a a <= INR (length a) * (e * e)) by (apply IH; intros j Hj; apply (H (S j)); cbn [length]; lia).
    assert (x * x <= e * e); [|nra]. unfold Rabs in H0. destruct (Rcase_abs x); nra. }
  destruct a as [|x a]; [unfold norm; cbn; rewrite sqrt_0; lra|].
  assert (H1 : 1 <= INR (length (x :: a))) by (cbn [length]; rewrite S_INR; pose proof (pos_INR (length a)); lra).
  set (N := INR (length (x :: a))) in *. unfold norm. apply Rle_trans with (sqrt ((N * e) * (N * e))).
  - apply sqrt_le_1_alt. apply Rle_trans with (N * (e * e)); [exact S|]. assert (0 <= e * e) by nra. nra.
  - rewrite sqrt_square by nra. lra.
Qed.
Lemma uniform_time (P : nat -> nat -> Prop) k : (forall j, (j < k)%nat -> exists T, forall t, (T <= t)%nat -> P j t) ->
  exists T, forall t j, (T <= t)%nat -> (j < k)%nat -> P j t.
Proof.
  induction k as [|k IH]; intros H; [exists 0%nat; intros; lia|].
  destruct IH as (T1 & H1); [intros j Hj; apply H; lia|]. destruct (H k ltac:(lia)) as (T2 & H2).
  exists (Nat.max T1 T2). intros t j Ht Hj. destruct (Nat.eq_dec j k) as [->|N]; [apply H2; lia|apply H1; lia].
Qed.
(*@ Theorem C31_stable_halts_partial : If every trajectory converges to the origin and the origin is in the interior of X (b > 0), mcais ends.
   Missing: marginally stable A and X with the origin on its boundary, for which the loop can run forever (see the refutations). *)
Lemma stable_halts np A X m n : exact_np np -> accepted np A X m n ->
  (forall i, (i < m)%nat -> 0 < nth i (pb X) 0) ->
  (forall x, length x = n -> forall eps, 0 < eps -> exists T, forall t, (T <= t)%nat -> norm (flow A t x) <= eps) ->
  exists fuel O X', mcais np fuel A X = (Ok O, X').
Proof.
  intros Hnp HX Pb Conv. pose proof HX as (W & Hm & Hn & FE & FB & HA & HE & H0 & (M & HM)).
  pose proof W as (WA & Wb & WC & Wd). assert (LD : length (rows (pA X)) = m) by apply WA.
  assert (M0 : 0 <= M). { specialize (HM _ H0). pose proof (norm_nonneg (zeros n)). lra. }
  assert (Nn : 0 < INR n) by (apply lt_0_INR; exact Hn).
  (* for each constraint i and coordinate j *)
  assert (U : exists T, forall t i, (T <= t)%nat -> (i < m)%nat -> forall j, (j < n)%nat -> Rabs (dot (row (pA X) i) (flow A t (unit n j))) <= nth i (pb X) 0 / (INR n * (M + 1))).
  { apply (uniform_time (fun i t => forall j, (j < n)%nat -> Rabs (dot (row (pA X) i) (flow A t (unit n j))) <= nth i (pb X) 0 / (INR n * (M + 1)))).
    intros i Hi. destruct (uniform_time (fun j t => Rabs (dot (row (pA X) i) (flow A t (unit n j))) <= nth i (pb X) 0 / (INR n * (M + 1))) n) as (T & HT).
    - intros j Hj. set (c := nth i (pb X) 0 / (INR n * (M + 1))).
      assert (Hc : 0 < c) by (apply Rdiv_lt_0_compat; [apply Pb; exact Hi|apply Rmult_lt_0_compat; lra]).
      pose proof (norm_nonneg (row (pA X) i)) as Hr.
      destruct (Conv (unit n j) ltac:(len) (c / (norm (row (pA X) i) + 1))) as (T & HT); [apply Rdiv_lt_0_compat; lra|].
      exists T. intros t Ht. specialize (HT t Ht). set (v := flow A t (unit n j)) in *. set (a := row (pA X) i) in *.
      assert (B : norm a * norm v <= c).
      { apply Rle_trans with (norm a * (c / (norm a + 1))); [apply Rmult_le_compat_l; auto|].
        apply Rmult_le_reg_r with (norm a + 1); [lra|]. replace (norm a * (c / (norm a + 1)) * (norm a + 1)) with (norm a * c) by (field; lra). nra. }
      apply Rabs_le. pose proof (dot_le_norm a v). pose proof (dot_le_norm (vneg a) v) as D2. rewrite norm_vneg in D2. autorewrite with dotx in D2. lra.
    - exists T. intros t Ht j Hj. apply HT; auto. }
  destruct U as (T & HT). exists (S T). apply (mcais_halts np A X m n Hnp HX); [lia|].
  intros x Hx. assert (Lx : length x = n /\ in_poly X x).
  { specialize (Hx 0%nat ltac:(lia)). cbn [flow] in Hx. split; [|exact Hx]. apply (in_poly_vle X m 0 n x W) in Hx. apply Hx. }
  destruct Lx as (Lx & Xx). apply (in_X X m n W). split; [apply (flow_length A n); auto|].
  apply vle_nth. rewrite mv_length, LD, Wb. split; [reflexivity|]. intros i Hi. rewrite nth_mv. fold (row (pA X) i).
  rewrite <- (row_J_flow A X m n HA (S T) i x Hi Lx). set (a := row (mm (pA X) (mpow A (S T))) i).
  assert (La : length a = n). { eapply shape_row; [|exact Hi]. eauto with shp. }
  pose proof (Pb i Hi) as Pi. set (bi := nth i (pb X) 0) in *.
  assert (Na : norm a <= INR (length a) * (bi / (INR n * (M + 1)))).
  { apply norm_entries; [apply Rlt_le, Rdiv_lt_0_compat; [exact Pi|apply Rmult_lt_0_compat; lra]|]. rewrite La. intros j Hj.
    replace (nth j a 0) with (dot a (unit n j)); [|rewrite dot_unit_r by auto; reflexivity].
    unfold a. rewrite (row_J_flow A X m n HA (S T) i (unit n j) Hi ltac:(len)). apply HT; auto. }
  rewrite La in Na. pose proof (dot_le_norm a x). pose proof (HM x Xx). pose proof (norm_nonneg a). pose proof (norm_nonneg x).
  assert (Eq : INR n * (bi / (INR n * (M + 1))) * (M + 1) = bi) by (field; lra).
  assert (norm a * norm x <= norm a * M) by (apply Rmult_le_compat_l; auto).
  assert (norm a * (M + 1) <= bi) by (rewrite <- Eq; apply Rmult_le_compat_r; lra). nra.
Qed.

(** ** Counterexamples *)
Lemma loops_forever np A X m n : exact_np np -> accepted np A X m n -> (forall T, (1 <= T)%nat -> ~ determined A X T) ->
  forall fuel, fst (mcais np fuel A X) = Err OutOfFuel.
Proof.
  intros Hnp HX H fuel. destruct (mcais_halts np A X m n Hnp HX) as (_ & G). destruct (G fuel) as [(O & X' & E)|(E & _)]; [|exact E].
  exfalso. destruct (mcais_checked np A X m n Hnp HX) as (X1 & _ & E1 & E2 & E3 & E4 & W1 & NE & SE & HI & EM).
  destruct HX as (W & Hm & Hn & FE & FB & HA & HE & H0 & HB).
  assert (H01 : in_poly X1 (zeros n)) by (apply SE; exact H0).
  assert (HB1 : bounded_set (in_poly X1)) by (destruct HB as (M & HM); exists M; intros x Hx; apply HM, SE, Hx).
  rewrite EM in E. destruct (loop_ok np Hnp A X1 m n HA W1 H01 HB1 fuel 1 X1 ltac:(lia) HI) as [(T & O1 & HT & D & EL & HI1)|(EL & HN)].
  - apply (H T); [lia|]. intros x Hx. apply SE. apply D. intros k Hk. apply SE. auto.
  - rewrite EL in E. cbn [bind] in E. discriminate.
Qed.
(** x1 + x2, x2 : a double integrator; the box [-1,1]^2 *)
Definition A_int : mat := Mat 2 [[1; 1]; [0; 1]].
Definition box2 : poly := Poly (Mat 2 [[1; 0]; [0; 1]; [-1; 0]; [0; -1]]) [1; 1; 1; 1] (Mat 2 []) [] None None None None None.
Lemma wf_box2 : wf box2 4 0 2. Proof. unfold wf; simpl; repeat split; repeat constructor. Qed.
Lemma in_box2 a b : in_poly box2 [a; b] <-> -1 <= a <= 1 /\ -1 <= b <= 1.
Proof.
  split.
  - intros (_ & H & _). unfold ineq_holds in H. cbn in H. inv2 H. lra.
  - intros H. split; [reflexivity|]. split; [|constructor]. cbn. repeat (apply Forall2_cons; [cbn; lra|]). constructor.
Qed.
Lemma two_coords (X : poly) m me x : wf X m me 2 -> in_poly X x -> exists a b, x = [a; b].
Proof. intros W H. apply (in_poly_vle X m me 2 x W) in H as (L & _). destruct x as [|a [|b [|]]]; try discriminate L. eauto. Qed.
Lemma box2_bounded : bounded_set (in_poly box2).
Proof.
  exists 2. intros x Hx. destruct (two_coords box2 4 0 x wf_box2 Hx) as (a & b & ->). apply in_box2 in Hx.
  unfold norm. apply Rle_trans with (sqrt (2 * 2)); [apply sqrt_le_1_alt; cbn; nra|rewrite sqrt_square; lra].
Qed.
Lemma accepted_int np : np_eig_max np A_int <= 1 -> accepted np A_int box2 4 2.
Proof.
  intros H. unfold accepted. repeat match goal with |- _ /\ _ => split end; try lia; try reflexivity; auto.
  - exact wf_box2.
  - repeat split; repeat constructor.
  - change (zeros 2) with [0; 0]. apply in_box2. lra.
  - exact box2_bounded.
Qed.
Lemma flow_int t a b : flow A_int t [a; b] = [a + INR t * b; b].
Proof.
  induction t as [|t IH]; [cbn; f_equal; ring|]. cbn [flow]. rewrite IH, S_INR. cbv -[Rplus Rmult IZR INR]. f_equal; [ring|f_equal; ring].
Qed.
(*@ Theorem C31_marginal_refuted : x1+ = x1 + x2, x2+ = x2 (eigenvalues 1 and 1) with X the unit box passes the checks, and the loop never ends. *)
Lemma marginal_refuted : exists A X, forall np, exact_np np -> np_eig_max np A <= 1 ->
  accepted np A X 4 2 /\ forall fuel, fst (mcais np fuel A X) = Err OutOfFuel.
Proof.
  exists A_int, box2. intros np Hnp He. pose proof (accepted_int np He) as HA. split; [exact HA|].
  apply (loops_forever np A_int box2 4 2 Hnp HA). intros T HT D.
  assert (PT : 0 < INR T) by (apply lt_0_INR; lia). assert (P1 : 1 <= INR T) by (replace 1 with (INR 1) by reflexivity; apply le_INR; exact HT).
  assert (IT : 0 < / INR T) by (apply Rinv_0_lt_compat; exact PT). assert (E : INR T * / INR T = 1) by (field; lra).
  assert (IT1 : / INR T <= 1) by nra.
  specialize (D [/ INR T; / INR T]). rewrite flow_int, in_box2 in D. assert (G : -1 <= / INR T + INR T * / INR T <= 1 /\ -1 <= / INR T <= 1); [|lra].
  apply D. intros k Hk. rewrite flow_int, in_box2. assert (INR k + 1 <= INR T) by (rewrite <- S_INR; apply le_INR; lia).
  pose proof (pos_INR k). assert (INR k * / INR T + / INR T <= 1) by (rewrite <- E; nra). assert (0 <= INR k * / INR T) by nra. lra.
Qed.
(** diag(1/2, 1/3) with the box and x1 <= x2: the origin is on the boundary of X *)
Definition A_diag : mat := Mat 2 [[1 / 2; 0]; [0; 1 / 3]].
Definition box_wedge : poly := Poly (Mat 2 [[1; 0]; [0; 1]; [-1; 0]; [0; -1]; [1; -1]]) [1; 1; 1; 1; 0] (Mat 2 []) [] None None None None None.
Lemma wf_wedge : wf box_wedge 5 0 2. Proof. unfold wf; simpl; repeat split; repeat constructor. Qed.
Lemma in_wedge a b : in_poly box_wedge [a; b] <-> (-1 <= a <= 1 /\ -1 <= b <= 1) /\ a <= b.
Proof.
  split.
  - intros (_ & H & _). unfold ineq_holds in H. cbn in H. inv2 H. lra.
  - intros H. split; [reflexivity|]. split; [|constructor]. cbn. repeat (apply Forall2_cons; [cbn; lra|]). constructor.
Qed.
Lemma flow_diag t a b : flow A_diag t [a; b] = [(/ 2) ^ t * a; (/ 3) ^ t * b].
Proof.
  induction t as [|t IH]; [cbn; f_equal; [ring|f_equal; ring]|]. cbn [flow]. rewrite IH. cbv -[Rplus Rmult Rinv Rdiv IZR pow]. cbn [pow]. f_equal; [field|f_equal; field].
Qed.
Lemma pow_le1 r k : 0 < r <= 1 -> 0 < r ^ k <= 1.
Proof. intros H. induction k as [|k IH]; cbn [pow]; [lra|nra]. Qed.
(*@ Theorem C31_stable_refuted : The asymptotically stable A = diag(1/2, 1/3) with X the unit box cut by x1 <= x2 passes the checks, and the loop never ends. *)
Lemma stable_refuted : exists A X, forall np, exact_np np -> np_eig_max np A <= 1 ->
  accepted np A X 5 2 /\ (forall a b t, flow A t [a; b] = [(/ 2) ^ t * a; (/ 3) ^ t * b]) /\
  forall fuel, fst (mcais np fuel A X) = Err OutOfFuel.
Proof.
  exists A_diag, box_wedge. intros np Hnp He.
  assert (HA : accepted np A_diag box_wedge 5 2).
  { unfold accepted. repeat match goal with |- _ /\ _ => split end; try lia; try reflexivity; auto.
    - exact wf_wedge.
    - repeat split; repeat constructor.
    - change (zeros 2) with [0; 0]. apply in_wedge. lra.
    - destruct box2_bounded as (M & HM). exists M. intros x Hx. apply HM. destruct (two_coords _ _ _ _ wf_wedge Hx) as (a & b & ->).
      apply in_wedge in Hx. apply in_box2. tauto. }
  split; [exact HA|]. split; [intros; apply flow_diag|]. apply (loops_forever np A_diag box_wedge 5 2 Hnp HA). intros T HT D.
  destruct T as [|T]; [lia|]. specialize (D [(2 / 3) ^ T; 1]). rewrite flow_diag, in_wedge in D.
  assert (PP : forall k, (/ 3) ^ k = (/ 2) ^ k * (2 / 3) ^ k). { intros k. rewrite <- Rpow_mult_distr. f_equal. field. }
  assert (H2 : forall k, 0 < (/ 2) ^ k <= 1) by (intros; apply pow_le1; lra).
  assert (H3 : forall k, 0 < (2 / 3) ^ k <= 1) by (intros; apply pow_le1; lra).
  destruct D as (_ & D).
  - intros k Hk. rewrite flow_diag, in_wedge. pose proof (pow_le1 (/ 3) k ltac:(lra)) as Q3. pose proof (H2 k). pose proof (H3 T). pose proof (H3 k).
    split; [|].
    + split; [|lra]. nra.
    + rewrite PP, Rmult_1_r. apply Rmult_le_compat_l; [lra|]. replace T with (k + (T - k))%nat by lia. rewrite pow_add.
      pose proof (H3 (T - k)%nat). nra.
  - rewrite PP in D. pose proof (H2 (S T)). pose proof (H3 T). cbn [pow] in D, H. nra.
Qed.

(** {x <= 1, x <= 1 + tol/2, -x <= 1} and x+ = x/2 *)
Definition A_half : mat := Mat 1 [[1 / 2]].
Definition X_near : poly := Poly (Mat 1 [[1]; [1]; [-1]]) [1; 1 + tol7 / 2; 1] (Mat 1 []) [] None None None None None.
Lemma wf_X_near : wf X_near 3 0 1. Proof. unfold wf; simpl; repeat split; repeat constructor. Qed.
Lemma in_X_near a : in_poly X_near [a] <-> -1 <= a <= 1.
Proof.
  pose proof tol7_pos. split.
  - intros (_ & H' & _). unfold ineq_holds in H'. cbn in H'. inv2 H'. lra.
  - intros H'. split; [reflexivity|]. split; [|constructor]. cbn. repeat (apply Forall2_cons; [cbn; lra|]). constructor.
Qed.
Lemma one_coord (X : poly) m me x : wf X m me 1 -> in_poly X x -> exists a, x = [a].
Proof. intros W H. apply (in_poly_vle X m me 1 x W) in H as (L & _). destruct x as [|a [|]]; try discriminate L. eauto. Qed.
Lemma flow_half t a : flow A_half t [a] = [(/ 2) ^ t * a].
Proof. induction t as [|t IH]; [cbn; f_equal; ring|]. cbn [flow]. rewrite IH. cbv -[Rplus Rmult Rinv Rdiv IZR pow]. cbn [pow]. f_equal. field. Qed.
Lemma accepted_near np : np_eig_max np A_half <= 1 -> accepted np A_half X_near 3 1.
Proof.
  intros H. unfold accepted. repeat match goal with |- _ /\ _ => split end; try lia; try reflexivity; auto.
  - exact wf_X_near.
  - repeat split; repeat constructor.
  - change (zeros 1) with [0]. apply in_X_near. lra.
  - exists 1. intros x Hx. destruct (one_coord _ _ _ _ wf_X_near Hx) as (a & ->). apply in_X_near in Hx.
    unfold norm. apply Rle_trans with (sqrt (1 * 1)); [apply sqrt_le_1_alt; cbn; nra|rewrite sqrt_square; lra].
Qed.
Lemma facets_loop_cons np tol E f i todo mf : facets_loop np tol E f (i :: todo) mf =
  (s <- lp np (vneg (row E i)) (mtake E mf) (vtake (vadd f (unit (length f) i)) mf) None None ;;
   match s_min s with
   | None => Err TypeError
   | Some mn => if Rltb (- mn - nth i f 0) tol then facets_loop np tol E f todo (remove Nat.eq_dec i mf) else facets_loop np tol E f todo mf
   end).
Proof. reflexivity. Qed.
(*@ Theorem C30_tolerance_refuted : For x+ = x/2 and X = {x <= 1, x <= 1 + tol/2, -x <= 1} the returned set contains 1 + tol/2, which is not in X. *)
Lemma mcais_tolerance_refuted : exists A X, forall np, exact_np np -> np_eig_max np A <= 1 ->
  accepted np A X 3 1 /\ exists O X' x, mcais np 1 A X = (Ok O, X') /\ in_poly O x /\ ~ in_poly X x.
Proof.
  exists A_half, X_near. intros np Hnp He. pose proof tol7_pos as Tp. assert (T1 : tol7 <= 1) by (unfold tol7; lra).
  pose proof (accepted_near np He) as HA. split; [exact HA|].
  destruct (mcais_checked np _ _ 3 1 Hnp HA) as (X1 & _ & E1 & E2 & E3 & E4 & W1 & NE & SE & HI & EM).
  assert (H01 : in_poly X1 (zeros 1)) by (apply SE; change (zeros 1) with [0]; apply in_X_near; lra).
  assert (HB1 : bounded_set (in_poly X1)). { destruct HA as (_ & _ & _ & _ & _ & _ & _ & _ & (M & HM)). exists M; intros x Hx; apply HM, SE, Hx. }
  assert (D : determined A_half X1 1).
  { intros x Hx. specialize (Hx 0%nat ltac:(lia)). cbn [flow] in Hx. apply SE in Hx. destruct (one_coord _ _ _ _ wf_X_near Hx) as (a & ->).
    apply SE. rewrite flow_half. apply in_X_near. apply in_X_near in Hx. cbn [pow]. lra. }
  assert (ShA : shape A_half 1 1) by (repeat split; repeat constructor).
  assert (EL := loop_stop np Hnp A_half X1 3 1 ShA W1 H01 HB1 0 1 X1 ltac:(lia) HI D).
  specialize (EM 1%nat). rewrite EL in EM. cbn [bind] in EM.
  destruct (minimal_facets_ok np X1 3 0 1 tol7 Hnp W1 T1 (or_introl eq_refl) NE) as (mf & p1 & Em & Hp1 & _ & _ & _).
  { exists (zeros 1). split; [exact H01|apply near_zeros]. }
  assert (HS : shape (pA X1) 3 1) by apply W1. assert (HL : length (pb X1) = 3%nat) by apply W1.
  (* the first step of the loop drops the first inequality *)
  assert (NI : ~ In 0%nat mf).
  { unfold minimal_facets, pbind in Em.
    destruct (get_empty np X1) as [re p2] eqn:Ge. destruct (get_empty_state _ _ _ _ Ge) as (G1 & G2 & G3 & G4 & _).
    destruct re as [e|]; [|discriminate]. destruct e; [discriminate|]. unfold pget, plift in Em.
    assert (NC : (0 <? nrows (pC p2))%nat = false). { rewrite G3, E3. reflexivity. }
    rewrite NC in Em. rewrite G1, G2 in Em. rewrite (nrows_shape _ _ _ HS) in Em. cbn [seq] in Em. rewrite facets_loop_cons in Em.
    destruct (facet_lp np Hnp (pA X1) (pb X1) 3 1 HS HL [0%nat; 1%nat; 2%nat] 0 [0]) as (s & z & Es & Ems & (Lz & Sz) & Bz & Oz).
    { cbn. intros j [<-|[<-|[<-|[]]]]; lia. } { now left. } { rewrite E1, E2. split; [reflexivity|]. intros j [<-|[<-|[<-|[]]]]; cbn; lra. }
    rewrite Es in Em. cbn [bind] in Em. rewrite Ems in Em. destruct z as [|z [|]]; try discriminate Lz.
    specialize (Sz 1%nat ltac:(cbn; auto)). rewrite E1, E2 in Sz. cbn in Sz.
    match type of Em with context [Rltb ?v tol7] => replace (Rltb v tol7) with true in Em by (symmetry; apply Rltb_true; rewrite E1, E2; cbn; lra) end.
    change (remove Nat.eq_dec 0 [0; 1; 2])%nat with [1; 2]%nat in Em.
    destruct (facets_loop_ok np Hnp (pA X1) (pb X1) 3 1 tol7 HS HL T1 [0] [1; 2]%nat [1; 2]%nat) as (mf' & El' & _ & (kp & Ek) & _).
    { repeat constructor; cbn; intuition lia. } { apply incl_refl. } { cbn. intros j [<-|[<-|[]]]; lia. }
    { rewrite E1, E2. split; [reflexivity|]. intros j [<-|[<-|[<-|[]]]]; cbn; lra. }
    rewrite El' in Em. injection Em as <- _. rewrite Ek. intros Hi. apply filter_In in Hi as (Hi & _). cbn in Hi. intuition lia. }
  unfold run_on, remove_redundant_inequalities, pbind in EM. cbn [bind] in EM. rewrite Em in EM. unfold pget, pput in EM.
  eexists _, _, [1 + tol7 / 2]. split; [exact EM|]. split.
  - assert (HIN : forall j, In j mf -> (j < 3)%nat).
    { intros j Hj. unfold minimal_facets, pbind in Em.
      destruct (minimal_facets_ok np X1 3 0 1 tol7 Hnp W1 T1 (or_introl eq_refl) NE) as (mf2 & p3 & Em2 & _ & Rm & _ & _).
      { exists (zeros 1). split; [exact H01|apply near_zeros]. }
      unfold minimal_facets, pbind in Em2. rewrite Em in Em2. injection Em2 as <- _. apply (removal_incl _ _ _ _ Rm) in Hj. apply in_seq in Hj. lia. }
    destruct (set_rows_poly X1 p1 3 0 1 mf W1 Hp1 HIN) as (_ & H'). 
    assert (Cp : pA p1 = pA X1 /\ pb p1 = pb X1 /\ pC p1 = pC X1 /\ pd p1 = pd X1) by (destruct Hp1; subst p1; auto).
    apply H'. split; [rewrite E1; reflexivity|]. split; [rewrite E3, E4; constructor|].
    intros j Hj. specialize (HIN j Hj). rewrite E1, E2. destruct j as [|[|[|]]]; [contradiction|cbn; lra|cbn; lra|lia].
  - rewrite in_X_near. lra.
Qed.

(** ** LinearSystem.mcais *)
(** closed-loop matrix and the set of states with (x, K x) in D *)
Definition A_closed (S : lsys) (K : mat) : mat := madd (lA S) (mm (lB S) K).
Definition cl_poly (S : lsys) (K : mat) (D : poly) : poly :=
  Poly (madd (cols_to (pA D) (lnx S)) (mm (cols_from (pA D) (lnx S)) K)) (pb D) (Mat (lnx S) []) [] None None None None None.
Lemma lin_mcais_ok np fuel S K D nx nu m me : shape (lA S) nx nx -> shape (lB S) nx nu -> shape K nu nx -> wf D m me (nx + nu) ->
  lin_mcais np fuel S K D = fst (mcais np fuel (A_closed S K) (cl_poly S K D)) /\
  shape (A_closed S K) nx nx /\ wf (cl_poly S K D) m 0 nx /\
  (forall x, length x = nx -> mv (pA (cl_poly S K D)) x = mv (pA D) (x ++ mv K x)) /\
  (me = 0%nat -> forall x, length x = nx -> (in_poly (cl_poly S K D) x <-> in_poly D (x ++ mv K x))).
Proof.
  intros SA SB SK WD. assert (L : lnx S = nx) by (unfold lnx; apply (nrows_shape _ _ _ SB)).
  pose proof WD as (WA & Wb & WC & Wd). assert (SC1 : shape (cols_to (pA D) nx) m nx) by (eapply shape_cols_to; [exact WA|lia]).
  assert (SC2 : shape (cols_from (pA D) nx) m nu) by (replace nu with (nx + nu - nx)%nat by lia; eapply shape_cols_from; exact WA).
  assert (SBK : shape (mm (lB S) K) nx nx) by eauto with shp. assert (SDK : shape (mm (cols_from (pA D) nx) K) m nx) by eauto with shp.
  assert (W' : wf (cl_poly S K D) m 0 nx).
  { unfold cl_poly. rewrite L. split; [cbn; auto with shp|]. split; [exact Wb|]. split; [cbn; repeat split; constructor|reflexivity]. }
  assert (MV : forall x, length x = nx -> mv (pA (cl_poly S K D)) x = mv (pA D) (x ++ mv K x)).
  { intros x Lx. unfold cl_poly. rewrite L. cbn [pA]. rewrite (mv_madd _ _ m nx) by auto. rewrite (mv_mm _ K nu nx) by auto.
    symmetry. apply (mv_cols_split _ m (nx + nu)); auto. lia. }
  repeat match goal with |- _ /\ _ => split end; auto.
  - unfold lin_mcais. rewrite (np_dot_ok (lB S) K nx nu nx) by auto. cbn [bind]. rewrite (np_madd_ok _ _ nx nx) by auto. cbn [bind].
    rewrite L. rewrite (np_dot_ok _ K m nu nx) by auto. cbn [bind]. rewrite (np_madd_ok _ _ m nx) by auto. cbn [bind].
    unfold Polyhedron, same_number_rows. cbn [nd_size].
    assert (SM : shape (madd (cols_to (pA D) nx) (mm (cols_from (pA D) nx) K)) m nx) by auto with shp.
    rewrite (nrows_shape _ _ _ SM), Wb, Nat.eqb_refl. cbn [bind]. rewrite (shape_cols _ _ _ SM). unfold A_closed, cl_poly. rewrite L. reflexivity.
  - unfold A_closed. auto with shp.
  - intros -> x Lx. rewrite (in_X _ m nx W' x), (in_X _ m (nx + nu) WD (x ++ mv K x)), (MV x Lx). cbn [cl_poly pb].
    rewrite app_length, mv_length, Lx. assert (length (rows K) = nu) by apply SK. split; intros (_ & H'); split; auto; lia.
Qed.
(*@ Theorem C30_linear_mcais : LinearSystem.mcais with D given by inequalities: the same, with "(x(t), K x(t)) is in D for all t" along x(t+1) = (A + B K) x(t). *)
Lemma linear_mcais np fuel S K D nx nu m O : exact_np np ->
  shape (lA S) nx nx -> shape (lB S) nx nu -> shape K nu nx -> wf D m 0 (nx + nu) ->
  (0 < m)%nat -> (0 < nx)%nat -> np_eig_max np (A_closed S K) <= 1 ->
  in_poly D (zeros (nx + nu)) -> bounded_set (fun x => in_poly D (x ++ mv K x) /\ length x = nx) ->
  lin_mcais np fuel S K D = Ok O ->
  exists O1 mO mf, wf O1 mO 0 nx /\
    (forall x, length x = nx -> (in_poly O1 x <-> forall t, in_poly D (flow (A_closed S K) t x ++ mv K (flow (A_closed S K) t x)))) /\
    pA O = mtake (pA O1) mf /\ pb O = vtake (pb O1) mf /\ removal O1 tol7 (seq 0 mO) mf /\
    (forall x, length x = nx -> (forall t, in_poly D (flow (A_closed S K) t x ++ mv K (flow (A_closed S K) t x))) -> in_poly O x) /\
    (redundancy_gap O1 mO tol7 -> forall x, length x = nx ->
       (in_poly O x <-> forall t, in_poly D (flow (A_closed S K) t x ++ mv K (flow (A_closed S K) t x)))).
Proof.
  intros Hnp SA SB SK WD Hm Hn He H0 HB E.
  destruct (lin_mcais_ok np fuel S K D nx nu m 0 SA SB SK WD) as (E' & SAc & Wc & _ & HIN). specialize (HIN eq_refl). rewrite E' in E.
  set (Ac := A_closed S K) in *. set (X := cl_poly S K D) in *.
  assert (Acc : accepted np Ac X m nx).
  { unfold accepted. repeat match goal with |- _ /\ _ => split end; auto.
    - apply HIN; [len|]. rewrite mv_zeros. replace (length (rows K)) with nu by (symmetry; apply SK). rewrite <- zeros_app. exact H0.
    - destruct HB as (M & HM). exists M. intros x Hx. assert (Lx : length x = nx) by (apply (in_X X m nx Wc) in Hx; apply Hx).
      apply HM. split; [apply HIN; auto|exact Lx]. }
  destruct (mcais np fuel Ac X) as [r X'] eqn:EM. cbn [fst] in E. subst r.
  destruct (mcais_ok np fuel Ac X m nx O X' Hnp Acc EM) as (O1 & mO & mf & WO & RF & HO & P1 & P2 & P3 & P4 & Rm & Hin).
  assert (AD : forall x, length x = nx -> (admissible Ac X x <-> forall t, in_poly D (flow Ac t x ++ mv K (flow Ac t x)))).
  { intros x Lx. unfold admissible. split; intros H t; specialize (H t); apply HIN; auto; apply (flow_length Ac nx); auto. }
  exists O1, mO, mf. repeat match goal with |- _ /\ _ => split end; auto.
  - intros x Lx. rewrite HO. apply AD. exact Lx.
  - intros x Lx H. apply Hin, AD; auto.
  - intros G x Lx. rewrite <- (AD x Lx). split; [|apply Hin]. intros Hx. apply HO. apply (sat_all O1 mO 0 nx x WO).
    apply (removal_exact O1 mO tol7 _ mf); [intros j Hj; apply in_seq in Hj; lia|exact G|exact Rm|].
    assert (HINm : forall j, In j mf -> (j < mO)%nat) by (intros j Hj; apply (removal_incl _ _ _ _ Rm) in Hj; apply in_seq in Hj; lia).
    destruct (set_rows_poly O1 O1 mO 0 nx mf WO (or_introl eq_refl) HINm) as (_ & H'). apply H'.
    unfold in_poly in *. cbn [pA pb pC pd set_A set_b]. rewrite P1, P2, P3, P4 in Hx.
    destruct WO as (_ & _ & (LC & CC & _) & Ld). destruct (pC O1) as [c rs]. cbn [ncols rows] in *. destruct rs; [|discriminate]. subst c.
    destruct (pd O1); [exact Hx|discriminate].
Qed.

(** x+ = x + u, u = -x/2, D = {-1 <= x <= 1, u = 0} *)
Definition S_int : lsys := LSys (Mat 1 [[1]]) (Mat 1 [[1]]) None.
Definition K_half : mat := Mat 1 [[-1 / 2]].
Definition D_eq : poly := Poly (Mat 2 [[1; 0]; [-1; 0]]) [1; 1] (Mat 2 [[0; 1]]) [0] None None None None None.
Definition X_box1 : poly := Poly (Mat 1 [[1]; [-1]]) [1; 1] (Mat 1 []) [] None None None None None.
Lemma wf_D_eq : wf D_eq 2 1 2. Proof. unfold wf; simpl; repeat split; repeat constructor. Qed.
Lemma wf_box1 : wf X_box1 2 0 1. Proof. unfold wf; simpl; repeat split; repeat constructor. Qed.
Lemma in_box1 a : in_poly X_box1 [a] <-> -1 <= a <= 1.
Proof.
  split.
  - intros (_ & H' & _). unfold ineq_holds in H'. cbn in H'. inv2 H'. lra.
  - intros H'. split; [reflexivity|]. split; [|constructor]. cbn. repeat (apply Forall2_cons; [cbn; lra|]). constructor.
Qed.
Lemma accepted_box1 np A a : A = Mat 1 [[a]] -> np_eig_max np A <= 1 -> accepted np A X_box1 2 1.
Proof.
  intros -> H. unfold accepted. repeat match goal with |- _ /\ _ => split end; try lia; try reflexivity; auto.
  - exact wf_box1.
  - repeat split; repeat constructor.
  - change (zeros 1) with [0]. apply in_box1. lra.
  - exists 1. intros x Hx. destruct (one_coord _ _ _ _ wf_box1 Hx) as (b & ->). apply in_box1 in Hx.
    unfold norm. apply Rle_trans with (sqrt (1 * 1)); [apply sqrt_le_1_alt; cbn; nra|rewrite sqrt_square; lra].
Qed.
Lemma cl_int : A_closed S_int K_half = A_half /\ cl_poly S_int K_half D_eq = X_box1.
Proof.
  split.
  - unfold A_closed, S_int, K_half, A_half. cbn [lA lB]. cbv -[Rplus Rmult Rdiv Ropp IZR]. mateq.
  - unfold cl_poly, S_int, K_half, X_box1, D_eq. cbv -[Rplus Rmult Rdiv Ropp IZR]. mateq.
Qed.
Lemma det_half : determined A_half X_box1 1.
Proof.
  intros x Hx. specialize (Hx 0%nat ltac:(lia)). cbn [flow] in Hx. destruct (one_coord _ _ _ _ wf_box1 Hx) as (b & ->).
  rewrite flow_half. apply in_box1. apply in_box1 in Hx. cbn [pow]. lra.
Qed.
Lemma adm_half b : -1 <= b <= 1 -> admissible A_half X_box1 [b].
Proof. intros H t. rewrite flow_half. apply in_box1. pose proof (pow_le1 (/ 2) t ltac:(lra)). split; nra. Qed.
(*@ Theorem C30_equalities_refuted : LinearSystem.mcais ignores the equalities of D: for x+ = x + u, u = -x/2 and D = {-1 <= x <= 1, u = 0} the returned set contains x = 1, although (1, -1/2) is not in D. *)
Lemma mcais_equalities_refuted : exists S K D x, forall np, exact_np np -> np_eig_max np (A_closed S K) <= 1 ->
  exists O, lin_mcais np 1 S K D = Ok O /\ in_poly O x /\ ~ in_poly D (x ++ mv K x).
Proof.
  exists S_int, K_half, D_eq, [1]. intros np Hnp. destruct cl_int as (EA & EX). rewrite EA. intros He.
  pose proof (accepted_box1 np A_half (1 / 2) eq_refl He) as Acc.
  destruct (proj1 (mcais_halts np A_half X_box1 2 1 Hnp Acc) 1%nat ltac:(lia) det_half) as (O & X' & EM).
  assert (Sh1 : forall a, shape (Mat 1 [[a]]) 1 1) by (repeat split; repeat constructor).
  destruct (lin_mcais_ok np 1 S_int K_half D_eq 1 1 2 1 (Sh1 _) (Sh1 _) (Sh1 _) wf_D_eq) as (E & _). rewrite EA, EX, EM in E.
  exists O. split; [exact E|]. split.
  - destruct (mcais_ok np 1 A_half X_box1 2 1 O X' Hnp Acc EM) as (O1 & mO & mf & _ & _ & _ & _ & _ & _ & _ & _ & Hin).
    apply Hin, adm_half. lra.
  - intros (_ & _ & H). unfold eq_holds in H. cbn in H. inv2 H. lra.
Qed.
(*@ Example C30_example : x+ = x/2 with X = [-1,1]: the hypotheses of the exactness theorem hold, mcais ends after one iteration and returns exactly the interval. *)
Lemma mcais_example : np_eig_max np0 A_half <= 1 /\ accepted np0 A_half X_box1 2 1 /\
  (forall O1 mO, wf O1 mO 0 1 -> rows_of_flow A_half X_box1 O1 2 mO 1 -> redundancy_gap O1 mO tol7) /\
  exists O X', mcais np0 1 A_half X_box1 = (Ok O, X') /\ (forall x, in_poly O x <-> admissible A_half X_box1 x) /\
    forall a, in_poly O [a] <-> -1 <= a <= 1.
Proof.
  assert (He : np_eig_max np0 A_half <= 1) by (cbn; lra). split; [exact He|].
  pose proof (accepted_box1 np0 A_half (1 / 2) eq_refl He) as Acc. split; [exact Acc|].
  pose proof tol7_pos as Tp. assert (T1 : tol7 <= 1) by (unfold tol7; lra).
  assert (G : forall O1 mO, wf O1 mO 0 1 -> rows_of_flow A_half X_box1 O1 2 mO 1 -> redundancy_gap O1 mO tol7).
  { intros O1 mO WO RF Sx0 i Hi NI HS.
    assert (RF' : forall r, (r < mO)%nat -> exists s k, (s = 1 \/ s = -1) /\ nth r (pb O1) 0 = 1 /\ forall a, dot (row (pA O1) r) [a] = s * ((/ 2) ^ k * a)).
    { intros r Hr. destruct (RF r Hr) as (j & k & Hj & Hb & Hd). destruct j as [|[|]]; [| |lia].
      - exists 1, k. split; [auto|]. split; [exact Hb|]. intros a. rewrite (Hd [a] eq_refl), flow_half. cbn. ring.
      - exists (-1), k. split; [auto|]. split; [exact Hb|]. intros a. rewrite (Hd [a] eq_refl), flow_half. cbn. ring. }
    destruct (RF' i Hi) as (s & k & Hs & Hb & Hd).
    assert (L1 : forall x, sat O1 Sx0 x -> exists a, x = [a]).
    { intros x (Lx & _). replace (ncols (pA O1)) with 1%nat in Lx by (symmetry; apply WO). destruct x as [|a [|]]; try discriminate Lx. eauto. }
    assert (P2 : forall q, 0 < (/ 2) ^ q <= 1) by (intros; apply pow_le1; lra).
    destruct (classic (exists j l, In j Sx0 /\ (l <= k)%nat /\ nth j (pb O1) 0 = 1 /\ forall a, dot (row (pA O1) j) [a] = s * ((/ 2) ^ l * a))) as [(j & l & Hj & Hl & Hbj & Hdj)|NE].
    - left. intros x Sx. destruct (L1 x Sx) as (a & ->). destruct Sx as (_ & _ & Sx). specialize (Sx j Hj). rewrite Hdj, Hbj in Sx. rewrite Hd, Hb.
      replace k with (l + (k - l))%nat by lia. rewrite pow_add. pose proof (P2 (k - l)%nat). pose proof (P2 l). set (p := (/ 2) ^ l) in *. set (q := (/ 2) ^ (k - l)) in *.
      replace (s * (p * q * a)) with (q * (s * (p * a))) by ring. destruct (Rle_lt_dec 0 (s * (p * a))); nra.
    - right. exists [s * 2 ^ S k]. 
      assert (I2 : forall q, (/ 2) ^ q * 2 ^ q = 1). { intros q. rewrite <- Rpow_mult_distr. replace (/ 2 * 2) with 1 by field. apply pow1. }
      assert (SS : s * s = 1) by (destruct Hs; subst s; ring). split.
      + split; [replace (ncols (pA O1)) with 1%nat by (symmetry; apply WO); reflexivity|]. split.
        * destruct WO as (_ & _ & (LC & _) & Ld). unfold eq_holds. destruct (rows (pC O1)); [|discriminate]. destruct (pd O1); [constructor|discriminate].
        * intros j Hj. destruct (RF' j (HS j Hj)) as (s' & k' & Hs' & Hb' & Hd'). rewrite Hd', Hb'.
          destruct (Req_dec s' s) as [->|Ns].
          -- assert (k' > k)%nat. { apply Nat.nle_gt. intros Hl. apply NE. exists j, k'. auto. }
             replace (s * ((/ 2) ^ k' * (s * 2 ^ S k))) with ((s * s) * ((/ 2) ^ k' * 2 ^ S k)) by ring. rewrite SS.
             replace k' with ((k' - S k) + S k)%nat by lia. rewrite pow_add, Rmult_assoc, I2. pose proof (P2 (k' - S k)%nat). lra.
          -- assert (s' * s = -1) by (destruct Hs, Hs'; subst; lra).
             replace (s' * ((/ 2) ^ k' * (s * 2 ^ S k))) with ((s' * s) * ((/ 2) ^ k' * 2 ^ S k)) by ring. rewrite H.
             assert (0 < 2 ^ S k) by (apply pow_lt; lra). pose proof (P2 k'). nra.
      + rewrite Hd, Hb. replace (s * ((/ 2) ^ k * (s * 2 ^ S k))) with ((s * s) * (2 * ((/ 2) ^ k * 2 ^ k))) by (cbn [pow]; ring). rewrite SS, I2. lra. }
  split; [exact G|].
  destruct (proj1 (mcais_halts np0 A_half X_box1 2 1 np0_exact Acc) 1%nat ltac:(lia) det_half) as (O & X' & EM).
  exists O, X'. split; [exact EM|]. pose proof (mcais_exact np0 1 A_half X_box1 2 1 O X' np0_exact Acc EM G) as HO. split; [exact HO|].
  intros a. rewrite HO. split; [|apply adm_half]. intros H. specialize (H 0%nat). apply in_box1. exact H.
Qed.
(*@ Example C31_example : x+ = x/2 with X = [-1,1] meets the hypotheses of the termination theorem, and mcais ends after one iteration. *)
Lemma halts_example : accepted np0 A_half X_box1 2 1 /\ (forall i, (i < 2)%nat -> 0 < nth i (pb X_box1) 0) /\
  (forall x, length x = 1%nat -> forall eps, 0 < eps -> exists T, forall t, (T <= t)%nat -> norm (flow A_half t x) <= eps) /\
  exists O X', mcais np0 1 A_half X_box1 = (Ok O, X').
Proof.
  assert (He : np_eig_max np0 A_half <= 1) by (cbn; lra). pose proof (accepted_box1 np0 A_half (1 / 2) eq_refl He) as Acc.
  split; [exact Acc|]. split; [intros [|[|i]] Hi; cbn; lra || lia|]. split.
  - intros x Lx eps Pe. destruct x as [|a [|]]; try discriminate Lx.
    destruct (pow_lt_1_zero (/ 2) ltac:(rewrite Rabs_right; lra) (eps / (Rabs a + 1)) ltac:(apply Rdiv_lt_0_compat; [exact Pe|pose proof (Rabs_pos a); lra])) as (T & HT).
    exists T. intros t Ht. specialize (HT t Ht). rewrite flow_half. unfold norm. cbn [dot]. 
    pose proof (pow_le1 (/ 2) t ltac:(lra)) as P. rewrite Rabs_right in HT by lra. pose proof (Rabs_pos a) as Pa. 
    assert (B : (/ 2) ^ t * (Rabs a + 1) < eps).
    { apply Rmult_lt_reg_r with (/ (Rabs a + 1)); [apply Rinv_0_lt_compat; lra|]. rewrite Rmult_assoc, Rinv_r by lra. unfold Rdiv in HT. lra. }
    apply Rle_trans with (sqrt (eps * eps)); [|rewrite sqrt_square; lra]. apply sqrt_le_1_alt. unfold dot. cbn.
    assert (Q : a * a = Rabs a * Rabs a) by (unfold Rabs; destruct (Rcase_abs a); ring).
    set (p := (/ 2) ^ t) in *. replace (p * a * (p * a) + 0) with ((p * Rabs a) * (p * Rabs a)) by (replace ((p * Rabs a) * (p * Rabs a)) with (p * p * (Rabs a * Rabs a)) by ring; rewrite <- Q; ring).
    assert (p * Rabs a <= eps) by nra. assert (0 <= p * Rabs a) by nra. nra.
  - apply (proj1 (mcais_halts np0 A_half X_box1 2 1 np0_exact Acc) 1%nat ltac:(lia) det_half).
Qed.
