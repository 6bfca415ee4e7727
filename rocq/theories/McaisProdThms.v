(** * McaisProdThms: maximal invariant sets of two systems side by side (C106) *)
From Coq Require Import ZArith Classical.
From Verif Require Import Arr ArrFacts Spec SpecDyn Numpy Pnnls PnnlsFacts QpFacts GeomUtils Polyhedron PolyThms Oracle SolverThms NullFacts PolySolveThms PolySetThms PolyBoundThms PolyMore Dynamics DynThms McaisThms McaisLawThms.

Lemma product_fresh p q r : cartesian_product p q = Ok r -> p_empty r = None /\ p_bounded r = None.
Proof.
  unfold cartesian_product, Polyhedron. intros H. destruct (same_number_rows _ _); [|discriminate H]. cbn [bind] in H. destruct (same_number_rows _ _); [|discriminate H]. cbn [bind] in H. injection H as <-. split; reflexivity.
Qed.
Lemma flow_block A B n1 n2 t x y : shape A n1 n1 -> shape B n2 n2 -> length x = n1 -> length y = n2 -> flow (block_diag [A; B]) t (x ++ y) = flow A t x ++ flow B t y.
Proof.
  intros HA HB Lx Ly. induction t as [|t IH]; [reflexivity|]. cbn [flow]. rewrite IH. cbn [block_diag]. apply (mv_bdiag2 A B n1 n1 n2 n2); auto; apply (flow_length _ _ _ _); auto.
Qed.

(** a row of A^k *)
Lemma flow_dual A n k w : shape A n n -> length w = n -> exists v, length v = n /\ forall x, dot v x = dot w (flow A k x).
Proof.
  intros HA. revert w. induction k as [|k IH]; intros w Lw; [exists w; auto|].
  destruct (IH (mv (tr A) w)) as (v & Lv & Hv). { rewrite mv_length. apply (shape_rows _ n n). auto with shp. }
  exists v. split; [exact Lv|]. intros x. rewrite Hv. cbn [flow]. apply (dot_mv_tr A n n); auto.
Qed.
Lemma finite_choice (P : nat -> vec * R -> Prop) m : (forall r, (r < m)%nat -> exists v, P r v) -> exists l, length l = m /\ forall r, (r < m)%nat -> P r (nth r l ([], 0)).
Proof.
  induction m as [|m IH]; intros H; [exists []; split; [reflexivity|intros; lia]|].
  destruct IH as (l & Ll & Hl); [intros; apply H; lia|]. destruct (H m ltac:(lia)) as (v & Hv). exists (l ++ [v]). split; [rewrite app_length; cbn; lia|].
  intros r Hr. destruct (Nat.eq_dec r m) as [->|N]; [rewrite app_nth2, Ll, Nat.sub_diag by lia; exact Hv|rewrite app_nth1 by lia; apply Hl; lia].
Qed.
Lemma no_equalities O m n x : wf O m 0 n -> eq_holds (pC O) (pd O) x.
Proof. intros (_ & _ & WC & Wd). apply length_zero_iff_nil in Wd. pose proof (shape_rows _ _ _ WC) as LC. apply length_zero_iff_nil in LC. unfold eq_holds. rewrite Wd, LC. constructor. Qed.
(** a row of O that bounds a trajectory of one part keeps the gap of that part: e puts the part into the whole (the rest being zero), pr takes it out *)
Lemma side_gap A X m n O mO N (pr e : vec -> vec) : clear_cut A X m n -> shape A n n -> wf X m 0 n -> wf O mO 0 N ->
  (forall z, length z = N -> length (pr z) = n) -> (forall x, length x = n -> length (e x) = N /\ pr (e x) = x) ->
  (forall r, (r < mO)%nat -> (exists i k, (i < m)%nat /\ nth r (pb O) 0 = nth i (pb X) 0 /\ forall z, length z = N -> dot (row (pA O) r) z = dot (row (pA X) i) (flow A k (pr z))) \/
     (forall x, length x = n -> dot (row (pA O) r) (e x) <= nth r (pb O) 0)) ->
  forall S0 r, (r < mO)%nat -> ~ In r S0 -> (forall j, In j S0 -> (j < mO)%nat) ->
  (exists i k, (i < m)%nat /\ nth r (pb O) 0 = nth i (pb X) 0 /\ forall z, length z = N -> dot (row (pA O) r) z = dot (row (pA X) i) (flow A k (pr z))) ->
  (forall z, sat O S0 z -> dot (row (pA O) r) z <= nth r (pb O) 0) \/ (exists z, sat O S0 z /\ nth r (pb O) 0 + tol7 <= dot (row (pA O) r) z).
Proof.
  intros G HA WX WO Lp Le HR S0 r Hr NI HS HM.
  set (mine r := exists i k, (i < m)%nat /\ nth r (pb O) 0 = nth i (pb X) 0 /\ forall z, length z = N -> dot (row (pA O) r) z = dot (row (pA X) i) (flow A k (pr z))) in *.
  assert (Hm : (0 < m)%nat) by (destruct HM as (i & _ & Hi & _); lia).
  assert (RX : forall i, (i < m)%nat -> length (row (pA X) i) = n) by (intros i Hi; apply (shape_row _ m n); [apply WX|exact Hi]).
  destruct (finite_choice (fun r v => length (fst v) = n /\ (exists i k, (i < m)%nat /\ snd v = nth i (pb X) 0 /\ forall x, length x = n -> dot (fst v) x = dot (row (pA X) i) (flow A k x)) /\ (mine r -> snd v = nth r (pb O) 0 /\ forall z, length z = N -> dot (row (pA O) r) z = dot (fst v) (pr z))) mO) as (l & Ll & Hl).
  { intros q Hq. destruct (classic (mine q)) as [(i & k & Hi & Eb & Ed)|NM].
    - destruct (flow_dual A n k (row (pA X) i) HA (RX i Hi)) as (v & Lv & Hv). exists (v, nth i (pb X) 0). cbn [fst snd]. split; [exact Lv|]. split; [exists i, k; auto|]. intros _. split; [auto|]. intros z Lz. rewrite Hv. auto.
    - exists (row (pA X) 0, nth 0 (pb X) 0). cbn [fst snd]. split; [auto|]. split; [exists 0%nat, 0%nat; auto|]. tauto. }
  set (OX := Poly (Mat n (map fst l)) (map snd l) (Mat n []) [] None None None None None).
  assert (ER : forall q, (q < mO)%nat -> row (pA OX) q = fst (nth q l ([], 0)) /\ nth q (pb OX) 0 = snd (nth q l ([], 0))).
  { intros q Hq. unfold OX, row. cbn [pA pb rows]. split; [change (@nil R) with (fst (@nil R, 0)) at 1|change 0 with (snd (@nil R, 0)) at 1]; apply map_nth. }
  assert (WOX : wf OX mO 0 n).
  { unfold wf, OX. cbn [pA pb pC pd]. split; [|split; [rewrite map_length; exact Ll|split; [split; [reflexivity|split; [reflexivity|constructor]]|reflexivity]]].
    split; [cbn; rewrite map_length; exact Ll|]. split; [reflexivity|]. apply Forall_forall. cbn [rows]. intros v Hv. apply (In_nth _ _ []) in Hv. destruct Hv as (q & Hq & <-). rewrite map_length in Hq. change (@nil R) with (fst (@nil R, 0)). rewrite map_nth. apply Hl. lia. }
  assert (RF : rows_of_flow A X OX m mO n).
  { intros q Hq. destruct (Hl q Hq) as (_ & (i & k & Hi & Eb & Ed) & _). destruct (ER q Hq) as (E1 & E2). exists i, k. rewrite E1, E2. auto. }
  assert (DEC : exists S1, forall j, In j S1 <-> In j S0 /\ mine j).
  { clear - S0. induction S0 as [|j S0 (S1 & IH)]; [exists []; cbn; tauto|]. destruct (classic (mine j)) as [M|M]; [exists (j :: S1)|exists S1]; intros q; cbn [In]; rewrite IH; (split; [|]); intuition (subst; tauto). }
  destruct DEC as (S1 & DEC). destruct (ER r Hr) as (E1 & E2). destruct (Hl r Hr) as (_ & _ & Hr2). destruct (Hr2 HM) as (Eb & Ed).
  assert (NX : ncols (pA OX) = n) by reflexivity. assert (NO : ncols (pA O) = N) by apply WO.
  destruct (G OX mO WOX RF S1 r Hr) as [L|(x & (Lx & _ & Sx) & Vx)]; [rewrite DEC; tauto|intros j Hj; apply HS, DEC, Hj| |].
  - left. intros z (Lz & _ & Sz). rewrite NO in Lz. rewrite (Ed z Lz), <- E1, <- Eb, <- E2. apply L. split; [rewrite NX; auto|]. split; [apply (no_equalities OX mO n _ WOX)|].
    intros j Hj. apply DEC in Hj as (Hj & Mj). destruct (ER j (HS j Hj)) as (F1 & F2). destruct (Hl j (HS j Hj)) as (_ & _ & H3). destruct (H3 Mj) as (Fb & Fd). rewrite F1, F2, <- (Fd z Lz), Fb. auto.
  - right. rewrite NX in Lx. destruct (Le x Lx) as (Lz & Pz). exists (e x). split.
    + split; [rewrite NO; exact Lz|]. split; [apply (no_equalities O mO N _ WO)|]. intros j Hj. destruct (classic (mine j)) as [Mj|Mj].
      * destruct (ER j (HS j Hj)) as (F1 & F2). destruct (Hl j (HS j Hj)) as (_ & _ & H3). destruct (H3 Mj) as (Fb & Fd). rewrite (Fd _ Lz), Pz, <- Fb, <- F1, <- F2. apply Sx, DEC. auto.
      * destruct (HR j (HS j Hj)) as [M|Z]; [contradiction|apply Z, Lx].
    + rewrite (Ed _ Lz), Pz, <- Eb, <- E1, <- E2. exact Vx.
Qed.

(** no redundancy of the product is within the tolerance if none of the factors is *)
Lemma product_clear A B X Y Z m1 m2 n1 n2 : clear_cut A X m1 n1 -> clear_cut B Y m2 n2 -> shape A n1 n1 -> shape B n2 n2 -> wf X m1 0 n1 -> wf Y m2 0 n2 -> in_poly X (zeros n1) -> in_poly Y (zeros n2) -> cartesian_product X Y = Ok Z -> clear_cut (block_diag [A; B]) Z (m1 + m2) (n1 + n2).
Proof.
  intros G1 G2 HA HB W1 W2 Z1 Z2 EZ O mO WO RF S0 r Hr NI HS.
  assert (EZA : pA Z = bdiag2 (pA X) (pA Y) /\ pb Z = pb X ++ pb Y).
  { unfold cartesian_product, Polyhedron in EZ. destruct (same_number_rows _ _); [|discriminate EZ]. cbn [bind] in EZ. destruct (same_number_rows _ _); [|discriminate EZ]. cbn [bind] in EZ. injection EZ as <-. split; reflexivity. }
  destruct EZA as (EA & Eb). pose proof W1 as (WA1 & Wb1 & _). pose proof W2 as (WA2 & Wb2 & _).
  assert (N1 : forall i, (i < m1)%nat -> 0 <= nth i (pb X) 0).
  { intros i Hi. apply (sat_all X m1 0 n1 _ W1) in Z1. destruct Z1 as (_ & _ & Q). specialize (Q i ltac:(apply in_seq; lia)). now rewrite dot_zeros_r in Q. }
  assert (N2 : forall i, (i < m2)%nat -> 0 <= nth i (pb Y) 0).
  { intros i Hi. apply (sat_all Y m2 0 n2 _ W2) in Z2. destruct Z2 as (_ & _ & Q). specialize (Q i ltac:(apply in_seq; lia)). now rewrite dot_zeros_r in Q. }
  assert (RR : forall q, (q < mO)%nat ->
    (exists i k, (i < m1)%nat /\ nth q (pb O) 0 = nth i (pb X) 0 /\ forall z, length z = (n1 + n2)%nat -> dot (row (pA O) q) z = dot (row (pA X) i) (flow A k (firstn n1 z))) \/
    (exists i k, (i < m2)%nat /\ nth q (pb O) 0 = nth i (pb Y) 0 /\ forall z, length z = (n1 + n2)%nat -> dot (row (pA O) q) z = dot (row (pA Y) i) (flow B k (skipn n1 z)))).
  { intros q Hq. destruct (RF q Hq) as (i & k & Hi & Hb & Hd).
    assert (EV : forall z, length z = (n1 + n2)%nat -> dot (row (pA O) q) z = nth i (mv (pA X) (flow A k (firstn n1 z)) ++ mv (pA Y) (flow B k (skipn n1 z))) 0).
    { intros z Lz. rewrite (Hd z Lz), EA. assert (L1 : length (firstn n1 z) = n1) by (rewrite firstn_length; lia). assert (L2 : length (skipn n1 z) = n2) by (rewrite skipn_length; lia).
      rewrite <- (firstn_skipn n1 z) at 1. rewrite (flow_block A B n1 n2) by assumption. unfold row. rewrite <- nth_mv. f_equal. apply (mv_bdiag2 _ _ m1 n1 m2 n2); auto. apply (flow_length A n1); auto. }
    rewrite Eb in Hb. destruct (Nat.lt_ge_cases i m1) as [Q|Q]; [left; exists i, k|right; exists (i - m1)%nat, k]; (split; [lia|]).
    - split; [rewrite Hb; apply app_nth1; lia|]. intros z Lz. rewrite (EV z Lz), app_nth1 by (rewrite mv_length, (shape_rows _ _ _ WA1); exact Q). apply nth_mv.
    - split; [rewrite Hb, app_nth2 by lia; now rewrite Wb1|]. intros z Lz. rewrite (EV z Lz), app_nth2 by (rewrite mv_length, (shape_rows _ _ _ WA1); exact Q). rewrite mv_length, (shape_rows _ _ _ WA1). apply nth_mv. }
  destruct (RR r Hr) as [M|M].
  - apply (side_gap A X m1 n1 O mO (n1 + n2) (firstn n1) (fun x => x ++ zeros n2)); auto.
    + intros z Lz. rewrite firstn_length. lia.
    + intros x Lx. split; [len|]. apply firstn_app_l; exact Lx.
    + intros q Hq. destruct (RR q Hq) as [Q|(i & k & Hi & Hb & Hd)]; [left; exact Q|right]. intros x Lx. rewrite Hd by len. rewrite skipn_app_l by exact Lx. rewrite (flow_zeros B n2), dot_zeros_r by exact HB. rewrite Hb. auto.
  - apply (side_gap B Y m2 n2 O mO (n1 + n2) (skipn n1) (fun y => zeros n1 ++ y)); auto.
    + intros z Lz. rewrite skipn_length. lia.
    + intros x Lx. split; [len|]. apply skipn_app_l, zeros_length.
    + intros q Hq. destruct (RR q Hq) as [(i & k & Hi & Hb & Hd)|Q]; [right|left; exact Q]. intros x Lx. rewrite Hd by len. rewrite firstn_app_l by apply zeros_length. rewrite (flow_zeros A n1), dot_zeros_r by exact HA. rewrite Hb. auto.
Qed.
(*@ Theorem C106_product : Two systems side by side (block-diagonal A, cartesian product of the polytopes): mcais ends within the larger of the two numbers of iterations, and returns the cartesian product of the results, if no redundancy of the two factors is within the tolerance (then none of the product is). *)
Lemma product_law np A B X Y m1 m2 n1 n2 : exact_np np -> accepted np A X m1 n1 -> accepted np B Y m2 n2 -> np_eig_max np (block_diag [A; B]) <= 1 -> exists Z, cartesian_product X Y = Ok Z /\ accepted np (block_diag [A; B]) Z (m1 + m2) (n1 + n2) /\
  forall f1 f2 O1 O2 X' Y', mcais np f1 A X = (Ok O1, X') -> mcais np f2 B Y = (Ok O2, Y') ->
    exists O Z', mcais np (Nat.max f1 f2) (block_diag [A; B]) Z = (Ok O, Z') /\
      (clear_cut A X m1 n1 -> clear_cut B Y m2 n2 -> forall x y, length x = n1 -> in_poly O (x ++ y) <-> in_poly O1 x /\ in_poly O2 y).
Proof.
  intros Hnp HX HY HE. pose proof HX as (W1 & M1 & N1 & _ & _ & HA & _ & Z1 & (B1 & HB1)). pose proof HY as (W2 & _ & _ & _ & _ & HB & _ & Z2 & (B2 & HB2)).
  destruct (cartesian_product_ok X Y m1 0 n1 m2 0 n2 W1 W2) as (Z & EZ & WZ & HZ). destruct (product_fresh X Y Z EZ) as (C1 & C2). exists Z. split; [exact EZ|].
  assert (SP : forall z, in_poly Z z -> exists x y, z = x ++ y /\ length x = n1 /\ length y = n2 /\ in_poly X x /\ in_poly Y y).
  { intros z Hz. pose proof (in_length Z _ _ _ z WZ Hz) as Lz. exists (firstn n1 z), (skipn n1 z). rewrite firstn_skipn. split; [reflexivity|]. assert (L1 : length (firstn n1 z) = n1) by (rewrite firstn_length; lia). split; [exact L1|]. split; [rewrite skipn_length; lia|]. apply (HZ _ _ L1). rewrite firstn_skipn. exact Hz. }
  assert (SAB : shape (block_diag [A; B]) (n1 + n2) (n1 + n2)) by (cbn [block_diag]; auto with shp).
  assert (AZ : accepted np (block_diag [A; B]) Z (m1 + m2) (n1 + n2)).
  { split; [exact WZ|]. split; [lia|]. split; [lia|]. split; [exact C1|]. split; [exact C2|]. split; [exact SAB|]. split; [exact HE|]. split; [rewrite zeros_app; apply HZ; [len|auto]|]. exists (B1 + B2). intros z Hz. destruct (SP z Hz) as (x & y & -> & Lx & Ly & Ix & Iy). specialize (HB1 x Ix). specialize (HB2 y Iy).
    pose proof (norm_nonneg x). pose proof (norm_nonneg y). unfold norm at 1. apply Rle_trans with (sqrt ((B1 + B2) * (B1 + B2))); [|rewrite sqrt_square; lra]. apply sqrt_le_1_alt. rewrite dot_app by reflexivity.
    pose proof (norm_sqr x) as Q1. pose proof (norm_sqr y) as Q2. nra. }
  assert (FZ : forall t x y, length x = n1 -> length y = n2 -> in_poly Z (flow (block_diag [A; B]) t (x ++ y)) <-> in_poly X (flow A t x) /\ in_poly Y (flow B t y)).
  { intros t x y Lx Ly. rewrite (flow_block A B n1 n2) by assumption. apply HZ. apply (flow_length A n1); assumption. }
  split; [exact AZ|]. intros f1 f2 O1 O2 X' Y' E1 E2.
  destruct (proj1 (ends_iff np f1 A X m1 n1 Hnp HX) ltac:(eauto)) as (T1 & HT1 & D1'). destruct (proj1 (ends_iff np f2 B Y m2 n2 Hnp HY) ltac:(eauto)) as (T2 & HT2 & D2').
  destruct (proj2 (ends_iff np (Nat.max f1 f2) (block_diag [A; B]) Z (m1 + m2) (n1 + n2) Hnp AZ)) as (O & Z' & E).
  { exists (Nat.max T1 T2). split; [lia|]. intros z Hz. destruct (SP z (Hz 0%nat ltac:(lia))) as (x & y & -> & Lx & Ly & _). apply (FZ _ x y Lx Ly).
    split; [apply (determined_later A X T1 (Nat.max T1 T2) D1' (Nat.le_max_l _ _))|apply (determined_later B Y T2 (Nat.max T1 T2) D2' (Nat.le_max_r _ _))]; intros k Hk; apply (FZ k x y Lx Ly), Hz, Hk. }
  exists O, Z'. split; [exact E|].
  destruct (mcais_ok np f1 A X m1 n1 O1 X' Hnp HX E1) as (_ & _ & _ & _ & _ & _ & _ & _ & _ & _ & _ & I1). destruct (mcais_ok np f2 B Y m2 n2 O2 Y' Hnp HY E2) as (_ & _ & _ & _ & _ & _ & _ & _ & _ & _ & _ & I2). destruct (mcais_ok np _ _ Z (m1 + m2) (n1 + n2) O Z' Hnp AZ E) as (_ & _ & _ & _ & _ & _ & _ & _ & _ & _ & _ & I).
  intros G1 G2 x y Lx. pose proof (product_clear A B X Y Z m1 m2 n1 n2 G1 G2 HA HB W1 W2 Z1 Z2 EZ) as G. split.
  - intros Hx. apply (mcais_exact np _ _ Z (m1 + m2) (n1 + n2) O Z' Hnp AZ E G) in Hx. assert (Ly : length y = n2) by (pose proof (in_length Z _ _ _ _ WZ (Hx 0%nat)) as Q; cbn [flow] in Q; rewrite app_length in Q; lia).
    split; [apply I1|apply I2]; intros t; apply (FZ t x y Lx Ly), Hx.
  - intros (H1 & H2). apply (mcais_exact np f1 A X m1 n1 O1 X' Hnp HX E1 G1) in H1. apply (mcais_exact np f2 B Y m2 n2 O2 Y' Hnp HY E2 G2) in H2. apply I. intros t. apply FZ; [exact Lx|exact (in_length Y _ _ _ _ W2 (H2 0%nat))|]. split; [apply H1|apply H2].
Qed.
(*@ Example C106_product_example : x+ = x/2 with [-1, 1] beside x+ = x/2 with [-2, 2]: the hypotheses hold, mcais ends after one iteration for the product, and (x, y) is in the result iff |x| <= 1 and |y| <= 2. *)
Lemma product_example np : exact_np np -> np_eig_max np A_half <= 1 -> np_eig_max np (block_diag [A_half; A_half]) <= 1 ->
  exists Z O Z', cartesian_product X_box1 X_box2 = Ok Z /\ accepted np (block_diag [A_half; A_half]) Z 4 2 /\ mcais np 1 (block_diag [A_half; A_half]) Z = (Ok O, Z') /\
    forall x y, in_poly O [x; y] <-> -1 <= x <= 1 /\ -2 <= y <= 2.
Proof.
  intros Hnp He He2. pose proof (accepted_box1 np A_half (1 / 2) eq_refl He) as Acc1. pose proof (accepted_box2 np A_half (1 / 2) eq_refl He) as Acc2.
  destruct (product_law np A_half A_half X_box1 X_box2 2 2 1 1 Hnp Acc1 Acc2 He2) as (Z & EZ & AZ & HZ).
  destruct (proj1 (mcais_halts np A_half X_box1 2 1 Hnp Acc1) 1%nat ltac:(lia) det_half) as (O1 & Y1 & E1).
  destruct (proj1 (mcais_halts np A_half X_box2 2 1 Hnp Acc2) 1%nat ltac:(lia)) as (O2 & Y2 & E2).
  { intros x Hx. specialize (Hx 0%nat ltac:(lia)). cbn [flow] in *. destruct (one_coord _ _ _ _ wf_box2 Hx) as (a & ->). apply in_box2 in Hx. cbn. apply in_box2. lra. }
  destruct (HZ 1%nat 1%nat O1 O2 Y1 Y2 E1 E2) as (O & Z' & E & HO). exists Z, O, Z'. split; [exact EZ|]. split; [exact AZ|]. split; [exact E|].
  intros x y. rewrite (HO (pow2_clear _ _ pow2_box1) (pow2_clear _ _ pow2_box2) [x] [y] eq_refl : in_poly O [x; y] <-> _).
  rewrite (mcais_exact np 1 A_half X_box1 2 1 O1 Y1 Hnp Acc1 E1 (pow2_clear _ _ pow2_box1)), (mcais_exact np 1 A_half X_box2 2 1 O2 Y2 Hnp Acc2 E2 (pow2_clear _ _ pow2_box2)).
  split.
  - intros (H1 & H2). split; [apply in_box1, (H1 0%nat)|apply in_box2, (H2 0%nat)].
  - intros (H1 & H2). split; [apply adm_half; exact H1|]. intros t. rewrite flow_half. apply in_box2. pose proof (pow_le1 (/ 2) t ltac:(lra)) as P. set (p := (/ 2) ^ t) in *. clearbody p. clear - H2 P. assert (0 <= p * (2 - y) /\ 0 <= p * (2 + y)) by (split; apply Rmult_le_pos; lra). lra.
Qed.
