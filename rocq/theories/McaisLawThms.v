(** * McaisLawThms: laws of the maximal invariant set (C106) *)
From Coq Require Import ZArith Classical.
From Verif Require Import Arr ArrFacts Spec SpecDyn Numpy Pnnls PnnlsFacts QpFacts GeomUtils Polyhedron PolyThms Oracle SolverThms NullFacts PolySolveThms PolySetThms PolyBoundThms PolyMore Dynamics DynThms McaisThms.

(** no redundancy met by mcais(A, X) is within the tolerance (hypothesis of C30_mcais_exact_partial) *)
Definition clear_cut (A : mat) (X : poly) (m n : nat) : Prop := forall O1 mO, wf O1 mO 0 n -> rows_of_flow A X O1 m mO n -> redundancy_gap O1 mO tol7.
(** the trajectories of A' are carried by f into trajectories of A, and X' is the preimage of X *)
Definition carries (f : vec -> vec) (A' A : mat) (X' X : poly) (n' n : nat) : Prop :=
  forall z, length z = n' -> length (f z) = n /\ f (mv A' z) = mv A (f z) /\ (in_poly X' z <-> in_poly X (f z)).

Lemma flow_add A a b x : flow A a (flow A b x) = flow A (a + b) x.
Proof. induction a as [|a IH]; [reflexivity|]. cbn [flow Nat.add]. now rewrite IH. Qed.
Lemma determined_later A X T T' : determined A X T -> (T <= T')%nat -> determined A X T'.
Proof.
  intros D H x Hx. replace T' with (T + (T' - T))%nat by lia. rewrite <- flow_add. apply D. intros k Hk. rewrite flow_add. apply Hx. lia.
Qed.
(** mcais ends within fuel iterations iff X is determined by then *)
Lemma ends_iff np fuel A X m n : exact_np np -> accepted np A X m n -> (exists O X', mcais np fuel A X = (Ok O, X')) <-> (exists T, (1 <= T <= fuel)%nat /\ determined A X T).
Proof.
  intros Hnp HX. split.
  - intros (O & X' & E). destruct (mcais_checked np A X m n Hnp HX) as (X1 & _ & E1 & E2 & E3 & E4 & W1 & NE & SE & HI & EM).
    destruct HX as (W & Hm & Hn & FE & FB & HA & HE & H0 & HB).
    assert (H01 : in_poly X1 (zeros n)) by (apply SE; exact H0).
    assert (HB1 : bounded_set (in_poly X1)) by (destruct HB as (M & HM); exists M; intros x Hx; apply HM, SE, Hx).
    rewrite EM in E. destruct (loop_ok np Hnp A X1 m n HA W1 H01 HB1 fuel 1 X1 ltac:(lia) HI) as [(T & O1 & HT & D & EL & HI1)|(EL & _)].
    + exists T. split; [lia|]. intros x Hx. apply SE, D. intros k Hk. apply SE, Hx, Hk.
    + rewrite EL in E. cbn [bind] in E. discriminate.
  - intros (T & HT & D). apply (proj1 (mcais_halts np A X m n Hnp HX)); [lia|]. apply (determined_later A X T); [exact D|lia].
Qed.
Lemma in_length X m me n x : wf X m me n -> in_poly X x -> length x = n.
Proof. intros W H. apply (in_poly_vle X m me n x W) in H. apply H. Qed.

Lemma carried_flow f A' A X' X n' n : carries f A' A X' X n' n -> shape A' n' n' -> forall t z, length z = n' -> f (flow A' t z) = flow A t (f z).
Proof.
  intros C HA t z Lz. induction t as [|t IH]; [reflexivity|]. cbn [flow]. rewrite <- IH. apply C. apply (flow_length A' n'); auto.
Qed.
Lemma carried_in f A' A X' X n' n t z : carries f A' A X' X n' n -> shape A' n' n' -> length z = n' -> in_poly X' (flow A' t z) <-> in_poly X (flow A t (f z)).
Proof. intros C HA Lz. rewrite <- (carried_flow f A' A X' X n' n C HA t z Lz). apply C. apply (flow_length A' n'); auto. Qed.
(*@ Theorem C106_map : If a map f carries the trajectories of A' into trajectories of A and X' is the preimage of X (other coordinates, scaling, an invariant subspace, another description of the same set), then mcais(A', X') ends whenever mcais(A, X) does, in as many iterations, and its result is the preimage of the result for X, if no redundancy is within the tolerance. *)
Lemma map_law np np' f A A' X X' m n m' n' : exact_np np -> exact_np np' -> accepted np A X m n -> accepted np' A' X' m' n' -> carries f A' A X' X n' n ->
  (forall fuel, (exists O Y, mcais np fuel A X = (Ok O, Y)) -> exists O Y, mcais np' fuel A' X' = (Ok O, Y)) /\
  (forall fuel fuel' O Y O' Y', mcais np fuel A X = (Ok O, Y) -> mcais np' fuel' A' X' = (Ok O', Y') ->
    (clear_cut A' X' m' n' -> forall z, in_poly O' z -> in_poly O (f z)) /\
    (clear_cut A X m n -> forall z, length z = n' -> in_poly O (f z) -> in_poly O' z)).
Proof.
  intros Hnp Hnp' HX HX' C. pose proof HX' as (W' & _ & _ & _ & _ & HA' & _). split.
  - intros fuel H. apply (ends_iff np fuel A X m n Hnp HX) in H. apply (ends_iff np' fuel A' X' m' n' Hnp' HX'). destruct H as (T & HT & D). exists T. split; [exact HT|]. intros z Hz.
    assert (Lz : length z = n') by (apply (in_length X' m' 0 n' z W'), (Hz 0%nat); lia). apply (carried_in f A' A X' X n' n); auto. apply D. intros k Hk. apply (carried_in f A' A X' X n' n); auto.
  - intros fuel fuel' O Y O' Y' E E'. split.
    + intros G z Hz. apply (mcais_exact np' fuel' A' X' m' n' O' Y' Hnp' HX' E' G) in Hz. destruct (mcais_ok np fuel A X m n O Y Hnp HX E) as (_ & _ & _ & _ & _ & _ & _ & _ & _ & _ & _ & Hin). apply Hin.
      assert (Lz : length z = n') by (apply (in_length X' m' 0 n' z W'), (Hz 0%nat)). intros t. apply (carried_in f A' A X' X n' n); auto.
    + intros G z Lz Hz. apply (mcais_exact np fuel A X m n O Y Hnp HX E G) in Hz. destruct (mcais_ok np' fuel' A' X' m' n' O' Y' Hnp' HX' E') as (_ & _ & _ & _ & _ & _ & _ & _ & _ & _ & _ & Hin). apply Hin.
      intros t. apply (carried_in f A' A X' X n' n); auto.
Qed.
(*@ Theorem C106_monotone : A larger X gives a larger result: only redundancies of the smaller X have to be clear. *)
Lemma monotone_law np np' A X X' m m' n : exact_np np -> exact_np np' -> accepted np A X m n -> accepted np' A X' m' n -> (forall x, in_poly X x -> in_poly X' x) ->
  forall fuel fuel' O Y O' Y', mcais np fuel A X = (Ok O, Y) -> mcais np' fuel' A X' = (Ok O', Y') -> clear_cut A X m n -> forall x, in_poly O x -> in_poly O' x.
Proof.
  intros Hnp Hnp' HX HX' S fuel fuel' O Y O' Y' E E' G x Hx. apply (mcais_exact np fuel A X m n O Y Hnp HX E G) in Hx. destruct (mcais_ok np' fuel' A X' m' n O' Y' Hnp' HX' E') as (_ & _ & _ & _ & _ & _ & _ & _ & _ & _ & _ & Hin). apply Hin. intros t. apply S, Hx.
Qed.
(*@ Theorem C106_intersection : For the Polyhedron Z returned by X.intersection(Y): if mcais ends for X within f1 and for Y within f2 iterations, it ends for Z within the larger of the two numbers; the result is the intersection of the results, if no redundancy is within the tolerance. *)
Lemma intersection_law np A X Y m1 m2 n : exact_np np -> accepted np A X m1 n -> accepted np A Y m2 n -> exists Z, intersection X Y = Ok Z /\ accepted np A Z (m2 + m1) n /\
  forall f1 f2 O1 O2 X' Y', mcais np f1 A X = (Ok O1, X') -> mcais np f2 A Y = (Ok O2, Y') ->
    exists O Z', mcais np (Nat.max f1 f2) A Z = (Ok O, Z') /\
      (clear_cut A Z (m2 + m1) n -> forall x, in_poly O x -> in_poly O1 x /\ in_poly O2 x) /\
      (clear_cut A X m1 n -> clear_cut A Y m2 n -> forall x, in_poly O1 x -> in_poly O2 x -> in_poly O x).
Proof.
  intros Hnp HX HY. pose proof HX as (W1 & M1 & Hn & _ & _ & HA & HE & Z1 & (B1 & HB1)). pose proof HY as (W2 & _ & _ & _ & _ & _ & _ & Z2 & _).
  destruct (intersection_ok X Y m1 0 m2 0 n W1 W2) as (Z & EZ & WZ & HZ & C1 & C2 & _). exists Z. split; [exact EZ|].
  assert (AZ : accepted np A Z (m2 + m1) n).
  { split; [exact WZ|]. split; [lia|]. split; [exact Hn|]. split; [exact C1|]. split; [exact C2|]. split; [exact HA|]. split; [exact HE|]. split; [apply HZ; auto|]. exists B1. intros x Hx. apply HB1, HZ, Hx. }
  split; [exact AZ|]. intros f1 f2 O1 O2 X' Y' E1 E2.
  destruct (proj1 (ends_iff np f1 A X m1 n Hnp HX) ltac:(eauto)) as (T1 & HT1 & D1'). destruct (proj1 (ends_iff np f2 A Y m2 n Hnp HY) ltac:(eauto)) as (T2 & HT2 & D2').
  destruct (proj2 (ends_iff np (Nat.max f1 f2) A Z (m2 + m1) n Hnp AZ)) as (O & Z' & E).
  { exists (Nat.max T1 T2). split; [lia|]. intros x Hx. apply HZ. split; [apply (determined_later A X T1 (Nat.max T1 T2) D1' (Nat.le_max_l _ _))|apply (determined_later A Y T2 (Nat.max T1 T2) D2' (Nat.le_max_r _ _))]; intros k Hk; apply HZ, Hx, Hk. }
  exists O, Z'. split; [exact E|].
  destruct (mcais_ok np f1 A X m1 n O1 X' Hnp HX E1) as (_ & _ & _ & _ & _ & _ & _ & _ & _ & _ & _ & I1). destruct (mcais_ok np f2 A Y m2 n O2 Y' Hnp HY E2) as (_ & _ & _ & _ & _ & _ & _ & _ & _ & _ & _ & I2). destruct (mcais_ok np _ A Z (m2 + m1) n O Z' Hnp AZ E) as (_ & _ & _ & _ & _ & _ & _ & _ & _ & _ & _ & I).
  split.
  - intros G x Hx. apply (mcais_exact np _ A Z (m2 + m1) n O Z' Hnp AZ E G) in Hx. split; [apply I1|apply I2]; intros t; apply HZ, Hx.
  - intros G1 G2 x H1 H2. apply (mcais_exact np f1 A X m1 n O1 X' Hnp HX E1 G1) in H1. apply (mcais_exact np f2 A Y m2 n O2 Y' Hnp HY E2 G2) in H2. apply I. intros t. apply HZ. split; [apply H1|apply H2].
Qed.
(*@ Theorem C106_again : Calling mcais on a polyhedron P with the points of a result (no redundancy within the tolerance) ends after one iteration and loses no point of P; the points are the same if no redundancy is within the tolerance in the second call either. *)
Lemma again_law np A X m n fuel O Y P mP : exact_np np -> accepted np A X m n -> mcais np fuel A X = (Ok O, Y) -> clear_cut A X m n -> accepted np A P mP n -> (forall x, in_poly P x <-> in_poly O x) ->
  exists O' P', mcais np 1 A P = (Ok O', P') /\ (forall x, in_poly O x -> in_poly O' x) /\ (clear_cut A P mP n -> forall x, in_poly O' x -> in_poly O x).
Proof.
  intros Hnp HX E G HP S. pose proof (mcais_exact np fuel A X m n O Y Hnp HX E G) as EX.
  assert (INV : forall x t, in_poly O x -> in_poly O (flow A t x)) by (intros x t Hx; apply EX in Hx; apply EX; intros s; rewrite flow_add; apply Hx).
  destruct (proj2 (ends_iff np 1 A P mP n Hnp HP)) as (O' & P' & E').
  { exists 1%nat. split; [lia|]. intros x Hx. apply S, INV, S. apply (Hx 0%nat). lia. }
  exists O', P'. split; [exact E'|]. split.
  - intros x Hx. destruct (mcais_ok np 1 A P mP n O' P' Hnp HP E') as (_ & _ & _ & _ & _ & _ & _ & _ & _ & _ & _ & I). apply I. intros t. apply S, INV, Hx.
  - intros G' x Hx. apply (mcais_exact np 1 A P mP n O' P' Hnp HP E' G') in Hx. apply S, (Hx 0%nat).
Qed.
Lemma flow_power A n k t x : shape A n n -> length x = n -> flow (mpow A k) t x = flow A (k * t) x.
Proof.
  intros HA Lx. induction t as [|t IH]; [now rewrite Nat.mul_0_r|]. cbn [flow]. rewrite IH. rewrite <- (flow_mpow A n k) by (auto; apply (flow_length A n); auto). rewrite flow_add. f_equal. lia.
Qed.
(*@ Theorem C106_power : Sampling k times slower (A replaced by A^k) can only enlarge the result. *)
Lemma power_law np np' A X m n k : exact_np np -> exact_np np' -> accepted np A X m n -> accepted np' (mpow A k) X m n ->
  forall fuel fuel' O Y O' Y', mcais np fuel A X = (Ok O, Y) -> mcais np' fuel' (mpow A k) X = (Ok O', Y') -> clear_cut A X m n -> forall x, in_poly O x -> in_poly O' x.
Proof.
  intros Hnp Hnp' HX HX' fuel fuel' O Y O' Y' E E' G x Hx. pose proof HX as (W & _ & _ & _ & _ & HA & _). apply (mcais_exact np fuel A X m n O Y Hnp HX E G) in Hx. destruct (mcais_ok np' fuel' _ X m n O' Y' Hnp' HX' E') as (_ & _ & _ & _ & _ & _ & _ & _ & _ & _ & _ & Hin). apply Hin.
  assert (Lx : length x = n) by (apply (in_length X m 0 n x W), (Hx 0%nat)). intros t. rewrite (flow_power A n) by assumption. apply Hx.
Qed.
Lemma near_kept np : exact_np np -> np_eig_max np A_half <= 1 -> exists O X', mcais np 1 A_half X_near = (Ok O, X') /\ in_poly O [1 + tol7 / 2].
Proof.
  intros Hnp He. pose proof tol7_pos as Tp. assert (T1 : tol7 <= 1) by (unfold tol7; lra).
  pose proof (accepted_near np He) as HA.
  destruct (mcais_checked np _ _ 3 1 Hnp HA) as (X1 & _ & E1 & E2 & E3 & E4 & W1 & NE & SE & HI & EM).
  assert (H01 : in_poly X1 (zeros 1)) by (apply SE; change (zeros 1) with [0]; apply in_X_near; lra).
  assert (HB1 : bounded_set (in_poly X1)). { destruct HA as (_ & _ & _ & _ & _ & _ & _ & _ & (M & HM)). exists M; intros x Hx; apply HM, SE, Hx. }
  assert (D : determined A_half X1 1).
  { intros x Hx. specialize (Hx 0%nat ltac:(lia)). cbn [flow] in Hx. apply SE in Hx. destruct (one_coord _ _ _ _ wf_X_near Hx) as (a & ->).
    apply SE. rewrite flow_half. apply in_X_near. apply in_X_near in Hx. cbn [pow]. lra. }
  assert (ShA : shape A_half 1 1) by (repeat split; repeat constructor).
  assert (EL := loop_stop np Hnp A_half X1 3 1 ShA W1 H01 HB1 0 1 X1 ltac:(lia) HI D).
  specialize (EM 1%nat). rewrite EL in EM. cbn [bind] in EM.
  destruct (minimal_facets_ok np X1 3 0 1 tol7 Hnp W1 T1 (or_introl eq_refl) NE) as (mf & p1 & Em & Hp1 & _ & _ & _).
  { exists (zeros 1). split; [exact H01|apply near_zeros]. }
  assert (HS : shape (pA X1) 3 1) by apply W1. assert (HL : length (pb X1) = 3%nat) by apply W1.
  (* the first step of the loop drops the first inequality *)
  assert (NI : ~ In 0%nat mf).
  { unfold minimal_facets, pbind in Em.
    destruct (get_empty np X1) as [re p2] eqn:Ge. destruct (get_empty_state _ _ _ _ Ge) as (G1 & G2 & G3 & G4 & _).
    destruct re as [e|]; [|discriminate]. destruct e; [discriminate|]. unfold pget, plift in Em.
    assert (NC : (0 <? nrows (pC p2))%nat = false). { rewrite G3, E3. reflexivity. }
    rewrite NC in Em. rewrite G1, G2 in Em. rewrite (nrows_shape _ _ _ HS) in Em. cbn [seq] in Em. rewrite facets_loop_cons in Em.
    destruct (facet_lp np Hnp (pA X1) (pb X1) 3 1 HS HL [0%nat; 1%nat; 2%nat] 0 [0]) as (s & z & Es & Ems & (Lz & Sz) & Bz & Oz).
    { cbn. intros j [<-|[<-|[<-|[]]]]; lia. } { now left. } { rewrite E1, E2. split; [reflexivity|]. intros j [<-|[<-|[<-|[]]]]; cbn; lra. }
    rewrite Es in Em. cbn [bind] in Em. rewrite Ems in Em. destruct z as [|z [|]]; try discriminate Lz.
    specialize (Sz 1%nat ltac:(cbn; auto)). rewrite E1, E2 in Sz. cbn in Sz.
    match type of Em with context [Rltb ?v tol7] => replace (Rltb v tol7) with true in Em by (symmetry; apply Rltb_true; rewrite E1, E2; cbn; lra) end.
    change (remove Nat.eq_dec 0 [0; 1; 2])%nat with [1; 2]%nat in Em.
    destruct (facets_loop_ok np Hnp (pA X1) (pb X1) 3 1 tol7 HS HL T1 [0] [1; 2]%nat [1; 2]%nat) as (mf' & El' & _ & (kp & Ek) & _).
    { repeat constructor; cbn; intuition lia. } { apply incl_refl. } { cbn. intros j [<-|[<-|[]]]; lia. }
    { rewrite E1, E2. split; [reflexivity|]. intros j [<-|[<-|[<-|[]]]]; cbn; lra. }
    rewrite El' in Em. injection Em as <- _. rewrite Ek. intros Hi. apply filter_In in Hi as (Hi & _). cbn in Hi. intuition lia. }
  unfold run_on, remove_redundant_inequalities, pbind in EM. cbn [bind] in EM. rewrite Em in EM. unfold pget, pput in EM.
  eexists _, _. split; [exact EM|].
    assert (HIN : forall j, In j mf -> (j < 3)%nat).
    { intros j Hj. unfold minimal_facets, pbind in Em.
      destruct (minimal_facets_ok np X1 3 0 1 tol7 Hnp W1 T1 (or_introl eq_refl) NE) as (mf2 & p3 & Em2 & _ & Rm & _ & _).
      { exists (zeros 1). split; [exact H01|apply near_zeros]. }
      unfold minimal_facets, pbind in Em2. rewrite Em in Em2. injection Em2 as <- _. apply (removal_incl _ _ _ _ Rm) in Hj. apply in_seq in Hj. lia. }
    destruct (set_rows_poly X1 p1 3 0 1 mf W1 Hp1 HIN) as (_ & H'). 
    assert (Cp : pA p1 = pA X1 /\ pb p1 = pb X1 /\ pC p1 = pC X1 /\ pd p1 = pd X1) by (destruct Hp1; subst p1; auto).
    apply H'. split; [rewrite E1; reflexivity|]. split; [rewrite E3, E4; constructor|].
    intros j Hj. specialize (HIN j Hj). rewrite E1, E2. destruct j as [|[|[|]]]; [contradiction|cbn; lra|cbn; lra|lia].
Qed.
(** ** An example: x+ = x/2 with the constraints s x <= 2^c *)
Definition pow2_rows (X : poly) (m : nat) : Prop := forall i, (i < m)%nat -> exists s c, (s = 1 \/ s = -1) /\ nth i (pb X) 0 = 2 ^ c /\ forall a, dot (row (pA X) i) [a] = s * a.
Lemma pow2_clear X m : pow2_rows X m -> clear_cut A_half X m 1.
Proof.
  intros HX O1 mO WO RF Sx0 i Hi NI HS. pose proof tol7_pos as Tp. assert (T1 : tol7 <= 1) by (unfold tol7; lra).
  assert (I2 : forall q, (/ 2) ^ q * 2 ^ q = 1). { intros q. rewrite <- Rpow_mult_distr. replace (/ 2 * 2) with 1 by field. apply pow1. }
  assert (P2 : forall q, 0 < (/ 2) ^ q) by (intros; apply pow_lt; lra). assert (P3 : forall q, 1 <= 2 ^ q) by (intros; apply pow_R1_Rle; lra).
  (* row r says s a <= 2^(c + k) *)
  assert (RF' : forall r, (r < mO)%nat -> exists s k c, (s = 1 \/ s = -1) /\ nth r (pb O1) 0 = 2 ^ c /\ forall a, dot (row (pA O1) r) [a] = s * ((/ 2) ^ k * a)).
  { intros r Hr. destruct (RF r Hr) as (j & k & Hj & Hb & Hd). destruct (HX j Hj) as (s & c & Hs & Ec & Er). exists s, k, c. split; [exact Hs|]. split; [congruence|]. intros a. rewrite (Hd [a] eq_refl), flow_half, Er. ring. }
  assert (EQ : forall s k c a, s * ((/ 2) ^ k * a) <= 2 ^ c <-> s * a <= 2 ^ (c + k)).
  { intros s k c a. pose proof (I2 k) as E. pose proof (P2 k) as P. rewrite pow_add. assert (Pk : 0 < 2 ^ k) by (apply pow_lt; lra). split; intros H.
    - apply (Rmult_le_compat_r (2 ^ k)) in H; [|lra]. replace (s * ((/ 2) ^ k * a) * 2 ^ k) with (s * a * ((/ 2) ^ k * 2 ^ k)) in H by ring. rewrite E in H. lra.
    - apply (Rmult_le_reg_r (2 ^ k)); [exact Pk|]. replace (s * ((/ 2) ^ k * a) * 2 ^ k) with (s * a * ((/ 2) ^ k * 2 ^ k)) by ring. rewrite E. lra. }
  destruct (RF' i Hi) as (s & k & c & Hs & Hb & Hd).
  assert (L1 : forall x, sat O1 Sx0 x -> exists a, x = [a]).
  { intros x (Lx & _). replace (ncols (pA O1)) with 1%nat in Lx by (symmetry; apply WO). destruct x as [|a [|]]; try discriminate Lx. eauto. }
  destruct (classic (exists j l d, In j Sx0 /\ (d + l <= c + k)%nat /\ nth j (pb O1) 0 = 2 ^ d /\ forall a, dot (row (pA O1) j) [a] = s * ((/ 2) ^ l * a))) as [(j & l & d & Hj & Hl & Hbj & Hdj)|NE].
  - left. intros x Sx. destruct (L1 x Sx) as (a & ->). destruct Sx as (_ & _ & Sx). specialize (Sx j Hj). rewrite Hdj, Hbj in Sx. rewrite Hd, Hb. apply EQ. apply EQ in Sx. apply Rle_trans with (2 ^ (d + l)); [exact Sx|]. apply Rle_pow; [lra|exact Hl].
  - right. exists [s * 2 ^ S (c + k)]. assert (SS : s * s = 1) by (destruct Hs; subst s; ring). split.
    + split; [replace (ncols (pA O1)) with 1%nat by (symmetry; apply WO); reflexivity|]. split.
      * destruct WO as (_ & _ & (LC & _) & Ld). unfold eq_holds. destruct (rows (pC O1)); [|discriminate]. destruct (pd O1); [constructor|discriminate].
      * intros j Hj. destruct (RF' j (HS j Hj)) as (s' & k' & c' & Hs' & Hb' & Hd'). rewrite Hd', Hb'. apply EQ. destruct (Req_dec s' s) as [->|Ns].
        -- assert (c' + k' > c + k)%nat. { apply Nat.nle_gt. intros Hl. apply NE. exists j, k', c'. auto. } rewrite <- Rmult_assoc, SS, Rmult_1_l. apply Rle_pow; [lra|lia].
        -- assert (E1 : s' * s = -1) by (destruct Hs, Hs'; subst; lra). rewrite <- Rmult_assoc, E1. pose proof (P3 (S (c + k))). pose proof (P3 (c' + k')%nat). lra.
    + rewrite Hd, Hb. replace (s * ((/ 2) ^ k * (s * 2 ^ S (c + k)))) with ((s * s) * (2 * 2 ^ c * ((/ 2) ^ k * 2 ^ k))) by (cbn [pow]; rewrite pow_add; ring). rewrite SS, I2. pose proof (P3 c). lra.
Qed.
Definition X_box2 : poly := Poly (Mat 1 [[1]; [-1]]) [2; 2] (Mat 1 []) [] None None None None None.
Lemma in_box2 a : in_poly X_box2 [a] <-> -2 <= a <= 2.
Proof.
  split.
  - intros (_ & H' & _). unfold ineq_holds in H'. cbn in H'. inv2 H'. lra.
  - intros H'. split; [reflexivity|]. split; [|constructor]. cbn. repeat (apply Forall2_cons; [cbn; lra|]). constructor.
Qed.
Lemma wf_box2 : wf X_box2 2 0 1. Proof. unfold wf; simpl; repeat split; repeat constructor. Qed.
Lemma accepted_box2 np A a : A = Mat 1 [[a]] -> np_eig_max np A <= 1 -> accepted np A X_box2 2 1.
Proof.
  intros -> H. unfold accepted. repeat match goal with |- _ /\ _ => split end; try lia; try reflexivity; auto.
  - exact wf_box2.
  - repeat split; repeat constructor.
  - change (zeros 1) with [0]. apply in_box2. lra.
  - exists 2. intros x Hx. destruct (one_coord _ _ _ _ wf_box2 Hx) as (b & ->). apply in_box2 in Hx.
    unfold norm. apply Rle_trans with (sqrt (2 * 2)); [apply sqrt_le_1_alt; cbn; nra|rewrite sqrt_square; lra].
Qed.
Lemma pow2_box1 : pow2_rows X_box1 2.
Proof. intros [|[|i]] Hi; [| |lia]; [exists 1, 0%nat|exists (-1), 0%nat]; (split; [auto|]); (split; [cbn; ring|]); intros a; cbn; ring. Qed.
Lemma pow2_box2 : pow2_rows X_box2 2.
Proof. intros [|[|i]] Hi; [| |lia]; [exists 1, 1%nat|exists (-1), 1%nat]; (split; [auto|]); (split; [cbn; ring|]); intros a; cbn; ring. Qed.
(*@ Theorem C106_description_refuted : The condition on redundancies cannot be dropped: {x <= 1, x <= 1 + tol/2, -x <= 1} and {x <= 1, -x <= 1} are the same set, but for x+ = x/2 mcais returns a set containing 1 + tol/2 for the first description and the interval [-1, 1] for the second. *)
Lemma description_refuted : exists A X X' x, (forall y, in_poly X y <-> in_poly X' y) /\ forall np, exact_np np -> np_eig_max np A <= 1 -> accepted np A X 3 1 /\ accepted np A X' 2 1 /\
  exists O O' Y Y', mcais np 1 A X = (Ok O, Y) /\ mcais np 1 A X' = (Ok O', Y') /\ in_poly O x /\ ~ in_poly O' x.
Proof.
  exists A_half, X_near, X_box1, [1 + tol7 / 2]. split.
  { intros y. split; intros Hy; [destruct (one_coord _ _ _ _ wf_X_near Hy) as (a & ->)|destruct (one_coord _ _ _ _ wf_box1 Hy) as (a & ->)]; [apply in_box1; apply in_X_near in Hy|apply in_X_near; apply in_box1 in Hy]; exact Hy. }
  intros np Hnp He. pose proof (accepted_box1 np A_half (1 / 2) eq_refl He) as Acc. split; [exact (accepted_near np He)|]. split; [exact Acc|]. destruct (near_kept np Hnp He) as (O & Y & E & HO).
  destruct (proj1 (mcais_halts np A_half X_box1 2 1 Hnp Acc) 1%nat ltac:(lia) det_half) as (O' & Y' & E'). exists O, O', Y, Y'. split; [exact E|]. split; [exact E'|]. split; [exact HO|].
  intros H. apply (mcais_exact np 1 A_half X_box1 2 1 O' Y' Hnp Acc E' (pow2_clear _ _ pow2_box1)) in H. specialize (H 0%nat). cbn [flow] in H. apply in_box1 in H. pose proof tol7_pos. lra.
Qed.
(*@ Example C106_example : x+ = x/2 with [-1, 1] and [-2, 2]: all hypotheses of the laws hold. mcais ends after one iteration for both, for their intersection and for x+ = x/4; z -> z/2 carries the second problem to the first; the results are the intervals themselves. *)
Lemma laws_example np : exact_np np -> np_eig_max np A_half <= 1 -> np_eig_max np (mpow A_half 2) <= 1 ->
  accepted np A_half X_box1 2 1 /\ accepted np A_half X_box2 2 1 /\ accepted np (mpow A_half 2) X_box1 2 1 /\ clear_cut A_half X_box1 2 1 /\ clear_cut A_half X_box2 2 1 /\
  (forall x, in_poly X_box1 x -> in_poly X_box2 x) /\ carries (vscale (/ 2)) A_half A_half X_box2 X_box1 1 1 /\
  (exists Z, intersection X_box1 X_box2 = Ok Z /\ clear_cut A_half Z 4 1) /\
  exists O1 O2 O3 Y1 Y2 Y3, mcais np 1 A_half X_box1 = (Ok O1, Y1) /\ mcais np 1 A_half X_box2 = (Ok O2, Y2) /\ mcais np 1 (mpow A_half 2) X_box1 = (Ok O3, Y3) /\
    (forall x, in_poly O1 x <-> in_poly X_box1 x) /\ (forall x, in_poly O2 x <-> in_poly X_box2 x).
Proof.
  intros Hnp He He2. pose proof (accepted_box1 np A_half (1 / 2) eq_refl He) as Acc1. pose proof (accepted_box2 np A_half (1 / 2) eq_refl He) as Acc2.
  assert (EA : mpow A_half 2 = Mat 1 [[1 / 4]]) by (unfold A_half; cbv -[Rplus Rmult Rdiv Ropp IZR]; apply (f_equal (fun a => Mat 1 [[a]])); field).
  pose proof (accepted_box1 np (mpow A_half 2) (1 / 4) EA He2) as Acc3.
  split; [exact Acc1|]. split; [exact Acc2|]. split; [exact Acc3|]. split; [exact (pow2_clear _ _ pow2_box1)|]. split; [exact (pow2_clear _ _ pow2_box2)|].
  split. { intros x Hx. destruct (one_coord _ _ _ _ wf_box1 Hx) as (a & ->). apply in_box2. apply in_box1 in Hx. lra. }
  assert (CA : carries (vscale (/ 2)) A_half A_half X_box2 X_box1 1 1).
  { intros z Lz. destruct z as [|a [|]]; try discriminate Lz. split; [reflexivity|]. split; [cbn; f_equal; lra|]. rewrite in_box2. cbn [vscale map]. rewrite in_box1. lra. }
  split; [exact CA|]. split.
  { rewrite (intersection_all X_box1 X_box2 2 0 2 0 1 wf_box1 wf_box2). eexists. split; [reflexivity|]. apply pow2_clear. intros [|[|[|[|i]]]] Hi; [| | | |lia]; [exists 1, 1%nat|exists (-1), 1%nat|exists 1, 0%nat|exists (-1), 0%nat]; (split; [auto|]); (split; [cbn; ring|]); intros a; cbn; ring. }
  destruct (proj1 (mcais_halts np A_half X_box1 2 1 Hnp Acc1) 1%nat ltac:(lia) det_half) as (O1 & Y1 & E1).
  destruct (proj1 (map_law np np (vscale (/ 2)) A_half A_half X_box1 X_box2 2 1 2 1 Hnp Hnp Acc1 Acc2 CA) 1%nat ltac:(eauto)) as (O2 & Y2 & E2).
  destruct (proj1 (mcais_halts np (mpow A_half 2) X_box1 2 1 Hnp Acc3) 1%nat ltac:(lia)) as (O3 & Y3 & E3).
  { intros x Hx. specialize (Hx 0%nat ltac:(lia)). cbn [flow] in *. rewrite EA. destruct (one_coord _ _ _ _ wf_box1 Hx) as (a & ->). apply in_box1 in Hx. cbn. apply in_box1. lra. }
  exists O1, O2, O3, Y1, Y2, Y3. split; [exact E1|]. split; [exact E2|]. split; [exact E3|]. split.
  - intros x. rewrite (mcais_exact np 1 A_half X_box1 2 1 O1 Y1 Hnp Acc1 E1 (pow2_clear _ _ pow2_box1)). split; [intros H; apply (H 0%nat)|]. intros H. destruct (one_coord _ _ _ _ wf_box1 H) as (a & ->). apply adm_half. apply in_box1. exact H.
  - intros x. rewrite (mcais_exact np 1 A_half X_box2 2 1 O2 Y2 Hnp Acc2 E2 (pow2_clear _ _ pow2_box2)). split; [intros H; apply (H 0%nat)|]. intros H t. destruct (one_coord _ _ _ _ wf_box2 H) as (a & ->). apply in_box2 in H. rewrite flow_half. apply in_box2. pose proof (pow_le1 (/ 2) t ltac:(lra)) as P. set (p := (/ 2) ^ t) in *. clearbody p. clear - H P. assert (0 <= p * (2 - a) /\ 0 <= p * (2 + a)) by (split; apply Rmult_le_pos; lra). lra.
Qed.
