(** * CtrlThms: model predictive control of linear systems (C37-C39, C44-C46, C50), proofs *)
From Coq Require Import ZArith Classical.
From Verif Require Import Arr ArrFacts Spec SpecMpc Numpy Pnnls PnnlsFacts QpFacts GeomUtils Polyhedron PolyThms Oracle SolverThms NullFacts PolySolveThms PolyMore SpecDyn Dynamics DynThms CondenseThms LqrThms McaisThms Mpqp MpqpThms Controllers.

(** ** Sums *)
Lemma sum_upto_first f n : sum_upto f (S n) = f 0%nat + sum_upto (fun i => f (S i)) n.
Proof. induction n as [|n IH]; [cbn; ring|]. change (sum_upto f (S (S n))) with (sum_upto f (S n) + f (S n)). rewrite IH. cbn [sum_upto]. ring. Qed.
Lemma sum_upto_ext f g n : (forall i, (i < n)%nat -> f i = g i) -> sum_upto f n = sum_upto g n.
Proof. induction n as [|n IH]; intros H; [reflexivity|]. cbn. rewrite IH by (intros; apply H; lia). rewrite H by lia. reflexivity. Qed.
Lemma sum_upto_fold l : fold_right Rplus 0 l = sum_upto (fun i => nth i l 0) (length l).
Proof. induction l as [|a l IH]; [reflexivity|]. cbn [fold_right length]. rewrite sum_upto_first, IH. reflexivity. Qed.
Lemma sum_upto_nonneg f n : (forall i, (i < n)%nat -> 0 <= f i) -> 0 <= sum_upto f n.
Proof. induction n as [|n IH]; intros H; cbn; [lra|]. specialize (IH ltac:(intros; apply H; lia)). specialize (H n ltac:(lia)). lra. Qed.
Lemma sum_upto_le f g n : (forall i, (i < n)%nat -> f i <= g i) -> sum_upto f n <= sum_upto g n.
Proof. induction n as [|n IH]; intros H; cbn; [lra|]. specialize (IH ltac:(intros; apply H; lia)). specialize (H n ltac:(lia)). lra. Qed.
Lemma sum_upto_plus f g n : sum_upto (fun i => f i + g i) n = sum_upto f n + sum_upto g n.
Proof. induction n as [|n IH]; cbn; [ring|]. rewrite IH. ring. Qed.
Lemma sum_upto_scale c f n : sum_upto (fun i => c * f i) n = c * sum_upto f n.
Proof. induction n as [|n IH]; cbn; [ring|]. rewrite IH. ring. Qed.
Lemma sum_upto_pos f n i : (i < n)%nat -> (forall i, (i < n)%nat -> 0 <= f i) -> 0 < f i -> 0 < sum_upto f n.
Proof.
  induction n as [|n IH]; intros Hi H Hp; [lia|]. cbn. destruct (Nat.eq_dec i n) as [->|N].
  - pose proof (sum_upto_nonneg f n ltac:(intros; apply H; lia)). lra.
  - specialize (IH ltac:(lia) ltac:(intros; apply H; lia) Hp). specialize (H n ltac:(lia)). lra.
Qed.

Lemma Forall2_nth' {A B} (P : A -> B -> Prop) l l' d d' : length l = length l' -> (forall i, (i < length l)%nat -> P (nth i l d) (nth i l' d')) -> Forall2 P l l'.
Proof.
  revert l'. induction l as [|a l IH]; intros [|b l'] L H; try discriminate L; constructor; [exact (H 0%nat ltac:(cbn; lia))|].
  apply IH; [cbn in L; lia|]. intros i Hi. exact (H (S i) ltac:(cbn; lia)).
Qed.
Lemma Forall_len_nth {A} (l : list (list A)) n t : Forall (fun v => length v = n) l -> (t < length l)%nat -> length (nth t l []) = n.
Proof. intros F Ht. rewrite Forall_forall in F. apply F, nth_In, Ht. Qed.
Lemma map2_nth {A B C} (f : A -> B -> C) l l' d d' e i : length l = length l' -> (i < length l)%nat -> nth i (map2 f l l') e = f (nth i l d) (nth i l' d').
Proof. revert l' i. induction l as [|a l IH]; intros [|b l'] i L Hi; try discriminate L; [cbn in Hi; lia|]. destruct i; [reflexivity|]. cbn. apply IH; cbn in *; lia. Qed.
Lemma map2_len {A B C} (f : A -> B -> C) l l' : length l = length l' -> length (map2 f l l') = length l.
Proof. revert l'. induction l as [|a l IH]; intros [|b l'] L; try discriminate L; [reflexivity|]. cbn. rewrite IH by (cbn in L; lia). reflexivity. Qed.

(** quadratic form of a block-diagonal matrix *)
Lemma quad_block Ms zs n : Ms <> [] -> length Ms = length zs -> (forall i, (i < length Ms)%nat -> shape (nth i Ms (Mat 0 [])) n n) -> Forall (fun z => length z = n) zs ->
  forall ws, length ws = length zs -> Forall (fun z => length z = n) ws ->
  shape (block_diag Ms) (length Ms * n) (length Ms * n) /\
  dot (List.concat ws) (mv (block_diag Ms) (List.concat zs)) = sum_upto (fun i => dot (nth i ws []) (mv (nth i Ms (Mat 0 [])) (nth i zs []))) (length zs).
Proof.
  intros NE L H F ws Lw Fw. assert (F2 : Forall2 (fun A x => shape A (nrows A) (length x)) Ms zs).
  { apply Forall2_nth' with (d := Mat 0 []) (d' := []); [exact L|]. intros i Hi. specialize (H i Hi). unfold nrows. rewrite (proj1 H), (Forall_len_nth zs n) by (auto; lia). exact H. }
  destruct (mv_block_diag Ms zs F2 NE) as (E & Sh). split.
  - assert (S1 : sum_nat (map nrows Ms) = (length Ms * n)%nat).
    { clear - H. induction Ms as [|A Ms IH]; [reflexivity|]. cbn [map sum_nat length]. rewrite IH by (intros i Hi; exact (H (S i) ltac:(cbn; lia))).
      pose proof (proj1 (H 0%nat ltac:(cbn; lia))) as Q. cbn [nth] in Q. unfold nrows. rewrite Q. reflexivity. }
    assert (S2 : sum_nat (map (@length R) zs) = (length Ms * n)%nat).
    { rewrite L. clear - F. induction F as [|z zs Hz F IH]; [reflexivity|]. cbn [map sum_nat length]. rewrite IH, Hz. reflexivity. }
    rewrite S1, S2 in Sh. exact Sh.
  - rewrite E. rewrite dot_concat.
    + rewrite sum_upto_fold. rewrite map2_len by (rewrite map2_len; lia). rewrite Lw. apply sum_upto_ext. intros i Hi.
      rewrite (map2_nth _ ws _ [] []) by (rewrite ?map2_len; lia). rewrite (map2_nth _ Ms zs (Mat 0 []) []) by lia. reflexivity.
    + apply Forall2_nth' with (d := []) (d' := []); [rewrite map2_len; lia|]. intros i Hi. rewrite (map2_nth _ Ms zs (Mat 0 []) []) by lia.
      rewrite mv_length, (Forall_len_nth ws n) by (auto; lia). symmetry. apply (H i). lia.
Qed.
Lemma sym_from_dot H n : shape H n n -> (forall x y, length x = n -> length y = n -> dot x (mv H y) = dot y (mv H x)) -> tr H = H.
Proof.
  intros Sh E. pose proof (shape_tr _ _ _ Sh) as ST. apply (mat_ext _ _ n n ST Sh). intros x Lx.
  apply (nth_ext _ _ 0 0); [rewrite !mv_length, (proj1 ST), (proj1 Sh); reflexivity|]. intros i Hi. rewrite mv_length, (proj1 ST) in Hi.
  rewrite <- !(dot_unit_r n i) by (auto; rewrite mv_length; first [apply ST|apply Sh]).
  rewrite (dot_mv_tr H n n) by (auto using unit_length). rewrite E by (auto using unit_length). apply dot_comm.
Qed.

(** the stacked quadratic cost *)
Lemma condensed_quadratic Qb A B c nX nx nU x u : shape Qb nX nX -> tr Qb = Qb -> shape A nX nx -> shape B nX nU -> length c = nX -> length x = nx -> length u = nU ->
  let X := vadd (vadd (mv A x) (mv B u)) c in
  / 2 * dot X (mv Qb X) = / 2 * dot u (mv (mm (mm (tr B) Qb) B) u) + dot u (mv (mm (mm (tr B) Qb) A) x) + / 2 * dot x (mv (mm (mm (tr A) Qb) A) x) +
    dot (mv (mm (tr B) Qb) c) u + dot (mv (mm (tr A) Qb) c) x + / 2 * dot c (mv Qb c).
Proof.
  intros SQ Sy SA SB Lc Lx Lu. cbv zeta. pose proof (shape_tr _ _ _ SA) as TA. pose proof (shape_tr _ _ _ SB) as TB.
  assert (LA : length (mv A x) = nX) by (rewrite mv_length; apply SA). assert (LB : length (mv B u) = nX) by (rewrite mv_length; apply SB).
  assert (LQ : forall z, length (mv Qb z) = nX) by (intros; rewrite mv_length; apply SQ).
  rewrite !(mv_mm _ A nX nx) by exact SA. rewrite !(mv_mm _ B nX nU) by exact SB. rewrite !(mv_mm _ Qb nX nX) by exact SQ.
  rewrite !(dot_mv_tr_r B nX nU) by auto. rewrite !(dot_mv_tr_r A nX nx) by auto.
  rewrite !(dot_mv_tr B nX nU) by auto. rewrite !(dot_mv_tr A nX nx) by auto.
  assert (LAB : length (vadd (mv A x) (mv B u)) = nX) by (rewrite vadd_length; lia).
  rewrite !(mv_vadd Qb nX nX) by (auto; rewrite ?vadd_length; lia).
  rewrite !dot_vadd_r by (rewrite ?vadd_length, ?LQ; lia). rewrite !dot_vadd_l by (rewrite ?vadd_length; lia).
  rewrite (sym_dot Qb nX (mv A x) (mv B u)) by auto. rewrite (sym_dot Qb nX c (mv A x)) by auto. rewrite (sym_dot Qb nX c (mv B u)) by auto.
  rewrite (dot_comm (mv Qb c)), (dot_comm (mv Qb c)). field.
Qed.

(** ** Blocks of inequalities *)
Lemma vle_concat {A} (f h : A -> vec) l : (forall a, In a l -> length (f a) = length (h a)) ->
  (vle (List.concat (map f l)) (List.concat (map h l)) <-> forall a, In a l -> vle (f a) (h a)).
Proof.
  induction l as [|a l IH]; intros L; cbn [map List.concat]; [split; [intros _ a []|constructor]|].
  rewrite vle_app by (apply L; left; reflexivity). rewrite IH by (intros b Hb; apply L; right; exact Hb). split.
  - intros (H1 & H2) b [<-|Hb]; auto.
  - intros H. split; [apply H; left; reflexivity|]. intros b Hb. apply H. right. exact Hb.
Qed.
Lemma concat_lengths {A} (f : A -> vec) l n : (forall a, In a l -> length (f a) = n a) -> length (List.concat (map f l)) = sum_nat (map n l).
Proof. induction l as [|a l IH]; intros H; [reflexivity|]. cbn [map List.concat sum_nat]. rewrite app_length, H by (left; reflexivity). rewrite IH by (intros; apply H; right; assumption). reflexivity. Qed.
Lemma seq_snoc N : seq 0 (S N) = seq 0 N ++ [N].
Proof. rewrite seq_S. reflexivity. Qed.
Lemma sum_nat_app l l' : sum_nat (l ++ l') = (sum_nat l + sum_nat l')%nat.
Proof. induction l as [|a l IH]; [reflexivity|]. cbn. rewrite IH. lia. Qed.

(** block_diag of matrices of any sizes acting on stacked vectors *)
Lemma mv_block_map (M : nat -> mat) (x : nat -> vec) l : l <> [] -> (forall i, In i l -> shape (M i) (nrows (M i)) (length (x i))) ->
  mv (block_diag (map M l)) (List.concat (map x l)) = List.concat (map (fun i => mv (M i) (x i)) l) /\
  shape (block_diag (map M l)) (sum_nat (map (fun i => nrows (M i)) l)) (sum_nat (map (fun i => length (x i)) l)).
Proof.
  intros NE H. destruct (mv_block_diag (map M l) (map x l)) as (E & Sh).
  - clear NE. induction l as [|i l IH]; cbn; constructor; [apply H; left; reflexivity|]. apply IH. intros j Hj. apply H. right. exact Hj.
  - destruct l; [congruence|discriminate].
  - rewrite map2_map_l, map2_map_r, map2_same in E. rewrite !map_map in Sh. split; [exact E|exact Sh].
Qed.
Lemma snoc_as_map {A} (l : list A) a d N : length l = N -> l ++ [a] = map (fun i => if (i <? N)%nat then nth i l d else a) (seq 0 (S N)).
Proof.
  intros L. rewrite seq_snoc, map_app. cbn [map]. rewrite Nat.ltb_irrefl. f_equal. rewrite (list_as_map l d) at 1. rewrite L. apply map_ext_in. intros i Hi. apply in_seq in Hi.
  rewrite (proj2 (Nat.ltb_lt i N)) by lia. reflexivity.
Qed.

(** ** The condensed program *)
Definition poly0 : poly := Poly (Mat 0 []) [] (Mat 0 []) [] None None None None None.
Definition ocp_data (W : pwa) (Q Rm P : mat) (X_N : poly) (modes : list nat) (nx nu : nat) : Prop :=
  w_nx W = nx /\ coherent_systems (w_sys W) nx nu /\ length (w_dom W) = length (w_sys W) /\
  (forall D, In D (w_dom W) -> exists m me, wf D m me (nx + nu)) /\ (exists mN meN, wf X_N mN meN nx) /\
  shape Q nx nx /\ shape P nx nx /\ shape Rm nu nu /\
  modes <> [] /\ forall m, In m modes -> (m < length (w_sys W))%nat.
Definition switched (W : pwa) := is_switched_trajectory (map aA (w_sys W)) (map aB (w_sys W)) (map ac (w_sys W)).

Lemma np_dot_ok A B m n k : shape A m n -> shape B n k -> np_dot A B = Ok (mm A B).
Proof. intros (_ & HA & _) (HB & _). unfold np_dot, nrows. rewrite HA, HB, Nat.eqb_refl. reflexivity. Qed.
Lemma np_madd_ok A B m n : shape A m n -> shape B m n -> np_madd A B = Ok (madd A B).
Proof. intros (HA & HA' & _) (HB & HB' & _). unfold np_madd, nrows. rewrite HA, HB, HA', HB', !Nat.eqb_refl. reflexivity. Qed.
Lemma np_mv_ok A m n x : shape A m n -> length x = n -> np_mv A x = Ok (mv A x).
Proof. intros (_ & HA & _) L. unfold np_mv. rewrite HA, L, Nat.eqb_refl. reflexivity. Qed.

Lemma nth_repeat_lt {A} (a d : A) n i : (i < n)%nat -> nth i (repeat a n) d = a.
Proof. revert i. induction n as [|n IH]; intros [|i] H; cbn; try lia; auto. apply IH. lia. Qed.
Lemma nth_aA S m : nth m (map aA S) (Mat 0 []) = aA (nth m S asys0). Proof. exact (map_nth aA S asys0 m). Qed.
Lemma nth_aB S m : nth m (map aB S) (Mat 0 []) = aB (nth m S asys0). Proof. exact (map_nth aB S asys0 m). Qed.
Lemma nth_ac S m : nth m (map ac S) [] = ac (nth m S asys0). Proof. exact (map_nth ac S asys0 m). Qed.
Lemma switched_exists W modes nx nu x0 : coherent_systems (w_sys W) nx nu -> (forall m, In m modes -> (m < length (w_sys W))%nat) -> length x0 = nx ->
  forall us, length us = length modes -> Forall (fun v => length v = nu) us ->
  exists xs, switched W modes x0 us xs /\ Forall (fun v => length v = nx) xs.
Proof.
  intros (NE & HS) HM Lx us Lus Fus.
  set (st := fun t x => affine_step (aA (nth (nth t modes 0%nat) (w_sys W) asys0)) (aB (nth (nth t modes 0%nat) (w_sys W) asys0)) (ac (nth (nth t modes 0%nat) (w_sys W) asys0)) x (nth t us [])).
  set (tr := fix tr t := match t with O => x0 | S t' => st t' (tr t') end).
  assert (LT : forall t, (t <= length us)%nat -> length (tr t) = nx).
  { induction t as [|t IH]; intros Ht; [exact Lx|]. change (tr (S t)) with (st t (tr t)). unfold st, affine_step.
    destruct (HS (nth (nth t modes 0%nat) (w_sys W) asys0)) as ((SA & SB) & Lc); [apply nth_In, HM, nth_In; lia|].
    rewrite !vadd_length, !mv_length, (proj1 SA), (proj1 SB), Lc. lia. }
  exists (map tr (seq 0 (S (length us)))). split.
  - split; [rewrite map_length, seq_length; reflexivity|]. split; [reflexivity|]. intros t Ht. cbv zeta.
    rewrite !(nth_map_seq tr) by lia. change (tr (S t)) with (st t (tr t)). unfold st.
    rewrite nth_aA, nth_aB, nth_ac. reflexivity.
  - apply Forall_forall. intros v Hv. apply in_map_iff in Hv. destruct Hv as (t & <- & Ht). apply in_seq in Ht. apply LT. lia.
Qed.
Lemma switched_lengths W modes nx nu x0 us xs : coherent_systems (w_sys W) nx nu -> (forall m, In m modes -> (m < length (w_sys W))%nat) -> length x0 = nx ->
  length us = length modes -> switched W modes x0 us xs -> Forall (fun v => length v = nx) xs.
Proof.
  intros (NE & HS) HM Lx Lus (Lxs & H0 & HT). apply Forall_forall. intros v Hv. destruct (In_nth _ _ [] Hv) as (t & Ht & <-). rewrite Lxs in Ht. clear Hv.
  destruct t as [|t]; [rewrite H0; exact Lx|]. specialize (HT t ltac:(lia)). cbv zeta in HT. rewrite HT. unfold affine_step.
  rewrite nth_aA, nth_aB, nth_ac.
  destruct (HS (nth (nth t modes 0%nat) (w_sys W) asys0)) as ((SA & SB) & Lc); [apply nth_In, HM, nth_In; lia|].
  rewrite !vadd_length, !mv_length, (proj1 SA), (proj1 SB), Lc. lia.
Qed.

Lemma condensed_program np W Q Rm P X_N modes nx nu : ocp_data W Q Rm P X_N modes nx nu ->
  let N := length modes in
  let dom t := nth (nth t modes 0%nat) (w_dom W) poly0 in
  exists Huu Hux Hxx fu fx g Au Ax b m,
    condense_optimal_control_problem np W Q Rm P X_N modes = MultiParametricQuadraticProgram np Huu Hux Hxx fu fx g Au Ax b /\
    shape Huu (nu * N) (nu * N) /\ shape Hux (nu * N) nx /\ shape Hxx nx nx /\ length fu = (nu * N)%nat /\ length fx = nx /\
    shape Au m (nu * N) /\ shape Ax m nx /\ length b = m /\
    (forall x0 us xs, length x0 = nx -> length us = N -> Forall (fun v => length v = nu) us -> switched W modes x0 us xs ->
       (tr Q = Q -> tr P = P -> mp_cost Huu Hux Hxx fu fx g x0 (List.concat us) = trajectory_cost Q Rm P us xs) /\
       (mp_feasible Au Ax b x0 (List.concat us) <->
        stage_constraints (fun t xu => ineq_holds (pA (dom t)) (pb (dom t)) xu) (fun x => ineq_holds (pA X_N) (pb X_N) x) us xs)) /\
    (psd Q nx -> psd P nx -> Spec.pd Rm nu -> Spec.pd Huu (nu * N)).
Proof.
  intros (HW & HS & LD & HD & (mN & meN & HX) & SQ & SP & SR & NE & HM) N dom.
  assert (HN : (0 < N)%nat) by (unfold N; destruct modes; [congruence|cbn; lia]).
  destruct (condensed_dynamics (w_sys W) modes nx nu HS NE HM) as (Ab & Bb & cb & EC & SA & SB & Lc & HT). fold N in SA, SB, Lc, HT.
  unfold condense_optimal_control_problem, pwa_condense. rewrite EC. cbn [bind]. fold N.
  set (Qs := repeat Q N ++ [P]). set (Rs := repeat Rm N).
  assert (LQs : length Qs = S N) by (unfold Qs; rewrite app_length, repeat_length; cbn; lia). assert (LRs : length Rs = N) by apply repeat_length.
  assert (nQ : forall i, (i < N)%nat -> nth i Qs (Mat 0 []) = Q).
  { intros i Hi. unfold Qs. rewrite app_nth1 by (rewrite repeat_length; lia). apply nth_repeat_lt. exact Hi. }
  assert (nP : nth N Qs (Mat 0 []) = P). { unfold Qs. rewrite app_nth2 by (rewrite repeat_length; lia). rewrite repeat_length, Nat.sub_diag. reflexivity. }
  assert (nR : forall i, (i < N)%nat -> nth i Rs (Mat 0 []) = Rm) by (intros i Hi; apply nth_repeat_lt; exact Hi).
  assert (HQs : forall i, (i < length Qs)%nat -> shape (nth i Qs (Mat 0 [])) nx nx).
  { intros i Hi. rewrite LQs in Hi. destruct (Nat.eq_dec i N) as [->|]; [rewrite nP; exact SP|rewrite nQ by lia; exact SQ]. }
  assert (HRs : forall i, (i < length Rs)%nat -> shape (nth i Rs (Mat 0 [])) nu nu) by (intros i Hi; rewrite LRs in Hi; rewrite nR by exact Hi; exact SR).
  assert (NQ : Qs <> []) by (intros E; rewrite E in LQs; discriminate). assert (NR : Rs <> []) by (intros E; rewrite E in LRs; cbn in LRs; lia).
  assert (QB : forall zs ws, length zs = S N -> length ws = S N -> Forall (fun z => length z = nx) zs -> Forall (fun z => length z = nx) ws ->
    shape (block_diag Qs) (S N * nx) (S N * nx) /\
    dot (List.concat ws) (mv (block_diag Qs) (List.concat zs)) = sum_upto (fun i => dot (nth i ws []) (mv Q (nth i zs []))) N + dot (nth N ws []) (mv P (nth N zs []))).
  { intros zs ws Lz Lw Fz Fw. destruct (quad_block Qs zs nx NQ ltac:(lia) HQs Fz ws ltac:(lia) Fw) as (S1 & E1). rewrite LQs in S1. split; [exact S1|]. rewrite E1, Lz. cbn [sum_upto]. rewrite nP. f_equal.
    apply sum_upto_ext. intros i Hi. rewrite nQ by exact Hi. reflexivity. }
  assert (RB : forall zs ws, length zs = N -> length ws = N -> Forall (fun z => length z = nu) zs -> Forall (fun z => length z = nu) ws ->
    shape (block_diag Rs) (N * nu) (N * nu) /\
    dot (List.concat ws) (mv (block_diag Rs) (List.concat zs)) = sum_upto (fun i => dot (nth i ws []) (mv Rm (nth i zs []))) N).
  { intros zs ws Lz Lw Fz Fw. destruct (quad_block Rs zs nu NR ltac:(lia) HRs Fz ws ltac:(lia) Fw) as (S1 & E1). rewrite LRs in S1. split; [exact S1|]. rewrite E1, Lz.
    apply sum_upto_ext. intros i Hi. rewrite nR by exact Hi. reflexivity. }
  assert (FR : forall k n, Forall (fun z : vec => length z = n) (repeat (zeros n) k)).
  { intros k n. apply Forall_forall. intros v Hv. apply repeat_spec in Hv. subst v. apply zeros_length. }
  set (Qb := block_diag Qs) in *. set (Rb := block_diag Rs) in *.
  assert (SQb : shape Qb (nx * (N + 1)) (nx * (N + 1))).
  { replace (nx * (N + 1))%nat with (S N * nx)%nat by lia. apply (QB (repeat (zeros nx) (S N)) (repeat (zeros nx) (S N))); auto using repeat_length. }
  assert (SRb : shape Rb (nu * N) (nu * N)).
  { replace (nu * N)%nat with (N * nu)%nat by lia. apply (RB (repeat (zeros nu) N) (repeat (zeros nu) N)); auto using repeat_length. }
  pose proof (shape_tr _ _ _ SB) as TB. pose proof (shape_tr _ _ _ SA) as TA.
  assert (SBQ : shape (mm (tr Bb) Qb) (nu * N) (nx * (N + 1))) by eauto with shp. assert (SAQ : shape (mm (tr Ab) Qb) nx (nx * (N + 1))) by eauto with shp.
  assert (SBQB : shape (mm (mm (tr Bb) Qb) Bb) (nu * N) (nu * N)) by eauto with shp.
  rewrite (np_dot_ok (tr Bb) Qb _ _ _ TB SQb). cbn [bind]. rewrite (np_dot_ok _ Bb _ _ _ SBQ SB). cbn [bind]. rewrite (np_madd_ok Rb _ _ _ SRb SBQB). cbn [bind].
  rewrite (np_dot_ok _ Ab _ _ _ SBQ SA). cbn [bind]. rewrite (np_dot_ok (tr Ab) Qb _ _ _ TA SQb). cbn [bind]. rewrite (np_dot_ok _ Ab _ _ _ SAQ SA). cbn [bind].
  rewrite (np_mv_ok _ _ _ cb SBQ Lc). cbn [bind]. rewrite (np_mv_ok _ _ _ cb SAQ Lc). cbn [bind]. rewrite (np_mv_ok _ _ _ cb SQb Lc). cbn [bind].
  (* constraints *)
  rewrite (mapM_nth_error (w_dom W) modes poly0) by (intros m Hm; rewrite LD; apply HM, Hm). cbn [bind]. rewrite HW.
  set (Ds := map (fun m => nth m (w_dom W) poly0) modes). assert (LDs : length Ds = N) by apply map_length.
  assert (nD : forall t, (t < N)%nat -> nth t Ds poly0 = dom t).
  { intros t Ht. unfold Ds. rewrite (nth_map_0 (fun m => nth m (w_dom W) poly0)) by exact Ht. reflexivity. }
  assert (HDt : forall t, (t < N)%nat -> exists m me, wf (dom t) m me (nx + nu)).
  { intros t Ht. apply HD. unfold dom. apply nth_In. rewrite LD. apply HM, nth_In. exact Ht. }
  set (Fm := fun t => if (t <? N)%nat then cols_to (pA (dom t)) nx else pA X_N). set (Gm := fun t => cols_from (pA (dom t)) nx). set (hm := fun t => if (t <? N)%nat then pb (dom t) else pb X_N).
  assert (EF : map (fun D => cols_to (pA D) nx) Ds ++ [pA X_N] = map Fm (seq 0 (S N))).
  { rewrite (snoc_as_map _ (pA X_N) (Mat 0 []) N) by (rewrite map_length; exact LDs). apply map_ext_in. intros t Ht. apply in_seq in Ht. unfold Fm. destruct (Nat.ltb_spec t N) as [Q1|Q1]; [|reflexivity].
    rewrite (nth_indep _ (Mat 0 []) ((fun D => cols_to (pA D) nx) poly0)) by (rewrite map_length; lia). rewrite (map_nth (fun D => cols_to (pA D) nx)). rewrite nD by exact Q1. reflexivity. }
  assert (EG : map (fun D => cols_from (pA D) nx) Ds = map Gm (seq 0 N)).
  { rewrite (list_as_map Ds poly0) at 1. rewrite map_map, LDs. apply map_ext_in. intros t Ht. apply in_seq in Ht. rewrite nD by lia. reflexivity. }
  assert (Eh : map pb Ds ++ [pb X_N] = map hm (seq 0 (S N))).
  { rewrite (snoc_as_map _ (pb X_N) [] N) by (rewrite map_length; exact LDs). apply map_ext_in. intros t Ht. apply in_seq in Ht. unfold hm. destruct (Nat.ltb_spec t N) as [Q1|Q1]; [|reflexivity].
    rewrite (nth_indep _ [] (pb poly0)) by (rewrite map_length; lia). rewrite (map_nth pb). rewrite nD by exact Q1. reflexivity. }
  rewrite EF, EG, Eh. clear EF EG Eh.
  pose proof HX as (WXA & WXb & _).
  assert (SFm : forall t, shape (Fm t) (nrows (Fm t)) nx /\ length (hm t) = nrows (Fm t) \/ (N < t)%nat).
  { intros t. unfold Fm, hm. destruct (Nat.ltb_spec t N) as [Q1|Q1].
    - left. destruct (HDt t Q1) as (m & me & (WA & Wb & _)). pose proof (shape_cols_to _ _ _ nx WA ltac:(lia)) as Q2. unfold nrows. rewrite (proj1 Q2). auto.
    - left. unfold nrows. rewrite (proj1 WXA). auto. }
  assert (SFm' : forall t, shape (Fm t) (nrows (Fm t)) nx /\ length (hm t) = nrows (Fm t)).
  { intros t. unfold Fm, hm. destruct (Nat.ltb_spec t N) as [Q1|Q1].
    - destruct (HDt t Q1) as (m & me & (WA & Wb & _)). pose proof (shape_cols_to _ _ _ nx WA ltac:(lia)) as Q2. unfold nrows. rewrite (proj1 Q2). auto.
    - unfold nrows. rewrite (proj1 WXA). auto. }
  clear SFm. set (mt := sum_nat (map (fun t => nrows (Fm t)) (seq 0 (S N)))).
  assert (SGm : forall t, (t < N)%nat -> shape (Gm t) (nrows (Fm t)) nu).
  { intros t Ht. destruct (HDt t Ht) as (m & me & (WA & Wb & _)). unfold Gm, Fm. rewrite (proj2 (Nat.ltb_lt t N)) by exact Ht.
    unfold nrows. rewrite (proj1 (shape_cols_to _ _ _ nx WA ltac:(lia))). replace nu with (nx + nu - nx)%nat by lia. apply shape_cols_from. exact WA. }
  assert (sum_const : forall k (l : list nat), sum_nat (map (fun _ => k) l) = (length l * k)%nat) by (intros k l; induction l as [|a l IH]; cbn; [reflexivity|rewrite IH; reflexivity]).
  assert (FX : forall xs, length xs = S N -> Forall (fun z => length z = nx) xs ->
    mv (block_diag (map Fm (seq 0 (S N)))) (List.concat xs) = List.concat (map (fun t => mv (Fm t) (nth t xs [])) (seq 0 (S N))) /\ shape (block_diag (map Fm (seq 0 (S N)))) mt (S N * nx)).
  { intros xs Lxs Fxs. assert (E : xs = map (fun t => nth t xs []) (seq 0 (S N))) by (rewrite <- Lxs; apply list_as_map).
    destruct (mv_block_map Fm (fun t => nth t xs []) (seq 0 (S N))) as (E1 & S1); [discriminate| |].
    - intros t Ht. apply in_seq in Ht. rewrite (Forall_len_nth xs nx) by (auto; lia). apply SFm'.
    - rewrite <- E in E1. split; [exact E1|]. fold mt in S1. replace (S N * nx)%nat with (sum_nat (map (fun t => length (nth t xs [])) (seq 0 (S N)))); [exact S1|].
      rewrite (map_ext_in _ (fun _ => nx)); [rewrite sum_const, seq_length; reflexivity|]. intros t Ht. apply in_seq in Ht. apply Forall_len_nth; [exact Fxs|lia]. }
  assert (GU : forall us, length us = N -> Forall (fun z => length z = nu) us ->
    mv (block_diag (map Gm (seq 0 N))) (List.concat us) = List.concat (map (fun t => mv (Gm t) (nth t us [])) (seq 0 N)) /\ shape (block_diag (map Gm (seq 0 N))) (sum_nat (map (fun t => nrows (Fm t)) (seq 0 N))) (N * nu)).
  { intros us Lus Fus. assert (E : us = map (fun t => nth t us []) (seq 0 N)) by (rewrite <- Lus; apply list_as_map).
    destruct (mv_block_map Gm (fun t => nth t us []) (seq 0 N)) as (E1 & S1); [destruct N; [lia|discriminate]| |].
    - intros t Ht. apply in_seq in Ht. rewrite (Forall_len_nth us nu) by (auto; lia). pose proof (SGm t ltac:(lia)) as Q1. unfold nrows at 1. rewrite (proj1 Q1). exact Q1.
    - rewrite <- E in E1. split; [exact E1|]. replace (N * nu)%nat with (sum_nat (map (fun t => length (nth t us [])) (seq 0 N))).
      + replace (map (fun t => nrows (Fm t)) (seq 0 N)) with (map (fun t => nrows (Gm t)) (seq 0 N)); [exact S1|]. apply map_ext_in. intros t Ht. apply in_seq in Ht. unfold nrows at 1. apply (SGm t). lia.
      + rewrite (map_ext_in _ (fun _ => nu)); [rewrite sum_const, seq_length; reflexivity|]. intros t Ht. apply in_seq in Ht. apply Forall_len_nth; [exact Fus|lia]. }
  set (Fb := block_diag (map Fm (seq 0 (S N)))) in *. set (Gb := block_diag (map Gm (seq 0 N))) in *. set (hb := List.concat (map hm (seq 0 (S N)))).
  assert (SFb : shape Fb mt (nx * (N + 1))).
  { replace (nx * (N + 1))%nat with (S N * nx)%nat by lia. apply (FX (repeat (zeros nx) (S N))); auto using repeat_length. }
  assert (Emt : mt = (sum_nat (map (fun t => nrows (Fm t)) (seq 0 N)) + mN)%nat).
  { unfold mt. rewrite seq_snoc, map_app, sum_nat_app. cbn [map sum_nat]. f_equal. rewrite Nat.add_0_r. unfold Fm. rewrite Nat.ltb_irrefl. apply WXA. }
  assert (SGb : shape Gb (sum_nat (map (fun t => nrows (Fm t)) (seq 0 N))) (nu * N)).
  { replace (nu * N)%nat with (N * nu)%nat by lia. apply (GU (repeat (zeros nu) N)); auto using repeat_length. }
  assert (SGv : shape (vstack Gb (zmat (nrows (pA X_N)) (ncols Gb))) mt (nu * N)).
  { rewrite Emt. apply shape_vstack; [exact SGb|]. unfold nrows. rewrite (proj1 WXA), (proj1 (proj2 SGb)). apply shape_zmat. }
  set (Gv := vstack Gb (zmat (nrows (pA X_N)) (ncols Gb))) in *.
  assert (Lhb : length hb = mt). { unfold hb, mt. apply concat_lengths. intros t _. apply SFm'. }
  assert (SFB : shape (mm Fb Bb) mt (nu * N)) by eauto with shp. assert (SFA : shape (mm Fb Ab) mt nx) by eauto with shp. assert (LFc : length (mv Fb cb) = mt) by (rewrite mv_length; apply SFb).
  rewrite (np_dot_ok Fb Bb _ _ _ SFb SB). cbn [bind]. rewrite (np_madd_ok Gv _ _ _ SGv SFB). cbn [bind]. rewrite (np_dot_ok Fb Ab _ _ _ SFb SA). cbn [bind].
  rewrite (np_mv_ok Fb _ _ cb SFb Lc). cbn [bind]. unfold np_vsub. rewrite Lhb, LFc, Nat.eqb_refl. cbn [bind].
  do 9 eexists. exists mt. split; [reflexivity|]. split; [eauto with shp|]. split; [eauto with shp|]. split; [eauto with shp|]. split; [rewrite mv_length; apply SBQ|]. split; [rewrite mv_length; apply SAQ|].
  split; [eauto with shp|]. split; [exact SFA|]. split; [rewrite vsub_length; lia|]. split.
  - intros x0 us xs Lx0 Lus Fus Tr. pose proof (switched_lengths W modes nx nu x0 us xs HS HM Lx0 Lus Tr) as Fxs.
    assert (Lxs : length xs = S N) by (rewrite <- Lus; apply Tr). pose proof (HT x0 us xs Lx0 Lus Fus Tr) as EX.
    assert (LU : length (List.concat us) = (nu * N)%nat).
    { rewrite (list_as_map us []), Lus. rewrite (concat_lengths (fun t => nth t us []) _ (fun _ => nu)); [rewrite sum_const, seq_length; lia|]. intros t Ht. apply in_seq in Ht. apply Forall_len_nth; [exact Fus|lia]. }
    split.
    + intros YQ YP. unfold mp_cost.
      assert (SyQ : tr Qb = Qb).
      { apply (sym_from_dot Qb _ SQb). intros x y Lx Ly. replace (nx * (N + 1))%nat with (S N * nx)%nat in Lx, Ly by lia.
        destruct (chunks nx (S N) x Lx) as (zx & L1 & F1 & <-). destruct (chunks nx (S N) y Ly) as (zy & L2 & F2 & <-).
        rewrite (proj2 (QB zy zx L2 L1 F2 F1)), (proj2 (QB zx zy L1 L2 F1 F2)).
        assert (G1 : forall t, (t <= N)%nat -> length (nth t zx []) = nx /\ length (nth t zy []) = nx) by (intros t Ht; split; apply Forall_len_nth; auto; lia).
        rewrite (sym_dot P nx _ _ SP YP (proj1 (G1 N ltac:(lia))) (proj2 (G1 N ltac:(lia)))). f_equal. apply sum_upto_ext. intros t Ht. apply (sym_dot Q nx); auto; apply G1; lia. }
      pose proof (condensed_quadratic Qb Ab Bb cb _ _ _ x0 (List.concat us) SQb SyQ SA SB Lc Lx0 LU) as CQ. cbv zeta in CQ. rewrite EX in CQ.
      rewrite (mv_madd Rb _ (nu * N) (nu * N)) by (auto; eauto with shp). rewrite dot_vadd_r by (rewrite !mv_length, (proj1 SRb); symmetry; apply SBQB).
      unfold trajectory_cost. rewrite Lus.
      rewrite (sum_upto_ext _ (fun t => / 2 * (dot (nth t xs []) (mv Q (nth t xs []))) + / 2 * (dot (nth t us []) (mv Rm (nth t us []))))) by (intros; ring).
      rewrite sum_upto_plus, !sum_upto_scale. rewrite <- (proj2 (RB us us Lus Lus Fus Fus)).
      pose proof (proj2 (QB xs xs Lxs Lxs Fxs Fxs)) as QX. fold Qb in QX. rewrite QX in CQ. lra.
    + unfold mp_feasible. rewrite vsub_length, Lhb, LFc, Nat.min_id.
      assert (NC : ncols (madd Gv (mm Fb Bb)) = (nu * N)%nat) by apply SGv. rewrite NC.
      assert (EL : vadd (mv (madd Gv (mm Fb Bb)) (List.concat us)) (vadd (mv (mm Fb Ab) x0) (mv Fb cb)) =
                   List.concat (map (fun t => if (t <? N)%nat then mv (pA (dom t)) (nth t xs [] ++ nth t us []) else mv (pA X_N) (nth N xs [])) (seq 0 (S N)))).
      { rewrite (mv_madd Gv _ mt (nu * N)) by (auto; eauto with shp). rewrite (mv_mm Fb Bb (nx * (N + 1)) (nu * N)) by exact SB. rewrite (mv_mm Fb Ab (nx * (N + 1)) nx) by exact SA.
        assert (L1 : length (mv Ab x0) = (nx * (N + 1))%nat) by (rewrite mv_length; apply SA). assert (L2 : length (mv Bb (List.concat us)) = (nx * (N + 1))%nat) by (rewrite mv_length; apply SB).
        assert (LF : forall z, length (mv Fb z) = mt) by (intros; rewrite mv_length; apply SFb). assert (LG : forall z, length (mv Gv z) = mt) by (intros; rewrite mv_length; apply SGv).
        transitivity (vadd (mv Fb (List.concat xs)) (mv Gv (List.concat us))).
        { rewrite <- EX. rewrite !(mv_vadd Fb mt (nx * (N + 1))) by (auto; rewrite ?vadd_length; lia).
          apply (nth_ext _ _ 0 0); [repeat rewrite ?vadd_length, ?LF, ?LG; lia|]. intros i Hi. rewrite !nth_vadd by (repeat rewrite ?vadd_length, ?LF, ?LG; lia). ring. }
        rewrite (proj1 (FX xs Lxs Fxs)). unfold Gv. rewrite mv_vstack, mv_zmat. rewrite (proj1 (GU us Lus Fus)).
        assert (EZ : List.concat (map (fun t => mv (Gm t) (nth t us [])) (seq 0 N)) ++ zeros (nrows (pA X_N)) = List.concat (map (fun t => if (t <? N)%nat then mv (Gm t) (nth t us []) else zeros mN) (seq 0 (S N)))).
        { rewrite seq_snoc, map_app, concat_app. cbn [map List.concat]. rewrite Nat.ltb_irrefl, app_nil_r. unfold nrows. rewrite (proj1 WXA). f_equal. f_equal. apply map_ext_in. intros t Ht. apply in_seq in Ht.
          rewrite (proj2 (Nat.ltb_lt t N)) by lia. reflexivity. }
        rewrite EZ. rewrite concat_vadd.
        - f_equal. apply map_ext_in. intros t Ht. apply in_seq in Ht. unfold Fm, Gm. destruct (Nat.ltb_spec t N) as [Q1|Q1].
          + destruct (HDt t Q1) as (m & me & (WA & Wb & _)). symmetry. apply (mv_cols_split (pA (dom t)) m (nx + nu) nx); [exact WA|lia|]. apply Forall_len_nth; [exact Fxs|lia].
          + assert (t = N) by lia. subst t. rewrite vadd_zeros_r; [reflexivity|]. rewrite mv_length. apply WXA.
        - intros t Ht. apply in_seq in Ht. rewrite mv_length. destruct (Nat.ltb_spec t N) as [Q1|Q1].
          + rewrite mv_length. symmetry. apply (SGm t Q1).
          + assert (t = N) by lia. subst t. unfold Fm. rewrite Nat.ltb_irrefl, zeros_length. apply WXA. }
      set (Fl := fun t => if (t <? N)%nat then mv (pA (dom t)) (nth t xs [] ++ nth t us []) else mv (pA X_N) (nth N xs [])) in EL.
      assert (LFl : forall t, In t (seq 0 (S N)) -> length (Fl t) = length (hm t)).
      { intros t Ht. apply in_seq in Ht. unfold Fl, hm. destruct (Nat.ltb_spec t N) as [Q1|Q1]; rewrite mv_length.
        - destruct (HDt t Q1) as (m & me & (WA & Wb & _)). rewrite Wb. apply WA.
        - rewrite WXb. apply WXA. }
      assert (L1 : length (mv (madd Gv (mm Fb Bb)) (List.concat us)) = mt). { rewrite mv_length. assert (SM : shape (madd Gv (mm Fb Bb)) mt (nu * N)) by eauto with shp. apply SM. }
      assert (L2 : length (mv (mm Fb Ab) x0) = mt) by (rewrite mv_length; apply SFA).
      transitivity (vle (List.concat (map Fl (seq 0 (S N)))) hb).
      * rewrite <- EL. rewrite vle_nth. rewrite !vadd_length, L1, L2, LFc, Lhb, !Nat.min_id.
        assert (EE : forall i, (i < mt)%nat -> nth i (vadd (mv (madd Gv (mm Fb Bb)) (List.concat us)) (vadd (mv (mm Fb Ab) x0) (mv Fb cb))) 0 <= nth i hb 0 <->
           dot (row (madd Gv (mm Fb Bb)) i) (List.concat us) + dot (row (mm Fb Ab) i) x0 <= nth i (vsub hb (mv Fb cb)) 0).
        { intros i Hi. rewrite !nth_vadd by (rewrite ?vadd_length; lia). rewrite nth_vsub by lia. rewrite !(nth_mv (madd Gv (mm Fb Bb))), !(nth_mv (mm Fb Ab)). unfold row. split; lra. }
        split.
        -- intros (_ & H). split; [reflexivity|]. intros i Hi. apply EE; auto.
        -- intros (_ & H). split; [exact LU|]. intros i Hi. apply EE; auto.
      * unfold hb. rewrite (vle_concat Fl hm) by exact LFl. unfold stage_constraints. rewrite Lus. split.
        -- intros H. split.
           ++ intros t Ht. apply ineq_holds_vle. specialize (H t ltac:(apply in_seq; lia)). unfold Fl, hm in H. rewrite (proj2 (Nat.ltb_lt t N)) in H by exact Ht. exact H.
           ++ apply ineq_holds_vle. specialize (H N ltac:(apply in_seq; lia)). unfold Fl, hm in H. rewrite Nat.ltb_irrefl in H. exact H.
        -- intros (H1 & H2) t Ht. apply in_seq in Ht. unfold Fl, hm. destruct (Nat.ltb_spec t N) as [Q1|Q1]; apply ineq_holds_vle; auto.
  - intros PQ PP PR. assert (SH : shape (madd Rb (mm (mm (tr Bb) Qb) Bb)) (nu * N) (nu * N)) by eauto with shp.
    assert (LB : forall z, length (mv Bb z) = (S N * nx)%nat) by (intros; rewrite mv_length, (proj1 SB); lia).
    assert (EH : forall x y, length x = (nu * N)%nat -> length y = (nu * N)%nat -> dot x (mv (madd Rb (mm (mm (tr Bb) Qb) Bb)) y) = dot x (mv Rb y) + dot (mv Bb x) (mv Qb (mv Bb y))).
    { intros x y Lx Ly. rewrite (mv_madd Rb _ (nu * N) (nu * N)) by (auto; eauto with shp). rewrite dot_vadd_r by (rewrite !mv_length, (proj1 SRb); symmetry; apply SBQB).
      f_equal. rewrite (mv_mm _ Bb (nx * (N + 1)) (nu * N)) by exact SB. rewrite (mv_mm _ Qb (nx * (N + 1)) (nx * (N + 1))) by exact SQb. apply (dot_mv_tr_r Bb (nx * (N + 1)) (nu * N)); auto. rewrite mv_length. apply SQb. }
    split.
    + apply (sym_from_dot _ _ SH). intros x y Lx Ly. rewrite !EH by assumption. 
      destruct (chunks nx (S N) (mv Bb x) (LB x)) as (zx & L1 & F1 & E1). destruct (chunks nx (S N) (mv Bb y) (LB y)) as (zy & L2 & F2 & E2). rewrite <- E1, <- E2.
      rewrite (proj2 (QB zy zx L2 L1 F2 F1)), (proj2 (QB zx zy L1 L2 F1 F2)).
      assert (G1 : forall t, (t <= N)%nat -> length (nth t zx []) = nx /\ length (nth t zy []) = nx) by (intros t Ht; split; apply Forall_len_nth; auto; lia).
      rewrite (sym_dot P nx _ _ SP (proj1 PP) (proj1 (G1 N ltac:(lia))) (proj2 (G1 N ltac:(lia)))).
      rewrite (sum_upto_ext _ (fun i => dot (nth i zy []) (mv Q (nth i zx [])))) by (intros t Ht; apply (sym_dot Q nx _ _ SQ (proj1 PQ)); apply G1; lia).
      f_equal. replace (nu * N)%nat with (N * nu)%nat in Lx, Ly by lia. destruct (chunks nu N x Lx) as (vx & L3 & F3 & <-). destruct (chunks nu N y Ly) as (vy & L4 & F4 & <-).
      rewrite (proj2 (RB vy vx L4 L3 F4 F3)), (proj2 (RB vx vy L3 L4 F3 F4)). apply sum_upto_ext. intros t Ht. apply (sym_dot Rm nu _ _ SR (proj1 PR)); apply Forall_len_nth; auto; lia.
    + intros x Lx Nx. rewrite EH by assumption.
      destruct (chunks nx (S N) (mv Bb x) (LB x)) as (zx & L1 & F1 & E1). rewrite <- E1. rewrite (proj2 (QB zx zx L1 L1 F1 F1)).
      assert (G0 : 0 <= sum_upto (fun i => dot (nth i zx []) (mv Q (nth i zx []))) N) by (apply sum_upto_nonneg; intros t Ht; apply PQ; apply Forall_len_nth; auto; lia).
      assert (G1 : 0 <= dot (nth N zx []) (mv P (nth N zx []))) by (apply PP; apply Forall_len_nth; auto; lia).
      replace (nu * N)%nat with (N * nu)%nat in Lx by lia. destruct (chunks nu N x Lx) as (vx & L3 & F3 & E3). rewrite <- E3. rewrite (proj2 (RB vx vx L3 L3 F3 F3)).
      assert (PRn : forall t, (t < N)%nat -> 0 <= dot (nth t vx []) (mv Rm (nth t vx []))) by (intros t Ht; apply (pd_psd _ _ PR); apply Forall_len_nth; auto; lia).
      assert (EXI : exists t, (t < N)%nat /\ nth t vx [] <> zeros nu).
      { apply NNPP. intros NN. apply Nx. rewrite <- E3. rewrite (list_as_map vx []), L3. replace (nu * N)%nat with (sum_nat (map (fun _ => nu) (seq 0 N))) by (rewrite sum_const, seq_length; lia).
        assert (HZ : forall l, (forall t, In t l -> (t < N)%nat) -> List.concat (map (fun i => nth i vx []) l) = zeros (sum_nat (map (fun _ => nu) l))).
        { induction l as [|a l IH]; intros Hl; [reflexivity|]. cbn [map List.concat sum_nat]. rewrite IH by (intros t Ht; apply Hl; right; exact Ht).
          destruct (list_eq_dec Req_EM_T (nth a vx []) (zeros nu)) as [->|NZ]; [symmetry; apply zeros_app|exfalso; apply NN; exists a; split; [apply Hl; left; reflexivity|exact NZ]]. }
        apply HZ. intros t Ht. apply in_seq in Ht. lia. }
      destruct EXI as (t & Ht & Nt). pose proof (sum_upto_pos (fun i => dot (nth i vx []) (mv Rm (nth i vx []))) N t Ht PRn) as Q1. cbv beta in Q1.
      specialize (Q1 ltac:(apply (proj2 PR); [apply Forall_len_nth; auto; lia|exact Nt])). lra.
Qed.

(** ** The mpQP returned by condense_optimal_control_problem *)
Lemma condense_returns np W Q Rm P X_N modes nx nu : ocp_data W Q Rm P X_N modes nx nu -> exact_np np ->
  let N := length modes in
  let dom t := nth (nth t modes 0%nat) (w_dom W) poly0 in
  (psd Q nx -> psd P nx -> Spec.pd Rm nu -> exists q m, condense_optimal_control_problem np W Q Rm P X_N modes = Ok q /\ MpqpThms.coherent q (nu * N) nx m) /\
  forall q, condense_optimal_control_problem np W Q Rm P X_N modes = Ok q ->
  forall x0 us xs, length x0 = nx -> length us = N -> Forall (fun v => length v = nu) us -> switched W modes x0 us xs ->
     (tr Q = Q -> tr P = P -> q_cost q x0 (List.concat us) = trajectory_cost Q Rm P us xs) /\
     (q_feasible q x0 (List.concat us) <->
      stage_constraints (fun t xu => ineq_holds (pA (dom t)) (pb (dom t)) xu) (fun x => ineq_holds (pA X_N) (pb X_N) x) us xs).
Proof.
  intros HO Hnp N dom. destruct (condensed_program np W Q Rm P X_N modes nx nu HO) as (Huu & Hux & Hxx & fu & fx & g & Au & Ax & b & m & E & S1 & S2 & S3 & L1 & L2 & S4 & S5 & L3 & HC & HP).
  fold N in S1, S2, S3, L1, L2, S4, S5, L3, HC, HP. rewrite E. split.
  - intros PQ PP PR. destruct (constructor_coherent np Huu Hux Hxx fu fx g Au Ax b (nu * N) nx m Hnp S1 (HP PQ PP PR) S2 S3 L1 L2 S4 S5 L3) as (Hi & E1 & Hq). eauto.
  - intros q Eq. assert (EQ : exists Hi, q = MPQP Huu Hux Hxx fu fx g Au Ax b Hi).
    { unfold MultiParametricQuadraticProgram in Eq. destruct (np_inv np Huu) as [Hi|]; cbn [bind] in Eq; [|discriminate]. injection Eq as <-. eauto. }
    destruct EQ as (Hi & ->). exact HC.
Qed.
(*@ Theorem C37_condensed_cost_partial : For symmetric Q and P, the objective of the mpQP built for a mode sequence equals, at every initial state and inputs, the cost 1/2 sum x'Qx + u'Ru + 1/2 xN'P xN of the trajectory; with Q, P positive semidefinite and R positive definite the program is always built.
   Missing: Q or P not symmetric, for which the claim is false (see the refutation). *)
Lemma condensed_cost np W Q Rm P X_N modes nx nu : exact_np np -> ocp_data W Q Rm P X_N modes nx nu -> tr Q = Q -> tr P = P ->
  (psd Q nx -> psd P nx -> Spec.pd Rm nu -> exists q, condense_optimal_control_problem np W Q Rm P X_N modes = Ok q) /\
  forall q, condense_optimal_control_problem np W Q Rm P X_N modes = Ok q ->
  forall x0 us xs, length x0 = nx -> length us = length modes -> Forall (fun v => length v = nu) us ->
    is_switched_trajectory (map aA (w_sys W)) (map aB (w_sys W)) (map ac (w_sys W)) modes x0 us xs ->
    mp_cost (q_Huu q) (q_Hux q) (q_Hxx q) (q_fu q) (q_fx q) (q_g q) x0 (List.concat us) = trajectory_cost Q Rm P us xs.
Proof.
  intros Hnp HO YQ YP. destruct (condense_returns np W Q Rm P X_N modes nx nu HO Hnp) as (H1 & H2). split.
  - intros a b c. destruct (H1 a b c) as (q & m & E & _). eauto.
  - intros q E x0 us xs Lx Lu Fu Tr. apply (H2 q E x0 us xs Lx Lu Fu Tr); assumption.
Qed.
(*@ Theorem C38_condensed_constraints_partial : The inequalities of the mpQP hold at (x0, u) iff every (x(t), u(t)) satisfies the inequalities of its domain and x(N) those of the terminal set; if the sets have no equalities: iff all of them are in their sets.
   Missing: domains with equalities, for which the claim is false (C50_equalities_refuted). *)
Lemma condensed_constraints np W Q Rm P X_N modes nx nu : exact_np np -> ocp_data W Q Rm P X_N modes nx nu ->
  forall q, condense_optimal_control_problem np W Q Rm P X_N modes = Ok q ->
  forall x0 us xs, length x0 = nx -> length us = length modes -> Forall (fun v => length v = nu) us ->
    is_switched_trajectory (map aA (w_sys W)) (map aB (w_sys W)) (map ac (w_sys W)) modes x0 us xs ->
    let dom t := nth (nth t modes 0%nat) (w_dom W) poly0 in
    (mp_feasible (q_Au q) (q_Ax q) (q_b q) x0 (List.concat us) <->
     stage_constraints (fun t xu => ineq_holds (pA (dom t)) (pb (dom t)) xu) (fun x => ineq_holds (pA X_N) (pb X_N) x) us xs) /\
    ((forall D, In D (w_dom W) -> pd D = []) -> pd X_N = [] ->
     (mp_feasible (q_Au q) (q_Ax q) (q_b q) x0 (List.concat us) <-> stage_constraints (fun t => in_poly (dom t)) (in_poly X_N) us xs)).
Proof.
  intros Hnp HO q E x0 us xs Lx Lu Fu Tr dom. destruct (condense_returns np W Q Rm P X_N modes nx nu HO Hnp) as (_ & H2). pose proof (proj2 (H2 q E x0 us xs Lx Lu Fu Tr)) as H. split; [exact H|].
  intros ED EX. unfold q_feasible in H. rewrite H. pose proof HO as (HW & HS & LD & HD & (mN & meN & HX) & _ & _ & _ & NE & HM).
  pose proof (switched_lengths W modes nx nu x0 us xs HS HM Lx Lu Tr) as Fxs. assert (Lxs : length xs = S (length us)) by apply Tr.
  assert (EQ : forall p m me n x, wf p m me n -> pd p = [] -> length x = n -> (ineq_holds (pA p) (pb p) x <-> in_poly p x)).
  { intros p m me n x (W1 & W2 & W3 & W4) Ep Lx'. unfold in_poly, in_set. rewrite (proj1 (proj2 W1)). split; [|tauto]. intros Hi. split; [exact Lx'|]. split; [exact Hi|].
    rewrite Ep in W4 |- *. cbn in W4. subst me. unfold eq_holds. destruct W3 as (W3 & _). destruct (rows (pC p)); [constructor|discriminate]. }
  assert (ET : forall t, (t < length us)%nat -> ineq_holds (pA (dom t)) (pb (dom t)) (nth t xs [] ++ nth t us []) <-> in_poly (dom t) (nth t xs [] ++ nth t us [])).
  { intros t Ht. assert (ID : In (dom t) (w_dom W)) by (unfold dom; apply nth_In; rewrite LD; apply HM, nth_In; lia). destruct (HD _ ID) as (m & me & WD). apply (EQ _ m me (nx + nu)%nat _ WD (ED _ ID)).
    rewrite app_length, (Forall_len_nth xs nx), (Forall_len_nth us nu) by (auto; lia). reflexivity. }
  assert (EN : ineq_holds (pA X_N) (pb X_N) (nth (length us) xs []) <-> in_poly X_N (nth (length us) xs [])).
  { apply (EQ _ mN meN nx _ HX EX). apply Forall_len_nth; [exact Fxs|lia]. }
  fold dom. unfold stage_constraints. rewrite EN. split; intros (G1 & G2); (split; [|exact G2]); intros t Ht; apply (ET t Ht), G1, Ht.
Qed.

(** ** ModelPredictiveController *)
Definition mpc_shapes (S : lsys) (N : nat) (Q Rm P : mat) (D X_N : poly) (nx nu : nat) : Prop :=
  shape (lA S) nx nx /\ shape (lB S) nx nu /\ (0 < N)%nat /\ shape Q nx nx /\ shape P nx nx /\ shape Rm nu nu /\
  (exists m me, wf D m me (nx + nu)) /\ exists m me, wf X_N m me nx.
Definition mpc_data (S : lsys) (N : nat) (Q Rm P : mat) (D X_N : poly) (nx nu : nat) : Prop :=
  mpc_shapes S N Q Rm P D X_N nx nu /\ pd D = [] /\ pd X_N = [] /\ psd Q nx /\ psd P nx /\ Spec.pd Rm nu.
Definition lin_pwa (S : lsys) (D : poly) (nx nu : nat) : pwa := PWA nx nu [ASys (lA S) (lB S) (zeros nx)] [D].
Lemma lin_condense np S N Q Rm P D X_N nx nu : mpc_shapes S N Q Rm P D X_N nx nu ->
  condense_program np S N Q Rm P D X_N = condense_optimal_control_problem np (lin_pwa S D nx nu) Q Rm P X_N (repeat 0%nat N) /\
  ocp_data (lin_pwa S D nx nu) Q Rm P X_N (repeat 0%nat N) nx nu.
Proof.
  intros (SA & SB & HN & SQ & SP & SR & (m & me & WD) & HX). assert (Lx : lnx S = nx) by apply SB.
  split.
  - unfold condense_program. rewrite Lx.
    assert (EA : AffineSystem (lA S) (lB S) (D1 (zeros nx)) = Ok (ASys (lA S) (lB S) (zeros nx))).
    { unfold AffineSystem, check_affine_system, nrows. rewrite (proj1 SA), (proj1 (proj2 SA)), (proj1 SB), Nat.eqb_refl. cbn [nd_ndim nd_size negb Nat.ltb Nat.leb]. rewrite zeros_length, Nat.eqb_refl. reflexivity. }
    rewrite EA. cbn [bind].
    assert (EP : PieceWiseAffineSystem [Aff (ASys (lA S) (lB S) (zeros nx))] [D] = Ok (lin_pwa S D nx nu)).
    { unfold PieceWiseAffineSystem. cbn [map sys_nx sys_nu anx anu aA aB]. assert (only1 : forall n, only [n] = Some n) by reflexivity. rewrite !only1. unfold anx, anu, nrows. cbn [aB].
      rewrite (proj1 SB), (proj1 (proj2 SB)), (proj1 (proj2 (proj1 WD))), !Nat.eqb_refl. reflexivity. }
    rewrite EP. reflexivity.
  - unfold ocp_data, lin_pwa. cbn [w_nx w_sys w_dom]. split; [reflexivity|]. split.
    { split; [discriminate|]. intros s [<-|[]]. cbn. split; [split; assumption|apply zeros_length]. }
    split; [reflexivity|]. split; [intros D' [<-|[]]; eauto|]. split; [exact HX|]. split; [exact SQ|]. split; [exact SP|]. split; [exact SR|]. split.
    + destruct N; [lia|discriminate].
    + intros k Hk. apply repeat_spec in Hk. subst k. cbn. lia.
Qed.
Lemma trajectory_lengths A B nx nu x us xs : shape A nx nx -> shape B nx nu -> length x = nx -> is_trajectory (linear_step A B) x us xs -> Forall (fun v => length v = nx) xs.
Proof.
  intros SA SB Lx (Lxs & H0 & HT). apply Forall_forall. intros v Hv. destruct (In_nth _ _ [] Hv) as (t & Ht & <-). rewrite Lxs in Ht. clear Hv.
  destruct t as [|t]; [rewrite H0; exact Lx|]. rewrite HT by lia. unfold linear_step. rewrite vadd_length, !mv_length, (proj1 SA), (proj1 SB). lia.
Qed.
Lemma trajectory_exists A B nx nu x us : shape A nx nx -> shape B nx nu -> length x = nx -> exists xs, is_trajectory (linear_step A B) x us xs.
Proof.
  intros SA SB Lx. revert x Lx. induction us as [|u us IH]; intros x Lx.
  - exists [x]. split; [reflexivity|]. split; [reflexivity|]. cbn. lia.
  - destruct (IH (linear_step A B x u)) as (xs & L & H0 & HT). { unfold linear_step. rewrite vadd_length, !mv_length, (proj1 SA), (proj1 SB). lia. }
    exists (x :: xs). split; [cbn; lia|]. split; [reflexivity|]. intros [|t] Ht; [exact H0|]. cbn [nth]. apply HT. cbn in Ht. lia.
Qed.
Lemma trajectory_unique A B x us xs xs' : is_trajectory (linear_step A B) x us xs -> is_trajectory (linear_step A B) x us xs' -> xs = xs'.
Proof.
  intros (L & H0 & HT) (L' & H0' & HT'). apply (nth_ext _ _ [] []); [lia|]. intros t. rewrite L. induction t as [|t IH]; intros Ht; [congruence|]. rewrite HT, HT' by lia. rewrite IH by lia. reflexivity.
Qed.
Lemma lin_switched S D nx nu N x us xs : shape (lA S) nx nx -> shape (lB S) nx nu -> length us = N -> length x = nx ->
  is_trajectory (linear_step (lA S) (lB S)) x us xs -> switched (lin_pwa S D nx nu) (repeat 0%nat N) x us xs.
Proof.
  intros SA SB LN Lx Tr. pose proof (trajectory_lengths _ _ nx nu _ _ _ SA SB Lx Tr) as F. destruct Tr as (L & H0 & HT). split; [exact L|]. split; [exact H0|]. intros t Ht. cbv zeta. rewrite nth_repeat_lt by lia.
  cbn [lin_pwa w_sys map nth aA aB ac]. rewrite HT by exact Ht. unfold linear_step, affine_step. rewrite vadd_zeros_r; [reflexivity|]. rewrite vadd_length, !mv_length, (proj1 SA), (proj1 SB). lia.
Qed.
Lemma eq_free p m me n x : wf p m me n -> pd p = [] -> length x = n -> (ineq_holds (pA p) (pb p) x <-> in_poly p x).
Proof.
  intros (W1 & W2 & W3 & W4) Ep Lx'. unfold in_poly, in_set. rewrite (proj1 (proj2 W1)). split; [|tauto]. intros Hi. split; [exact Lx'|]. split; [exact Hi|].
  rewrite Ep in W4 |- *. cbn in W4. subst me. unfold eq_holds. destruct W3 as (W3 & _). destruct (rows (pC p)); [constructor|discriminate].
Qed.
(** what the controller stores *)
Lemma mpc_program np S N Q Rm P D X_N nx nu : exact_np np -> mpc_data S N Q Rm P D X_N nx nu ->
  exists q m, ModelPredictiveController np S N Q Rm P D X_N = Ok (MPC S N q) /\ MpqpThms.coherent q (nu * N) nx m /\
    forall x us xs, length x = nx -> length us = N -> Forall (fun v => length v = nu) us -> is_trajectory (linear_step (lA S) (lB S)) x us xs ->
      q_cost q x (List.concat us) = trajectory_cost Q Rm P us xs /\
      (q_feasible q x (List.concat us) <-> mpc_admissible (lA S) (lB S) nu N (in_poly D) (in_poly X_N) x us xs).
Proof.
  intros Hnp (HS & ED & EX & PQ & PP & PR). destruct (lin_condense np S N Q Rm P D X_N nx nu HS) as (E & HO).
  destruct (condense_returns np _ Q Rm P X_N _ nx nu HO Hnp) as (H1 & H2). destruct (H1 PQ PP PR) as (q & m & Eq & Hq). rewrite repeat_length in Hq.
  exists q, m. unfold ModelPredictiveController. rewrite E, Eq. split; [reflexivity|]. split; [exact Hq|].
  intros x us xs Lx Lu Fu Tr. pose proof HS as (SA & SB & HN & SQ & SP & SR & (md & mde & WD) & (mx & mxe & WX)).
  pose proof (lin_switched S D nx nu N x us xs SA SB Lu Lx Tr) as Sw. specialize (H2 q Eq x us xs Lx ltac:(rewrite repeat_length; exact Lu) Fu Sw). destruct H2 as (C1 & C2). split; [apply C1; [apply PQ|apply PP]|].
  rewrite C2. pose proof (trajectory_lengths _ _ nx nu _ _ _ SA SB Lx Tr) as Fxs. assert (Lxs : length xs = Datatypes.S (length us)) by apply Tr.
  assert (ET : forall t, (t < length us)%nat -> nth (nth t (repeat 0%nat N) 0%nat) (w_dom (lin_pwa S D nx nu)) poly0 = D) by (intros t Ht; rewrite nth_repeat_lt by lia; reflexivity).
  assert (EN : ineq_holds (pA X_N) (pb X_N) (nth (length us) xs []) <-> in_poly X_N (nth (length us) xs [])) by (apply (eq_free _ mx mxe nx _ WX EX); apply Forall_len_nth; [exact Fxs|lia]).
  assert (EDt : forall t, (t < length us)%nat -> ineq_holds (pA D) (pb D) (nth t xs [] ++ nth t us []) <-> in_poly D (nth t xs [] ++ nth t us [])).
  { intros t Ht. apply (eq_free _ md mde (nx + nu) _ WD ED). rewrite app_length, (Forall_len_nth xs nx), (Forall_len_nth us nu) by (auto; lia). reflexivity. }
  unfold mpc_admissible, stage_constraints. rewrite EN. split.
  - intros (G1 & G2). split; [exact Lu|]. split; [exact Fu|]. split; [exact Tr|]. split; [|exact G2]. intros t Ht. apply EDt; [exact Ht|]. specialize (G1 t Ht). rewrite (ET t Ht) in G1. exact G1.
  - intros (_ & _ & _ & G1 & G2). split; [|exact G2]. intros t Ht. rewrite (ET t Ht). apply EDt; auto.
Qed.
(** split_inputs undoes concatenation *)
Lemma split_concat nu us : Forall (fun v => length v = nu) us -> split_inputs nu (length us) (List.concat us) = us.
Proof.
  unfold split_inputs. intros F. etransitivity; [|symmetry; apply (list_as_map us [])]. apply map_ext_in. intros i Hi. apply in_seq in Hi. destruct Hi as (_ & Hi). cbn in Hi. unfold slice.
  revert i Hi. induction us as [|u us IH]; intros i Hi; [cbn in Hi; lia|]. inversion F as [|? ? Lu Fu]; subst. cbn [List.concat].
  destruct i as [|i].
  - replace (length u * (0 + 1) - length u * 0)%nat with (length u) by lia. rewrite Nat.mul_0_r. cbn [skipn nth]. rewrite firstn_app, Nat.sub_diag, firstn_all. apply app_nil_r.
  - cbn [nth]. rewrite <- (IH Fu i) by (cbn in Hi; lia). rewrite skipn_app. replace (length u * Datatypes.S i - length u)%nat with (length u * i)%nat by lia.
    rewrite (skipn_all2 u) by nia. cbn [app]. f_equal. lia.
Qed.
Lemma square_completion q nu nx m x v v0 : MpqpThms.coherent q nu nx m -> length x = nx -> length v = nu -> length v0 = nu -> mv (q_Huu q) v0 = vneg (vadd (mv (q_Hux q) x) (q_fu q)) ->
  q_cost q x v = q_cost q x v0 + / 2 * dot (vsub v v0) (mv (q_Huu q) (vsub v v0)).
Proof.
  intros Hq Lx Lv L0 E0. rewrite !(q_cost_split q nu nx m) by assumption. pose proof Hq as (H1 & PD & H2 & _ & L1 & _). unfold qp_cost.
  assert (L4 : length (mv (q_Hux q) x) = nu) by (rewrite mv_length; apply H2). set (f := vadd (mv (q_Hux q) x) (q_fu q)) in *. assert (Lf : length f = nu) by (unfold f; rewrite vadd_length; lia).
  assert (LH : forall z, length (mv (q_Huu q) z) = nu) by (intros; rewrite mv_length; apply H1).
  rewrite (mv_vsub (q_Huu q) nu nu) by (auto; lia). rewrite dot_vsub_l, !dot_vsub_r by (rewrite ?vsub_length, ?LH; lia).
  rewrite (sym_dot (q_Huu q) nu v0 v H1 (proj1 PD) L0 Lv). rewrite E0. rewrite !dot_vneg_r. rewrite (dot_comm f v), (dot_comm f v0). lra.
Qed.
Definition far : R := (10 ^ 14 - 1) / 2.
Lemma far_tol d : 1 <= tol7 * tol7 * (1 + d) <-> far <= / 2 * d.
Proof. unfold far, tol7. split; intros; lra. Qed.
Lemma mpc_none np S N Q Rm P D X_N nx nu C x : exact_np np -> mpc_data S N Q Rm P D X_N nx nu -> ModelPredictiveController np S N Q Rm P D X_N = Ok C -> length x = nx ->
  exists us0 xs0, mpc_optimal (lA S) (lB S) Q Rm P nu N (fun _ => True) (fun _ => True) x us0 xs0 /\
   ((feedforward np C x = Ok (None, None) /\ feedback np C x = Ok None /\
     forall us xs, mpc_admissible (lA S) (lB S) nu N (in_poly D) (in_poly X_N) x us xs -> trajectory_cost Q Rm P us0 xs0 + far <= trajectory_cost Q Rm P us xs) \/
    (exists us xs, feedforward np C x = Ok (Some us, Some (trajectory_cost Q Rm P us xs)) /\ feedback np C x = Ok (Some (nth 0 us [])) /\
       mpc_optimal (lA S) (lB S) Q Rm P nu N (in_poly D) (in_poly X_N) x us xs /\
       trajectory_cost Q Rm P us xs < trajectory_cost Q Rm P us0 xs0 + far)).
Proof.
  intros Hnp HD E Lx. destruct (mpc_program np S N Q Rm P D X_N nx nu Hnp HD) as (q & m & E' & Hq & HC). rewrite E in E'. injection E' as ->.
  pose proof HD as ((SA & SB & HN & _) & _). pose proof Hq as (SH & PD & _).
  destruct (free_minimizer q (nu * N) nx m x Hq) as (v0 & L0 & E0). destruct (chunks nu N v0 ltac:(lia)) as (us0 & Lu0 & Fu0 & EC0).
  destruct (trajectory_exists (lA S) (lB S) nx nu x us0 SA SB Lx) as (xs0 & T0).
  assert (cl : forall us, length us = N -> Forall (fun v => length v = nu) us -> length (List.concat us) = (nu * N)%nat) by (intros us L F; rewrite (concat_length_const us nu F), L; lia).
  assert (inj : forall us us' : list vec, length us = N -> length us' = N -> Forall (fun v => length v = nu) us -> Forall (fun v => length v = nu) us' -> List.concat us = List.concat us' -> us = us').
  { intros us us' L L' F F' Ec. rewrite <- (split_concat nu us F), <- (split_concat nu us' F'), L, L', Ec. reflexivity. }
  assert (SQc : forall us xs, length us = N -> Forall (fun v => length v = nu) us -> is_trajectory (linear_step (lA S) (lB S)) x us xs ->
    trajectory_cost Q Rm P us xs = trajectory_cost Q Rm P us0 xs0 + / 2 * dot (vsub (List.concat us) v0) (mv (q_Huu q) (vsub (List.concat us) v0))).
  { intros us xs L F T. rewrite <- (proj1 (HC x us xs Lx L F T)), <- (proj1 (HC x us0 xs0 Lx Lu0 Fu0 T0)). rewrite EC0. apply (square_completion q (nu * N) nx m); auto. }
  exists us0, xs0. split.
  { split.
    - split; [exact Lu0|]. split; [exact Fu0|]. split; [exact T0|]. split; intros; exact I.
    - intros us xs (L & F & T & _). rewrite (SQc us xs L F T). assert (Ld : length (vsub (List.concat us) v0) = (nu * N)%nat) by (rewrite vsub_length, cl by assumption; lia).
      pose proof (pd_psd _ _ PD) as (_ & G). specialize (G _ Ld). split; [lra|]. intros EE. apply inj; auto. rewrite EC0. apply (vsub_zero_eq _ _ (nu * N)); auto.
      apply NNPP. intros NZ. pose proof (proj2 PD _ Ld NZ). lra. }
  destruct (mpqp_solve_ok np q (nu * N) nx m x v0 Hnp Hq Lx L0 E0) as (s & Es & [(-> & HF)|((v & Fv & Hv) & u & l & Ea & Em & Hu & _)]).
  - left. unfold feedback, feedforward. cbn [c_mpqp c_S c_N]. rewrite Es. cbn [bind sol_none s_min]. split; [reflexivity|]. split; [reflexivity|].
    intros us xs HA. pose proof HA as (L & F & T & _). apply (HC x us xs Lx L F T) in HA. rewrite (SQc us xs L F T). specialize (HF _ HA). apply far_tol in HF. lra.
  - right. assert (Lu : length u = (nu * N)%nat) by (rewrite (proj1 (proj1 Hu)); apply Hq). destruct (chunks nu N u ltac:(lia)) as (us & L & F & EC).
    destruct (trajectory_exists (lA S) (lB S) nx nu x us SA SB Lx) as (xs & T). destruct (HC x us xs Lx L F T) as (C1 & C2). rewrite EC in C1, C2.
    exists us, xs. assert (Ln : lnu S = nu) by apply SB.
    assert (EF : feedforward np (MPC S N q) x = Ok (Some us, Some (trajectory_cost Q Rm P us xs))).
    { unfold feedforward. cbn [c_mpqp c_S c_N]. rewrite Es. cbn [bind]. rewrite Em, Ea, C1, Ln. rewrite <- EC, <- L, (split_concat nu us F). reflexivity. }
    split; [exact EF|]. split.
    { unfold feedback. rewrite EF. cbn [bind fst first_input]. destruct us; [cbn in L; lia|reflexivity]. }
    assert (OPT : mpc_optimal (lA S) (lB S) Q Rm P nu N (in_poly D) (in_poly X_N) x us xs).
    { split; [apply C2, Hu|]. intros us' xs' HA. pose proof HA as (L' & F' & T' & _). destruct (HC x us' xs' Lx L' F' T') as (C1' & C2'). rewrite <- C1, <- C1'.
      destruct (proj2 Hu _ (proj2 C2' HA)) as (O1 & O2). split; [exact O1|]. intros EE. apply inj; auto. rewrite EC. apply O2. exact EE. }
    split; [exact OPT|]. assert (Lv : length v = (nu * N)%nat) by (rewrite (proj1 Fv); apply Hq). destruct (chunks nu N v ltac:(lia)) as (vs & Lvs & Fvs & Ev). destruct (trajectory_exists (lA S) (lB S) nx nu x vs SA SB Lx) as (ys & Ty).
    destruct (HC x vs ys Lx Lvs Fvs Ty) as (_ & D2). rewrite Ev in D2. pose proof (proj1 (proj2 OPT vs ys (proj1 D2 Fv))) as G. rewrite (SQc vs ys Lvs Fvs Ty), Ev in G.
    assert (~ far <= / 2 * dot (vsub v v0) (mv (q_Huu q) (vsub v v0))) by (intros G'; apply far_tol in G'; lra). lra.
Qed.

(** ** C39 *)
(*@ Theorem C39_feedforward_partial : Sets without equalities, Q and P positive semidefinite, R positive definite: the controller is built, and feedforward(x) returns N inputs whose trajectory is admissible and is the unique one of smallest cost, with V that cost, and feedback(x) the first input -- except that (None, None) is returned when no admissible sequence costs less than 5e13 above the unconstrained optimum.
   Missing: that exception is not part of the claim (see C39_far_refuted); sets with equalities (see C50_equalities_refuted). *)
Lemma feedforward_ok np S N Q Rm P D X_N nx nu : exact_np np -> mpc_data S N Q Rm P D X_N nx nu ->
  exists C, ModelPredictiveController np S N Q Rm P D X_N = Ok C /\ forall x, length x = nx ->
  exists us0 xs0, mpc_optimal (lA S) (lB S) Q Rm P nu N (fun _ => True) (fun _ => True) x us0 xs0 /\
   ((feedforward np C x = Ok (None, None) /\ feedback np C x = Ok None /\
     forall us xs, mpc_admissible (lA S) (lB S) nu N (in_poly D) (in_poly X_N) x us xs -> trajectory_cost Q Rm P us0 xs0 + (10 ^ 14 - 1) / 2 <= trajectory_cost Q Rm P us xs) \/
    (exists us xs, feedforward np C x = Ok (Some us, Some (trajectory_cost Q Rm P us xs)) /\ feedback np C x = Ok (Some (nth 0 us [])) /\
       mpc_optimal (lA S) (lB S) Q Rm P nu N (in_poly D) (in_poly X_N) x us xs /\
       trajectory_cost Q Rm P us xs < trajectory_cost Q Rm P us0 xs0 + (10 ^ 14 - 1) / 2)).
Proof.
  intros Hnp HD. destruct (mpc_program np S N Q Rm P D X_N nx nu Hnp HD) as (q & m & E & _). exists (MPC S N q). split; [exact E|]. intros x Lx.
  exact (mpc_none np S N Q Rm P D X_N nx nu _ x Hnp HD E Lx).
Qed.

(** scalar examples *)
Definition S_1 : lsys := LSys (Mat 1 [[1]]) (Mat 1 [[1]]) None.
Definition I_1 : mat := Mat 1 [[1]].
Definition D_box : poly := Poly (Mat 2 [[1; 0]; [-1; 0]; [0; 1]; [0; -1]]) [1; 1; 1; 1] (Mat 2 []) [] None None None None None.
Definition X_int : poly := Poly (Mat 1 [[1]; [-1]]) [1; 1] (Mat 1 []) [] None None None None None.
Lemma wf_D_box : wf D_box 4 0 2. Proof. unfold wf; simpl; repeat split; repeat constructor. Qed.
Lemma wf_X_int : wf X_int 2 0 1. Proof. unfold wf; simpl; repeat split; repeat constructor. Qed.
Ltac rows_ok := repeat (apply Forall2_cons; [cbn; lra|]); constructor.
Lemma in_D_box a b : in_poly D_box [a; b] <-> -1 <= a <= 1 /\ -1 <= b <= 1.
Proof.
  split.
  - intros (_ & H' & _). unfold ineq_holds in H'. cbn in H'. inv2 H'. lra.
  - intros H'. split; [reflexivity|]. split; [|constructor]. unfold ineq_holds. cbn [pA pb D_box rows]. rows_ok.
Qed.
Lemma in_X_int a : in_poly X_int [a] <-> -1 <= a <= 1.
Proof.
  split.
  - intros (_ & H' & _). unfold ineq_holds in H'. cbn in H'. inv2 H'. lra.
  - intros H'. split; [reflexivity|]. split; [|constructor]. unfold ineq_holds. cbn [pA pb X_int rows]. rows_ok.
Qed.
Lemma mpc_data_1 q r p D X : wf D (length (pb D)) 0 2 -> wf X (length (pb X)) 0 1 -> 0 <= q -> 0 < r -> 0 <= p -> mpc_data S_1 1 (Mat 1 [[q]]) (Mat 1 [[r]]) (Mat 1 [[p]]) D X 1 1.
Proof.
  intros WD WX Hq Hr Hp. split; [|split; [|split; [|split; [|split]]]].
  - unfold mpc_shapes. repeat match goal with |- _ /\ _ => split end; try apply scalar_shape; try lia; [exists (length (pb D)), 0%nat; exact WD|exists (length (pb X)), 0%nat; exact WX].
  - destruct WD as (_ & _ & _ & L). destruct (pd D); [reflexivity|discriminate].
  - destruct WX as (_ & _ & _ & L). destruct (pd X); [reflexivity|discriminate].
  - apply scalar_psd. exact Hq.
  - apply scalar_psd. exact Hp.
  - apply scalar_pd. exact Hr.
Qed.
Lemma one_step us xs a : length us = 1%nat -> Forall (fun v => length v = 1%nat) us -> is_trajectory (linear_step (lA S_1) (lB S_1)) [a] us xs ->
  exists u, us = [[u]] /\ xs = [[a]; [a + u]].
Proof.
  intros L F (Lx & H0 & HT). destruct us as [|v [|]]; try discriminate L. inversion F as [|? ? Lv _]; subst. destruct v as [|u [|]]; try discriminate Lv.
  destruct xs as [|x0 [|x1 [|]]]; try discriminate Lx. cbn in H0. subst x0. specialize (HT 0%nat ltac:(cbn; lia)). cbn in HT. subst x1. exists u. split; [reflexivity|]. do 2 f_equal. f_equal. ring.
Qed.
Lemma one_step_traj a u : is_trajectory (linear_step (lA S_1) (lB S_1)) [a] [[u]] [[a]; [a + u]].
Proof. split; [reflexivity|]. split; [reflexivity|]. intros [|t] Ht; cbn in Ht; [|lia]. cbn. f_equal. ring. Qed.
Lemma one_step_cost q r p a u : trajectory_cost (Mat 1 [[q]]) (Mat 1 [[r]]) (Mat 1 [[p]]) [[u]] [[a]; [a + u]] = / 2 * (q * a * a + r * u * u) + / 2 * (p * (a + u) * (a + u)).
Proof. unfold trajectory_cost. cbn. ring. Qed.
Lemma one_step_admissible D X a us xs : mpc_admissible (lA S_1) (lB S_1) 1 1 D X [a] us xs <-> exists u, us = [[u]] /\ xs = [[a]; [a + u]] /\ D [a; u] /\ X [a + u].
Proof.
  split.
  - intros (L & F & T & H1 & H2). destruct (one_step us xs a L F T) as (u & -> & ->). exists u. split; [reflexivity|]. split; [reflexivity|]. split; [apply (H1 0%nat); cbn; lia|exact H2].
  - intros (u & -> & -> & H1 & H2). split; [reflexivity|]. split; [repeat constructor|]. split; [apply one_step_traj|]. split; [|exact H2]. intros [|t] Ht; [exact H1|cbn in Ht; lia].
Qed.
(*@ Example C39_example : x+ = x + u with Q = R = P = 1, N = 1, |x| <= 1, |u| <= 1, |x(1)| <= 1: all hypotheses hold, and at x = 1 feedforward returns u = -1/2 and V = 3/4. *)
Lemma mpc_example np : exact_np np -> mpc_data S_1 1 I_1 I_1 I_1 D_box X_int 1 1 /\
  exists C, ModelPredictiveController np S_1 1 I_1 I_1 I_1 D_box X_int = Ok C /\
    feedforward np C [1] = Ok (Some [[- (1 / 2)]], Some (3 / 4)) /\ feedback np C [1] = Ok (Some [- (1 / 2)]).
Proof.
  intros Hnp. assert (HD : mpc_data S_1 1 I_1 I_1 I_1 D_box X_int 1 1) by (apply mpc_data_1; [exact wf_D_box|exact wf_X_int|lra|lra|lra]). split; [exact HD|].
  destruct (feedforward_ok np S_1 1 I_1 I_1 I_1 D_box X_int 1 1 Hnp HD) as (C & EC & HC). exists C. split; [exact EC|].
  assert (AD : mpc_admissible (lA S_1) (lB S_1) 1 1 (in_poly D_box) (in_poly X_int) [1] [[- (1 / 2)]] [[1]; [1 + - (1 / 2)]]).
  { apply one_step_admissible. eexists. split; [reflexivity|]. split; [reflexivity|]. split; [apply in_D_box; lra|apply in_X_int; lra]. }
  destruct (HC [1] eq_refl) as (us0 & xs0 & ((A0 & _) & [(_ & _ & HF)|(us & xs & EF & EB & (AO & HO) & _)])).
  - exfalso. apply one_step_admissible in A0. destruct A0 as (u0 & -> & -> & _). specialize (HF _ _ AD). unfold I_1 in HF. rewrite !one_step_cost in HF. nra.
  - specialize (HO _ _ AD). apply one_step_admissible in AO. destruct AO as (u & -> & -> & _). unfold I_1 in HO, EF. rewrite !one_step_cost in HO. rewrite one_step_cost in EF.
    assert (u = - (1 / 2)) by nra. subst u. split; [rewrite EF; do 3 f_equal; lra|rewrite EB; reflexivity].
Qed.
Definition D_far : poly := Poly (Mat 2 [[1; -1]]) [0] (Mat 2 []) [] None None None None None.
Definition X_all : poly := Poly (Mat 1 []) [] (Mat 1 []) [] None None None None None.
(*@ Theorem C39_far_refuted : x+ = x + u, Q = P = 0, R = 1, N = 1, D = {x <= u}: at x = 2e7 the input u = 2e7 is admissible, but feedforward returns (None, None). *)
Lemma mpc_far_refuted : exists S N Q Rm P D X_N x us xs, mpc_data S N Q Rm P D X_N 1 1 /\
  mpc_admissible (lA S) (lB S) 1 N (in_poly D) (in_poly X_N) x us xs /\
  forall np, exact_np np -> exists C, ModelPredictiveController np S N Q Rm P D X_N = Ok C /\ feedforward np C x = Ok (None, None).
Proof.
  exists S_1, 1%nat, (Mat 1 [[0]]), (Mat 1 [[1]]), (Mat 1 [[0]]), D_far, X_all, [20000000], [[20000000]], [[20000000]; [20000000 + 20000000]].
  assert (HD : mpc_data S_1 1 (Mat 1 [[0]]) (Mat 1 [[1]]) (Mat 1 [[0]]) D_far X_all 1 1).
  { apply mpc_data_1; try lra; unfold wf; simpl; repeat split; repeat constructor. }
  split; [exact HD|]. split.
  - apply one_step_admissible. eexists. split; [reflexivity|]. split; [reflexivity|]. split; (split; [reflexivity|]; split; [|constructor]).
    + unfold ineq_holds. cbn [pA pb D_far rows]. rows_ok.
    + constructor.
  - intros np Hnp. destruct (feedforward_ok np _ _ _ _ _ _ _ _ _ Hnp HD) as (C & EC & HC). exists C. split; [exact EC|].
    destruct (HC [20000000] eq_refl) as (us0 & xs0 & ((A0 & H0) & [(E & _)|(us & xs & _ & _ & (AO & _) & Hlt)])); [exact E|]. exfalso.
    assert (AZ : mpc_admissible (lA S_1) (lB S_1) 1 1 (fun _ => True) (fun _ => True) [20000000] [[0]] [[20000000]; [20000000 + 0]]) by (apply one_step_admissible; exists 0; auto).
    specialize (H0 _ _ AZ). apply one_step_admissible in A0. destruct A0 as (u0 & -> & -> & _). apply one_step_admissible in AO. destruct AO as (u & -> & -> & (_ & Hd & _) & _).
    unfold ineq_holds in Hd. cbn in Hd. inv2 Hd. rewrite !one_step_cost in *. nra.
Qed.

(** ** C50: equalities of the sets are not read *)
Definition without_equalities (p : poly) : poly := Poly (pA p) (pb p) (Mat (ncols (pA p)) []) [] None None None None None.
Lemma wf_without p m me n : wf p m me n -> wf (without_equalities p) m 0 n.
Proof. intros (W1 & W2 & _). split; [exact W1|]. split; [exact W2|]. split; [|reflexivity]. cbn. rewrite (proj1 (proj2 W1)). split; [reflexivity|]. split; [reflexivity|constructor]. Qed.
(*@ Theorem C50_equalities_ignored : The controller built from D and X_N is the controller built from their inequalities alone, whatever their equalities. *)
Lemma equalities_ignored np S N Q Rm P D X_N nx nu : mpc_shapes S N Q Rm P D X_N nx nu ->
  ModelPredictiveController np S N Q Rm P D X_N = ModelPredictiveController np S N Q Rm P (without_equalities D) (without_equalities X_N).
Proof.
  intros HS. pose proof HS as (SA & SB & HN & SQ & SP & SR & (m & me & WD) & (m' & me' & WX)).
  assert (HS' : mpc_shapes S N Q Rm P (without_equalities D) (without_equalities X_N) nx nu).
  { unfold mpc_shapes. do 6 (split; [assumption|]). split; [exists m, 0%nat; apply (wf_without _ _ me); exact WD|exists m', 0%nat; apply (wf_without _ _ me'); exact WX]. }
  unfold ModelPredictiveController. rewrite (proj1 (lin_condense np _ _ _ _ _ _ _ _ _ HS)), (proj1 (lin_condense np _ _ _ _ _ _ _ _ _ HS')).
  unfold condense_optimal_control_problem, pwa_condense. cbn [lin_pwa w_sys w_dom w_nx].
  rewrite (mapM_nth_error [D] (repeat 0%nat N) poly0), (mapM_nth_error [without_equalities D] (repeat 0%nat N) poly0) by (intros k Hk; apply repeat_spec in Hk; subst k; cbn; lia).
  assert (EM : forall T (f : poly -> T), f D = f (without_equalities D) -> map f (map (fun m => nth m [D] poly0) (repeat 0%nat N)) = map f (map (fun m => nth m [without_equalities D] poly0) (repeat 0%nat N))).
  { intros T f E. rewrite !map_map. apply map_ext_in. intros k Hk. apply repeat_spec in Hk. subst k. exact E. }
  destruct (condense_pwa_system _ _) as [[[A_bar B_bar] c_bar]|]; cbn [bind]; [|reflexivity].
  rewrite (EM _ (fun D => cols_to (pA D) nx) eq_refl), (EM _ (fun D => cols_from (pA D) nx) eq_refl), (EM _ pb eq_refl). reflexivity.
Qed.
Definition D_eq0 : poly := Poly (Mat 2 [[1; 0]; [-1; 0]; [0; 1]; [0; -1]]) [1; 1; 1; 1] (Mat 2 [[0; 1]]) [0] None None None None None.
(*@ Theorem C50_equalities_refuted : x+ = x + u, Q = R = P = 1, N = 1, D = {|x| <= 1, |u| <= 1, u = 0}: at x = 1, where u = 0 is admissible, feedforward returns u = -1/2, and (1, -1/2) is not in D. *)
Lemma equalities_refuted : exists S N Q Rm P D X_N x u, mpc_shapes S N Q Rm P D X_N 1 1 /\ psd Q 1 /\ psd P 1 /\ Spec.pd Rm 1 /\
  (exists us xs, mpc_admissible (lA S) (lB S) 1 N (in_poly D) (in_poly X_N) x us xs) /\
  forall np, exact_np np -> exists C V, ModelPredictiveController np S N Q Rm P D X_N = Ok C /\ feedforward np C x = Ok (Some [u], Some V) /\ ~ in_poly D (x ++ u).
Proof.
  exists S_1, 1%nat, I_1, I_1, I_1, D_eq0, X_int, [1], [- (1 / 2)].
  assert (HS : mpc_shapes S_1 1 I_1 I_1 I_1 D_eq0 X_int 1 1).
  { unfold mpc_shapes. repeat match goal with |- _ /\ _ => split end; try apply scalar_shape; try lia; [exists 4%nat, 1%nat|exists 2%nat, 0%nat; exact wf_X_int]. unfold wf; simpl; repeat split; repeat constructor. }
  split; [exact HS|]. split; [apply scalar_psd; lra|]. split; [apply scalar_psd; lra|]. split; [apply scalar_pd; lra|]. split.
  - exists [[0]], [[1]; [1 + 0]]. apply one_step_admissible. exists 0. split; [reflexivity|]. split; [reflexivity|]. split; [|apply in_X_int; lra].
    split; [reflexivity|]. split; [unfold ineq_holds; cbn [pA pb D_eq0 rows]; rows_ok|unfold eq_holds; cbn [pC pd D_eq0 rows]; rows_ok].
  - intros np Hnp. destruct (mpc_example np Hnp) as (_ & C & EC & EF & _). exists C, (3 / 4). split.
    + rewrite (equalities_ignored np _ _ _ _ _ _ _ _ _ HS). exact EC.
    + split; [exact EF|]. intros (_ & _ & H). unfold eq_holds in H. cbn in H. inv2 H. lra.
Qed.

(** ** C37, C38: examples and refutation *)
(*@ Example C38_example : The controller of C39_example is the mpQP of x+ = x + u with domain |x| <= 1, |u| <= 1 and the mode sequence (0): at x0 = 1 the input -1/2 satisfies its inequalities, the input 2 does not. *)
Lemma condensed_example np : exact_np np -> ocp_data (lin_pwa S_1 D_box 1 1) I_1 I_1 I_1 X_int [0%nat] 1 1 /\ tr I_1 = I_1 /\
  exists q, condense_optimal_control_problem np (lin_pwa S_1 D_box 1 1) I_1 I_1 I_1 X_int [0%nat] = Ok q /\
    mp_feasible (q_Au q) (q_Ax q) (q_b q) [1] [- (1 / 2)] /\ ~ mp_feasible (q_Au q) (q_Ax q) (q_b q) [1] [2] /\
    mp_cost (q_Huu q) (q_Hux q) (q_Hxx q) (q_fu q) (q_fx q) (q_g q) [1] [- (1 / 2)] = 3 / 4.
Proof.
  intros Hnp. assert (HD : mpc_data S_1 1 I_1 I_1 I_1 D_box X_int 1 1) by (apply mpc_data_1; [exact wf_D_box|exact wf_X_int|lra|lra|lra]).
  pose proof HD as (HS & _). destruct (lin_condense np _ _ _ _ _ _ _ _ _ HS) as (E & HO). split; [exact HO|]. split; [reflexivity|].
  destruct (mpc_program np _ _ _ _ _ _ _ _ _ Hnp HD) as (q & m & Eq & _ & HC). exists q. split.
  { unfold ModelPredictiveController in Eq. rewrite E in Eq. change (repeat 0%nat 1) with [0%nat] in Eq. destruct (condense_optimal_control_problem np (lin_pwa S_1 D_box 1 1) I_1 I_1 I_1 X_int [0%nat]) as [q'|]; cbn [bind] in Eq; [injection Eq as ->; reflexivity|discriminate]. }
  pose proof (fun u => HC [1] [[u]] [[1]; [1 + u]] eq_refl eq_refl ltac:(repeat constructor) (one_step_traj 1 u)) as G. cbn [List.concat app] in G. split; [|split].
  - apply (G (- (1 / 2))). apply one_step_admissible. exists (- (1 / 2)). split; [reflexivity|]. split; [reflexivity|]. split; [apply in_D_box; lra|apply in_X_int; lra].
  - intros F. apply (G 2) in F. apply one_step_admissible in F. destruct F as (u & Eu & _ & F & _). injection Eu as <-. apply in_D_box in F. lra.
  - etransitivity; [apply (G (- (1 / 2)))|]. unfold I_1. rewrite one_step_cost. lra.
Qed.
Definition S_asym : lsys := LSys (Mat 2 [[1; 0]; [0; 1]]) (Mat 1 [[1]; [0]]) None.
Definition P_asym : mat := Mat 2 [[0; 1]; [0; 0]].
Definition D_asym : poly := Poly (Mat 3 []) [] (Mat 3 []) [] None None None None None.
Definition X_asym : poly := Poly (Mat 2 []) [] (Mat 2 []) [] None None None None None.
(*@ Theorem C37_asymmetric_refuted : x+ = x + (u, 0), Q = 0, R = 1, P = [[0,1],[0,0]] (not symmetric), N = 1: the objective of the mpQP at x0 = (0,1), u = 1 is 3/2, the cost of the trajectory is 1. *)
Lemma asymmetric_refuted : exists W Q Rm P X_N modes x0 us xs, ocp_data W Q Rm P X_N modes 2 1 /\ switched W modes x0 us xs /\ length us = length modes /\
  trajectory_cost Q Rm P us xs = 1 /\
  forall np, exact_np np -> exists q, condense_optimal_control_problem np W Q Rm P X_N modes = Ok q /\
    mp_cost (q_Huu q) (q_Hux q) (q_Hxx q) (q_fu q) (q_fx q) (q_g q) x0 (List.concat us) = 3 / 2.
Proof.
  exists (lin_pwa S_asym D_asym 2 1), (Mat 2 [[0; 0]; [0; 0]]), (Mat 1 [[1]]), P_asym, X_asym, [0%nat], [0; 1], [[1]], [[0; 1]; [1; 1]].
  assert (HS : mpc_shapes S_asym 1 (Mat 2 [[0; 0]; [0; 0]]) (Mat 1 [[1]]) P_asym D_asym X_asym 2 1).
  { unfold mpc_shapes. repeat match goal with |- _ /\ _ => split end; try lia; [..|exists 0%nat, 0%nat|exists 0%nat, 0%nat]; unfold wf, shape; cbn; repeat split; repeat constructor. }
  pose proof (lin_condense np0 _ _ _ _ _ _ _ _ _ HS) as (_ & HO). split; [exact HO|]. split; [|split; [reflexivity|split]].
  - apply (lin_switched S_asym D_asym 2 1 1); [apply HS|apply HS|reflexivity|reflexivity|]. split; [reflexivity|]. split; [reflexivity|]. intros [|t] Ht; cbn in Ht; [|lia]. cbn. f_equal; [ring|f_equal; ring].
  - unfold trajectory_cost. cbn. lra.
  - intros np (_ & _ & _ & Hi & _).
    match goal with |- exists q, ?c = _ /\ _ => let c' := eval cbv -[Rplus Rmult Ropp Rminus Rinv IZR np_inv bind] in c in change c with c' end. cbn [bind].
    match goal with |- context [np_inv np (Mat 1 [[?a]])] => assert (Ha : a = 1) by ring; rewrite (inv_scalar_ok np a Hi) by lra end.
    cbn [bind]. eexists. split; [reflexivity|]. cbn [q_Huu q_Hux q_Hxx q_fu q_fx q_g]. unfold mp_cost. cbn. lra.
Qed.

(** ** C44-C46: closed loop *)
Definition stage_cost (Q Rm : mat) (x u : vec) : R := / 2 * (dot x (mv Q x) + dot u (mv Rm u)).
(** drop the first input, append the terminal controller *)
Lemma shift_admissible A B K nx nu N D XN x us xs : shape A nx nx -> shape B nx nu -> shape K nu nx -> (0 < N)%nat -> terminal_invariant A B K D XN -> length x = nx ->
  mpc_admissible A B nu N D XN x us xs ->
  let xN := nth N xs [] in
  let us' := tl us ++ [mv K xN] in
  let xs' := tl xs ++ [linear_step A B xN (mv K xN)] in
  mpc_admissible A B nu N D XN (linear_step A B x (nth 0 us [])) us' xs' /\
  forall Q Rm P, trajectory_cost Q Rm P us' xs' = trajectory_cost Q Rm P us xs - stage_cost Q Rm x (nth 0 us []) +
    (stage_cost Q Rm xN (mv K xN) + / 2 * dot (linear_step A B xN (mv K xN)) (mv P (linear_step A B xN (mv K xN))) - / 2 * dot xN (mv P xN)).
Proof.
  intros SA SB SK HN TI Lx (Lu & Fu & (Lxs & H0 & HT) & HD & HX). cbv zeta. destruct N as [|n]; [lia|]. clear HN.
  destruct us as [|u0 us]; [discriminate|]. destruct xs as [|x0 xs]; [discriminate|]. cbn [tl nth] in *. cbn [length] in *. assert (Ln : length us = n) by lia. assert (Lm : length xs = Datatypes.S n) by lia. subst x0.
  set (xN := nth n xs []). rewrite Ln in *. cbn [nth] in HX. fold xN in HX. pose proof (Forall_inv Fu) as Lu0. pose proof (Forall_inv_tail Fu) as Fu'. cbv beta in Lu0.
  destruct (TI _ HX) as (T1 & T2). assert (LK : length (mv K xN) = nu) by (rewrite mv_length; apply SK).
  set (uN := mv K xN) in *. set (xp := linear_step A B xN uN) in *.
  assert (A1 : forall t d, (t <= n)%nat -> nth t (xs ++ [xp]) d = nth t xs d) by (intros; apply app_nth1; lia).
  assert (A2 : forall d, nth (Datatypes.S n) (xs ++ [xp]) d = xp) by (intros; rewrite app_nth2 by lia; rewrite Lm, Nat.sub_diag; reflexivity).
  assert (B1 : forall t d, (t < n)%nat -> nth t (us ++ [uN]) d = nth t us d) by (intros; apply app_nth1; lia).
  assert (B2 : forall d, nth n (us ++ [uN]) d = uN) by (intros; rewrite app_nth2 by lia; rewrite Ln, Nat.sub_diag; reflexivity).
  assert (Lp : length (us ++ [uN]) = Datatypes.S n) by (rewrite app_length; cbn; lia).
  split.
  - split; [exact Lp|]. split; [apply Forall_app; split; [exact Fu'|constructor; [exact LK|constructor]]|]. split.
    + split; [rewrite Lp, app_length, Lm; cbn; lia|]. split.
      * rewrite A1 by lia. exact (HT 0%nat ltac:(lia)).
      * rewrite Lp. intros t Ht. destruct (Nat.eq_dec t n) as [->|Nt].
        -- rewrite A2, B2, A1 by lia. reflexivity.
        -- rewrite !A1, B1 by lia. exact (HT (Datatypes.S t) ltac:(lia)).
    + unfold stage_constraints. rewrite Lp, A2. split; [|exact T2]. intros t Ht. rewrite A1 by lia. destruct (Nat.eq_dec t n) as [->|Nt].
      * rewrite B2. exact T1.
      * rewrite B1 by lia. exact (HD (Datatypes.S t) ltac:(lia)).
  - intros Q Rm P. unfold trajectory_cost. rewrite Lp, A2. cbn [length]. rewrite Ln. rewrite (sum_upto_first (fun t => / 2 * (dot (nth t (x :: xs) []) (mv Q (nth t (x :: xs) [])) + dot (nth t (u0 :: us) []) (mv Rm (nth t (u0 :: us) [])))) n). cbn [sum_upto nth]. rewrite A1, B2 by lia. fold xN. unfold stage_cost.
    rewrite (sum_upto_ext _ (fun t => / 2 * (dot (nth t xs []) (mv Q (nth t xs [])) + dot (nth t us []) (mv Rm (nth t us []))))) by (intros t Ht; rewrite A1, B1 by lia; reflexivity). ring.
Qed.
(** scipy returned a positive semidefinite solution of the Riccati equation and solve_dare the pair P, K *)
Definition lqr_pair (np : numpy) (S : lsys) (Q Rm P K : mat) (nx nu : nat) : Prop :=
  (0 < nx)%nat /\ l_controllable S = None /\
  riccati (lA S) (lB S) Q Rm (np_dare np (lA S) (lB S) Q Rm) nx nu /\ psd (np_dare np (lA S) (lB S) Q Rm) nx /\
  fst (solve_dare np S Q Rm) = Ok (P, K).
Lemma lqr_identity np S Q Rm P K nx nu : exact_np np -> shape (lA S) nx nx -> shape (lB S) nx nu -> shape Q nx nx -> shape Rm nu nu -> Spec.pd Rm nu -> lqr_pair np S Q Rm P K nx nu ->
  shape K nu nx /\ psd P nx /\ shape P nx nx /\ exists M, Spec.pd M nu /\ forall x u, length x = nx -> length u = nu ->
    stage_cost Q Rm x u + / 2 * dot (linear_step (lA S) (lB S) x u) (mv P (linear_step (lA S) (lB S) x u)) =
    / 2 * dot x (mv P x) + / 2 * dot (vsub u (mv K x)) (mv M (vsub u (mv K x))).
Proof.
  intros Hnp SA SB SQ SR PR (Hn & FC & RP & PP & E).
  destruct (dare_returns np Hnp S Q Rm nx nu SA SB SR Hn FC PR RP PP) as (_ & _ & H). destruct (H P K E) as (-> & Mi & SMi & M1 & M2 & EK). clear H.
  set (P := np_dare np (lA S) (lB S) Q Rm) in *.
  split; [rewrite EK; exact (K_shape (lA S) (lB S) Q Rm P nx nu SA SB RP Mi SMi)|]. split; [exact PP|]. split; [apply RP|].
  exists (madd (mm (mm (tr (lB S)) P) (lB S)) Rm). split; [exact (M_pd (lA S) (lB S) Q Rm P nx nu SB SR PR RP PP)|].
  intros x u Lx Lu. pose proof (dare_identity (lA S) (lB S) Q Rm P nx nu SA SB SQ SR PR RP PP Mi SMi M1 M2 x u Lx Lu) as G. rewrite EK. unfold stage_cost, linear_step. lra.
Qed.
Lemma lqr_telescope A B Q Rm P K M nx nu us x xs : shape A nx nx -> shape B nx nu -> length x = nx -> Forall (fun v => length v = nu) us -> is_trajectory (linear_step A B) x us xs ->
  (forall x u, length x = nx -> length u = nu ->
    stage_cost Q Rm x u + / 2 * dot (linear_step A B x u) (mv P (linear_step A B x u)) = / 2 * dot x (mv P x) + / 2 * dot (vsub u (mv K x)) (mv M (vsub u (mv K x)))) ->
  trajectory_cost Q Rm P us xs = / 2 * dot x (mv P x) + sum_upto (fun t => / 2 * dot (vsub (nth t us []) (mv K (nth t xs []))) (mv M (vsub (nth t us []) (mv K (nth t xs []))))) (length us).
Proof.
  intros SA SB Lx Fu Tr HI. pose proof (trajectory_lengths A B nx nu x us xs SA SB Lx Tr) as Fx. destruct Tr as (Lxs & H0 & HT). unfold trajectory_cost.
  assert (G : forall n, (n <= length us)%nat -> sum_upto (fun t => / 2 * (dot (nth t xs []) (mv Q (nth t xs [])) + dot (nth t us []) (mv Rm (nth t us [])))) n + / 2 * dot (nth n xs []) (mv P (nth n xs [])) =
    / 2 * dot x (mv P x) + sum_upto (fun t => / 2 * dot (vsub (nth t us []) (mv K (nth t xs []))) (mv M (vsub (nth t us []) (mv K (nth t xs []))))) n).
  { induction n as [|n IH]; intros Hn; cbn [sum_upto]; [rewrite H0; ring|]. specialize (IH ltac:(lia)). rewrite HT by lia.
    pose proof (HI (nth n xs []) (nth n us []) (Forall_len_nth xs nx n Fx ltac:(lia)) (Forall_len_nth us nu n Fu ltac:(lia))) as G. unfold stage_cost in G. lra. }
  apply G. lia.
Qed.
(** sets and controller of C44-C46 *)
Definition mpc_setup np S N Q Rm P D X_N K nx nu C : Prop :=
  exact_np np /\ mpc_data S N Q Rm P D X_N nx nu /\ ModelPredictiveController np S N Q Rm P D X_N = Ok C /\ shape K nu nx /\
  terminal_invariant (lA S) (lB S) K (in_poly D) (in_poly X_N).
Lemma feedback_optimal np S N Q Rm P D X_N nx nu C x u : exact_np np -> mpc_data S N Q Rm P D X_N nx nu -> ModelPredictiveController np S N Q Rm P D X_N = Ok C -> length x = nx ->
  feedback np C x = Ok (Some u) -> exists us xs, feedforward np C x = Ok (Some us, Some (trajectory_cost Q Rm P us xs)) /\ u = nth 0 us [] /\ length u = nu /\
    mpc_optimal (lA S) (lB S) Q Rm P nu N (in_poly D) (in_poly X_N) x us xs.
Proof.
  intros Hnp HD E Lx EF. destruct (mpc_none np S N Q Rm P D X_N nx nu C x Hnp HD E Lx) as (us0 & xs0 & _ & [(_ & E2 & _)|(us & xs & E1 & E2 & HO & _)]); [rewrite EF in E2; discriminate|].
  exists us, xs. rewrite EF in E2. injection E2 as ->. split; [exact E1|]. split; [reflexivity|]. split; [|exact HO]. apply Forall_len_nth; [apply HO|]. destruct HO as ((L & _) & _). destruct HD as ((_ & _ & HN & _) & _). lia.
Qed.
Lemma step_length A B nx nu x u : shape A nx nx -> shape B nx nu -> length (linear_step A B x u) = nx.
Proof. intros SA SB. unfold linear_step. rewrite vadd_length, !mv_length, (proj1 SA), (proj1 SB). lia. Qed.
(*@ Theorem C44_recursive_feasibility : If the terminal set is invariant and admissible under some gain K and feedback(x) returns u, the optimal control problem at A x + B u is feasible; hence it is feasible at every state of every run of the closed loop that starts at a feasible state. *)
Lemma recursive_feasibility np S N Q Rm P D X_N K nx nu C x : mpc_setup np S N Q Rm P D X_N K nx nu C -> length x = nx ->
  (forall u, feedback np C x = Ok (Some u) -> exists us xs, mpc_admissible (lA S) (lB S) nu N (in_poly D) (in_poly X_N) (linear_step (lA S) (lB S) x u) us xs) /\
  (forall U X, (exists us xs, mpc_admissible (lA S) (lB S) nu N (in_poly D) (in_poly X_N) x us xs) -> is_trajectory (linear_step (lA S) (lB S)) x U X ->
     (forall t, (t < length U)%nat -> feedback np C (nth t X []) = Ok (Some (nth t U []))) ->
     forall t, (t <= length U)%nat -> exists us xs, mpc_admissible (lA S) (lB S) nu N (in_poly D) (in_poly X_N) (nth t X []) us xs).
Proof.
  intros (Hnp & HD & E & SK & TI). pose proof HD as ((SA & SB & HN & _) & _).
  assert (ST : forall x u, length x = nx -> feedback np C x = Ok (Some u) -> exists us xs, mpc_admissible (lA S) (lB S) nu N (in_poly D) (in_poly X_N) (linear_step (lA S) (lB S) x u) us xs).
  { intros y u Ly EF. destruct (feedback_optimal np S N Q Rm P D X_N nx nu C y u Hnp HD E Ly EF) as (us & xs & _ & -> & _ & (HA & _)).
    destruct (shift_admissible (lA S) (lB S) K nx nu N _ _ y us xs SA SB SK HN TI Ly HA) as (G & _). eauto. }
  intros Lx. split; [intros u; apply ST; exact Lx|]. intros U X F0 Tr HF t Ht. pose proof (trajectory_lengths _ _ nx nu _ _ _ SA SB Lx Tr) as FX. destruct Tr as (LX & H0 & HT).
  destruct t as [|t]; [rewrite H0; exact F0|]. rewrite HT by lia. apply ST; [apply Forall_len_nth; [exact FX|lia]|apply HF; lia].
Qed.
(*@ Theorem C45_decrease : With terminal cost P and gain K of solve_dare and an invariant terminal set, the value returned at the next state is at most the value returned at x minus the stage cost; and whenever the value is below 5e13, feedforward does return a solution at the next state. *)
Lemma cost_decrease np S N Q Rm P D X_N K nx nu C x us V : mpc_setup np S N Q Rm P D X_N K nx nu C -> lqr_pair np S Q Rm P K nx nu -> length x = nx ->
  feedforward np C x = Ok (Some us, Some V) ->
  let u := nth 0 us [] in
  let x' := linear_step (lA S) (lB S) x u in
  let stage := / 2 * (dot x (mv Q x) + dot u (mv Rm u)) in
  0 <= stage /\ 0 <= V /\ feedback np C x = Ok (Some u) /\
  (forall us' V', feedforward np C x' = Ok (Some us', Some V') -> V' <= V - stage) /\
  (V < (10 ^ 14 - 1) / 2 -> exists us' V', feedforward np C x' = Ok (Some us', Some V')).
Proof.
  intros (Hnp & HD & E & SK & TI) HL Lx EF u x' stage. pose proof HD as ((SA & SB & HN & SQ & SP & SR & _) & _ & _ & PQ & PP & PR).
  destruct (lqr_identity np S Q Rm P K nx nu Hnp SA SB SQ SR PR HL) as (_ & _ & _ & M & PM & HI).
  destruct (mpc_none np S N Q Rm P D X_N nx nu C x Hnp HD E Lx) as (us0 & xs0 & _ & [(E1 & _)|(us1 & xs & E1 & E2 & (HA & HO) & _)]); [rewrite EF in E1; discriminate|].
  rewrite EF in E1. injection E1 as <- ->. fold u in E2. assert (Lx' : length x' = nx) by (apply (step_length _ _ nx nu); assumption).
  pose proof HA as (Lu & Fu & Tr & _). assert (Lu0 : length u = nu) by (apply Forall_len_nth; [exact Fu|lia]).
  assert (cost_nonneg : forall y vs ys, length y = nx -> length vs = N -> Forall (fun v => length v = nu) vs -> is_trajectory (linear_step (lA S) (lB S)) y vs ys -> 0 <= trajectory_cost Q Rm P vs ys).
  { intros y vs ys Ly Lv Fv Ty. pose proof (trajectory_lengths _ _ nx nu _ _ _ SA SB Ly Ty) as Fy. assert (Lys : length ys = Datatypes.S (length vs)) by apply Ty. unfold trajectory_cost.
    assert (0 <= sum_upto (fun t => / 2 * (dot (nth t ys []) (mv Q (nth t ys [])) + dot (nth t vs []) (mv Rm (nth t vs [])))) (length vs)).
    { apply sum_upto_nonneg. intros t Ht. pose proof (proj2 PQ (nth t ys []) ltac:(apply Forall_len_nth; [exact Fy|lia])). pose proof (proj2 (pd_psd _ _ PR) (nth t vs []) ltac:(apply Forall_len_nth; [exact Fv|lia])). lra. }
    pose proof (proj2 PP (nth (length vs) ys []) ltac:(apply Forall_len_nth; [exact Fy|lia])). lra. }
  destruct (shift_admissible (lA S) (lB S) K nx nu N _ _ x us xs SA SB SK HN TI Lx HA) as (G & HC). fold u in G, HC. fold x' in G. set (xN := nth N xs []) in *.
  specialize (HC Q Rm P). assert (LN : length xN = nx) by (apply Forall_len_nth; [apply (trajectory_lengths _ _ nx nu _ _ _ SA SB Lx Tr)|rewrite (proj1 Tr), Lu; lia]).
  assert (LK : length (mv K xN) = nu) by (rewrite mv_length; apply SK).
  assert (Z : vsub (mv K xN) (mv K xN) = zeros nu). { apply (nth_ext _ _ 0 0); [rewrite vsub_length, zeros_length; lia|]. intros i Hi. rewrite nth_vsub by lia. rewrite nth_zeros. ring. }
  pose proof (HI xN (mv K xN) LN LK) as HI'. rewrite Z in HI'. rewrite dot_zeros_l in HI'.
  set (us1 := tl us ++ [mv K xN]) in *. set (xs1 := tl xs ++ [linear_step (lA S) (lB S) xN (mv K xN)]) in *.
  assert (HC' : trajectory_cost Q Rm P us1 xs1 = trajectory_cost Q Rm P us xs - stage) by (rewrite HC; change (stage_cost Q Rm x u) with stage; lra).
  split. { unfold stage. pose proof (proj2 PQ x Lx). pose proof (proj2 (pd_psd _ _ PR) u Lu0). lra. }
  split; [apply (cost_nonneg x); auto|]. split; [exact E2|]. split.
  - intros us' V' EF'. destruct (mpc_none np S N Q Rm P D X_N nx nu C x' Hnp HD E Lx') as (us2 & xs2 & _ & [(E3 & _)|(us3 & xs3 & E3 & _ & (_ & HO3) & _)]); [rewrite EF' in E3; discriminate|].
    rewrite EF' in E3. injection E3 as _ ->. rewrite <- HC'. apply HO3. exact G.
  - intros Hlt. destruct (mpc_none np S N Q Rm P D X_N nx nu C x' Hnp HD E Lx') as (us2 & xs2 & (A2 & _) & [(_ & _ & HF)|(us3 & xs3 & E3 & _)]); [exfalso|eauto].
    specialize (HF _ _ G). pose proof A2 as (L2 & F2 & T2 & _). pose proof (cost_nonneg x' us2 xs2 Lx' L2 F2 T2).
    assert (0 <= stage) by (unfold stage; pose proof (proj2 PQ x Lx); pose proof (proj2 (pd_psd _ _ PR) u Lu0); lra). unfold far in HF. lra.
Qed.

Lemma summable_terms f V : (forall t, 0 <= f t) -> (forall T, sum_upto f T <= V) -> forall eps, 0 < eps -> exists T, forall t, (T <= t)%nat -> f t < eps.
Proof.
  intros Hf HV eps He. destruct (growing_cv (sum_upto f)) as (l & Hl).
  - intros n. cbn [sum_upto]. specialize (Hf n). lra.
  - exists V. intros y (n & ->). apply HV.
  - destruct (Hl (eps / 2) ltac:(lra)) as (T & HT). exists T. intros t Ht. pose proof (HT t ltac:(lia)) as G1. pose proof (HT (S t) ltac:(lia)) as G2. unfold R_dist in *. cbn [sum_upto] in G2.
    apply Rabs_def2 in G1. apply Rabs_def2 in G2. lra.
Qed.
(** the closed loop, as long as feedback returns an input *)
Definition next_state np (C : mpc) (A B : mat) (x : vec) : vec := match feedback np C x with Ok (Some u) => linear_step A B x u | _ => x end.
Definition input_at np (C : mpc) (x : vec) : vec := match feedback np C x with Ok (Some u) => u | _ => [] end.
Fixpoint loop_state np (C : mpc) (A B : mat) (x : vec) (t : nat) : vec := match t with O => x | S t' => next_state np C A B (loop_state np C A B x t') end.
(*@ Theorem C58_closed_loop : With P, K of solve_dare and an invariant terminal set, from every state where the returned value V is below 5e13 the closed loop runs forever without failing, all its pairs (x(t), u(t)) are in D, the values decrease by at least the stage costs, the stage costs sum up to at most V, and, if Q is positive definite, x(t) converges to the origin. *)
Lemma closed_loop np S N Q Rm P D X_N K nx nu C x us V : mpc_setup np S N Q Rm P D X_N K nx nu C -> lqr_pair np S Q Rm P K nx nu -> length x = nx ->
  feedforward np C x = Ok (Some us, Some V) -> V < (10 ^ 14 - 1) / 2 ->
  exists X U : nat -> vec, X 0%nat = x /\
    (forall t, feedback np C (X t) = Ok (Some (U t)) /\ X (Datatypes.S t) = linear_step (lA S) (lB S) (X t) (U t) /\ in_poly D (X t ++ U t)) /\
    (forall T, exists us' V', feedforward np C (X T) = Ok (Some us', Some V') /\ 0 <= V' /\
       V' + sum_upto (fun t => / 2 * (dot (X t) (mv Q (X t)) + dot (U t) (mv Rm (U t)))) T <= V) /\
    (Spec.pd Q nx -> forall eps, 0 < eps -> exists T, forall t, (T <= t)%nat -> norm (X t) < eps).
Proof.
  intros HS HL Lx EF HV. pose proof HS as (Hnp & HD & E & SK & TI). pose proof HD as ((SA & SB & HN & SQ & _) & _ & _ & _ & _ & PR).
  set (X := loop_state np C (lA S) (lB S) x). set (U := fun t => input_at np C (X t)).
  set (f := fun t => / 2 * (dot (X t) (mv Q (X t)) + dot (U t) (mv Rm (U t)))).
  assert (INV : forall T, length (X T) = nx /\ (forall t, (t < T)%nat -> 0 <= f t) /\ exists us' V', feedforward np C (X T) = Ok (Some us', Some V') /\ 0 <= V' /\ V' + sum_upto f T <= V /\ V' <= V /\
     feedback np C (X T) = Ok (Some (U T)) /\ 0 <= f T).
  { assert (G : forall T us' V', length (X T) = nx -> feedforward np C (X T) = Ok (Some us', Some V') -> feedback np C (X T) = Ok (Some (U T)) /\ U T = nth 0 us' [] /\ 0 <= f T /\ 0 <= V').
    { intros T us' V' LT ET. destruct (cost_decrease np S N Q Rm P D X_N K nx nu C (X T) us' V' HS HL LT ET) as (H1 & H2 & H3 & _).
      assert (EU : U T = nth 0 us' []) by (unfold U, input_at; rewrite H3; reflexivity). unfold f. rewrite EU. auto. }
    induction T as [|T (LT & P0 & us' & V' & ET & H0 & H1 & H2 & H3 & H4)].
    - split; [exact Lx|]. split; [intros; lia|]. exists us, V. destruct (G 0%nat us V Lx EF) as (G1 & G2 & G3 & G4). cbn [sum_upto]. split; [exact EF|]. split; [exact G4|]. split; [lra|]. split; [lra|]. auto.
    - destruct (cost_decrease np S N Q Rm P D X_N K nx nu C (X T) us' V' HS HL LT ET) as (C1 & C2 & C3 & C4 & C5). destruct (G T us' V' LT ET) as (_ & EU & _). rewrite <- EU in C1, C3, C4, C5.
      assert (EX : X (Datatypes.S T) = linear_step (lA S) (lB S) (X T) (U T)) by (unfold X at 1; cbn [loop_state]; fold X; unfold next_state; change (loop_state np C (lA S) (lB S) x T) with (X T); rewrite C3; reflexivity).
      assert (LT' : length (X (Datatypes.S T)) = nx) by (rewrite EX; apply (step_length _ _ nx nu); assumption).
      destruct (C5 ltac:(lra)) as (us2 & V2 & E2). specialize (C4 us2 V2 E2). rewrite <- EX in E2. destruct (G (Datatypes.S T) us2 V2 LT' E2) as (G1 & G2 & G3 & G4).
      split; [exact LT'|]. split. { intros t Ht. destruct (Nat.eq_dec t T) as [->|]; [exact H4|apply P0; lia]. }
      exists us2, V2. split; [exact E2|]. split; [exact G4|]. cbn [sum_upto]. fold (f T) in C4. split; [lra|]. split; [lra|]. auto. }
  exists X, U. split; [reflexivity|]. split; [|split].
  - intros t. destruct (INV t) as (LT & _ & us' & V' & ET & _ & _ & _ & H3 & _). split; [exact H3|]. split.
    + unfold X at 1. cbn [loop_state]. unfold next_state. change (loop_state np C (lA S) (lB S) x t) with (X t). rewrite H3. reflexivity.
    + destruct (feedback_optimal np S N Q Rm P D X_N nx nu C (X t) (U t) Hnp HD E LT H3) as (us2 & xs2 & _ & -> & _ & (HA & _)). destruct HA as (Lu & _ & (_ & H0 & _) & HDs & _). rewrite <- H0 at 1. apply HDs. lia.
  - intros T. destruct (INV T) as (_ & _ & us' & V' & ET & H0 & H1 & _). exists us', V'. auto.
  - intros PQ eps He. destruct (form_domination np Hnp (eye nx) Q nx (shape_eye nx) SQ PQ) as (c & Hc & HcQ).
    assert (Hf : forall t, 0 <= f t) by (intros t; destruct (INV t) as (_ & _ & us' & V' & _ & _ & _ & _ & _ & G); exact G). assert (HVf : forall T, sum_upto f T <= V) by (intros T; destruct (INV T) as (_ & _ & us' & V' & _ & H0 & H1 & _); lra).
    destruct (summable_terms f V Hf HVf (eps * eps / (2 * (c + 1)))) as (T & HT). { apply Rdiv_lt_0_compat; nra. }
    exists T. intros t Ht. specialize (HT t Ht). destruct (INV t) as (LT & _ & us' & V' & ET & _ & _ & _ & H3 & _).
    destruct (feedback_optimal np S N Q Rm P D X_N nx nu C (X t) (U t) Hnp HD E LT H3) as (_ & _ & _ & _ & LU & _).
    pose proof (HcQ (X t) LT) as G. rewrite (mv_eye nx) in G by exact LT. pose proof (proj2 (pd_psd _ _ PR) (U t) LU) as GU. unfold f in HT.
    assert (GD : dot (X t) (X t) < eps * eps).
    { assert (Q1 : dot (X t) (mv Q (X t)) < eps * eps / (c + 1)). { replace (eps * eps / (c + 1)) with (2 * (eps * eps / (2 * (c + 1)))) by (field; lra). lra. }
      pose proof (proj2 (pd_psd _ _ PQ) (X t) LT) as Q0. assert (Q2 : (c + 1) * (eps * eps / (c + 1)) = eps * eps) by (field; lra). nra. }
    unfold norm. rewrite <- (sqrt_square eps) by lra. apply sqrt_lt_1_alt. split; [apply dot_self_nonneg|exact GD].
Qed.
(*@ Theorem C46_lqr_bound : With P, K of solve_dare every value returned by feedforward is at least 1/2 x'P x; and at every x whose N-step trajectory under u = K x is admissible (in particular in an invariant terminal set) feedforward returns exactly that input sequence with V = 1/2 x'P x. *)
Lemma mpc_lqr np S N Q Rm P D X_N K nx nu C x : exact_np np -> mpc_data S N Q Rm P D X_N nx nu -> ModelPredictiveController np S N Q Rm P D X_N = Ok C ->
  lqr_pair np S Q Rm P K nx nu -> length x = nx ->
  (forall us V, feedforward np C x = Ok (Some us, Some V) -> / 2 * dot x (mv P x) <= V) /\
  (forall us xs, mpc_admissible (lA S) (lB S) nu N (in_poly D) (in_poly X_N) x us xs -> (forall t, (t < N)%nat -> nth t us [] = mv K (nth t xs [])) ->
     feedforward np C x = Ok (Some us, Some (/ 2 * dot x (mv P x))) /\ feedback np C x = Ok (Some (mv K x))) /\
  (terminal_invariant (lA S) (lB S) K (in_poly D) (in_poly X_N) -> in_poly X_N x -> exists us xs, mpc_admissible (lA S) (lB S) nu N (in_poly D) (in_poly X_N) x us xs /\
     forall t, (t < N)%nat -> nth t us [] = mv K (nth t xs [])).
Proof.
  intros Hnp HD E HL Lx. pose proof HD as ((SA & SB & HN & SQ & SP & SR & _) & _ & _ & PQ & PP & PR).
  destruct (lqr_identity np S Q Rm P K nx nu Hnp SA SB SQ SR PR HL) as (SK & _ & _ & M & PM & HI).
  assert (LB : forall us xs, length us = N -> Forall (fun v => length v = nu) us -> is_trajectory (linear_step (lA S) (lB S)) x us xs ->
    / 2 * dot x (mv P x) <= trajectory_cost Q Rm P us xs).
  { intros us xs L F T. rewrite (lqr_telescope (lA S) (lB S) Q Rm P K M nx nu us x xs SA SB Lx F T HI).
    assert (0 <= sum_upto (fun t => / 2 * dot (vsub (nth t us []) (mv K (nth t xs []))) (mv M (vsub (nth t us []) (mv K (nth t xs []))))) (length us)); [|lra].
    apply sum_upto_nonneg. intros t Ht. assert (LD : length (vsub (nth t us []) (mv K (nth t xs []))) = nu) by (rewrite vsub_length, mv_length, (proj1 SK), (Forall_len_nth us nu) by auto; lia).
    pose proof (proj2 (pd_psd _ _ PM) _ LD). lra. }
  assert (EQ : forall us xs, length us = N -> Forall (fun v => length v = nu) us -> is_trajectory (linear_step (lA S) (lB S)) x us xs -> (forall t, (t < N)%nat -> nth t us [] = mv K (nth t xs [])) ->
    trajectory_cost Q Rm P us xs = / 2 * dot x (mv P x)).
  { intros us xs L F T HK. rewrite (lqr_telescope (lA S) (lB S) Q Rm P K M nx nu us x xs SA SB Lx F T HI). rewrite (sum_upto_ext _ (fun _ => 0)).
    - assert (Z : forall n, sum_upto (fun _ => 0) n = 0) by (induction n as [|n IH]; cbn [sum_upto]; lra). rewrite Z. ring.
    - intros t Ht. rewrite HK by lia. assert (LK : length (mv K (nth t xs [])) = nu) by (rewrite mv_length; apply SK).
      replace (vsub (mv K (nth t xs [])) (mv K (nth t xs []))) with (zeros nu); [rewrite dot_zeros_l; ring|]. apply (nth_ext _ _ 0 0); [rewrite vsub_length, zeros_length; lia|].
      intros i Hi. rewrite zeros_length in Hi. rewrite nth_vsub by lia. rewrite nth_zeros. ring. }
  destruct (mpc_none np S N Q Rm P D X_N nx nu C x Hnp HD E Lx) as (us0 & xs0 & (A0 & _) & HC). split; [|split].
  - intros us V EF. destruct HC as [(E1 & _)|(us1 & xs & E1 & _ & (HA & _) & _)]; [rewrite EF in E1; discriminate|]. rewrite EF in E1. injection E1 as <- ->. destruct HA as (L & F & T & _). apply LB; auto.
  - intros us xs HA HK. pose proof HA as (L & F & T & _). pose proof (EQ us xs L F T HK) as EC. destruct HC as [(_ & _ & HF)|(us1 & xs1 & E1 & E2 & (HA1 & HO) & _)].
    + exfalso. specialize (HF us xs HA). destruct A0 as (L0 & F0 & T0 & _). pose proof (LB us0 xs0 L0 F0 T0). unfold far in HF. lra.
    + destruct (HO us xs HA) as (O1 & O2). pose proof HA1 as (L1 & F1 & T1 & _). pose proof (LB us1 xs1 L1 F1 T1). assert (ES : us = us1) by (apply O2; lra). subst us1.
      rewrite (trajectory_unique _ _ _ _ _ _ T1 T) in E1. rewrite EC in E1. split; [exact E1|]. rewrite E2, HK by lia. rewrite (proj1 (proj2 T)). reflexivity.
  - intros TI HX. set (Y := fix Y t := match t with O => x | Datatypes.S t' => linear_step (lA S) (lB S) (Y t') (mv K (Y t')) end).
    assert (YX : forall t, in_poly X_N (Y t)) by (induction t as [|t IH]; [exact HX|exact (proj2 (TI _ IH))]).
    exists (map (fun t => mv K (Y t)) (seq 0 N)), (map Y (seq 0 (Datatypes.S N))).
    assert (nU : forall t, (t < N)%nat -> nth t (map (fun t => mv K (Y t)) (seq 0 N)) [] = mv K (Y t)) by (intros t Ht; apply (nth_map_seq (fun t => mv K (Y t))); exact Ht).
    assert (nX : forall t, (t < Datatypes.S N)%nat -> nth t (map Y (seq 0 (Datatypes.S N))) [] = Y t) by (intros t Ht; apply (nth_map_seq Y); exact Ht).
    assert (LU : length (map (fun t => mv K (Y t)) (seq 0 N)) = N) by (rewrite map_length, seq_length; reflexivity).
    split.
    + split; [exact LU|]. split; [apply Forall_forall; intros v Hv; apply in_map_iff in Hv; destruct Hv as (t & <- & _); rewrite mv_length; apply SK|]. split.
      * split; [rewrite LU, map_length, seq_length; reflexivity|]. split; [rewrite nX by lia; reflexivity|]. rewrite LU. intros t Ht. rewrite !nX, nU by lia. reflexivity.
      * split; rewrite LU; [intros t Ht; rewrite nX, nU by lia; apply TI, YX|rewrite nX by lia; apply YX].
    + intros t Ht. rewrite nU, nX by lia. reflexivity.
Qed.

(*@ Theorem C44_mcais_terminal_partial : The set O returned by LinearSystem.mcais(K, D) (D given by inequalities) is admissible and invariant under u = K x, so it is a terminal set as required by C44_recursive_feasibility, provided no redundancy of the accumulated inequalities is decided by less than the solver tolerance 1e-7.
   Missing: redundancies within the tolerance, in which case O is larger than the invariant set. *)
Lemma mcais_terminal np fuel S K D nx nu m O : exact_np np ->
  shape (lA S) nx nx -> shape (lB S) nx nu -> shape K nu nx -> wf D m 0 (nx + nu) -> (0 < m)%nat -> (0 < nx)%nat -> np_eig_max np (A_closed S K) <= 1 ->
  in_poly D (zeros (nx + nu)) -> bounded_set (fun x => in_poly D (x ++ mv K x) /\ length x = nx) -> lin_mcais np fuel S K D = Ok O ->
  exists O1 mO, wf O1 mO 0 nx /\
    (forall x, length x = nx -> (in_poly O1 x <-> forall t, in_poly D (flow (A_closed S K) t x ++ mv K (flow (A_closed S K) t x)))) /\
    (redundancy_gap O1 mO tol7 -> terminal_invariant (lA S) (lB S) K (in_poly D) (in_poly O)).
Proof.
  intros Hnp SA SB SK WD Hm Hn He H0 HB E. destruct (linear_mcais np fuel S K D nx nu m O Hnp SA SB SK WD Hm Hn He H0 HB E) as (O1 & mO & mf & WO & HO & P1 & P2 & _ & _ & G).
  exists O1, mO. split; [exact WO|]. split; [exact HO|]. intros GAP. specialize (G GAP). intros x Hx.
  assert (Lx : length x = nx). { destruct Hx as (L & _). rewrite L, P1. unfold mtake. cbn [ncols]. apply WO. }
  assert (EX : linear_step (lA S) (lB S) x (mv K x) = mv (A_closed S K) x).
  { unfold linear_step, A_closed. assert (SBK : shape (mm (lB S) K) nx nx) by eauto with shp. rewrite (mv_madd _ _ nx nx) by auto. rewrite (mv_mm _ K nu nx) by auto. reflexivity. }
  pose proof (proj1 (G x Lx) Hx) as T. split; [exact (T 0%nat)|]. rewrite EX. apply G.
  - rewrite <- EX. apply (step_length _ _ nx nu); assumption.
  - intros t. rewrite <- flow_S. apply T.
Qed.
(*@ Example C44_example : x+ = x + u with Q = 1, R = 2, P = 2 and K = -1/2 from solve_dare, |x| <= 1, |u| <= 1 and terminal set |x| <= 1: all hypotheses of C44, C45, C46 and C58 hold, and at x = 1 feedforward returns u = -1/2 and V = 1 = 1/2 x'P x. *)
Lemma closed_loop_example : let np := np_dare_const (Mat 1 [[2]]) in exists C,
  mpc_setup np S_1 1 (Mat 1 [[1]]) (Mat 1 [[2]]) (Mat 1 [[2]]) D_box X_int (Mat 1 [[- (1 / 2)]]) 1 1 C /\
  lqr_pair np S_1 (Mat 1 [[1]]) (Mat 1 [[2]]) (Mat 1 [[2]]) (Mat 1 [[- (1 / 2)]]) 1 1 /\ Spec.pd (Mat 1 [[1]]) 1 /\
  feedforward np C [1] = Ok (Some [[- (1 / 2)]], Some 1) /\ 1 < (10 ^ 14 - 1) / 2.
Proof.
  intros np. destruct dare_example as (Hnp & RP & PP & PQ & PR & ST & ED).
  assert (HD : mpc_data S_1 1 (Mat 1 [[1]]) (Mat 1 [[2]]) (Mat 1 [[2]]) D_box X_int 1 1) by (apply mpc_data_1; [exact wf_D_box|exact wf_X_int|lra|lra|lra]).
  destruct (mpc_program np _ _ _ _ _ _ _ _ _ Hnp HD) as (q & m & E & _). exists (MPC S_1 1 q).
  assert (TI : terminal_invariant (lA S_1) (lB S_1) (Mat 1 [[- (1 / 2)]]) (in_poly D_box) (in_poly X_int)).
  { intros x Hx. pose proof (proj1 Hx) as Lx. cbn in Lx. destruct x as [|a [|]]; try discriminate Lx. apply in_X_int in Hx. split.
    - cbn. apply in_D_box. lra.
    - cbn. apply in_X_int. lra. }
  assert (HL : lqr_pair np S_1 (Mat 1 [[1]]) (Mat 1 [[2]]) (Mat 1 [[2]]) (Mat 1 [[- (1 / 2)]]) 1 1) by (split; [lia|]; split; [reflexivity|]; split; [exact RP|]; split; [exact PP|exact ED]).
  split; [split; [exact Hnp|]; split; [exact HD|]; split; [exact E|]; split; [apply scalar_shape|exact TI]|]. split; [exact HL|]. split; [exact PQ|]. split; [|lra].
  destruct (mpc_lqr np _ _ _ _ _ _ _ _ _ _ _ [1] Hnp HD E HL eq_refl) as (_ & G & _).
  destruct (G [[- (1 / 2)]] [[1]; [1 + - (1 / 2)]]) as (G1 & _).
  - apply one_step_admissible. eexists. split; [reflexivity|]. split; [reflexivity|]. split; [apply in_D_box; lra|apply in_X_int; lra].
  - intros [|t] Ht; [|lia]. cbn. f_equal. lra.
  - rewrite G1. do 3 f_equal. cbn. lra.
Qed.

(** ** The explicit controller *)
Lemma mpc_constructed np S N Q Rm P D X_N nx nu C : mpc_data S N Q Rm P D X_N nx nu -> ModelPredictiveController np S N Q Rm P D X_N = Ok C ->
  let q := c_mpqp C in MultiParametricQuadraticProgram np (q_Huu q) (q_Hux q) (q_Hxx q) (q_fu q) (q_fx q) (q_g q) (q_Au q) (q_Ax q) (q_b q) = Ok q.
Proof.
  intros (HS & _) E. destruct (lin_condense np _ _ _ _ _ _ _ _ _ HS) as (E1 & HO). destruct (condensed_program np _ _ _ _ _ _ _ _ HO) as (Huu & Hux & Hxx & fu & fx & g & Au & Ax & b & m & E2 & _).
  unfold ModelPredictiveController in E. rewrite E1, E2 in E. unfold MultiParametricQuadraticProgram in *. destruct (np_inv np Huu) as [Hi|] eqn:EI; cbn [bind] in E; [|discriminate]. injection E as <-.
  cbn [c_mpqp q_Huu q_Hux q_Hxx q_fu q_fx q_g q_Au q_Ax q_b]. rewrite EI. reflexivity.
Qed.
(*@ Theorem C59_explicit_mpc : feedforward_explicit and feedback_explicit raise ValueError before store_explicit_solution; afterwards, where the region found by the lookup contains x, they return the unique optimal input sequence with its cost, and its first input; where no region is found they return (None, None) and None. *)
Lemma explicit_mpc np S N Q Rm P D X_N nx nu C fuel step crs x : exact_np np -> mpc_data S N Q Rm P D X_N nx nu -> ModelPredictiveController np S N Q Rm P D X_N = Ok C ->
  store_explicit_solution np fuel step C = Ok crs -> length x = nx ->
  feedforward_explicit C None x = Err ValueError /\ feedback_explicit C None x = Err ValueError /\
  (forall cr, get_critical_region crs x = Ok (Some cr) -> in_poly (cr_poly cr) x ->
     exists us xs, feedforward_explicit C (Some crs) x = Ok (Some us, Some (trajectory_cost Q Rm P us xs)) /\ feedback_explicit C (Some crs) x = Ok (Some (nth 0 us [])) /\
       mpc_optimal (lA S) (lB S) Q Rm P nu N (in_poly D) (in_poly X_N) x us xs) /\
  (get_critical_region crs x = Ok None -> feedforward_explicit C (Some crs) x = Ok (None, None) /\ feedback_explicit C (Some crs) x = Ok None).
Proof.
  intros Hnp HD E ES Lx. split; [reflexivity|]. split; [reflexivity|]. split.
  - intros cr Hg Hx. pose proof (mpc_constructed np S N Q Rm P D X_N nx nu C HD E) as EC. cbv zeta in EC.
    destruct (mpc_program np S N Q Rm P D X_N nx nu Hnp HD) as (q & m & E' & Hq & HC). rewrite E in E'. injection E' as ->. cbn [c_mpqp] in *. unfold store_explicit_solution in ES. cbn [c_mpqp] in ES.
    pose proof HD as ((SA & SB & HN & _) & _).
    assert (MD : mp_data (q_Huu q) (q_Hux q) (q_Hxx q) (q_fu q) (q_fx q) (q_Au q) (q_Ax q) (q_b q) (nu * N) nx m) by (unfold MpqpThms.coherent in Hq; unfold mp_data; tauto).
    assert (Hin : In cr crs).
    { clear - Hg. revert Hg. induction crs as [|c crs IH]; cbn [get_critical_region]; [discriminate|]. destruct (cr_contains c x) as [[|]|]; cbn [bind]; [|intros H; right; auto|discriminate].
      intros E. injection E as <-. left. reflexivity. }
    destruct (explicit_sound np _ _ _ _ _ _ _ _ _ (nu * N) nx m q fuel step crs cr x Hnp MD EC ES Hin Hx) as (Hu & _ & HV).
    set (u := cr_u cr x) in *. assert (Lu : length u = (nu * N)%nat) by (rewrite (proj1 (proj1 Hu)); apply Hq). destruct (chunks nu N u ltac:(lia)) as (us & L & F & EU).
    destruct (trajectory_exists (lA S) (lB S) nx nu x us SA SB Lx) as (xs & T). destruct (HC x us xs Lx L F T) as (C1 & C2). rewrite EU in C1, C2.
    exists us, xs. assert (Ln : lnu S = nu) by apply SB.
    assert (EF : feedforward_explicit (MPC S N q) (Some crs) x = Ok (Some us, Some (trajectory_cost Q Rm P us xs))).
    { unfold feedforward_explicit, es_u, es_V, es_eval. cbn [c_S c_N]. rewrite Hg. cbn [bind]. fold u. rewrite HV. change (mp_cost _ _ _ _ _ _ x u) with (q_cost q x u). rewrite C1, Ln, <- EU, <- L, (split_concat nu us F). reflexivity. }
    split; [exact EF|]. split. { unfold feedback_explicit. rewrite EF. cbn [bind fst first_input]. destruct us; [cbn in L; lia|reflexivity]. }
    split; [apply C2; apply Hu|]. intros us' xs' HA. pose proof HA as (L' & F' & T' & _). destruct (HC x us' xs' Lx L' F' T') as (C1' & C2'). rewrite <- C1, <- C1'.
    destruct (proj2 Hu _ (proj2 C2' HA)) as (O1 & O2). split; [exact O1|]. intros EE. specialize (O2 EE). rewrite <- (split_concat nu us' F'), <- (split_concat nu us F), L, L', EU, O2. reflexivity.
  - intros Hg. unfold feedback_explicit, feedforward_explicit, es_u, es_V, es_eval. rewrite Hg. split; reflexivity.
Qed.
