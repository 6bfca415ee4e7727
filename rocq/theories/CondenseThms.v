(** * CondenseThms: condensed dynamics (C27), proofs *)
From Coq Require Import ZArith.
From Verif Require Import Arr ArrFacts Spec SpecDyn Numpy Pnnls PnnlsFacts GeomUtils Polyhedron PolyThms Dynamics DynThms.

(** ** sums of vectors, lists of blocks *)
Definition vsums (n : nat) (l : list vec) : vec := fold_right vadd (zeros n) l.
Lemma vsums_length n l : Forall (fun v => length v = n) l -> length (vsums n l) = n.
Proof. induction 1 as [|v l Hv H IH]; [apply zeros_length|]. change (vsums n (v :: l)) with (vadd v (vsums n l)). len. Qed.
Lemma vsums_app n l1 l2 : Forall (fun v => length v = n) l1 -> Forall (fun v => length v = n) l2 ->
  vsums n (l1 ++ l2) = vadd (vsums n l1) (vsums n l2).
Proof.
  intros H1 H2. induction H1 as [|v l1 Hv H1 IH]; cbn.
  - rewrite vadd_zeros_l; [reflexivity|]. apply vsums_length, H2.
  - fold (vsums n (l1 ++ l2)). rewrite IH. unfold vsums. rewrite vadd_assoc. reflexivity.
Qed.
Lemma fold_left_vadd n l : Forall (fun v => length v = n) l -> forall z, length z = n -> fold_left vadd l z = vadd z (vsums n l).
Proof.
  induction 1 as [|v l Hv H IH]; intros z Hz; cbn.
  - rewrite vadd_zeros_r; auto.
  - rewrite IH by len. unfold vsums. rewrite vadd_assoc. reflexivity.
Qed.
Lemma vsums_zero {A} n (f : A -> vec) l : (forall a, In a l -> f a = zeros n) -> vsums n (map f l) = zeros n.
Proof.
  induction l as [|a l IH]; intros H; cbn; [reflexivity|].
  rewrite H by (left; reflexivity). fold (vsums n (map f l)). rewrite IH by (intros; apply H; right; assumption).
  rewrite vadd_zeros_l; [reflexivity|len].
Qed.
Lemma vsums_vadd {A} n (f g : A -> vec) l : (forall a, In a l -> length (f a) = n /\ length (g a) = n) ->
  vadd (vsums n (map f l)) (vsums n (map g l)) = vsums n (map (fun a => vadd (f a) (g a)) l).
Proof.
  induction l as [|a l IH]; intros H; cbn.
  - rewrite vadd_zeros_l; [reflexivity|len].
  - fold (vsums n (map f l)) (vsums n (map g l)) (vsums n (map (fun a => vadd (f a) (g a)) l)).
    rewrite <- IH by (intros; apply H; right; assumption).
    destruct (H a (or_introl eq_refl)) as (Lf & Lg).
    assert (L1 : length (vsums n (map f l)) = n).
    { apply vsums_length, Forall_forall. intros v Hv. apply in_map_iff in Hv as (b & <- & Hb). apply H. right. exact Hb. }
    assert (L2 : length (vsums n (map g l)) = n).
    { apply vsums_length, Forall_forall. intros v Hv. apply in_map_iff in Hv as (b & <- & Hb). apply H. right. exact Hb. }
    vring.
Qed.
Lemma mv_vsums M m n l : shape M m n -> Forall (fun v => length v = n) l -> mv M (vsums n l) = vsums m (map (mv M) l).
Proof.
  intros HM H. assert (LM : length (rows M) = m) by apply HM. induction H as [|v l Hv H IH]; cbn.
  - rewrite mv_zeros, LM. reflexivity.
  - fold (vsums n l) (vsums m (map (mv M) l)). rewrite <- IH. apply (mv_vadd M m n); [exact HM|exact Hv|apply vsums_length, H].
Qed.
Lemma vsums_ext {A} n (f g : A -> vec) l : (forall a, In a l -> f a = g a) -> vsums n (map f l) = vsums n (map g l).
Proof. intros H. f_equal. apply map_ext_in, H. Qed.

Lemma shape_vstack_list l m n : l <> [] -> Forall (fun M => shape M m n) l -> shape (vstack_list l) (length l * m) n.
Proof.
  intros NE H. induction H as [|A l HA H IH]; [congruence|]. destruct l as [|B l].
  - cbn. rewrite Nat.add_0_r. exact HA.
  - change (vstack_list (A :: B :: l)) with (vstack A (vstack_list (B :: l))).
    change (length (A :: B :: l) * m)%nat with (m + length (B :: l) * m)%nat.
    apply shape_vstack; [exact HA|]. apply IH. discriminate.
Qed.
Lemma mv_vstack_list l x : l <> [] -> mv (vstack_list l) x = List.concat (map (fun M => mv M x) l).
Proof.
  intros NE. induction l as [|A l IH]; [congruence|]. destruct l as [|B l].
  - cbn. rewrite app_nil_r. reflexivity.
  - change (vstack_list (A :: B :: l)) with (vstack A (vstack_list (B :: l))). rewrite mv_vstack, IH by discriminate. reflexivity.
Qed.
Lemma shape_hstack_list l m n : l <> [] -> Forall (fun M => shape M m n) l -> shape (hstack_list l) m (length l * n).
Proof.
  intros NE H. induction H as [|A l HA H IH]; [congruence|]. destruct l as [|B l].
  - cbn. rewrite Nat.add_0_r. exact HA.
  - change (hstack_list (A :: B :: l)) with (hstack A (hstack_list (B :: l))).
    change (length (A :: B :: l) * n)%nat with (n + length (B :: l) * n)%nat.
    apply shape_hstack; [exact HA|]. apply IH. discriminate.
Qed.
Lemma mv_hstack_list l us m n : l <> [] -> length l = length us -> Forall (fun M => shape M m n) l -> Forall (fun u => length u = n) us ->
  mv (hstack_list l) (List.concat us) = vsums m (map2 mv l us).
Proof.
  intros NE L H Hu. revert us L Hu. induction H as [|A l HA H IH]; intros us L Hu; [congruence|].
  destruct Hu as [|u us Hu Hus]; [discriminate|].
  assert (LA : length (rows A) = m) by apply HA.
  destruct l as [|B l].
  - destruct us; [|discriminate]. cbn. rewrite app_nil_r, vadd_zeros_r; [reflexivity|]. len.
  - change (hstack_list (A :: B :: l)) with (hstack A (hstack_list (B :: l))). cbn [List.concat].
    change (vsums m (map2 mv (A :: B :: l) (u :: us))) with (vadd (mv A u) (vsums m (map2 mv (B :: l) us))).
    rewrite <- IH by (try discriminate; cbn in *; auto).
    apply (mv_hstack A _ m n (length (B :: l) * n)); [exact HA|apply shape_hstack_list; [discriminate|exact H]|exact Hu].
Qed.
Lemma concat_vadd {A} (f g : A -> vec) l : (forall a, In a l -> length (f a) = length (g a)) ->
  vadd (List.concat (map f l)) (List.concat (map g l)) = List.concat (map (fun a => vadd (f a) (g a)) l).
Proof.
  induction l as [|a l IH]; intros H; cbn; [reflexivity|].
  rewrite vadd_app by (apply H; left; reflexivity). rewrite IH by (intros; apply H; right; assumption). reflexivity.
Qed.
Lemma list_as_map {A} (l : list A) d : l = map (fun i => nth i l d) (seq 0 (length l)).
Proof.
  apply (nth_ext _ _ d d); [rewrite map_length, seq_length; reflexivity|].
  intros i Hi. rewrite (nth_map_seq (fun i => nth i l d)) by exact Hi. reflexivity.
Qed.

(** ** products of matrices *)
Definition appl (l : list mat) (z : vec) : vec := fold_left (fun z M => mv M z) l z.
Lemma appl_length l n z : Forall (fun M => shape M n n) l -> length z = n -> length (appl l z) = n.
Proof. intros H. revert z. induction H as [|M l HM H IH]; intros z Hz; cbn; [exact Hz|]. apply IH. rewrite mv_length. apply HM. Qed.
Lemma appl_app l1 l2 z : appl (l1 ++ l2) z = appl l2 (appl l1 z).
Proof. apply fold_left_app. Qed.
Lemma appl_vadd l n z w : Forall (fun M => shape M n n) l -> length z = n -> length w = n -> appl l (vadd z w) = vadd (appl l z) (appl l w).
Proof.
  intros H. revert z w. induction H as [|M l HM H IH]; intros z w Hz Hw; cbn; [reflexivity|].
  rewrite (mv_vadd M n n) by auto. assert (LM : length (rows M) = n) by apply HM. apply IH; len.
Qed.
Lemma fold_mm_appl l n : Forall (fun M => shape M n n) l -> forall A z, shape A n n -> 
  shape (fold_left mm l A) n n /\ mv (fold_left mm l A) z = mv A (appl (rev l) z).
Proof.
  induction 1 as [|B l HB H IH]; intros A z HA; cbn.
  - split; [exact HA|reflexivity].
  - destruct (IH (mm A B) z) as (S1 & E1); [eauto with shp|]. split; [exact S1|].
    rewrite E1, (mv_mm A B n n) by exact HB. rewrite appl_app. reflexivity.
Qed.
Lemma productory_ok l n : l <> [] -> Forall (fun M => shape M n n) l ->
  exists P, productory (rev l) = Ok P /\ shape P n n /\ forall z, mv P z = appl l z.
Proof.
  intros NE H. assert (HR : Forall (fun M => shape M n n) (rev l)) by (apply Forall_rev, H).
  destruct (rev l) as [|A l'] eqn:E.
  - exfalso. apply NE. rewrite <- (rev_involutive l), E. reflexivity.
  - inversion HR as [|? ? HA HL]; subst. exists (fold_left mm l' A). split; [reflexivity|].
    split; [apply (fold_mm_appl l' n HL A []); exact HA|]. intros z.
    destruct (fold_mm_appl l' n HL A z HA) as (_ & ->).
    rewrite <- (rev_involutive l), E. cbn. rewrite appl_app. reflexivity.
Qed.

Lemma slice_snoc {A} i j (l : list A) d : (j <= i)%nat -> (i < length l)%nat -> slice j (S i) l = slice j i l ++ [nth i l d].
Proof.
  intros Hj Hi. unfold slice. replace (S i - j)%nat with (S (i - j)) by lia.
  rewrite <- (firstn_skipn (i - j) (firstn (S (i - j)) (skipn j l))).
  rewrite firstn_firstn, Nat.min_l by lia. f_equal.
  apply (nth_ext _ _ d d).
  - rewrite skipn_length, firstn_length, skipn_length. cbn [length]. lia.
  - intros k Hk. rewrite skipn_length, firstn_length, skipn_length in Hk. assert (k = 0)%nat by lia. subst k.
    rewrite nth_skipn', nth_firstn' by lia. rewrite nth_skipn'. cbn. f_equal. lia.
Qed.
Lemma slice_self {A} i (l : list A) : slice i i l = [].
Proof. unfold slice. rewrite Nat.sub_diag. reflexivity. Qed.
Lemma Forall_slice {A} (P : A -> Prop) i j l : Forall P l -> Forall P (slice i j l).
Proof.
  intros H. apply Forall_forall. intros x Hx. rewrite Forall_forall in H. apply H. unfold slice in Hx.
  rewrite <- (firstn_skipn i l). apply in_or_app. right. rewrite <- (firstn_skipn (j - i) (skipn i l)). apply in_or_app. left. exact Hx.
Qed.

(** ** the solution of a time-varying affine recursion *)
Section Sequence.
Variables (nx nu : nat) (As Bs : list mat) (cs : list vec) (N : nat).
Hypothesis LA : length As = N.
Hypothesis HA : Forall (fun M => shape M nx nx) As.
Hypothesis HB : forall i, (i < N)%nat -> shape (nth i Bs (Mat 0 [])) nx nu.
Hypothesis Hc : forall i, (i < N)%nat -> length (nth i cs []) = nx.

Let Phi (i j : nat) (z : vec) : vec := appl (slice (S j) (S i) As) z.
Lemma Phi_length i j z : length z = nx -> length (Phi i j z) = nx.
Proof. apply appl_length, Forall_slice, HA. Qed.
Lemma Phi_diag i z : Phi i i z = z.
Proof. unfold Phi. rewrite slice_self. reflexivity. Qed.
Lemma Phi_S i j z : (j <= i)%nat -> (S i < N)%nat -> Phi (S i) j z = mv (nth (S i) As (Mat 0 [])) (Phi i j z).
Proof. intros Hj Hi. unfold Phi. rewrite (slice_snoc (S i) (S j) As (Mat 0 [])) by lia. rewrite appl_app. reflexivity. Qed.
Lemma firstn_snoc i : (i < N)%nat -> firstn (S i) As = firstn i As ++ [nth i As (Mat 0 [])].
Proof. intros Hi. pose proof (slice_snoc i 0 As (Mat 0 []) ltac:(lia) ltac:(lia)) as E. unfold slice in E. rewrite !Nat.sub_0_r in E. exact E. Qed.
Lemma nth_As i : (i < N)%nat -> shape (nth i As (Mat 0 [])) nx nx.
Proof. intros Hi. rewrite Forall_forall in HA. apply HA, nth_In. lia. Qed.

Lemma rev_slice_ok i j : (j < i)%nat -> (i < N)%nat ->
  exists P, productory (rev_slice i j As) = Ok P /\ shape P nx nx /\ forall z, mv P z = Phi i j z.
Proof.
  intros Hj Hi. apply productory_ok; [|apply Forall_slice, HA].
  intros E. apply (f_equal (@length _)) in E. rewrite slice_length, LA in E. cbn [length] in E. lia.
Qed.
Lemma rev_to_ok i : (i < N)%nat -> exists P, productory (rev_to i As) = Ok P /\ shape P nx nx /\ forall z, mv P z = appl (firstn (S i) As) z.
Proof.
  intros Hi. apply productory_ok.
  - intros E. apply (f_equal (@length _)) in E. rewrite firstn_length, LA in E. cbn [length] in E. lia.
  - pose proof (Forall_slice _ 0 (S i) As HA) as F. unfold slice in F. rewrite Nat.sub_0_r in F. exact F.
Qed.
Lemma condense_offset_ok i : (i < N)%nat ->
  exists v, condense_offset nx As cs i = Ok v /\ length v = nx /\ v = vsums nx (map (fun j => Phi i j (nth j cs [])) (seq 0 (S i))).
Proof.
  intros Hi. unfold condense_offset.
  rewrite (mapM_map _ (fun j => Phi i j (nth j cs []))).
  2:{ intros j Hj. apply in_seq in Hj. destruct (rev_slice_ok i j ltac:(lia) Hi) as (P & E & _ & HP). rewrite E. cbn [bind]. rewrite HP. reflexivity. }
  cbn [bind]. eexists. split; [reflexivity|].
  assert (FL : Forall (fun v => length v = nx) (map (fun j => Phi i j (nth j cs [])) (seq 0 i))).
  { apply Forall_forall. intros v Hv. apply in_map_iff in Hv as (j & <- & Hj). apply in_seq in Hj. apply Phi_length, Hc. lia. }
  rewrite (fold_left_vadd nx) by (try exact FL; len). pose proof (vsums_length _ _ FL) as LV. pose proof (Hc i Hi) as Lci.
  rewrite vadd_zeros_l by exact LV. split; [len|].
  rewrite (seq_S i 0), map_app, vsums_app; [|exact FL|constructor; [apply Phi_length, Lci|constructor]].
  f_equal. change (vsums nx (map (fun j => Phi i j (nth j cs [])) [(0 + i)%nat])) with (vadd (Phi i i (nth i cs [])) (zeros nx)).
  rewrite Phi_diag, vadd_zeros_r by exact Lci. reflexivity.
Qed.

Variable u : list vec.
Hypothesis Lu : length u = N.
Hypothesis Hu : Forall (fun v => length v = nu) u.
Lemma condense_row_ok i : (i < N)%nat ->
  exists M, condense_row nx nu N As Bs i = Ok M /\ shape M nx (N * nu) /\
    mv M (List.concat u) = vsums nx (map (fun j => Phi i j (mv (nth j Bs (Mat 0 [])) (nth j u []))) (seq 0 (S i))).
Proof.
  intros Hi. unfold condense_row.
  set (blk := fun j => if (j <? i)%nat then mm (match productory (rev_slice i j As) with Ok P => P | Err _ => Mat 0 [] end) (nth j Bs (Mat 0 []))
                       else if Nat.eqb j i then nth i Bs (Mat 0 []) else zmat nx nu).
  rewrite (mapM_map _ blk).
  2:{ intros j Hj. apply in_seq in Hj. unfold blk. destruct (Nat.ltb_spec j i) as [Hji|Hji].
      - destruct (rev_slice_ok i j Hji Hi) as (P & E & _). rewrite E. reflexivity.
      - destruct (Nat.eqb j i); reflexivity. }
  cbn [bind].
  assert (NE : map blk (seq 0 N) <> []) by (destruct N; [lia|discriminate]).
  assert (FS : Forall (fun M => shape M nx nu) (map blk (seq 0 N))).
  { apply Forall_forall. intros M HM. apply in_map_iff in HM as (j & <- & Hj). apply in_seq in Hj. unfold blk.
    destruct (Nat.ltb_spec j i) as [Hji|Hji].
    - destruct (rev_slice_ok i j Hji Hi) as (P & E & SP & _). rewrite E. specialize (HB j ltac:(lia)). eauto with shp.
    - destruct (Nat.eqb_spec j i); [apply HB; lia|apply shape_zmat]. }
  exists (hstack_list (map blk (seq 0 N))). split; [|split].
  - unfold np_hstack_list. destruct (map blk (seq 0 N)); [congruence|reflexivity].
  - pose proof (shape_hstack_list _ _ _ NE FS) as SH. rewrite map_length, seq_length in SH. exact SH.
  - rewrite (mv_hstack_list _ u nx nu) by (try rewrite map_length, seq_length; auto).
    rewrite (list_as_map u []) at 1. rewrite Lu, map2_map_l, map2_map_r, map2_same.
    replace (seq 0 N) with (seq 0 (S i) ++ seq (S i) (N - S i)) by (rewrite <- seq_app; f_equal; lia).
    assert (Lrow : forall j, (j < N)%nat -> length (mv (nth j Bs (Mat 0 [])) (nth j u [])) = nx).
    { intros j Hj. rewrite mv_length. apply (HB j Hj). }
    assert (E1 : forall j, (j <= i)%nat -> mv (blk j) (nth j u []) = Phi i j (mv (nth j Bs (Mat 0 [])) (nth j u []))).
    { intros j Hj. unfold blk. destruct (Nat.ltb_spec j i) as [Hji|Hji].
      - destruct (rev_slice_ok i j Hji Hi) as (P & E & SP & HP). rewrite E.
        rewrite (mv_mm P _ nx nu) by (apply HB; lia). apply HP.
      - assert (j = i) by lia. subst j. rewrite Nat.eqb_refl, Phi_diag. reflexivity. }
    rewrite map_app, vsums_app.
    + rewrite (vsums_zero nx _ (seq (S i) (N - S i))).
      2:{ intros j Hj. apply in_seq in Hj. unfold blk. destruct (Nat.ltb_spec j i); [lia|]. destruct (Nat.eqb_spec j i); [lia|]. apply mv_zmat. }
      rewrite vadd_zeros_r.
      * apply vsums_ext. intros j Hj. apply in_seq in Hj. apply E1. lia.
      * apply vsums_length, Forall_forall. intros v Hv. apply in_map_iff in Hv as (j & <- & Hj). apply in_seq in Hj. rewrite E1 by lia. apply Phi_length, Lrow. lia.
    + apply Forall_forall. intros v Hv. apply in_map_iff in Hv as (j & <- & Hj). apply in_seq in Hj. rewrite E1 by lia. apply Phi_length, Lrow. lia.
    + apply Forall_forall. intros v Hv. apply in_map_iff in Hv as (j & <- & Hj). apply in_seq in Hj. unfold blk. destruct (Nat.ltb_spec j i); [lia|]. destruct (Nat.eqb_spec j i); [lia|]. rewrite mv_zmat. len.
Qed.

Variables (x0 : vec) (xs : list vec).
Hypothesis Hx0 : length x0 = nx.
Hypothesis X0 : nth 0 xs [] = x0.
Hypothesis XS : forall t, (t < N)%nat ->
  nth (S t) xs [] = affine_step (nth t As (Mat 0 [])) (nth t Bs (Mat 0 [])) (nth t cs []) (nth t xs []) (nth t u []).

Let w (j : nat) : vec := vadd (mv (nth j Bs (Mat 0 [])) (nth j u [])) (nth j cs []).
Lemma w_length j : (j < N)%nat -> length (w j) = nx.
Proof. intros Hj. unfold w. pose proof (Hc j Hj). assert (length (rows (nth j Bs (Mat 0 []))) = nx) by apply (HB j Hj). len. Qed.

Lemma state_formula i : (i < N)%nat ->
  nth (S i) xs [] = vadd (appl (firstn (S i) As) x0) (vsums nx (map (fun j => Phi i j (w j)) (seq 0 (S i)))).
Proof.
  induction i as [|i IH]; intros Hi.
  - rewrite XS by exact Hi. rewrite X0. unfold affine_step. rewrite firstn_snoc by exact Hi. cbn [firstn app appl fold_left seq map vsums fold_right].
    rewrite Phi_diag. pose proof (w_length 0 Hi) as Lw. rewrite vadd_zeros_r by exact Lw. unfold w. rewrite vadd_assoc. reflexivity.
  - rewrite XS by exact Hi. rewrite IH by lia. unfold affine_step.
    assert (SA := nth_As (S i) Hi). assert (LSA : length (rows (nth (S i) As (Mat 0 []))) = nx) by apply SA.
    assert (FL : Forall (fun v => length v = nx) (map (fun j => Phi i j (w j)) (seq 0 (S i)))).
    { apply Forall_forall. intros v Hv. apply in_map_iff in Hv as (j & <- & Hj). apply in_seq in Hj. apply Phi_length, w_length. lia. }
    assert (LAP : length (appl (firstn (S i) As) x0) = nx).
    { apply appl_length; [|exact Hx0]. pose proof (Forall_slice _ 0 (S i) As HA) as F. unfold slice in F. rewrite Nat.sub_0_r in F. exact F. }
    pose proof (vsums_length _ _ FL) as LVS.
    rewrite (mv_vadd _ nx nx) by assumption.
    rewrite (mv_vsums _ nx nx) by (try exact SA; exact FL). rewrite map_map.
    rewrite (firstn_snoc (S i)) by exact Hi. rewrite appl_app. cbn [appl fold_left].
    fold (appl (firstn (S i) As) x0).
    rewrite (seq_S (S i) 0), map_app, vsums_app; cycle 1.
    { apply Forall_forall. intros v Hv. apply in_map_iff in Hv as (j & <- & Hj). apply in_seq in Hj. apply Phi_length, w_length. lia. }
    { constructor; [|constructor]. apply Phi_length, w_length. lia. }
    change (vsums nx (map (fun j => Phi (S i) j (w j)) [(0 + S i)%nat])) with (vadd (Phi (S i) (S i) (w (S i))) (zeros nx)).
    rewrite Phi_diag. pose proof (w_length (S i) Hi) as Lw. rewrite (vadd_zeros_r nx (w (S i))) by exact Lw.
    rewrite (vsums_ext nx (fun j => mv (nth (S i) As (Mat 0 [])) (Phi i j (w j))) (fun j => Phi (S i) j (w j))).
    2:{ intros j Hj. apply in_seq in Hj. rewrite Phi_S by lia. reflexivity. }
    change (w (S i)) with (vadd (mv (nth (S i) Bs (Mat 0 [])) (nth (S i) u [])) (nth (S i) cs [])). rewrite !vadd_assoc. reflexivity.
Qed.






Lemma block_state i Mi vi : (i < N)%nat -> condense_row nx nu N As Bs i = Ok Mi -> condense_offset nx As cs i = Ok vi ->
  vadd (vadd (appl (firstn (S i) As) x0) (mv Mi (List.concat u))) vi = nth (S i) xs [].
Proof.
  intros Hi EM Ev. destruct (condense_row_ok i Hi) as (M & EM' & _ & HM). rewrite EM in EM'. injection EM' as <-.
  destruct (condense_offset_ok i Hi) as (v & Ev' & _ & Hv). rewrite Ev in Ev'. injection Ev' as <-.
  rewrite (state_formula i Hi), HM, Hv, <- vadd_assoc, vsums_vadd.
  - f_equal. apply vsums_ext. intros j Hj. apply in_seq in Hj. unfold w. symmetry. unfold Phi. apply (appl_vadd _ nx); [apply Forall_slice, HA| |apply Hc; lia].
    rewrite mv_length. apply (HB j). lia.
  - intros j Hj. apply in_seq in Hj. split; apply Phi_length; [rewrite mv_length; apply (HB j)|apply Hc]; lia.
Qed.
End Sequence.

(** ** C27 *)
Definition coherent_systems (S : list asys) (nx nu : nat) : Prop :=
  S <> [] /\ forall s, In s S -> system_shape (aA s) (aB s) nx nu /\ length (ac s) = nx.

Lemma mapM_nth_error {A} (S : list A) modes d : (forall m, In m modes -> (m < length S)%nat) ->
  mapM (fun m => match nth_error S m with Some s => Ok s | None => Err IndexError end) modes = Ok (map (fun m => nth m S d) modes).
Proof.
  intros H. apply mapM_map. intros m Hm. specialize (H m Hm).
  rewrite (nth_error_nth' S d H). reflexivity.
Qed.
Definition asys0 : asys := ASys (Mat 0 []) (Mat 0 []) [].

(*@ Theorem C27_condensed_dynamics : For every non-empty mode sequence condense returns matrices of the expected shapes with A_bar x0 + B_bar u_bar + c_bar = (x(0), ..., x(N)), for every initial state and inputs. *)
Lemma condensed_dynamics S modes nx nu : coherent_systems S nx nu -> modes <> [] -> (forall m, In m modes -> (m < length S)%nat) ->
  let N := length modes in
  exists A_bar B_bar c_bar, condense_pwa_system S modes = Ok (A_bar, B_bar, c_bar) /\
    shape A_bar (nx * (N + 1)) nx /\ shape B_bar (nx * (N + 1)) (nu * N) /\ length c_bar = (nx * (N + 1))%nat /\
    forall x0 u xs, length x0 = nx -> length u = N -> Forall (fun v => length v = nu) u ->
      is_switched_trajectory (map aA S) (map aB S) (map ac S) modes x0 u xs ->
      vadd (vadd (mv A_bar x0) (mv B_bar (List.concat u))) c_bar = List.concat xs.
Proof.
  intros (NE & HS) MN HM N.
  set (sq := map (fun m => nth m S asys0) modes).
  assert (Lsq : length sq = N) by apply map_length.
  assert (Hsq : forall s, In s sq -> system_shape (aA s) (aB s) nx nu /\ length (ac s) = nx).
  { intros s Hs. apply in_map_iff in Hs as (m & <- & Hm). apply HS, nth_In, HM, Hm. }
  set (As := map aA sq). set (Bs := map aB sq). set (cs := map ac sq).
  assert (LA : length As = N) by (unfold As; rewrite map_length; exact Lsq).
  assert (HA : Forall (fun M => shape M nx nx) As).
  { apply Forall_forall. intros M HMM. apply in_map_iff in HMM as (s & <- & Hs). apply Hsq, Hs. }
  assert (Enth : forall i, (i < N)%nat -> nth i As (Mat 0 []) = aA (nth i sq asys0) /\ nth i Bs (Mat 0 []) = aB (nth i sq asys0) /\ nth i cs [] = ac (nth i sq asys0)).
  { intros i Hi. unfold As, Bs, cs. repeat split; [change (Mat 0 []) with (aA asys0)|change (Mat 0 []) with (aB asys0)|change (@nil R) with (ac asys0)]; apply map_nth. }
  assert (HB : forall i, (i < N)%nat -> shape (nth i Bs (Mat 0 [])) nx nu).
  { intros i Hi. destruct (Enth i Hi) as (_ & -> & _). apply Hsq, nth_In. lia. }
  assert (Hc : forall i, (i < N)%nat -> length (nth i cs []) = nx).
  { intros i Hi. destruct (Enth i Hi) as (_ & _ & ->). apply Hsq, nth_In. lia. }
  assert (HN : (0 < N)%nat) by (unfold N; destruct modes; [congruence|cbn; lia]).
  (* the pieces *)
  set (Ai := fun i => match productory (rev_to i As) with Ok P => P | Err _ => Mat 0 [] end).
  set (Bi := fun i => match condense_row nx nu N As Bs i with Ok P => P | Err _ => Mat 0 [] end).
  set (ci := fun i => match condense_offset nx As cs i with Ok P => P | Err _ => [] end).
  assert (EA : forall i, (i < N)%nat -> productory (rev_to i As) = Ok (Ai i) /\ shape (Ai i) nx nx /\ forall z, mv (Ai i) z = appl (firstn (Datatypes.S i) As) z).
  { intros i Hi. destruct (rev_to_ok nx As N LA HA i Hi) as (P & E & H1 & H2). unfold Ai. rewrite E. auto. }
  set (u0 := repeat (zeros nu) N).
  assert (Lu0 : length u0 = N) by apply repeat_length.
  assert (Hu0 : Forall (fun v => length v = nu) u0).
  { apply Forall_forall. intros v Hv. apply repeat_spec in Hv. subst v. apply zeros_length. }
  assert (EB : forall i, (i < N)%nat -> condense_row nx nu N As Bs i = Ok (Bi i) /\ shape (Bi i) nx (N * nu)).
  { intros i Hi. destruct (condense_row_ok nx nu As Bs cs N LA HA HB Hc u0 Lu0 Hu0 i Hi) as (P & E & H1 & _). unfold Bi. rewrite E. auto. }
  assert (EC : forall i, (i < N)%nat -> condense_offset nx As cs i = Ok (ci i) /\ length (ci i) = nx).
  { intros i Hi. destruct (condense_offset_ok nx As cs N LA HA Hc i Hi) as (P & E & H1 & _). unfold ci. rewrite E. auto. }
  assert (SN : forall (T : Type) (f : nat -> T), map f (seq 0 N) <> []) by (intros T f; destruct N; [lia|discriminate]).
  destruct S as [|S0 S']; [congruence|].
  destruct (HS S0 (or_introl eq_refl)) as ((HA0 & HB0) & Hc0).
  exists (vstack (eye nx) (vstack_list (map Ai (seq 0 N)))), (vstack (zmat nx (nu * N)) (vstack_list (map Bi (seq 0 N)))), (zeros nx ++ List.concat (map ci (seq 0 N))).
  assert (FA : Forall (fun M => shape M nx nx) (map Ai (seq 0 N))).
  { apply Forall_forall. intros M HMM. apply in_map_iff in HMM as (i & <- & Hi). apply in_seq in Hi. apply EA. lia. }
  assert (FB : Forall (fun M => shape M nx (nu * N)) (map Bi (seq 0 N))).
  { apply Forall_forall. intros M HMM. apply in_map_iff in HMM as (i & <- & Hi). apply in_seq in Hi. rewrite (Nat.mul_comm nu). apply EB. lia. }
  split; [|split; [|split; [|split]]].
  - unfold condense_pwa_system. fold N. unfold anx, anu. rewrite (nrows_shape _ _ _ HB0), (shape_cols _ _ _ HB0).
    rewrite (mapM_nth_error _ modes asys0) by exact HM. cbn [bind]. fold sq. fold As Bs cs.
    rewrite (mapM_map _ Ai) by (intros i Hi; apply in_seq in Hi; apply EA; lia). cbn [bind].
    unfold np_vstack_list at 1. destruct (map Ai (seq 0 N)) eqn:E1; [exfalso; exact (SN _ _ E1)|]. rewrite <- E1. clear E1. cbn [bind].
    rewrite (mapM_map _ Bi) by (intros i Hi; apply in_seq in Hi; apply EB; lia). cbn [bind].
    unfold np_vstack_list at 1. destruct (map Bi (seq 0 N)) eqn:E1; [exfalso; exact (SN _ _ E1)|]. rewrite <- E1. clear E1. cbn [bind].
    rewrite (mapM_map _ ci) by (intros i Hi; apply in_seq in Hi; apply EC; lia). cbn [bind].
    cbv zeta. f_equal. f_equal. rewrite <- app_assoc. f_equal.
    replace (seq 0 N) with (0%nat :: seq 1 (N - 1)) by (destruct N as [|N']; [lia|]; cbn; rewrite Nat.sub_0_r; reflexivity).
    cbn [map List.concat]. f_equal.
    change (ci 0%nat) with (vadd (zeros nx) (nth 0 cs [])).
    rewrite vadd_zeros_l; [reflexivity|]. apply Hc, HN.
  - replace (nx * (N + 1))%nat with (nx + N * nx)%nat by lia. apply shape_vstack; [apply shape_eye|].
    pose proof (shape_vstack_list _ _ _ (SN _ Ai) FA) as H. rewrite map_length, seq_length in H. exact H.
  - replace (nx * (N + 1))%nat with (nx + N * nx)%nat by lia. apply shape_vstack; [apply shape_zmat|].
    pose proof (shape_vstack_list _ _ _ (SN _ Bi) FB) as H. rewrite map_length, seq_length in H. exact H.
  - rewrite app_length, zeros_length.
    assert (HL : forall l, (forall i, In i l -> (i < N)%nat) -> length (List.concat (map ci l)) = (length l * nx)%nat).
    { induction l as [|i l IH]; intros Hl; cbn; [reflexivity|]. rewrite app_length, IH by (intros; apply Hl; right; assumption).
      destruct (EC i) as (_ & ->); [apply Hl; left; reflexivity|]. reflexivity. }
    rewrite HL by (intros i Hi; apply in_seq in Hi; lia). rewrite seq_length. lia.
  - intros x0 u xs Hx0 Lu Hu (LX & X0 & XS).
    rewrite !mv_vstack, mv_eye, mv_zmat, !mv_vstack_list by auto.
    rewrite !map_map.
    rewrite (vadd_app x0) by len. rewrite vadd_app by len.
    rewrite vadd_zeros_r, vadd_zeros_r by len.
    assert (LSA : forall i, (i < N)%nat -> length (mv (Ai i) x0) = nx) by (intros i Hi; rewrite mv_length; apply (EA i Hi)).
    assert (LSB : forall i, (i < N)%nat -> length (mv (Bi i) (List.concat u)) = nx) by (intros i Hi; rewrite mv_length; apply (EB i Hi)).
    rewrite concat_vadd by (intros i Hi; apply in_seq in Hi; rewrite LSA, LSB by lia; reflexivity).
    rewrite concat_vadd.
    2:{ intros i Hi. apply in_seq in Hi. rewrite vadd_length, LSA, LSB by lia. destruct (EC i) as (_ & ->); lia. }
    destruct xs as [|y xs]; [discriminate|]. cbn in X0. subst y. cbn [List.concat]. f_equal.
    rewrite (list_as_map xs []). replace (length xs) with N by (cbn in LX; lia). f_equal.
    apply map_ext_in. intros i Hi. apply in_seq in Hi.
    destruct (EA i) as (_ & _ & ->); [lia|].
    apply (block_state nx nu As Bs cs N LA HA HB Hc u Lu Hu x0 (x0 :: xs) Hx0 eq_refl); auto; try lia.
    + intros t Ht. rewrite (XS t) by lia. destruct (Enth t Ht) as (-> & -> & ->).
      assert (Em : (nth t modes O < length (S0 :: S'))%nat) by (apply HM, nth_In; fold N; lia).
      assert (Es : nth t sq asys0 = nth (nth t modes O) (S0 :: S') asys0).
      { unfold sq. rewrite (nth_indep _ asys0 (nth 0 (S0 :: S') asys0)) by (rewrite map_length; fold N; lia).
        rewrite (map_nth (fun m => nth m (S0 :: S') asys0)). reflexivity. }
      rewrite Es. f_equal.
      * change (Mat 0 []) with (aA asys0). apply map_nth.
      * change (Mat 0 []) with (aB asys0). apply map_nth.
      * change (@nil R) with (ac asys0). apply map_nth.
    + apply EB. lia.
    + apply EC. lia.
Qed.

(*@ Theorem C27_affine_condense : AffineSystem.condense(N), N >= 1: the stacked states are those of simulate. *)
Lemma affine_condense A B c nx nu N : system_shape A B nx nu -> length c = nx -> (0 < N)%nat ->
  exists A_bar B_bar c_bar, aff_condense (ASys A B c) N = Ok (A_bar, B_bar, c_bar) /\
    shape A_bar (nx * (N + 1)) nx /\ shape B_bar (nx * (N + 1)) (nu * N) /\ length c_bar = (nx * (N + 1))%nat /\
    forall x0 u, length x0 = nx -> length u = N -> Forall (fun v => length v = nu) u ->
      exists xs, aff_simulate (ASys A B c) x0 u = Ok xs /\
        vadd (vadd (mv A_bar x0) (mv B_bar (List.concat u))) c_bar = List.concat xs.
Proof.
  intros HAB Hc HN. unfold aff_condense.
  destruct (condensed_dynamics [ASys A B c] (repeat 0%nat N) nx nu) as (Ab & Bb & cb & E & S1 & S2 & S3 & H).
  - split; [discriminate|]. intros s [<-|[]]. auto.
  - destruct N; [lia|discriminate].
  - intros m Hm. apply repeat_spec in Hm. subst m. cbn. lia.
  - rewrite repeat_length in *. exists Ab, Bb, cb. repeat match goal with |- _ /\ _ => split end; auto.
    intros x0 u Hx Lu Hu. destruct (affine_simulation A B c nx nu x0 u HAB Hc Hx Hu) as (xs & Es & (T1 & T2 & T3)).
    exists xs. split; [exact Es|]. apply H; auto. split; [exact T1|]. split; [exact T2|].
    intros t Ht. cbv zeta. assert (E0 : nth t (repeat 0%nat N) 0%nat = 0%nat).
    { destruct (Nat.lt_ge_cases t N); [|rewrite nth_overflow by (rewrite repeat_length; lia); reflexivity].
      eapply repeat_spec, nth_In. rewrite repeat_length. lia. }
    rewrite E0. cbn [nth map aA aB ac]. apply T3, Ht.
Qed.

(*@ Theorem C27_linear_condense : LinearSystem.condense(N), N >= 1: A_bar x0 + B_bar u_bar stacks the states of simulate. *)
Lemma linear_condense A B k nx nu N : system_shape A B nx nu -> (0 < N)%nat ->
  exists A_bar B_bar, lin_condense (LSys A B k) N = Ok (A_bar, B_bar) /\
    shape A_bar (nx * (N + 1)) nx /\ shape B_bar (nx * (N + 1)) (nu * N) /\
    forall x0 u, length x0 = nx -> length u = N -> Forall (fun v => length v = nu) u ->
      exists xs, lin_simulate (LSys A B k) x0 u = Ok xs /\ vadd (mv A_bar x0) (mv B_bar (List.concat u)) = List.concat xs.
Proof.
  intros (HA & HB) HN.
  destruct (affine_condense A B (zeros nx) nx nu N (conj HA HB) ltac:(len) HN) as (Ab & Bb & cb & E & S1 & S2 & S3 & H).
  exists Ab, Bb. assert (LA : length (rows A) = nx) by apply HA. assert (LB : length (rows B) = nx) by apply HB.
  repeat match goal with |- _ /\ _ => split end; auto.
  - unfold lin_condense. cbn [lA lB]. unfold nrows. rewrite LA.
    rewrite (proj1 (affine_constructor A B (D1 (zeros nx))) (zeros nx)).
    + cbn [bind]. rewrite E. reflexivity.
    + unfold nrows. rewrite LA. symmetry. apply HA.
    + unfold nrows. congruence.
    + reflexivity.
    + unfold nrows. len.
  - assert (AL : forall x0 u, length x0 = nx -> Forall (fun v => length v = nu) u -> aff_simulate (ASys A B (zeros nx)) x0 u = lin_simulate (LSys A B k) x0 u).
    { intros x0 u Hx Hu. revert x0 Hx. induction Hu as [|v u Hv Hu IH]; intros x0 Hx; cbn; [reflexivity|].
      rewrite (np_mv_ok A nx nx), (np_mv_ok B nx nu) by auto. cbn [bind]. rewrite vadd_zeros_r by len. rewrite IH by len. reflexivity. }
    (* the offset vanishes: compare with x0 = 0, u = 0 *)
    assert (Z : cb = zeros (nx * (N + 1))).
    { destruct (H (zeros nx) (repeat (zeros nu) N)) as (xs & Es & Ex); [len|len|apply Forall_forall; intros v Hv; apply repeat_spec in Hv; subst v; len|].
      rewrite mv_zeros in Ex. replace (length (rows Ab)) with (nx * (N + 1))%nat in Ex by (symmetry; apply S1).
      assert (C0 : forall n, List.concat (repeat (zeros nu) n) = zeros (n * nu)).
      { induction n as [|n IHn]; cbn; [reflexivity|]. rewrite IHn, <- zeros_app. reflexivity. }
      rewrite C0, mv_zeros in Ex. replace (length (rows Bb)) with (nx * (N + 1))%nat in Ex by (symmetry; apply S2).
      rewrite vadd_zeros_l in Ex by len. rewrite vadd_zeros_l in Ex by exact S3. rewrite Ex.
      assert (XZ : forall n xs, aff_simulate (ASys A B (zeros nx)) (zeros nx) (repeat (zeros nu) n) = Ok xs -> List.concat xs = zeros (nx * (n + 1))).
      { induction n as [|n IHn]; intros ys Ey; cbn [repeat aff_simulate aA aB ac] in Ey.
        - injection Ey as <-. cbn. rewrite app_nil_r. f_equal. lia.
        - rewrite (np_mv_ok A nx nx), (np_mv_ok B nx nu) in Ey by (auto; len). cbn [bind] in Ey.
          rewrite !mv_zeros, LA, LB, !vadd_zeros_l in Ey by len.
          destruct (aff_simulate (ASys A B (zeros nx)) (zeros nx) (repeat (zeros nu) n)) as [zs|] eqn:Ez; [|discriminate]. cbn [bind] in Ey. injection Ey as <-.
          cbn. rewrite (IHn zs eq_refl), <- zeros_app. f_equal. lia. }
      apply (XZ N xs Es). }
    intros x0 u Hx Lu Hu. destruct (H x0 u Hx Lu Hu) as (xs & Es & Ex). exists xs. rewrite <- AL by auto. split; [exact Es|].
    rewrite <- Ex, Z. rewrite vadd_zeros_r; [reflexivity|].
    rewrite vadd_length, !mv_length. replace (length (rows Ab)) with (nx * (N + 1))%nat by (symmetry; apply S1). replace (length (rows Bb)) with (nx * (N + 1))%nat by (symmetry; apply S2). lia.
Qed.

(*@ Theorem C27_empty_sequence_raises : The empty mode sequence (horizon zero) is rejected with ValueError. *)
Lemma condense_empty S0 S : condense_pwa_system (S0 :: S) [] = Err ValueError.
Proof. reflexivity. Qed.
(*@ Theorem C27_unknown_mode_raises : A mode beyond the last one is rejected with IndexError. *)
Lemma condense_unknown S modes m : S <> [] -> In m modes -> (length S <= m)%nat -> condense_pwa_system S modes = Err IndexError.
Proof.
  intros NE Hm Hl. destruct S as [|S0 S]; [congruence|]. unfold condense_pwa_system.
  assert (E : mapM (fun m => match nth_error (S0 :: S) m with Some s => Ok s | None => Err IndexError end) modes = Err IndexError).
  { induction modes as [|k modes IH]; [destruct Hm|]. cbn [mapM]. destruct (nth_error (S0 :: S) k) as [s|] eqn:E.
    - cbn [bind]. destruct Hm as [->|Hm]; [apply nth_error_None in Hl; congruence|]. rewrite (IH Hm). reflexivity.
    - reflexivity. }
  rewrite E. reflexivity.
Qed.
(*@ Example C27_example : Modes 0, 1 of a scalar system with two modes: the condensed matrices. *)
Lemma condense_example :
  let S := [ASys (Mat 1 [[2]]) (Mat 1 [[1]]) [5]; ASys (Mat 1 [[3]]) (Mat 1 [[4]]) [7]] in
  coherent_systems S 1 1 /\
  condense_pwa_system S [0%nat; 1%nat] = Ok (Mat 1 [[1]; [2]; [6]], Mat 2 [[0; 0]; [1; 0]; [3; 4]], [0; 5; 22]).
Proof.
  cbv zeta. split.
  - split; [discriminate|]. intros s [<-|[<-|[]]]; (split; [|reflexivity]); (split; (split; [reflexivity|split; [reflexivity|repeat constructor]])).
  - cbv -[Rplus Rmult IZR]. repeat f_equal; ring.
Qed.
