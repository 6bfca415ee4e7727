(** * HeapThms: aliasing of arrays (C55), proofs *)
From Coq Require Import ZArith.
From Verif Require Import Arr ArrFacts Spec Numpy Pnnls PnnlsFacts GeomUtils Polyhedron PolyThms Mpqp Heap.

(** ** Specification *)
(** the addresses of the arrays of an object, and of the arguments of a call *)
Definition addrs (o : obj) : list nat := concat (a_rows (o_A o)) ++ o_b o ++ concat (a_rows (o_C o)) ++ o_d o.
Definition addrs_of (a : harr) : list nat := match a with H1 a => a | H2 A => concat (a_rows A) end.
Definition addrs_bound (x : hbound) : list nat := match x with HFloat _ => [] | HArr a => addrs_of a end.
Definition args (c : op) : list nat :=
  match c with
  | ONew A b C d => concat (a_rows A) ++ addrs_of b ++ match C with Some C => concat (a_rows C) | None => [] end ++ match d with Some d => addrs_of d | None => [] end
  | OAddInequality _ A b _ => concat (a_rows A) ++ addrs_of b
  | OAddEquality _ C d _ => concat (a_rows C) ++ addrs_of d
  | OAddLower _ x _ => addrs_bound x
  | OAddUpper _ x _ => addrs_bound x
  | OAddBounds _ x y _ => addrs_bound x ++ addrs_bound y
  | _ => []
  end.
Definition exist_in (m : list R) (l : list nat) : Prop := forall k, In k l -> (k < length m)%nat.
(** all the arrays of the objects exist *)
Definition heap_ok (h : heap) : Prop := forall o, In o (objs h) -> exist_in (mem h) (addrs o).
(** the calls of a history only name arrays that exist when the call is made *)
Fixpoint args_exist (np : numpy) (h : heap) (l : list op) : Prop :=
  match l with [] => True | c :: l' => exist_in (mem h) (args c) /\ args_exist np (exec np h c) l' end.
(** the object on which a method is called *)
Definition target (c : op) : option nat :=
  match c with
  | OAddInequality k _ _ _ | OAddEquality k _ _ _ | OAddLower k _ _ | OAddUpper k _ _ | OAddBounds k _ _ _
  | ORemove k | OQuery k _ | ONormalize k _ => Some k
  | _ => None
  end.
Definition normalizes (c : op) : bool := match c with ONormalize _ _ => true | _ => false end.
Definition shares (l l' : list nat) : Prop := exists k, In k l /\ In k l'.

(** ** Memory *)
Lemma put_length k v m : length (put k v m) = length m.
Proof. revert k. induction m as [|x m IH]; intros [|k]; cbn; auto. Qed.
Lemma nth_put k v m j : nth j (put k v m) 0 = if (Nat.eqb j k && (k <? length m)%nat)%bool then v else nth j m 0.
Proof.
  revert k j. induction m as [|x m IH]; intros k j.
  - cbn. rewrite andb_false_r. destruct j; reflexivity.
  - destruct k as [|k], j as [|j]; try reflexivity. cbn [put nth]. rewrite IH. cbn [length]. change (Nat.eqb (S j) (S k)) with (Nat.eqb j k). change (S k <? S (length m))%nat with (k <? length m)%nat. reflexivity.
Qed.
Lemma nth_put_other k v m j : j <> k -> nth j (put k v m) 0 = nth j m 0.
Proof. intros H. rewrite nth_put. replace (Nat.eqb j k) with false by (symmetry; apply Nat.eqb_neq; exact H). reflexivity. Qed.
Lemma nth_put_same k v m : (k < length m)%nat -> nth k (put k v m) 0 = v.
Proof. intros H. rewrite nth_put, Nat.eqb_refl. replace (k <? length m)%nat with true by (symmetry; apply Nat.ltb_lt; exact H). reflexivity. Qed.
Lemma wr_cons m k a x v : wr m (k :: a) (x :: v) = wr (put k x m) a v. Proof. reflexivity. Qed.
Lemma wr_length m a v : length (wr m a v) = length m.
Proof. revert m v. induction a as [|k a IH]; intros m [|x v]; auto. rewrite wr_cons, IH. apply put_length. Qed.
Lemma nth_wr_other m a v j : ~ In j a -> nth j (wr m a v) 0 = nth j m 0.
Proof. revert m v. induction a as [|k a IH]; intros m [|x v] H; auto. rewrite wr_cons, IH by (intros I; apply H; right; exact I). apply nth_put_other. intros ->. apply H. left. reflexivity. Qed.
Lemma rd_length m a : length (rd m a) = length a. Proof. apply map_length. Qed.
Lemma rd_ext m m' a : (forall k, In k a -> nth k m' 0 = nth k m 0) -> rd m' a = rd m a.
Proof. intros H. apply map_ext_in. exact H. Qed.
Lemma rd_wr m a v : NoDup a -> exist_in m a -> length v = length a -> rd (wr m a v) a = v.
Proof.
  revert m v. induction a as [|k a IH]; intros m [|x v] N I L; try discriminate; [reflexivity|]. rewrite wr_cons. inversion N as [|? ? N1 N2]; subst. cbn [rd map]. f_equal.
  - rewrite nth_wr_other by exact N1. apply nth_put_same. apply I. left. reflexivity.
  - apply IH; [exact N2| |cbn in L; lia]. intros j Hj. rewrite put_length. apply I. right. exact Hj.
Qed.
Lemma rd_wr_other m a v b : (forall k, In k b -> ~ In k a) -> rd (wr m a v) b = rd m b.
Proof. intros H. apply rd_ext. intros k Hk. apply nth_wr_other, H, Hk. Qed.

(** ** New arrays *)
Lemma exist_app m e l : exist_in m l -> exist_in (m ++ e) l.
Proof. intros H k Hk. rewrite app_length. specialize (H k Hk). lia. Qed.
Lemma exist_split m l l' : exist_in m (l ++ l') <-> exist_in m l /\ exist_in m l'.
Proof. unfold exist_in. setoid_rewrite in_app_iff. firstorder. Qed.
Lemma rd_app m e a : exist_in m a -> rd (m ++ e) a = rd m a.
Proof. intros H. apply rd_ext. intros k Hk. apply app_nth1. exact (H k Hk). Qed.
Lemma rd2_app m e A : exist_in m (concat (a_rows A)) -> rd2 (m ++ e) A = rd2 m A.
Proof. intros H. unfold rd2. f_equal. apply map_ext_in. intros r Hr. apply rd_app. intros k Hk. apply H. apply in_concat. eauto. Qed.
Lemma rdn_app m e a : exist_in m (addrs_of a) -> rdn (m ++ e) a = rdn m a.
Proof. destruct a; cbn; intros H; f_equal; [apply rd_app|apply rd2_app]; exact H. Qed.
Lemma exist_addrs m o : exist_in m (addrs o) <-> exist_in m (concat (a_rows (o_A o))) /\ exist_in m (o_b o) /\ exist_in m (concat (a_rows (o_C o))) /\ exist_in m (o_d o).
Proof. unfold addrs. rewrite !exist_split. tauto. Qed.
Lemma view_app m e o : exist_in m (addrs o) -> view (m ++ e) o = view m o.
Proof. intros H. apply exist_addrs in H. destruct H as (H1 & H2 & H3 & H4). unfold view. f_equal; auto using rd_app, rd2_app. Qed.
Lemma rd_seq m v e : rd (m ++ v ++ e) (seq (length m) (length v)) = v.
Proof.
  revert m. induction v as [|x v IH]; intros m; [reflexivity|]. cbn [length seq rd map]. f_equal.
  - rewrite app_nth2, Nat.sub_diag by lia. reflexivity.
  - replace (m ++ (x :: v) ++ e) with ((m ++ [x]) ++ v ++ e) by (rewrite <- app_assoc; reflexivity). replace (S (length m)) with (length (m ++ [x])) by (rewrite app_length; cbn; lia). apply IH.
Qed.
Lemma new1_ok m v : let (m1, a) := new1 m v in m1 = m ++ v /\ a = seq (length m) (length v) /\ rd m1 a = v.
Proof. cbn. split; [reflexivity|]. split; [reflexivity|]. rewrite <- (app_nil_r (m ++ v)), <- app_assoc. apply rd_seq. Qed.
Lemma new_rows_ok rs : forall m, let (m1, l) := new_rows m rs in m1 = m ++ concat rs /\ concat l = seq (length m) (length (concat rs)) /\ map (rd m1) l = rs.
Proof.
  induction rs as [|r rs IH]; intros m; cbn [new_rows].
  - cbn. rewrite app_nil_r. auto.
  - cbn [new1]. specialize (IH (m ++ r)). destruct (new_rows (m ++ r) rs) as [m2 l] eqn:E. destruct IH as (-> & I2 & I3). split; [cbn; rewrite app_assoc; reflexivity|]. split.
    + cbn [concat]. rewrite I2, (app_length r), seq_app, (app_length m r). reflexivity.
    + cbn [map]. rewrite I3. f_equal. rewrite <- app_assoc. apply rd_seq.
Qed.
Lemma new2_ok m A : let (m1, A1) := new2 m A in m1 = m ++ concat (rows A) /\ concat (a_rows A1) = seq (length m) (length (concat (rows A))) /\ rd2 m1 A1 = A /\ a_cols A1 = ncols A /\ length (a_rows A1) = length (rows A).
Proof.
  unfold new2. pose proof (new_rows_ok (rows A) m) as H. destruct (new_rows m (rows A)) as [m1 l]. destruct H as (H1 & H2 & H3). cbn [a_rows a_cols]. split; [exact H1|]. split; [exact H2|]. split; [unfold rd2; cbn; rewrite H3; destruct A; reflexivity|]. split; [reflexivity|]. rewrite <- H3, map_length. reflexivity.
Qed.
Lemma newn_ok m a : let (m1, x) := newn m a in exists e, m1 = m ++ e /\ addrs_of x = seq (length m) (length e) /\ rdn m1 x = a.
Proof.
  destruct a as [v|M]; cbn [newn].
  - pose proof (new1_ok m v) as H. destruct (new1 m v) as [m1 x]. destruct H as (H1 & H2 & H3). exists v. cbn. rewrite H3. auto.
  - pose proof (new2_ok m M) as H. destruct (new2 m M) as [m1 x]. destruct H as (H1 & H2 & H3 & _). exists (concat (rows M)). cbn. rewrite H3. auto.
Qed.
Lemma in_seq' k a n : In k (seq a n) <-> (a <= k < a + n)%nat. Proof. apply in_seq. Qed.
Lemma exist_seq m e : exist_in (m ++ e) (seq (length m) (length e)).
Proof. intros k Hk. apply in_seq in Hk. rewrite app_length. lia. Qed.
Lemma view_delete m o : view m (o_delete o) = delete_attributes (view m o). Proof. reflexivity. Qed.

(** ** Methods that add constraints *)
(** a pair (left-hand side, right-hand side): its addresses, and the pairs of an object *)
Definition pair : Type := list (list nat) * list nat.
Definition paddrs (P : pair) : list nat := concat (fst P) ++ snd P.
Definition ineqs (o : obj) : pair := (a_rows (o_A o), o_b o).
Definition eqs (o : obj) : pair := (a_rows (o_C o), o_d o).
(** no entry twice, as many rows as right-hand sides *)
Definition pair_ok (P : pair) : Prop := NoDup (paddrs P) /\ length (fst P) = length (snd P).
(** made of new arrays *)
Definition pair_new (m m' : list R) (P : pair) : Prop := pair_ok P /\ forall k, In k (paddrs P) -> (length m <= k < length m')%nat.
Definition grows (m : list R) (o : obj) (m' : list R) (o' : obj) : Prop :=
  (exists e, m' = m ++ e) /\ exist_in m' (addrs o') /\ (forall k, In k (addrs o') -> In k (addrs o) \/ (length m <= k)%nat).
Lemma addrs_pairs o k : In k (addrs o) <-> In k (paddrs (ineqs o)) \/ In k (paddrs (eqs o)).
Proof. unfold addrs, paddrs, ineqs, eqs. cbn. rewrite !in_app_iff. tauto. Qed.
Lemma grows_refl m o : exist_in m (addrs o) -> grows m o m o.
Proof. intros H. split; [exists []; rewrite app_nil_r; reflexivity|]. split; [exact H|]. auto. Qed.
Lemma grows_trans m o m1 o1 m2 o2 : grows m o m1 o1 -> grows m1 o1 m2 o2 -> grows m o m2 o2.
Proof.
  intros ((e1 & ->) & A1 & B1) ((e2 & ->) & A2 & B2). split; [exists (e1 ++ e2); rewrite app_assoc; reflexivity|]. split; [exact A2|]. intros k Hk. destruct (B2 k Hk) as [H|H]; [apply B1; exact H|right; rewrite app_length in H; lia].
Qed.
Lemma NoDup_seqs a n p : NoDup (seq a n ++ seq (a + n) p).
Proof. rewrite <- seq_app. apply seq_NoDup. Qed.
Lemma size_1d m b : nd_size (rdn m (H1 b)) = length b. Proof. cbn. apply rd_length. Qed.

Section AddIneq.
Variables (m : list R) (o : obj) (A : arr2) (b : harr) (indices : option (list Z)).
Hypothesis (HO : exist_in m (addrs o)) (HA : exist_in m (concat (a_rows A))) (Hb : exist_in m (addrs_of b)).
Lemma add_inequality_heap : let '(r, m', o') := h_add_inequality A b indices m o in
  add_inequality (rd2 m A) (rdn m b) indices (view m o) = (r, view m' o') /\ grows m o m' o' /\ eqs o' = eqs o /\
  (forall a, b = H1 a -> r <> Ok tt -> ineqs o' = ineqs o) /\
  (r = Ok tt -> length (fst (ineqs o)) = length (snd (ineqs o)) -> pair_new m m' (ineqs o')).
Proof.
  unfold h_add_inequality, add_inequality, pbind, plift, pput, pget. pose proof (proj1 (exist_addrs m o) HO) as (E1 & E2 & E3 & E4).
  destruct (same_number_rows (rd2 m A) (rdn m b)) as [[]|e] eqn:ES; [|split; [reflexivity|]; split; [exact (grows_refl m o HO)|]; repeat split; congruence].
  rewrite view_delete. destruct (np_dot (rd2 m A) (selection_matrix (delete_attributes (view m o)) indices)) as [AS|e] eqn:ED; [|split; [reflexivity|]; split; [exact (grows_refl m o HO)|]; repeat split; congruence].
  cbn [o_A o_delete]. change (pA (delete_attributes (view m o))) with (rd2 m (o_A o)). destruct (np_vstack (rd2 m (o_A o)) AS) as [A'|e] eqn:EV; [|split; [reflexivity|]; split; [exact (grows_refl m o HO)|]; repeat split; congruence].
  pose proof (new2_ok m A') as HN. destruct (new2 m A') as [m1 A1] eqn:EN. destruct HN as (-> & N2 & N3 & N4 & N5). set (e1 := concat (rows A')) in *. cbn [o_b o_set_A o_delete].
  rewrite rd_app by exact E2. rewrite rdn_app by exact Hb.
  change (pb (set_A (delete_attributes (view m o)) A')) with (rd m (o_b o)).
  destruct (np_concat (rd m (o_b o)) (rdn m b)) as [b'|e] eqn:EC.
  - pose proof (new1_ok (m ++ e1) b') as HM. destruct (new1 (m ++ e1) b') as [m2 b1]. destruct HM as (-> & M2 & M3).
    assert (VW : view ((m ++ e1) ++ b') (o_set_b (o_set_A (o_delete o) A1) b1) = set_b (set_A (delete_attributes (view m o)) A') b').
    { unfold view, set_b, set_A, delete_attributes. cbn [o_A o_b o_C o_d o_set_b o_set_A o_delete o_empty o_bounded o_radius o_center o_vertices pA pb pC pd p_empty p_bounded p_radius p_center p_vertices]. f_equal.
      - rewrite rd2_app; [exact N3|]. rewrite N2. apply exist_seq.
      - exact M3.
      - rewrite <- app_assoc. apply rd2_app, E3.
      - rewrite <- app_assoc. apply rd_app, E4. }
    split; [rewrite VW; reflexivity|]. split; [|split; [reflexivity|split; [congruence|]]].
    + split; [exists (e1 ++ b'); rewrite app_assoc; reflexivity|]. split.
      * apply exist_addrs. cbn [o_A o_b o_C o_d o_set_b o_set_A o_delete]. split; [rewrite N2; apply exist_app, exist_seq|]. split; [rewrite M2; apply exist_seq|]. rewrite <- app_assoc. split; apply exist_app; assumption.
      * intros k Hk. unfold addrs in *. cbn [o_A o_b o_C o_d o_set_b o_set_A o_delete] in Hk. rewrite N2, M2 in Hk. rewrite !in_app_iff, !in_seq in *. rewrite app_length in Hk. intuition lia.
    + intros _ LB. unfold pair_new, pair_ok, paddrs, ineqs. cbn [fst snd o_A o_b o_set_b o_set_A o_delete]. rewrite N2, M2, app_length. split; [split; [apply NoDup_seqs|]|].
      * rewrite N5, seq_length. unfold np_vstack in EV. destruct (Nat.eqb _ _); [|discriminate]. injection EV as <-. unfold np_dot in ED. destruct (Nat.eqb _ _); [|discriminate]. injection ED as <-. cbn [rows vstack rd2 mm]. rewrite app_length, !map_length.
        destruct b as [bv|M]; [|discriminate]. cbn [rdn np_concat] in EC. injection EC as <-. rewrite app_length, !rd_length. unfold same_number_rows in ES. destruct (Nat.eqb _ _) eqn:EQ; [|discriminate]. apply Nat.eqb_eq in EQ. cbn in EQ. unfold nrows in EQ. cbn in EQ. rewrite map_length, rd_length in EQ. unfold ineqs in LB. cbn in LB. lia.
      * intros k Hk. rewrite in_app_iff, !in_seq in Hk. rewrite !app_length. lia.
  - assert (VW : view (m ++ e1) (o_set_A (o_delete o) A1) = set_A (delete_attributes (view m o)) A').
    { unfold view, set_A, delete_attributes. cbn [o_A o_b o_C o_d o_set_b o_set_A o_delete o_empty o_bounded o_radius o_center o_vertices pA pb pC pd p_empty p_bounded p_radius p_center p_vertices]. f_equal; auto using rd_app, rd2_app. }
    split; [rewrite VW; reflexivity|]. split; [|split; [reflexivity|split; [|congruence]]].
    + split; [exists e1; reflexivity|]. split.
      * apply exist_addrs. cbn [o_A o_b o_C o_d o_set_b o_set_A o_delete]. split; [rewrite N2; apply exist_seq|]. split; [|split]; apply exist_app; assumption.
      * intros k Hk. unfold addrs in *. cbn [o_A o_b o_C o_d o_set_b o_set_A o_delete] in Hk. rewrite N2 in Hk. rewrite !in_app_iff, !in_seq in *. intuition lia.
    + intros a -> _. discriminate EC.
Qed.
End AddIneq.
Section AddEq.
Variables (m : list R) (o : obj) (A : arr2) (b : harr) (indices : option (list Z)).
Hypothesis (HO : exist_in m (addrs o)) (HA : exist_in m (concat (a_rows A))) (Hb : exist_in m (addrs_of b)).
Lemma add_equality_heap : let '(r, m', o') := h_add_equality A b indices m o in
  add_equality (rd2 m A) (rdn m b) indices (view m o) = (r, view m' o') /\ grows m o m' o' /\ ineqs o' = ineqs o /\
  (forall a, b = H1 a -> r <> Ok tt -> eqs o' = eqs o) /\
  (r = Ok tt -> length (fst (eqs o)) = length (snd (eqs o)) -> pair_new m m' (eqs o')).
Proof.
  unfold h_add_equality, add_equality, pbind, plift, pput, pget. pose proof (proj1 (exist_addrs m o) HO) as (E1 & E2 & E3 & E4).
  destruct (same_number_rows (rd2 m A) (rdn m b)) as [[]|e] eqn:ES; [|split; [reflexivity|]; split; [exact (grows_refl m o HO)|]; repeat split; congruence].
  rewrite view_delete. destruct (np_dot (rd2 m A) (selection_matrix (delete_attributes (view m o)) indices)) as [AS|e] eqn:ED; [|split; [reflexivity|]; split; [exact (grows_refl m o HO)|]; repeat split; congruence].
  cbn [o_C o_delete]. change (pC (delete_attributes (view m o))) with (rd2 m (o_C o)). destruct (np_vstack (rd2 m (o_C o)) AS) as [A'|e] eqn:EV; [|split; [reflexivity|]; split; [exact (grows_refl m o HO)|]; repeat split; congruence].
  pose proof (new2_ok m A') as HN. destruct (new2 m A') as [m1 A1] eqn:EN. destruct HN as (-> & N2 & N3 & N4 & N5). set (e1 := concat (rows A')) in *. cbn [o_d o_set_C o_delete].
  rewrite rd_app by exact E4. rewrite rdn_app by exact Hb.
  change (pd (set_C (delete_attributes (view m o)) A')) with (rd m (o_d o)).
  destruct (np_concat (rd m (o_d o)) (rdn m b)) as [b'|e] eqn:EC.
  - pose proof (new1_ok (m ++ e1) b') as HM. destruct (new1 (m ++ e1) b') as [m2 b1]. destruct HM as (-> & M2 & M3).
    assert (VW : view ((m ++ e1) ++ b') (o_set_d (o_set_C (o_delete o) A1) b1) = set_d (set_C (delete_attributes (view m o)) A') b').
    { unfold view, set_d, set_C, delete_attributes. cbn [o_A o_b o_C o_d o_set_d o_set_C o_delete o_empty o_bounded o_radius o_center o_vertices pA pb pC pd p_empty p_bounded p_radius p_center p_vertices]. f_equal.
      - rewrite <- app_assoc. apply rd2_app, E1.
      - rewrite <- app_assoc. apply rd_app, E2.
      - rewrite rd2_app; [exact N3|]. rewrite N2. apply exist_seq.
      - exact M3. }
    split; [rewrite VW; reflexivity|]. split; [|split; [reflexivity|split; [congruence|]]].
    + split; [exists (e1 ++ b'); rewrite app_assoc; reflexivity|]. split.
      * apply exist_addrs. cbn [o_A o_b o_C o_d o_set_d o_set_C o_delete]. split; [rewrite <- app_assoc; apply exist_app, E1|]. split; [rewrite <- app_assoc; apply exist_app, E2|]. split; [rewrite N2; apply exist_app, exist_seq|rewrite M2; apply exist_seq].
      * intros k Hk. unfold addrs in *. cbn [o_A o_b o_C o_d o_set_d o_set_C o_delete] in Hk. rewrite N2, M2 in Hk. rewrite !in_app_iff, !in_seq in *. rewrite app_length in Hk. intuition lia.
    + intros _ LB. unfold pair_new, pair_ok, paddrs, eqs. cbn [fst snd o_C o_d o_set_d o_set_C o_delete]. rewrite N2, M2, app_length. split; [split; [apply NoDup_seqs|]|].
      * rewrite N5, seq_length. unfold np_vstack in EV. destruct (Nat.eqb _ _); [|discriminate]. injection EV as <-. unfold np_dot in ED. destruct (Nat.eqb _ _); [|discriminate]. injection ED as <-. cbn [rows vstack rd2 mm]. rewrite app_length, !map_length.
        destruct b as [bv|M]; [|discriminate]. cbn [rdn np_concat] in EC. injection EC as <-. rewrite app_length, !rd_length. unfold same_number_rows in ES. destruct (Nat.eqb _ _) eqn:EQ; [|discriminate]. apply Nat.eqb_eq in EQ. cbn in EQ. unfold nrows in EQ. cbn in EQ. rewrite map_length, rd_length in EQ. unfold eqs in LB. cbn in LB. lia.
      * intros k Hk. rewrite in_app_iff, !in_seq in Hk. rewrite !app_length. lia.
  - assert (VW : view (m ++ e1) (o_set_C (o_delete o) A1) = set_C (delete_attributes (view m o)) A').
    { unfold view, set_C, delete_attributes. cbn [o_A o_b o_C o_d o_set_d o_set_C o_delete o_empty o_bounded o_radius o_center o_vertices pA pb pC pd p_empty p_bounded p_radius p_center p_vertices]. f_equal; auto using rd_app, rd2_app. }
    split; [rewrite VW; reflexivity|]. split; [|split; [reflexivity|split; [|congruence]]].
    + split; [exists e1; reflexivity|]. split.
      * apply exist_addrs. cbn [o_A o_b o_C o_d o_set_d o_set_C o_delete]. split; [apply exist_app, E1|]. split; [apply exist_app, E2|]. split; [rewrite N2; apply exist_seq|apply exist_app, E4].
      * intros k Hk. unfold addrs in *. cbn [o_A o_b o_C o_d o_set_d o_set_C o_delete] in Hk. rewrite N2 in Hk. rewrite !in_app_iff, !in_seq in *. intuition lia.
    + intros a -> _. discriminate EC.
Qed.
End AddEq.

(** ** All methods *)
Definition sizes (o : obj) : Prop := length (fst (ineqs o)) = length (snd (ineqs o)) /\ length (fst (eqs o)) = length (snd (eqs o)).
Definition pairs_step (m m' : list R) (o o' : obj) : Prop :=
  (ineqs o' = ineqs o \/ pair_new m m' (ineqs o')) /\ (eqs o' = eqs o \/ pair_new m m' (eqs o')).
Definition one_dim (a : harr) : Prop := match a with H1 _ => True | H2 _ => False end.
Definition one_dim_bound (x : hbound) : Prop := match x with HFloat _ => True | HArr a => one_dim a end.
Definition method_ok (c : om Datatypes.unit) (v : pm Datatypes.unit) (od : Prop) (m : list R) (o : obj) : Prop :=
  let '(r, m', o') := c m o in v (view m o) = (r, view m' o') /\ grows m o m' o' /\ (od -> sizes o -> pairs_step m m' o o').
Lemma pair_new_weaken m e m' e' P : pair_new (m ++ e) m' P -> pair_new m (m' ++ e') P.
Proof. intros (H & I). split; [exact H|]. intros k Hk. specialize (I k Hk). rewrite app_length in *. lia. Qed.
Lemma pair_new_left m e m' P : pair_new (m ++ e) m' P -> pair_new m m' P.
Proof. intros H. rewrite <- (app_nil_r m'). apply (pair_new_weaken m e m' [] P H). Qed.
Lemma pair_new_right m m' e' P : pair_new m m' P -> pair_new m (m' ++ e') P.
Proof. intros H. apply (pair_new_weaken m [] m' e' P). rewrite app_nil_r. exact H. Qed.
Lemma pairs_sizes m m' o o' : pairs_step m m' o o' -> sizes o -> sizes o'.
Proof. intros (A & B) (S1 & S2). split; [destruct A as [->|((_ & H) & _)]|destruct B as [->|((_ & H) & _)]]; assumption. Qed.
Lemma pairs_trans m o m1 o1 m2 o2 : (exists e, m1 = m ++ e) -> (exists e, m2 = m1 ++ e) -> pairs_step m m1 o o1 -> pairs_step m1 m2 o1 o2 -> pairs_step m m2 o o2.
Proof.
  intros (e1 & ->) (e2 & ->) (A1 & B1) (A2 & B2). split.
  - destruct A2 as [->|H]; [destruct A1 as [->|H]; [left; reflexivity|right; apply pair_new_right, H]|right; apply pair_new_left with e1, H].
  - destruct B2 as [->|H]; [destruct B1 as [->|H]; [left; reflexivity|right; apply pair_new_right, H]|right; apply pair_new_left with e1, H].
Qed.
Lemma add_inequality_method m o A b indices : exist_in m (addrs o) -> exist_in m (concat (a_rows A)) -> exist_in m (addrs_of b) ->
  method_ok (h_add_inequality A b indices) (add_inequality (rd2 m A) (rdn m b) indices) (one_dim b) m o.
Proof.
  intros HO HA Hb. unfold method_ok. pose proof (add_inequality_heap m o A b indices HO Hb) as H. destruct (h_add_inequality A b indices m o) as [[r m'] o']. destruct H as (E & G & Q & N & P).
  split; [exact E|]. split; [exact G|]. intros D (S1 & _). split; [|left; exact Q]. destruct b as [a|]; [|destruct D]. destruct r as [[]|e]; [right; apply P; auto|left; apply (N a eq_refl); discriminate].
Qed.
Lemma add_equality_method m o A b indices : exist_in m (addrs o) -> exist_in m (concat (a_rows A)) -> exist_in m (addrs_of b) ->
  method_ok (h_add_equality A b indices) (add_equality (rd2 m A) (rdn m b) indices) (one_dim b) m o.
Proof.
  intros HO HA Hb. unfold method_ok. pose proof (add_equality_heap m o A b indices HO Hb) as H. destruct (h_add_equality A b indices m o) as [[r m'] o']. destruct H as (E & G & Q & N & P).
  split; [exact E|]. split; [exact G|]. intros D (_ & S1). split; [left; exact Q|]. destruct b as [a|]; [|destruct D]. destruct r as [[]|e]; [right; apply P; auto|left; apply (N a eq_refl); discriminate].
Qed.
Lemma bound_array_ok m x : exist_in m (addrs_bound x) -> let (m1, a) := h_bound_array m x in exists e, m1 = m ++ e /\ exist_in m1 (addrs_of a) /\ rdn m1 a = bound_array (rdb m x) /\ (one_dim_bound x -> one_dim a).
Proof.
  intros H. destruct x as [r|a]; cbn [h_bound_array].
  - pose proof (newn_ok m (D1 [r])) as N. cbn [newn new1] in *. destruct N as (e & E1 & E2 & E3). exists e. split; [exact E1|]. split; [rewrite E2, E1; apply exist_seq|]. split; [exact E3|]. cbn. auto.
  - exists []. rewrite app_nil_r. split; [reflexivity|]. cbn in *. auto.
Qed.
(** after intermediate arrays have been made *)
Lemma method_after (c c' : om Datatypes.unit) v od m e o : c m o = c' (m ++ e) o -> exist_in m (addrs o) -> method_ok c' v od (m ++ e) o -> method_ok c v od m o.
Proof.
  unfold method_ok. intros -> HO. destruct (c' (m ++ e) o) as [[r m'] o']. rewrite view_app by exact HO. intros (E & G & P). split; [exact E|]. split.
  - apply (grows_trans m o (m ++ e) o); [|exact G]. split; [exists e; reflexivity|]. split; [apply exist_app, HO|auto].
  - intros D S. destruct (P D S) as (P1 & P2). split; [destruct P1|destruct P2]; auto; right; apply pair_new_left with e; assumption.
Qed.
Lemma pget_bind {T} (f : poly -> pm T) p : pbind pget f p = f p p. Proof. reflexivity. Qed.
Lemma one_dim_newn m a : (match a with D1 _ => True | D2 _ => False end) -> one_dim (snd (newn m a)).
Proof. destruct a as [v|M]; cbn; [auto|tauto]. Qed.
Lemma add_lower_method m o x indices : exist_in m (addrs o) -> exist_in m (addrs_bound x) ->
  method_ok (h_add_lower_bound x indices) (add_lower_bound (rdb m x) indices) (one_dim_bound x) m o.
Proof.
  intros HO Hx. unfold method_ok, h_add_lower_bound, add_lower_bound. pose proof (bound_array_ok m x Hx) as B. destruct (h_bound_array m x) as [m1 a]. destruct B as (e1 & -> & B1 & B2 & B3).
  pose proof (new2_ok (m ++ e1) (mneg (selection_matrix (view (m ++ e1) o) indices))) as N. destruct (new2 _ _) as [m2 S]. destruct N as (E2 & N2 & N3 & N4 & N5). subst m2. set (e2 := concat (rows _)) in *.
  pose proof (newn_ok ((m ++ e1) ++ e2) (nd_neg (rdn ((m ++ e1) ++ e2) a))) as M. pose proof (one_dim_newn ((m ++ e1) ++ e2) (nd_neg (rdn ((m ++ e1) ++ e2) a))) as OD. destruct (newn _ _) as [m3 b]. destruct M as (e3 & -> & M2 & M3). cbn [snd] in OD.
  rewrite (rdn_app (m ++ e1) e2 a B1), B2 in M3. rewrite view_app in N3 by exact HO. rewrite pget_bind.
  assert (ES : exist_in (((m ++ e1) ++ e2) ++ e3) (concat (a_rows S))) by (rewrite N2; apply exist_app, exist_seq).
  assert (EB : exist_in (((m ++ e1) ++ e2) ++ e3) (addrs_of b)) by (rewrite M2; apply exist_seq).
  replace (((m ++ e1) ++ e2) ++ e3) with (m ++ (e1 ++ e2 ++ e3)) in * by (rewrite !app_assoc; reflexivity).
  pose proof (add_inequality_method (m ++ (e1 ++ e2 ++ e3)) o S b None (exist_app _ _ _ HO) ES EB) as Q. unfold method_ok in Q.
  destruct (h_add_inequality S b None (m ++ (e1 ++ e2 ++ e3)) o) as [[r m'] o']. rewrite view_app in Q by exact HO. rewrite M3 in Q.
  assert (RS : rd2 (m ++ e1 ++ e2 ++ e3) S = mneg (selection_matrix (view m o) indices)).
  { replace (m ++ e1 ++ e2 ++ e3) with (((m ++ e1) ++ e2) ++ e3) by (rewrite !app_assoc; reflexivity). rewrite rd2_app; [exact N3|]. rewrite N2. apply exist_seq. }
  rewrite RS in Q. destruct Q as (E & G & P). split; [exact E|]. split.
  - apply (grows_trans m o (m ++ (e1 ++ e2 ++ e3)) o); [|exact G]. split; [eexists; reflexivity|]. split; [apply exist_app, HO|auto].
  - intros D SZ. destruct P as (P1 & P2); [|exact SZ|].
    + apply OD. rewrite rdn_app by exact B1. specialize (B3 D). destruct a; [exact I|destruct B3].
    + split; [destruct P1|destruct P2]; auto; right; eapply pair_new_left; eassumption.
Qed.
Lemma add_upper_method m o x indices : exist_in m (addrs o) -> exist_in m (addrs_bound x) ->
  method_ok (h_add_upper_bound x indices) (add_upper_bound (rdb m x) indices) (one_dim_bound x) m o.
Proof.
  intros HO Hx. unfold method_ok, h_add_upper_bound, add_upper_bound. pose proof (bound_array_ok m x Hx) as B. destruct (h_bound_array m x) as [m1 a]. destruct B as (e1 & -> & B1 & B2 & B3).
  pose proof (new2_ok (m ++ e1) (selection_matrix (view (m ++ e1) o) indices)) as N. destruct (new2 _ _) as [m2 S]. destruct N as (E2 & N2 & N3 & N4 & N5). subst m2. set (e2 := concat (rows _)) in *.
  rewrite view_app in N3 by exact HO. rewrite pget_bind.
  assert (ES : exist_in ((m ++ e1) ++ e2) (concat (a_rows S))) by (rewrite N2; apply exist_seq).
  assert (EB : exist_in ((m ++ e1) ++ e2) (addrs_of a)) by (apply exist_app, B1).
  assert (RB : rdn ((m ++ e1) ++ e2) a = bound_array (rdb m x)) by (rewrite rdn_app by exact B1; exact B2).
  replace ((m ++ e1) ++ e2) with (m ++ (e1 ++ e2)) in * by (rewrite !app_assoc; reflexivity).
  pose proof (add_inequality_method (m ++ (e1 ++ e2)) o S a None (exist_app _ _ _ HO) ES EB) as Q. unfold method_ok in Q.
  destruct (h_add_inequality S a None (m ++ (e1 ++ e2)) o) as [[r m'] o']. rewrite view_app in Q by exact HO. rewrite RB, N3 in Q. destruct Q as (E & G & P). split; [exact E|]. split.
  - apply (grows_trans m o (m ++ (e1 ++ e2)) o); [|exact G]. split; [eexists; reflexivity|]. split; [apply exist_app, HO|auto].
  - intros D SZ. destruct P as (P1 & P2); [auto|exact SZ|]. split; [destruct P1|destruct P2]; auto; right; eapply pair_new_left; eassumption.
Qed.
Lemma rdb_app m e x : exist_in m (addrs_bound x) -> rdb (m ++ e) x = rdb m x.
Proof. destruct x as [r|a]; cbn; intros H; [reflexivity|]. rewrite rdn_app by exact H. reflexivity. Qed.
Lemma add_bounds_method m o x y indices : exist_in m (addrs o) -> exist_in m (addrs_bound x) -> exist_in m (addrs_bound y) ->
  method_ok (h_add_bounds x y indices) (add_bounds (rdb m x) (rdb m y) indices) (one_dim_bound x /\ one_dim_bound y) m o.
Proof.
  intros HO Hx Hy. unfold method_ok, h_add_bounds, add_bounds. pose proof (add_lower_method m o x indices HO Hx) as L. unfold method_ok in L. destruct (h_add_lower_bound x indices m o) as [[r m1] o1].
  destruct L as (E & G & P). unfold pbind at 1. rewrite E. destruct r as [u|e]; [|split; [reflexivity|]; split; [exact G|]; intros (D & _); auto].
  pose proof G as ((e1 & ->) & G2 & G3). pose proof (add_upper_method (m ++ e1) o1 y indices G2 (exist_app _ _ _ Hy)) as U. unfold method_ok in U. destruct (h_add_upper_bound y indices (m ++ e1) o1) as [[r2 m2] o2].
  rewrite rdb_app in U by exact Hy. destruct U as (E' & G' & P'). split; [exact E'|]. split; [eapply grows_trans; eassumption|]. intros (D1 & D2) SZ. specialize (P D1 SZ). specialize (P' D2 (pairs_sizes _ _ _ _ P SZ)).
  eapply pairs_trans; [exists e1; reflexivity|apply G'|exact P|exact P'].
Qed.
(** methods that only read the arrays *)
Definition keeps {T} (c : pm T) : Prop := forall p, pA (snd (c p)) = pA p /\ pb (snd (c p)) = pb p /\ pC (snd (c p)) = pC p /\ pd (snd (c p)) = pd p.
Lemma keeps_bind {T U} (c : pm T) (f : T -> pm U) : keeps c -> (forall a, keeps (f a)) -> keeps (pbind c f).
Proof.
  intros Hc Hf p. unfold pbind. specialize (Hc p). destruct (c p) as [[a|e] p1]; cbn [snd] in Hc |- *; [|exact Hc]. specialize (Hf a p1). destruct Hc as (C1 & C2 & C3 & C4), Hf as (F1 & F2 & F3 & F4). split; [congruence|]. split; [congruence|]. split; congruence.
Qed.
Lemma keeps_ret {T} (a : T) : keeps (pret a). Proof. intros p. cbn. auto. Qed.
Lemma keeps_raise {T} e : @keeps T (praise e). Proof. intros p. cbn. auto. Qed.
Lemma keeps_lift {T} (r : res T) : keeps (plift r). Proof. intros p. cbn. auto. Qed.
(** reading the object and then doing something that keeps the arrays of that very object *)
Lemma keeps_get {T} (f : poly -> pm T) : (forall p, pA (snd (f p p)) = pA p /\ pb (snd (f p p)) = pb p /\ pC (snd (f p p)) = pC p /\ pd (snd (f p p)) = pd p) -> keeps (pbind pget f).
Proof. intros H p. apply H. Qed.

Ltac keep4 := split; [reflexivity|split; [reflexivity|split; reflexivity]].
Lemma keeps_empty np : keeps (get_empty np).
Proof. intros p. unfold get_empty, pbind, pget, plift, pput, pret. destruct (p_empty p); [keep4|]. destruct (qp _ _ _ _ _ _ _); keep4. Qed.
Lemma keeps_radius np : keeps (get_radius np).
Proof. intros p. unfold get_radius, pbind, pget, plift, pput, pret. destruct (p_radius p); [keep4|]. destruct (chebyshev _ _ _ _ _); keep4. Qed.
Lemma keeps_center np : keeps (get_center np).
Proof. intros p. unfold get_center, pbind, pget, plift, pput, pret. destruct (p_center p); [keep4|]. destruct (chebyshev _ _ _ _ _); keep4. Qed.
Lemma keeps_bounded np : keeps (get_bounded np).
Proof.
  apply keeps_get. intros p. destruct (p_bounded p) as [e|]; [keep4|]. revert p. apply keeps_bind; [apply keeps_empty|]. intros [|]; [apply keeps_ret|]. apply keeps_get. intros p. cbv beta zeta. match goal with |- context [(0 <? ?n)%nat] => destruct (0 <? n)%nat end; [keep4|]. unfold pbind, plift. destruct (lp _ _ _ _ _ _); keep4.
Qed.
Lemma keeps_facets np tol : keeps (minimal_facets np tol).
Proof.
  apply keeps_bind; [apply keeps_empty|]. intros [|]; [apply keeps_ret|]. apply keeps_get. intros p. unfold pbind, plift. destruct (if (0 <? nrows (pC p))%nat then _ else _) as [[E f]|e]; [|keep4]. cbv beta iota. destruct (facets_loop _ _ _ _ _ _); keep4.
Qed.
Lemma keeps_vertices np : keeps (get_vertices np).
Proof.
  assert (PV : forall vs, keeps (let! p := pget in pput (set_vertices p (Some vs)) ;! pret (Some vs))) by (intros vs p; keep4).
  apply keeps_get. intros p. destruct (p_vertices p) as [e|]; [keep4|]. revert p. apply keeps_bind; [apply keeps_bounded|]. intros [|]; [|apply keeps_ret]. apply keeps_bind; [apply keeps_radius|]. intros [r|]; [|apply keeps_raise].
  destruct (Rltb r tol7); [apply keeps_ret|]. intros p. rewrite pget_bind. destruct (0 <? nrows (pC p))%nat.
  - match goal with |- context [?f p] => assert (K : keeps f); [|apply K] end. apply keeps_bind; [apply keeps_lift|]. intros [[[A b] N] R]. cbv beta iota. apply keeps_bind; [apply keeps_lift|]. intros T1. apply keeps_bind; [apply keeps_center|]. intros c. apply keeps_bind; [apply keeps_lift|]. intros vs. apply keeps_bind; [apply keeps_lift|]. intros CR1. apply PV.
  - match goal with |- context [?f p] => assert (K : keeps f); [|apply K] end. apply keeps_bind; [apply keeps_center|]. intros c. apply keeps_bind; [apply keeps_lift|]. intros vs. apply PV.
Qed.
Lemma keeps_ask np q : keeps (ask np q).
Proof. destruct q; (apply keeps_bind; [|intros; apply keeps_ret]); auto using keeps_empty, keeps_bounded, keeps_radius, keeps_center, keeps_vertices, keeps_facets. Qed.
Lemma view_caches m o p : pA p = pA (view m o) -> pb p = pb (view m o) -> pC p = pC (view m o) -> pd p = pd (view m o) -> view m (o_caches o p) = p.
Proof. destruct p. cbn. intros -> -> -> ->. reflexivity. Qed.
Lemma query_method np m o q : exist_in m (addrs o) -> method_ok (h_query np q) (ask np q) True m o.
Proof.
  intros HO. unfold method_ok, h_query. pose proof (keeps_ask np q (view m o)) as K. destruct (ask np q (view m o)) as [r p]. destruct K as (K1 & K2 & K3 & K4). cbn [snd] in *. rewrite view_caches by assumption. split; [reflexivity|]. split; [exact (grows_refl m o HO)|]. intros _ _. split; left; reflexivity.
Qed.
Lemma remove_method np m o : exist_in m (addrs o) -> method_ok (h_remove_redundant_inequalities np) (remove_redundant_inequalities np) True m o.
Proof.
  intros HO. unfold method_ok, h_remove_redundant_inequalities, remove_redundant_inequalities. unfold pbind at 1. pose proof (keeps_facets np tol7 (view m o)) as K. destruct (minimal_facets np tol7 (view m o)) as [[[mf|]|e] p]; destruct K as (K1 & K2 & K3 & K4); cbn [snd] in *.
  - pose proof (view_caches m o p K1 K2 K3 K4) as V. pose proof (proj1 (exist_addrs m o) HO) as (E1 & E2 & E3 & E4). cbn [o_A o_caches]. set (A' := mtake (rd2 m (o_A o)) mf).
    pose proof (new2_ok m A') as N. destruct (new2 m A') as [m1 A1]. destruct N as (-> & N2 & N3 & N4 & N5). set (e1 := concat (rows A')) in *. cbn [o_b o_set_A o_caches]. rewrite rd_app by exact E2. set (b' := vtake (rd m (o_b o)) mf).
    pose proof (new1_ok (m ++ e1) b') as M. destruct (new1 (m ++ e1) b') as [m2 b1]. destruct M as (-> & M2 & M3). split; [|split].
    + rewrite pget_bind. unfold pput. f_equal. unfold view, set_b, set_A. cbn [o_A o_b o_C o_d o_set_b o_set_A o_caches o_empty o_bounded o_radius o_center o_vertices pA pb pC pd p_empty p_bounded p_radius p_center p_vertices]. f_equal.
      * rewrite K1. symmetry. rewrite rd2_app; [exact N3|]. rewrite N2. apply exist_seq.
      * rewrite K2. symmetry. exact M3.
      * rewrite K3, <- app_assoc. symmetry. apply rd2_app, E3.
      * rewrite K4, <- app_assoc. symmetry. apply rd_app, E4.
    + split; [exists (e1 ++ b'); rewrite app_assoc; reflexivity|]. split.
      * apply exist_addrs. cbn [o_A o_b o_C o_d o_set_b o_set_A o_caches]. split; [rewrite N2; apply exist_app, exist_seq|]. split; [rewrite M2; apply exist_seq|]. rewrite <- app_assoc. split; apply exist_app; assumption.
      * intros k Hk. unfold addrs in *. cbn [o_A o_b o_C o_d o_set_b o_set_A o_caches] in Hk. rewrite N2, M2 in Hk. rewrite !in_app_iff, !in_seq in *. rewrite app_length in Hk. intuition lia.
    + intros _ _. split; [right|left; reflexivity]. unfold pair_new, pair_ok, paddrs, ineqs. cbn [fst snd o_A o_b o_set_b o_set_A o_caches]. rewrite N2, M2, app_length. split; [split; [apply NoDup_seqs|]|].
      * rewrite N5, seq_length. unfold A', b', mtake, vtake. cbn. rewrite !map_length. reflexivity.
      * intros k Hk. rewrite in_app_iff, !in_seq in Hk. rewrite !app_length. lia.
  - rewrite view_caches by assumption. split; [reflexivity|]. split; [exact (grows_refl m o HO)|]. intros _ _. split; left; reflexivity.
  - rewrite view_caches by assumption. split; [reflexivity|]. split; [exact (grows_refl m o HO)|]. intros _ _. split; left; reflexivity.
Qed.

(** ** Normalization in place *)
Lemma nodup_app {T} (l l' : list T) : NoDup (l ++ l') <-> NoDup l /\ NoDup l' /\ forall x, In x l -> ~ In x l'.
Proof.
  induction l as [|a l IH]; cbn.
  - split; [intros H; split; [constructor|]; auto|tauto].
  - rewrite !NoDup_cons_iff, IH, in_app_iff. split.
    + intros (H1 & H2 & H3 & H4). split; [tauto|]. split; [exact H3|]. intros x [<-|Hx]; auto.
    + intros ((H1 & H2) & H3 & H4). split; [intros [H|H]; [auto|exact (H4 a (or_introl eq_refl) H)]|]. auto.
Qed.
Lemma loop_frame tol rs : forall m bs, length (snd (normalize_loop tol m rs bs)) = length m /\ forall k, ~ In k (concat rs ++ bs) -> nth k (snd (normalize_loop tol m rs bs)) 0 = nth k m 0.
Proof.
  induction rs as [|a rs IH]; intros m bs; [cbn; auto|]. cbn [normalize_loop]. destruct (Rltb tol (norm (rd m a))).
  - destruct bs as [|k bs].
    + cbn [snd]. rewrite wr_length. split; [reflexivity|]. intros j Hj. apply nth_wr_other. intros I. apply Hj. cbn. rewrite app_nil_r. apply in_or_app. left. exact I.
    + match goal with |- context [normalize_loop tol ?mm rs bs] => destruct (IH mm bs) as (L & F) end. split; [rewrite L, put_length, wr_length; reflexivity|]. intros j Hj. cbn [concat] in Hj. rewrite !in_app_iff in Hj. cbn [In] in Hj. rewrite F by (rewrite in_app_iff; tauto). rewrite nth_put_other by (intros ->; tauto). apply nth_wr_other. tauto.
  - destruct (IH m (tl bs)) as (L & F). split; [exact L|]. intros j Hj. apply F. intros I. apply Hj. cbn [concat]. rewrite !in_app_iff in *. destruct I as [I|I]; [tauto|]. right. destruct bs; [destruct I|right; exact I].
Qed.
Definition nrow (tol : R) (r : vec) : vec := if Rltb tol (norm r) then map (fun a => a / norm r) r else r.
Definition nrhs (tol : R) (r : vec) (b : R) : R := if Rltb tol (norm r) then b / norm r else b.
Lemma loop_value tol rs : forall m bs, NoDup (concat rs ++ bs) -> length rs = length bs -> exist_in m (concat rs ++ bs) ->
  exists m', normalize_loop tol m rs bs = (Ok tt, m') /\ map (rd m') rs = map (nrow tol) (map (rd m) rs) /\ rd m' bs = map2 (nrhs tol) (map (rd m) rs) (rd m bs).
Proof.
  induction rs as [|a rs IH]; intros m bs N L I; destruct bs as [|k bs]; try discriminate; [exists m; cbn; auto|].
  cbn [concat] in N, I. apply nodup_app in N. destruct N as (N1 & N2 & N3). apply nodup_app in N1. destruct N1 as (Na & Nr & Nar). apply NoDup_cons_iff in N2. destruct N2 as (Nk & Nb).
  assert (NA : forall j, In j (concat rs ++ bs) -> ~ In j a). { intros j Hj Ha. apply in_app_iff in Hj. destruct Hj as [Hj|Hj]; [exact (Nar j Ha Hj)|]. apply (N3 j); [apply in_or_app; left; exact Ha|right; exact Hj]. }
  assert (NK : forall j, In j (concat rs ++ bs) -> j <> k). { intros j Hj ->. apply in_app_iff in Hj. destruct Hj as [Hj|Hj]; [|tauto]. apply (N3 k); [apply in_or_app; right; exact Hj|left; reflexivity]. }
  assert (KA : ~ In k a). { intros H. apply (N3 k); [apply in_or_app; left; exact H|left; reflexivity]. }
  assert (NN : NoDup (concat rs ++ bs)). { apply nodup_app. split; [exact Nr|]. split; [exact Nb|]. intros j Hj Hb. apply (N3 j); [apply in_or_app; right; exact Hj|right; exact Hb]. }
  assert (IA : exist_in m a) by (intros j Hj; apply I; rewrite !in_app_iff; tauto). assert (IK : (k < length m)%nat) by (apply I; rewrite !in_app_iff; cbn; tauto).
  assert (II : exist_in m (concat rs ++ bs)) by (intros j Hj; apply I; rewrite !in_app_iff in *; cbn; tauto).
  assert (KEEP : forall m1 m', length m1 = length m -> (forall j, In j (concat rs ++ bs) -> nth j m1 0 = nth j m 0) ->
     normalize_loop tol m1 rs bs = (Ok tt, m') -> map (rd m') rs = map (nrow tol) (map (rd m1) rs) -> rd m' bs = map2 (nrhs tol) (map (rd m1) rs) (rd m1 bs) ->
     rd m1 a = nrow tol (rd m a) -> nth k m1 0 = nrhs tol (rd m a) (nth k m 0) ->
     map (rd m') (a :: rs) = map (nrow tol) (map (rd m) (a :: rs)) /\ rd m' (k :: bs) = map2 (nrhs tol) (map (rd m) (a :: rs)) (rd m (k :: bs))).
  { intros m1 m' L1 S1 EL V1 V2 Va Vk. pose proof (loop_frame tol rs m1 bs) as (_ & FR). rewrite EL in FR. cbn [snd] in FR.
    assert (R1 : map (rd m1) rs = map (rd m) rs). { apply map_ext_in. intros r Hr. apply rd_ext. intros j Hj. apply S1. apply in_or_app. left. apply in_concat. eauto. }
    assert (R2 : rd m1 bs = rd m bs). { apply rd_ext. intros j Hj. apply S1. apply in_or_app. right. exact Hj. }
    cbn [map rd map2]. split.
    - f_equal; [|rewrite V1, R1; reflexivity]. rewrite <- Va. apply rd_ext. intros j Hj. apply FR. intros H. exact (NA j H Hj).
    - f_equal.
      + rewrite FR by (intros H; exact (NK k H eq_refl)). exact Vk.
      + change (map (fun k => nth k m' 0) bs) with (rd m' bs). rewrite V2, R1, R2. reflexivity. }
  cbn [normalize_loop]. destruct (Rltb tol (norm (rd m a))) eqn:ER.
  - set (r := norm (rd m a)) in *. set (m0 := wr m a (map (fun x => x / r) (rd m a))). assert (L0 : length m0 = length m) by apply wr_length. set (m1 := put k (nth k m0 0 / r) m0). assert (L1 : length m1 = length m) by (unfold m1; rewrite put_length; exact L0).
    assert (S1 : forall j, In j (concat rs ++ bs) -> nth j m1 0 = nth j m 0). { intros j Hj. unfold m1. rewrite nth_put_other by (apply NK, Hj). apply nth_wr_other, NA, Hj. }
    destruct (IH m1 bs NN ltac:(cbn in L; lia)) as (m' & EL & V1 & V2); [intros j Hj; rewrite L1; apply II, Hj|]. exists m'. split; [exact EL|].
    apply (KEEP m1 m' L1 S1 EL V1 V2).
    + unfold nrow. fold r. rewrite ER. transitivity (rd m0 a).
      * apply rd_ext. intros j Hj. apply nth_put_other. intros ->. exact (KA Hj).
      * apply rd_wr; [exact Na|exact IA|]. rewrite map_length, rd_length. reflexivity.
    + unfold nrhs. fold r. rewrite ER. unfold m1. rewrite nth_put_same by (rewrite L0; exact IK). f_equal. apply nth_wr_other, KA.
  - destruct (IH m bs NN ltac:(cbn in L; lia) II) as (m' & EL & V1 & V2). exists m'. cbn [tl]. split; [exact EL|]. apply (KEEP m m'); auto; [unfold nrow|unfold nrhs]; rewrite ER; reflexivity.
Qed.
Definition disjoint (l l' : list nat) : Prop := forall k, In k l -> ~ In k l'.
Lemma pair_rd m m' P : (forall k, In k (paddrs P) -> nth k m' 0 = nth k m 0) -> map (rd m') (fst P) = map (rd m) (fst P) /\ rd m' (snd P) = rd m (snd P).
Proof.
  intros H. split.
  - apply map_ext_in. intros r Hr. apply rd_ext. intros j Hj. apply H. apply in_or_app. left. apply in_concat. eauto.
  - apply rd_ext. intros j Hj. apply H. apply in_or_app. right. exact Hj.
Qed.
(** normalize on an object whose four arrays do not overlap *)
Lemma normalize_heap tol m o : exist_in m (addrs o) -> NoDup (addrs o) -> sizes o ->
  exists m', h_normalize tol m o = (Ok tt, m', o) /\ view m' o = normalize tol (view m o).
Proof.
  intros HO N (S1 & S2). assert (E : addrs o = paddrs (ineqs o) ++ paddrs (eqs o)) by (unfold addrs, paddrs, ineqs, eqs; cbn; rewrite !app_assoc; reflexivity).
  rewrite E in N, HO. apply nodup_app in N. destruct N as (N1 & N2 & N3). apply exist_split in HO. destruct HO as (X1 & X2).
  destruct (loop_value tol (a_rows (o_A o)) m (o_b o) N1 S1 X1) as (m1 & E1 & V1 & V2).
  pose proof (loop_frame tol (a_rows (o_A o)) m (o_b o)) as (L1 & F1). rewrite E1 in L1, F1. cbn [snd] in L1, F1.
  destruct (loop_value tol (a_rows (o_C o)) m1 (o_d o) N2 S2) as (m2 & E2 & W1 & W2); [intros k Hk; rewrite L1; apply X2, Hk|].
  pose proof (loop_frame tol (a_rows (o_C o)) m1 (o_d o)) as (L2 & F2). rewrite E2 in L2, F2. cbn [snd] in L2, F2.
  exists m2. unfold h_normalize. rewrite E1, E2. split; [reflexivity|].
  destruct (pair_rd m m1 (eqs o)) as (Q1 & Q2); [intros k Hk; apply F1; intros H; exact (N3 k H Hk)|]. cbn [eqs fst snd] in Q1, Q2. rewrite Q1 in W1, W2. rewrite Q2 in W2.
  destruct (pair_rd m1 m2 (ineqs o)) as (P1 & P2); [intros k Hk; apply F2; intros H; exact (N3 k Hk H)|]. cbn [ineqs fst snd] in P1, P2.
  unfold view, normalize, normalize_with, normalize_lhs, normalize_rhs, rd2. cbn [pA pb pC pd rows ncols p_empty p_bounded p_radius p_center p_vertices].
  rewrite P1, V1, P2, V2, W1, W2. reflexivity.
Qed.
Lemma normalize_frame tol m o : let '(_, m', o') := h_normalize tol m o in o' = o /\ length m' = length m /\ forall k, ~ In k (addrs o) -> nth k m' 0 = nth k m 0.
Proof.
  unfold h_normalize. pose proof (loop_frame tol (a_rows (o_A o)) m (o_b o)) as (L1 & F1). destruct (normalize_loop tol m (a_rows (o_A o)) (o_b o)) as [[u|e] m1]; cbn [snd] in *.
  - pose proof (loop_frame tol (a_rows (o_C o)) m1 (o_d o)) as (L2 & F2). destruct (normalize_loop tol m1 (a_rows (o_C o)) (o_d o)) as [r m2]. cbn [snd] in *. split; [reflexivity|]. split; [congruence|]. intros k Hk. rewrite addrs_pairs in Hk. rewrite F2 by (intros H; apply Hk; right; exact H). apply F1. intros H. apply Hk. left. exact H.
  - split; [reflexivity|]. split; [exact L1|]. intros k Hk. rewrite addrs_pairs in Hk. apply F1. intros H. apply Hk. left. exact H.
Qed.

(** ** Frame of one call *)
Lemma nth_error_put_obj l k o j : (k < length l)%nat -> nth_error (put_obj k o l) j = if Nat.eqb j k then Some o else nth_error l j.
Proof.
  intros H. unfold put_obj. assert (LF : length (firstn k l) = k) by (rewrite firstn_length; lia). destruct (Nat.eqb j k) eqn:E.
  - apply Nat.eqb_eq in E. subst j. rewrite nth_error_app2 by lia. rewrite LF, Nat.sub_diag. reflexivity.
  - apply Nat.eqb_neq in E. destruct (Nat.lt_ge_cases j k) as [C|C].
    + rewrite nth_error_app1 by lia. rewrite <- (firstn_skipn k l) at 2. rewrite nth_error_app1 by lia. reflexivity.
    + rewrite nth_error_app2 by lia. rewrite LF. replace (j - k)%nat with (S (j - S k)) by lia. cbn [nth_error]. rewrite <- (firstn_skipn (S k) l) at 2. rewrite nth_error_app2; rewrite firstn_length; [|lia]. f_equal. lia.
Qed.
Lemma put_obj_length l k o : (k < length l)%nat -> length (put_obj k o l) = length l.
Proof. intros H. unfold put_obj. rewrite app_length. cbn [length]. rewrite firstn_length, skipn_length. lia. Qed.
(** what a call may change: the memory at the addresses [w], the object [t] *)
Definition step_ok (h h' : heap) (w : list nat) (t : option nat) : Prop :=
  heap_ok h' /\ (length (mem h) <= length (mem h'))%nat /\ (forall k, (k < length (mem h))%nat -> ~ In k w -> nth k (mem h') 0 = nth k (mem h) 0) /\
  (length (objs h) <= length (objs h'))%nat /\ (forall j, (j < length (objs h))%nat -> t <> Some j -> nth_error (objs h') j = nth_error (objs h) j).
Definition written (h : heap) (c : op) : list nat :=
  match c with ONormalize k _ => match nth_error (objs h) k with Some o => addrs o | None => [] end | _ => [] end.
Lemma step_refl h w t : heap_ok h -> step_ok h h w t.
Proof. intros H. split; [exact H|]. auto 6. Qed.
Lemma heap_nth h k o : heap_ok h -> nth_error (objs h) k = Some o -> exist_in (mem h) (addrs o).
Proof. intros H E. apply H. eapply nth_error_In. exact E. Qed.
Lemma heap_ok_app h e : heap_ok h -> forall o, In o (objs h) -> exist_in (mem h ++ e) (addrs o).
Proof. intros H o Ho. apply exist_app, H, Ho. Qed.
Lemma step_method h k (c : om Datatypes.unit) v od o : heap_ok h -> nth_error (objs h) k = Some o -> method_ok c v od (mem h) o -> step_ok h (on k c h) [] (Some k).
Proof.
  intros H E M. unfold on. rewrite E. unfold method_ok in M. destruct (c (mem h) o) as [[r m'] o']. destruct M as (_ & ((e & ->) & G2 & _) & _). assert (LK : (k < length (objs h))%nat) by (apply nth_error_Some; congruence).
  split; [|split; [|split; [|split]]]; cbn [mem objs].
  - intros o1 Ho. unfold put_obj in Ho. apply in_app_iff in Ho. destruct Ho as [Ho|[<-|Ho]]; [|exact G2|]; apply heap_ok_app; auto; [rewrite <- (firstn_skipn k (objs h))|rewrite <- (firstn_skipn (S k) (objs h))]; apply in_or_app; auto.
  - rewrite app_length. lia.
  - intros j Hj _. apply app_nth1, Hj.
  - rewrite put_obj_length by exact LK. lia.
  - intros j Hj T. rewrite nth_error_put_obj by exact LK. replace (Nat.eqb j k) with false by (symmetry; apply Nat.eqb_neq; congruence). reflexivity.
Qed.
Lemma on_none {T} k (c : om T) h : nth_error (objs h) k = None -> on k c h = h.
Proof. unfold on. intros ->. reflexivity. Qed.
Lemma step_made h r m o o' : heap_ok h -> grows (mem h) o m o' -> step_ok h (made h (r, m, o')) [] None.
Proof.
  intros H ((e & ->) & G2 & _). unfold made. destruct r as [u|x].
  - split; [|split; [|split; [|split]]]; cbn [mem objs].
    + intros o1 Ho. apply in_app_iff in Ho. destruct Ho as [Ho|[<-|[]]]; [apply heap_ok_app; auto|exact G2].
    + rewrite app_length. lia.
    + intros j Hj _. apply app_nth1, Hj.
    + rewrite app_length. lia.
    + intros j Hj _. apply nth_error_app1, Hj.
  - split; [|split; [|split; [|split]]]; cbn [mem objs]; auto.
    + intros o1 Ho. apply heap_ok_app; auto.
    + rewrite app_length. lia.
    + intros j Hj _. apply app_nth1, Hj.
Qed.
(** the intersection, and the facet of facet_center *)
Lemma intersection_heap m p1 p2 : exist_in m (addrs p1) -> exist_in m (addrs p2) -> let '(r, m', p3) := h_intersection p1 p2 m in
  intersection (view m p1) (view m p2) = match r with Ok _ => Ok (view m' p3) | Err e => Err e end /\ grows m p2 m' p3 /\ (sizes p2 -> pairs_step m m' p2 p3) /\
  (r = Ok tt -> forall k, In k (addrs p3) -> (length m <= k)%nat).
Proof.
  intros X1 X2. pose proof (proj1 (exist_addrs m p1) X1) as (E1 & E2 & E3 & E4). unfold h_intersection, intersection.
  pose proof (add_inequality_heap m p2 (o_A p1) (H1 (o_b p1)) None X2 E2) as A. destruct (h_add_inequality (o_A p1) (H1 (o_b p1)) None m p2) as [[r m1] q] eqn:EA. destruct A as (A1 & A2 & A3 & A4 & A5).
  change (pA (view m p1)) with (rd2 m (o_A p1)). change (D1 (pb (view m p1))) with (rdn m (H1 (o_b p1))). unfold pbind at 1. rewrite A1.
  destruct r as [[]|e].
  2:{ split; [reflexivity|]. split; [exact A2|]. split; [|congruence]. intros SZ. split; [left; apply (A4 _ eq_refl); discriminate|left; exact A3]. }
  pose proof A2 as ((e & ->) & G2 & G3). pose proof (add_equality_heap (m ++ e) q (o_C p1) (H1 (o_d p1)) None G2 (exist_app _ _ _ E4)) as B. destruct (h_add_equality (o_C p1) (H1 (o_d p1)) None (m ++ e) q) as [[r m2] p3]  eqn:EB. destruct B as (B1 & B2 & B3 & B4 & B5).
  rewrite rd2_app, rdn_app in B1 by assumption. change (pC (view m p1)) with (rd2 m (o_C p1)). change (D1 (pd (view m p1))) with (rdn m (H1 (o_d p1))). rewrite B1.
  split; [destruct r; reflexivity|]. split; [eapply grows_trans; eassumption|]. pose proof B2 as ((e' & ->) & _). split.
  - intros (S1 & S2). split; [right; rewrite B3; apply pair_new_right, A5; auto|]. destruct r as [[]|x]; [right|left; rewrite <- A3; apply (B4 _ eq_refl); discriminate]. apply pair_new_left with e, B5; [reflexivity|]. rewrite A3. exact S2.
  - intros ->. clear - EA EB E3 E4.
    unfold h_add_inequality in EA. destruct (same_number_rows _ _); [|discriminate]. destruct (np_dot _ _); [|discriminate]. destruct (np_vstack _ _) as [A'|]; [|discriminate]. pose proof (new2_ok m A') as N. destruct (new2 m A') as [m3 A1]. destruct N as (-> & N2 & _). destruct (np_concat _ _) as [b'|]; [|discriminate]. cbn [new1] in EA. injection EA as EM <-.
    unfold h_add_equality in EB. destruct (same_number_rows _ _); [|discriminate]. destruct (np_dot _ _); [|discriminate]. destruct (np_vstack _ _) as [C'|]; [|discriminate]. pose proof (new2_ok (m ++ e) C') as M. destruct (new2 (m ++ e) C') as [m4 C1]. destruct M as (-> & M2 & _). destruct (np_concat _ _) as [d'|]; [|discriminate]. cbn [new1] in EB. injection EB as _ <-.
    intros k Hk. unfold addrs in Hk. cbn [o_A o_b o_C o_d o_set_d o_set_C o_delete o_set_b o_set_A] in Hk. rewrite N2, M2 in Hk. rewrite !in_app_iff, !in_seq, !app_length in Hk. lia.
Qed.
Lemma slice_map {T U} (f : T -> U) i j l : map f (slice i j l) = slice i j (map f l).
Proof. unfold slice. rewrite <- firstn_map, <- skipn_map. reflexivity. Qed.
Lemma slice_in {T} i j (l : list T) x : In x (slice i j l) -> In x l.
Proof. unfold slice. intros H. rewrite <- (firstn_skipn i l). apply in_or_app. right. rewrite <- (firstn_skipn (j - i) (skipn i l)). apply in_or_app. left. exact H. Qed.
Lemma facet_heap m p i : exist_in m (addrs p) -> let '(r, m', p3) := h_facet i p m in
  add_equality (Mat (ncols (pA (view m p))) (slice i (S i) (rows (pA (view m p))))) (D1 (slice i (S i) (pb (view m p)))) None (view m p) = (r, view m' p3) /\
  grows m p m' p3 /\ ineqs p3 = ineqs p /\ (sizes p -> pairs_step m m' p p3).
Proof.
  intros X. pose proof (proj1 (exist_addrs m p) X) as (E1 & E2 & E3 & E4). unfold h_facet. set (Ai := Arr2 _ _). set (bi := H1 _).
  assert (I1 : exist_in m (concat (a_rows Ai))). { intros k Hk. apply in_concat in Hk. destruct Hk as (r & Hr & Hk). apply E1. apply in_concat. exists r. split; [eapply slice_in; exact Hr|exact Hk]. }
  assert (I2 : exist_in m (addrs_of bi)) by (intros k Hk; apply E2; eapply slice_in; exact Hk).
  pose proof (add_equality_heap m p Ai bi None X I2) as B. pose proof (add_equality_method m p Ai bi None X I1 I2) as M. unfold method_ok in M. destruct (h_add_equality Ai bi None m p) as [[r m'] p3]. destruct B as (B1 & B2 & B3 & B4 & B5), M as (_ & _ & M).
  split; [|split; [exact B2|split; [exact B3|apply M; exact I]]]. rewrite <- B1.
  assert (Q1 : rd2 m Ai = Mat (ncols (pA (view m p))) (slice i (S i) (rows (pA (view m p))))) by (unfold Ai, rd2, view, rd2; cbn [a_cols a_rows pA ncols rows]; rewrite slice_map; reflexivity).
  assert (Q2 : rdn m bi = D1 (slice i (S i) (pb (view m p)))) by (unfold bi, rdn, view; cbn [pb]; unfold rd; rewrite slice_map; reflexivity).
  rewrite Q1, Q2. reflexivity.
Qed.
Lemma new_heap m A b C d : exist_in m (args (ONew A b C d)) -> let (ro, m') := h_Polyhedron m A b C d in
  m' = m /\ Polyhedron (rd2 m A) (rdn m b) (option_map (rd2 m) C) (option_map (rdn m) d) = match ro with Ok o => Ok (view m o) | Err e => Err e end /\
  forall o, ro = Ok o -> (forall k, In k (addrs o) -> In k (args (ONew A b C d))) /\ sizes o /\ ineqs o = (a_rows A, addrs_of b) /\
     eqs o = (match C with Some C => a_rows C | None => [] end, match d with Some d => addrs_of d | None => [] end).
Proof.
  intros X. unfold h_Polyhedron, Polyhedron. destruct b as [b|B]; [|split; [reflexivity|split; [reflexivity|congruence]]]. cbn [rdn].
  destruct (same_number_rows (rd2 m A) (D1 (rd m b))) as [[]|e] eqn:E1; cbn [bind]; [|split; [reflexivity|split; [reflexivity|congruence]]].
  assert (SZ : forall E f, same_number_rows (rd2 m E) (D1 (rd m f)) = Ok tt -> length (a_rows E) = length f). { intros E f H. unfold same_number_rows in H. destruct (Nat.eqb _ _) eqn:Q; [|discriminate]. apply Nat.eqb_eq in Q. unfold nrows in Q. cbn in Q. rewrite map_length, rd_length in Q. exact Q. }
  destruct C as [C|], d as [d|]; cbn [option_map]; try (split; [reflexivity|split; [reflexivity|congruence]]).
  - destruct d as [d|]; cbn [rdn]; [|split; [reflexivity|split; [reflexivity|congruence]]]. destruct (same_number_rows (rd2 m C) (D1 (rd m d))) as [[]|e] eqn:E2; cbn [bind]; [|split; [reflexivity|split; [reflexivity|congruence]]].
    split; [reflexivity|]. split; [reflexivity|]. intros o EO. injection EO as <-. split; [intros k Hk; exact Hk|]. split; [split; cbn; auto|]. split; reflexivity.
  - cbn. split; [rewrite !app_nil_r; reflexivity|]. split; [reflexivity|]. intros o EO. injection EO as <-. split; [intros k Hk; exact Hk|]. split; [split; [cbn; auto|reflexivity]|]. split; reflexivity.
Qed.
Lemma exec_step np h c : heap_ok h -> exist_in (mem h) (args c) -> step_ok h (exec np h c) (written h c) (target c).
Proof.
  intros H X. destruct c; cbn [exec written target]; cbn [args] in X.
  - pose proof (new_heap (mem h) A b C d X) as N. destruct (h_Polyhedron (mem h) A b C d) as [[o|e] m]; destruct N as (-> & _ & N).
    + destruct (N o eq_refl) as (N1 & _). apply (step_made h (Ok tt) (mem h) o o H). apply grows_refl. intros k Hk. apply X, N1, Hk.
    + destruct h. apply step_refl, H.
  - split; [|split; [|split; [|split]]]; cbn [mem objs]; auto.
    + intros o Ho. apply heap_ok_app; auto.
    + rewrite app_length. lia.
    + intros j Hj _. apply app_nth1, Hj.
  - destruct (nth_error (objs h) k) as [o|] eqn:E; [|apply step_refl, H]. apply (step_made h (Ok tt) (mem h) o o H). apply grows_refl. eapply heap_nth; eassumption.
  - destruct (nth_error (objs h) k1) as [p1|] eqn:E1; [|apply step_refl, H]. destruct (nth_error (objs h) k2) as [p2|] eqn:E2; [|apply step_refl, H].
    pose proof (intersection_heap (mem h) p1 p2 (heap_nth _ _ _ H E1) (heap_nth _ _ _ H E2)) as I. destruct (h_intersection p1 p2 (mem h)) as [[r m] p3]. apply (step_made h r m p2 p3 H), I.
  - destruct (nth_error (objs h) k) as [p|] eqn:E1; [|apply step_refl, H]. pose proof (facet_heap (mem h) p i (heap_nth _ _ _ H E1)) as I. destruct (h_facet i p (mem h)) as [[r m] p3]. apply (step_made h r m p p3 H), I.
  - destruct (nth_error (objs h) k) as [p|] eqn:E1; [|rewrite on_none by exact E1; apply step_refl, H]. apply exist_split in X. eapply step_method; [exact H|exact E1|]. apply add_inequality_method; [eapply heap_nth; eassumption|apply X|apply X].
  - destruct (nth_error (objs h) k) as [p|] eqn:E1; [|rewrite on_none by exact E1; apply step_refl, H]. apply exist_split in X. eapply step_method; [exact H|exact E1|]. apply add_equality_method; [eapply heap_nth; eassumption|apply X|apply X].
  - destruct (nth_error (objs h) k) as [p|] eqn:E1; [|rewrite on_none by exact E1; apply step_refl, H]. eapply step_method; [exact H|exact E1|]. apply add_lower_method; [eapply heap_nth; eassumption|exact X].
  - destruct (nth_error (objs h) k) as [p|] eqn:E1; [|rewrite on_none by exact E1; apply step_refl, H]. eapply step_method; [exact H|exact E1|]. apply add_upper_method; [eapply heap_nth; eassumption|exact X].
  - destruct (nth_error (objs h) k) as [p|] eqn:E1; [|rewrite on_none by exact E1; apply step_refl, H]. apply exist_split in X. eapply step_method; [exact H|exact E1|]. apply add_bounds_method; [eapply heap_nth; eassumption|apply X|apply X].
  - destruct (nth_error (objs h) k) as [p|] eqn:E1; [|rewrite on_none by exact E1; apply step_refl, H]. eapply step_method; [exact H|exact E1|]. apply remove_method. eapply heap_nth; eassumption.
  - destruct (nth_error (objs h) k) as [p|] eqn:E1; [|rewrite on_none by exact E1; apply step_refl, H]. eapply step_method; [exact H|exact E1|]. apply query_method. eapply heap_nth; eassumption.
  - destruct (nth_error (objs h) k) as [p|] eqn:E1; [|rewrite on_none by exact E1; apply step_refl, H]. unfold on. rewrite E1. pose proof (normalize_frame tol (mem h) p) as F. destruct (h_normalize tol (mem h) p) as [[r m] o']. destruct F as (-> & L & F).
    assert (LK : (k < length (objs h))%nat) by (apply nth_error_Some; congruence). split; [|split; [|split; [|split]]]; cbn [mem objs].
    + intros o1 Ho a Ha. cbn [mem objs] in *. rewrite L. revert a Ha. change (exist_in (mem h) (addrs o1)). unfold put_obj in Ho. apply in_app_iff in Ho. destruct Ho as [Ho|[<-|Ho]]; [|eapply heap_nth; eassumption|]; apply H; [rewrite <- (firstn_skipn k (objs h))|rewrite <- (firstn_skipn (S k) (objs h))]; apply in_or_app; auto.
    + lia.
    + intros j _ Hj. apply F, Hj.
    + rewrite put_obj_length by exact LK. lia.
    + intros j Hj T. rewrite nth_error_put_obj by exact LK. replace (Nat.eqb j k) with false by (symmetry; apply Nat.eqb_neq; congruence). reflexivity.
Qed.
Lemma exist_le m m' l : exist_in m l -> (length m <= length m')%nat -> exist_in m' l.
Proof. intros H L k Hk. specialize (H k Hk). lia. Qed.
Lemma view_ext m m' o : (forall k, In k (addrs o) -> nth k m' 0 = nth k m 0) -> view m' o = view m o.
Proof.
  intros H. destruct (pair_rd m m' (ineqs o)) as (P1 & P2); [intros k Hk; apply H, addrs_pairs; left; exact Hk|]. destruct (pair_rd m m' (eqs o)) as (Q1 & Q2); [intros k Hk; apply H, addrs_pairs; right; exact Hk|]. cbn [ineqs eqs fst snd] in *. unfold view, rd2. rewrite P1, P2, Q1, Q2. reflexivity.
Qed.

(*@ Theorem C55_value_model : The value model of Polyhedron.v is exact on shared memory: whatever arrays are shared, views included, each method that adds constraints, copy followed by intersection, the facet of facet_center, the constructor, the cached queries and the removal of redundant rows return what the value model returns on the current contents of the arrays, and leave the object with the contents that the value model gives; so does normalize when the four arrays of the object do not overlap *)
Lemma value_model np m o : exist_in m (addrs o) ->
  (forall A b indices, exist_in m (concat (a_rows A)) -> exist_in m (addrs_of b) ->
     let '(r, m', o') := h_add_inequality A b indices m o in add_inequality (rd2 m A) (rdn m b) indices (view m o) = (r, view m' o')) /\
  (forall C d indices, exist_in m (concat (a_rows C)) -> exist_in m (addrs_of d) ->
     let '(r, m', o') := h_add_equality C d indices m o in add_equality (rd2 m C) (rdn m d) indices (view m o) = (r, view m' o')) /\
  (forall x indices, exist_in m (addrs_bound x) ->
     let '(r, m', o') := h_add_lower_bound x indices m o in add_lower_bound (rdb m x) indices (view m o) = (r, view m' o')) /\
  (forall x indices, exist_in m (addrs_bound x) ->
     let '(r, m', o') := h_add_upper_bound x indices m o in add_upper_bound (rdb m x) indices (view m o) = (r, view m' o')) /\
  (forall x y indices, exist_in m (addrs_bound x) -> exist_in m (addrs_bound y) ->
     let '(r, m', o') := h_add_bounds x y indices m o in add_bounds (rdb m x) (rdb m y) indices (view m o) = (r, view m' o')) /\
  (forall q, let '(r, m', o') := h_query np q m o in ask np q (view m o) = (r, view m' o')) /\
  (let '(r, m', o') := h_remove_redundant_inequalities np m o in remove_redundant_inequalities np (view m o) = (r, view m' o')) /\
  (forall o2, exist_in m (addrs o2) -> let '(r, m', o3) := h_intersection o o2 m in
     intersection (view m o) (view m o2) = match r with Ok _ => Ok (view m' o3) | Err e => Err e end) /\
  (forall i, ncols (pA (view m o)) <> 1%nat -> let '(r, m', o3) := h_facet i o m in
     facet_center np (view m o) i = match r with Ok _ => fst (get_center np (view m' o3)) | Err e => Err e end) /\
  (forall A b C d, exist_in m (args (ONew A b C d)) -> let (ro, m') := h_Polyhedron m A b C d in
     Polyhedron (rd2 m A) (rdn m b) (option_map (rd2 m) C) (option_map (rdn m) d) = match ro with Ok o1 => Ok (view m' o1) | Err e => Err e end) /\
  (forall tol, NoDup (addrs o) -> length (a_rows (o_A o)) = length (o_b o) -> length (a_rows (o_C o)) = length (o_d o) ->
     let '(r, m', o') := h_normalize tol m o in r = Ok tt /\ view m' o' = normalize tol (view m o)).
Proof.
  intros H. split; [|split; [|split; [|split; [|split; [|split; [|split; [|split; [|split; [|split]]]]]]]]].
  - intros A b indices HA Hb. pose proof (add_inequality_heap m o A b indices H Hb) as X. destruct (h_add_inequality A b indices m o) as [[r m'] o']. apply X.
  - intros A b indices HA Hb. pose proof (add_equality_heap m o A b indices H Hb) as X. destruct (h_add_equality A b indices m o) as [[r m'] o']. apply X.
  - intros x indices Hx. pose proof (add_lower_method m o x indices H Hx) as X. unfold method_ok in X. destruct (h_add_lower_bound x indices m o) as [[r m'] o']. apply X.
  - intros x indices Hx. pose proof (add_upper_method m o x indices H Hx) as X. unfold method_ok in X. destruct (h_add_upper_bound x indices m o) as [[r m'] o']. apply X.
  - intros x y indices Hx Hy. pose proof (add_bounds_method m o x y indices H Hx Hy) as X. unfold method_ok in X. destruct (h_add_bounds x y indices m o) as [[r m'] o']. apply X.
  - intros q. pose proof (query_method np m o q H) as X. unfold method_ok in X. destruct (h_query np q m o) as [[r m'] o']. apply X.
  - pose proof (remove_method np m o H) as X. unfold method_ok in X. destruct (h_remove_redundant_inequalities np m o) as [[r m'] o']. apply X.
  - intros o2 H2. pose proof (intersection_heap m o o2 H H2) as X. destruct (h_intersection o o2 m) as [[r m'] o3]. apply X.
  - intros i N. pose proof (facet_heap m o i H) as X. destruct (h_facet i o m) as [[r m'] o3]. destruct X as (X & _). unfold facet_center. replace (Nat.eqb (ncols (pA (view m o))) 1) with false by (symmetry; apply Nat.eqb_neq; exact N). unfold run_on. cbn [bind]. rewrite X. destruct r; reflexivity.
  - intros A b C d X. pose proof (new_heap m A b C d X) as N. destruct (h_Polyhedron m A b C d) as [ro m']. destruct N as (-> & N & _). exact N.
  - intros tol N S1 S2. destruct (normalize_heap tol m o H N (conj S1 S2)) as (m' & -> & V). auto.
Qed.
(*@ Theorem C55_mutation : In every history of calls -- copies, intersections, facets, new polyhedra that store arrays of the caller, queries, and additions or removals of constraints on objects created during the history, but no normalization -- every array that existed before keeps its contents, and every polyhedron that existed before keeps its arrays, their contents and its cached values, also when calls raise *)
Lemma mutation np l : forall h, heap_ok h -> args_exist np h l -> (forall c, In c l -> normalizes c = false) ->
  (forall c k, In c l -> target c = Some k -> (length (objs h) <= k)%nat) ->
  let h' := execs np h l in
  (forall a, exist_in (mem h) a -> rd (mem h') a = rd (mem h) a) /\
  (forall j o, nth_error (objs h) j = Some o -> nth_error (objs h') j = Some o /\ view (mem h') o = view (mem h) o).
Proof.
  assert (G : forall n l h, (n <= length (objs h))%nat -> heap_ok h -> args_exist np h l -> (forall c, In c l -> normalizes c = false) -> (forall c k, In c l -> target c = Some k -> (n <= k)%nat) ->
    (length (mem h) <= length (mem (execs np h l)))%nat /\ (forall k, (k < length (mem h))%nat -> nth k (mem (execs np h l)) 0 = nth k (mem h) 0) /\ (forall j, (j < n)%nat -> nth_error (objs (execs np h l)) j = nth_error (objs h) j)).
  { intros n. clear. induction l as [|c l IH]; intros h HN H XX NN T; [cbn; auto|]. destruct XX as (X & XS). destruct (exec_step np h c H X) as (S1 & S2 & S3 & S4 & S5). cbn [execs fold_left]. fold (execs np (exec np h c) l).
    destruct (IH (exec np h c)) as (I1 & I2 & I3); auto; [lia|intros; apply NN; right; auto|intros c' k Hc; apply (T c' k); right; exact Hc|].
    split; [lia|]. split.
    - intros k Hk. rewrite I2 by lia. apply S3; [exact Hk|]. specialize (NN c (or_introl eq_refl)). destruct c; try discriminate; cbn; auto.
    - intros j Hj. rewrite I3 by exact Hj. apply S5; [lia|]. intros E. specialize (T c j (or_introl eq_refl) E). lia. }
  intros h H X NN T h'. destruct (G (length (objs h)) l h (le_n _) H X NN T) as (_ & G2 & G3). fold h' in G2, G3. split.
  - intros a Ha. apply rd_ext. intros k Hk. apply G2, Ha, Hk.
  - intros j o E. split; [rewrite G3; [exact E|apply nth_error_Some; congruence]|]. apply view_ext. intros k Hk. apply G2. exact (heap_nth h j o H E k Hk).
Qed.
(*@ Theorem C55_visible : Normalizing a polyhedron rebinds nothing, and changes no array and no polyhedron that has no entry in common with the four arrays of the normalized one *)
Lemma visible tol m o : let '(_, m', o') := h_normalize tol m o in o' = o /\
  (forall a, ~ shares a (addrs o) -> rd m' a = rd m a) /\ (forall o2, ~ shares (addrs o2) (addrs o) -> view m' o2 = view m o2).
Proof.
  pose proof (normalize_frame tol m o) as F. destruct (h_normalize tol m o) as [[r m'] o']. destruct F as (-> & _ & F). split; [reflexivity|]. split.
  - intros a N. apply rd_ext. intros k Hk. apply F. intros I. apply N. exists k. auto.
  - intros o2 N. apply view_ext. intros k Hk. apply F. intros I. apply N. exists k. auto.
Qed.
(*@ Theorem C55_intersection_shares_nothing : The polyhedron returned by intersection has no entry in common with any array that existed before *)
Lemma intersection_shares_nothing m p1 p2 : exist_in m (addrs p1) -> exist_in m (addrs p2) -> let '(r, m', p3) := h_intersection p1 p2 m in
  (r = Ok tt -> forall a, exist_in m a -> ~ shares (addrs p3) a) /\ forall a, exist_in m a -> rd m' a = rd m a.
Proof.
  intros X1 X2. pose proof (intersection_heap m p1 p2 X1 X2) as I. destruct (h_intersection p1 p2 m) as [[r m'] p3]. destruct I as (_ & ((e & ->) & _) & _ & F). split; [|intros a Ha; apply rd_app, Ha]. intros E a Ha (k & K1 & K2). specialize (F E k K1). specialize (Ha k K2). lia.
Qed.

(** ** Histories with normalizations *)
(** the object that a new object is a copy of *)
Definition base (c : op) : option nat := match c with OCopy k | OFacet k _ => Some k | _ => None end.
Definition origin (h : heap) (c : op) (j a : nat) : Prop :=
  (length (mem h) <= a)%nat \/ (exists o, nth_error (objs h) j = Some o /\ In a (addrs o)) \/
  (j = length (objs h) /\ (In a (args c) \/ exists i o, base c = Some i /\ nth_error (objs h) i = Some o /\ In a (addrs o))).
Lemma origin_on h k (f : om Datatypes.unit) c o : nth_error (objs h) k = Some o -> (let '(_, m', o') := f (mem h) o in grows (mem h) o m' o' \/ o' = o) ->
  forall j o', nth_error (objs (on k f h)) j = Some o' -> forall a, In a (addrs o') -> origin h c j a.
Proof.
  intros E G j o' E' a Ha. unfold on in E'. rewrite E in E'. destruct (f (mem h) o) as [[r m'] o1]. cbn [objs] in E'. rewrite nth_error_put_obj in E' by (apply nth_error_Some; congruence). destruct (Nat.eqb j k) eqn:Q; [|right; left; eauto].
  apply Nat.eqb_eq in Q. subst j. injection E' as <-. destruct G as [(_ & _ & G)| -> ]; [|right; left; eauto]. destruct (G a Ha) as [I|I]; [right; left; eauto|left; exact I].
Qed.
Lemma origin_none h k (f : om Datatypes.unit) c : nth_error (objs h) k = None -> forall j o', nth_error (objs (on k f h)) j = Some o' -> forall a, In a (addrs o') -> origin h c j a.
Proof. intros E j o' E' a Ha. rewrite on_none in E' by exact E. right; left; eauto. Qed.
Lemma origin_made h c m o (Q : forall a, In a (addrs o) -> (length (mem h) <= a)%nat \/ In a (args c) \/ exists i o0, base c = Some i /\ nth_error (objs h) i = Some o0 /\ In a (addrs o0)) :
  forall r j o', nth_error (objs (made h (r, m, o))) j = Some o' -> forall a, In a (addrs o') -> origin h c j a.
Proof.
  intros r j o' E a Ha. destruct r as [u|e]; cbn [made objs] in E; [|right; left; eauto]. destruct (Nat.lt_ge_cases j (length (objs h))) as [C|C]; [rewrite nth_error_app1 in E by exact C; right; left; eauto|].
  rewrite nth_error_app2 in E by exact C. destruct (j - length (objs h))%nat as [|q] eqn:D; [|destruct q; discriminate]. cbn in E. injection E as <-. destruct (Q a Ha) as [I|I]; [left; exact I|]. right. right. split; [lia|exact I].
Qed.
Lemma exec_origin np h c : heap_ok h -> exist_in (mem h) (args c) -> forall j o', nth_error (objs (exec np h c)) j = Some o' -> forall a, In a (addrs o') -> origin h c j a.
Proof.
  intros H X. assert (MG : forall f v od o, method_ok f v od (mem h) o -> let '(_, m', o') := f (mem h) o in grows (mem h) o m' o' \/ o' = o) by (intros f v od o M; unfold method_ok in M; destruct (f (mem h) o) as [[r m'] o']; left; apply M).
  destruct c; cbn [exec]; cbn [args] in X.
  - pose proof (new_heap (mem h) A b C d X) as N. destruct (h_Polyhedron (mem h) A b C d) as [[o|e] m]; destruct N as (-> & _ & N); [|intros j o' E a Ha; right; left; eauto].
    destruct (N o eq_refl) as (N1 & _). intros j o' E a Ha. apply (origin_made h (ONew A b C d) (mem h) o) with (r := Ok tt) (o' := o'); auto.
  - intros j o' E a Ha. right; left; eauto.
  - destruct (nth_error (objs h) k) as [o|] eqn:E; [|intros j o' E' a Ha; right; left; eauto]. intros j o' E' a Ha. apply (origin_made h (OCopy k) (mem h) o) with (r := Ok tt) (o' := o'); auto. intros a' Ha'. right. right. exists k, o. auto.
  - destruct (nth_error (objs h) k1) as [p1|] eqn:E1; [|intros j o' E' a Ha; right; left; eauto]. destruct (nth_error (objs h) k2) as [p2|] eqn:E2; [|intros j o' E' a Ha; right; left; eauto].
    pose proof (intersection_heap (mem h) p1 p2 (heap_nth _ _ _ H E1) (heap_nth _ _ _ H E2)) as I. destruct (h_intersection p1 p2 (mem h)) as [[[[]|e] m] p3]; [|intros j o' E' a Ha; right; left; eauto]. destruct I as (_ & _ & _ & I).
    intros j o' E' a Ha. apply (origin_made h (OIntersection k1 k2) m p3) with (r := Ok tt) (o' := o'); auto.
  - destruct (nth_error (objs h) k) as [p|] eqn:E1; [|intros j o' E' a Ha; right; left; eauto]. pose proof (facet_heap (mem h) p i (heap_nth _ _ _ H E1)) as I. destruct (h_facet i p (mem h)) as [[r m] p3]. destruct I as (_ & (_ & _ & G) & _).
    intros j o' E' a Ha. apply (origin_made h (OFacet k i) m p3) with (r := r) (o' := o'); auto. intros a' Ha'. destruct (G a' Ha') as [Q|Q]; [right; right; exists k, p; auto|left; exact Q].
  - destruct (nth_error (objs h) k) as [p|] eqn:E1; [|apply origin_none, E1]. apply exist_split in X. eapply origin_on; [exact E1|]. eapply MG. apply add_inequality_method; [eapply heap_nth; eassumption|apply X|apply X].
  - destruct (nth_error (objs h) k) as [p|] eqn:E1; [|apply origin_none, E1]. apply exist_split in X. eapply origin_on; [exact E1|]. eapply MG. apply add_equality_method; [eapply heap_nth; eassumption|apply X|apply X].
  - destruct (nth_error (objs h) k) as [p|] eqn:E1; [|apply origin_none, E1]. eapply origin_on; [exact E1|]. eapply MG. apply add_lower_method; [eapply heap_nth; eassumption|exact X].
  - destruct (nth_error (objs h) k) as [p|] eqn:E1; [|apply origin_none, E1]. eapply origin_on; [exact E1|]. eapply MG. apply add_upper_method; [eapply heap_nth; eassumption|exact X].
  - destruct (nth_error (objs h) k) as [p|] eqn:E1; [|apply origin_none, E1]. apply exist_split in X. eapply origin_on; [exact E1|]. eapply MG. apply add_bounds_method; [eapply heap_nth; eassumption|apply X|apply X].
  - destruct (nth_error (objs h) k) as [p|] eqn:E1; [|apply origin_none, E1]. eapply origin_on; [exact E1|]. eapply MG. apply remove_method. eapply heap_nth; eassumption.
  - destruct (nth_error (objs h) k) as [p|] eqn:E1; [|apply origin_none, E1]. eapply origin_on; [exact E1|]. eapply MG. apply query_method. eapply heap_nth; eassumption.
  - destruct (nth_error (objs h) k) as [p|] eqn:E1; [|apply origin_none, E1]. eapply origin_on; [exact E1|]. pose proof (normalize_frame tol (mem h) p) as F. destruct (h_normalize tol (mem h) p) as [[r m] o']. right. apply F.
Qed.
(*@ Theorem C55_derived : In every history of calls, normalizations included, on polyhedra made by intersection (or from new arrays, or by copying such polyhedra), nothing that existed before changes: arrays keep their contents, polyhedra their arrays, contents and cached values *)
Lemma derived np l h : heap_ok h -> args_exist np h l ->
  (forall c k, In c l -> target c = Some k \/ base c = Some k -> (length (objs h) <= k)%nat) ->
  (forall A b C d a, In (ONew A b C d) l -> In a (args (ONew A b C d)) -> (length (mem h) <= a)%nat) ->
  let h' := execs np h l in
  (forall a, exist_in (mem h) a -> rd (mem h') a = rd (mem h) a) /\
  (forall j o, nth_error (objs h) j = Some o -> nth_error (objs h') j = Some o /\ view (mem h') o = view (mem h) o).
Proof.
  assert (G : forall n k l g, (k <= length (mem g))%nat -> (n <= length (objs g))%nat -> heap_ok g -> args_exist np g l ->
    (forall j o a, (n <= j)%nat -> nth_error (objs g) j = Some o -> In a (addrs o) -> (k <= a)%nat) ->
    (forall c i, In c l -> target c = Some i \/ base c = Some i -> (n <= i)%nat) -> (forall A b C d a, In (ONew A b C d) l -> In a (args (ONew A b C d)) -> (k <= a)%nat) ->
    (forall i, (i < k)%nat -> nth i (mem (execs np g l)) 0 = nth i (mem g) 0) /\ (forall j, (j < n)%nat -> nth_error (objs (execs np g l)) j = nth_error (objs g) j)).
  { intros n k. clear. induction l as [|c l IH]; intros g LK LN H XX INV T NW; [cbn; auto|]. destruct XX as (X & XS). destruct (exec_step np g c H X) as (S1 & S2 & S3 & S4 & S5). cbn [execs fold_left]. fold (execs np (exec np g c) l).
    destruct (IH (exec np g c)) as (I1 & I2); auto; [lia|lia| |intros c' i Hc; apply (T c' i); right; exact Hc|intros A b C d a Hc; apply (NW A b C d a); right; exact Hc|].
    - intros j o a Hj E Ha. destruct (exec_origin np g c H X j o E a Ha) as [Q|[(o0 & Q1 & Q2)|(Q & [Q1|(i & o0 & Q1 & Q2 & Q3)])]].
      + lia.
      + exact (INV j o0 a Hj Q1 Q2).
      + destruct c; try (specialize (X a Q1); cbn in Q1; destruct Q1; fail).
        * apply (NW A b C d a); [left; reflexivity|exact Q1].
        * exfalso. cbn [exec] in E. rewrite Q in E. assert (L : nth_error (objs (on k0 (h_add_inequality A b indices) g)) (length (objs g)) = None).
          { apply nth_error_None. unfold on. destruct (nth_error (objs g) k0) eqn:EK; [|lia]. destruct (h_add_inequality A b indices (mem g) o0) as [[? ?] ?]. cbn [objs]. rewrite put_obj_length; [lia|]. apply nth_error_Some. congruence. } congruence.
        * exfalso. cbn [exec] in E. rewrite Q in E. assert (L : nth_error (objs (on k0 (h_add_equality C d indices) g)) (length (objs g)) = None).
          { apply nth_error_None. unfold on. destruct (nth_error (objs g) k0) eqn:EK; [|lia]. destruct (h_add_equality C d indices (mem g) o0) as [[? ?] ?]. cbn [objs]. rewrite put_obj_length; [lia|]. apply nth_error_Some. congruence. } congruence.
        * exfalso. cbn [exec] in E. rewrite Q in E. assert (L : nth_error (objs (on k0 (h_add_lower_bound x indices) g)) (length (objs g)) = None).
          { apply nth_error_None. unfold on. destruct (nth_error (objs g) k0) eqn:EK; [|lia]. destruct (h_add_lower_bound x indices (mem g) o0) as [[? ?] ?]. cbn [objs]. rewrite put_obj_length; [lia|]. apply nth_error_Some. congruence. } congruence.
        * exfalso. cbn [exec] in E. rewrite Q in E. assert (L : nth_error (objs (on k0 (h_add_upper_bound x indices) g)) (length (objs g)) = None).
          { apply nth_error_None. unfold on. destruct (nth_error (objs g) k0) eqn:EK; [|lia]. destruct (h_add_upper_bound x indices (mem g) o0) as [[? ?] ?]. cbn [objs]. rewrite put_obj_length; [lia|]. apply nth_error_Some. congruence. } congruence.
        * exfalso. cbn [exec] in E. rewrite Q in E. assert (L : nth_error (objs (on k0 (h_add_bounds x y indices) g)) (length (objs g)) = None).
          { apply nth_error_None. unfold on. destruct (nth_error (objs g) k0) eqn:EK; [|lia]. destruct (h_add_bounds x y indices (mem g) o0) as [[? ?] ?]. cbn [objs]. rewrite put_obj_length; [lia|]. apply nth_error_Some. congruence. } congruence.
      + exact (INV i o0 a (T c i (or_introl eq_refl) (or_intror Q1)) Q2 Q3).
    - split.
      + intros i Hi. rewrite I1 by exact Hi. apply S3; [lia|]. intros W. destruct c; cbn [written] in W; try (destruct W; fail). destruct (nth_error (objs g) k0) as [o|] eqn:EK; [|destruct W]. pose proof (INV k0 o i (T _ k0 (or_introl eq_refl) (or_introl eq_refl)) EK W). lia.
      + intros j Hj. rewrite I2 by exact Hj. apply S5; [lia|]. intros E. specialize (T c j (or_introl eq_refl) (or_introl E)). lia. }
  intros H X T NW h'. destruct (G (length (objs h)) (length (mem h)) l h (le_n _) (le_n _) H X) as (G1 & G2); [|exact T|exact NW|].
  - intros j o a Hj E. exfalso. assert (j < length (objs h))%nat by (apply nth_error_Some; congruence). lia.
  - fold h' in G1, G2. split.
    + intros a Ha. apply rd_ext. intros k Hk. apply G1, Ha, Hk.
    + intros j o E. split; [rewrite G2; [exact E|apply nth_error_Some; congruence]|]. apply view_ext. intros k Hk. apply G1. exact (heap_nth h j o H E k Hk).
Qed.

(** ** Sets of points *)
(** tidy heaps: two pairs (A, b) or (C, d) of two objects are the same arrays or have no entry in common *)
Definition pair_of (h : heap) (P : pair) : Prop := exists o, In o (objs h) /\ (P = ineqs o \/ P = eqs o).
Definition tidy (h : heap) : Prop := forall P, pair_of h P -> pair_ok P /\ forall Q, pair_of h Q -> P = Q \/ disjoint (paddrs P) (paddrs Q).
(** one-dimensional right-hand sides, tolerances that are not negative; a polyhedron may be made from arrays that are already in use only
    if it takes a whole pair *)
Definition tidy_call (h : heap) (c : op) : Prop :=
  match c with
  | ONew A b C d =>
      let new := [(a_rows A, addrs_of b); (match C with Some C => a_rows C | None => [] end, match d with Some d => addrs_of d | None => [] end)] in
      forall P, In P new -> NoDup (paddrs P) /\ forall Q, pair_of h Q \/ In Q new -> P = Q \/ disjoint (paddrs P) (paddrs Q)
  | OAddInequality _ _ b _ | OAddEquality _ _ b _ => one_dim b
  | OAddLower _ x _ | OAddUpper _ x _ => one_dim_bound x
  | OAddBounds _ x y _ => one_dim_bound x /\ one_dim_bound y
  | ONormalize _ tol => 0 <= tol
  | _ => True
  end.
Fixpoint tidy_calls (np : numpy) (h : heap) (l : list op) : Prop :=
  match l with [] => True | c :: l' => exist_in (mem h) (args c) /\ tidy_call h c /\ tidy_calls np (exec np h c) l' end.
(** the object whose constraints a call adds to or removes from *)
Definition edits (c : op) : option nat :=
  match c with
  | OAddInequality k _ _ _ | OAddEquality k _ _ _ | OAddLower k _ _ | OAddUpper k _ _ | OAddBounds k _ _ _ | ORemove k => Some k
  | _ => None
  end.
Definition holds (op : R -> R -> Prop) (m : list R) (P : pair) (x : vec) : Prop := Forall2 (fun r bi => op (dot r x) bi) (map (rd m) (fst P)) (rd m (snd P)).
Lemma in_view m o x : in_poly (view m o) x <-> length x = a_cols (o_A o) /\ holds Rle m (ineqs o) x /\ holds eq m (eqs o) x.
Proof. reflexivity. Qed.
Lemma holds_ext op m m' P x : (forall k, In k (paddrs P) -> nth k m' 0 = nth k m 0) -> holds op m' P x <-> holds op m P x.
Proof. intros H. destruct (pair_rd m m' P H) as (E1 & E2). unfold holds. rewrite E1, E2. reflexivity. Qed.
Lemma loop_holds op tol m P Q x : (forall k a c, 0 < k -> op (k * a) (k * c) <-> op a c) -> 0 <= tol -> pair_ok P -> exist_in m (paddrs P) -> P = Q \/ disjoint (paddrs P) (paddrs Q) ->
  exists m', normalize_loop tol m (fst P) (snd P) = (Ok tt, m') /\ length m' = length m /\ (holds op m' Q x <-> holds op m Q x).
Proof.
  intros HO HT (N & L) X D. destruct (loop_value tol (fst P) m (snd P) N L X) as (m' & E & V1 & V2). pose proof (loop_frame tol (fst P) m (snd P)) as (L1 & F). rewrite E in L1, F. cbn [snd] in L1, F. exists m'. split; [exact E|]. split; [exact L1|].
  destruct D as [<-|D].
  - unfold holds. rewrite V1, V2. apply (normalize_rows_iff' op tol); [exact HO|exact HT|]. rewrite rd_length, map_length. symmetry. exact L.
  - apply holds_ext. intros k Hk. apply F. intros I. exact (D k I Hk).
Qed.
Lemma le_scale k a c : 0 < k -> k * a <= k * c <-> a <= c.
Proof. intros H. split; intros Q; [apply Rmult_le_reg_l with k; assumption|apply Rmult_le_compat_l; lra]. Qed.
Lemma eq_scale k a c : 0 < k -> k * a = k * c <-> a = c.
Proof. intros H. split; [|congruence]. intros Q. apply Rmult_eq_reg_l in Q; lra. Qed.
Lemma normalize_sets tol m p o x : 0 <= tol -> pair_ok (ineqs p) -> pair_ok (eqs p) -> exist_in m (addrs p) ->
  (forall P Q, P = ineqs p \/ P = eqs p -> Q = ineqs o \/ Q = eqs o -> P = Q \/ disjoint (paddrs P) (paddrs Q)) ->
  let '(_, m', _) := h_normalize tol m p in in_poly (view m' o) x <-> in_poly (view m o) x.
Proof.
  intros HT O1 O2 X D. assert (X1 : exist_in m (paddrs (ineqs p))) by (intros k Hk; apply X, addrs_pairs; left; exact Hk). assert (X2 : exist_in m (paddrs (eqs p))) by (intros k Hk; apply X, addrs_pairs; right; exact Hk).
  unfold h_normalize. destruct (loop_holds Rle tol m (ineqs p) (ineqs o) x le_scale HT O1 X1 ltac:(auto)) as (m1 & E1 & L1 & H1). destruct (loop_holds eq tol m (ineqs p) (eqs o) x eq_scale HT O1 X1 ltac:(auto)) as (m1' & E1' & _ & H1').
  cbn [ineqs fst snd] in E1, E1'. rewrite E1 in E1' |- *. injection E1' as <-. assert (X2' : exist_in m1 (paddrs (eqs p))) by (apply exist_le with m; [exact X2|lia]).
  destruct (loop_holds Rle tol m1 (eqs p) (ineqs o) x le_scale HT O2 X2' ltac:(auto)) as (m2 & E2 & L2 & H2). destruct (loop_holds eq tol m1 (eqs p) (eqs o) x eq_scale HT O2 X2' ltac:(auto)) as (m2' & E2' & _ & H2').
  cbn [eqs fst snd] in E2, E2'. rewrite E2 in E2' |- *. injection E2' as <-. rewrite !in_view. rewrite H2, H2', H1, H1'. reflexivity.
Qed.
Lemma pair_in h j o : nth_error (objs h) j = Some o -> pair_of h (ineqs o) /\ pair_of h (eqs o).
Proof. intros E. apply nth_error_In in E. split; exists o; auto. Qed.
Lemma pair_exist h P : heap_ok h -> pair_of h P -> exist_in (mem h) (paddrs P).
Proof. intros H (o & Ho & [ -> | -> ]) k Hk; apply (H o Ho), addrs_pairs; auto. Qed.
(** new pairs are new arrays, or taken over *)
Lemma tidy_extend h h' : heap_ok h -> tidy h -> (forall P, pair_of h' P -> pair_of h P \/ pair_new (mem h) (mem h') P) ->
  (forall P Q, pair_of h' P -> pair_of h' Q -> pair_new (mem h) (mem h') P -> pair_new (mem h) (mem h') Q -> P = Q \/ disjoint (paddrs P) (paddrs Q)) -> tidy h'.
Proof.
  intros H T HP HN P HPP. split.
  - destruct (HP P HPP) as [I|I]; [apply T, I|apply I].
  - intros Q HQ. destruct (HP P HPP) as [I|I], (HP Q HQ) as [J|J].
    + apply (proj2 (T P I) Q J).
    + right. intros k Hk Hq. pose proof (pair_exist h P H I k Hk). pose proof (proj2 J k Hq). lia.
    + right. intros k Hk Hq. pose proof (pair_exist h Q H J k Hq). pose proof (proj2 I k Hk). lia.
    + apply (HN P Q); auto.
Qed.
Lemma in_put_obj l k (o o1 : obj) : In o (put_obj k o1 l) -> In o l \/ o = o1.
Proof. unfold put_obj. rewrite in_app_iff. intros [I|[<-|I]]; auto; left; [rewrite <- (firstn_skipn k l)|rewrite <- (firstn_skipn (S k) l)]; apply in_or_app; auto. Qed.
Lemma add_inequality_eqs A b indices m o : eqs (snd (h_add_inequality A b indices m o)) = eqs o.
Proof.
  unfold h_add_inequality. destruct (same_number_rows _ _); [|reflexivity]. destruct (np_dot _ _); [|reflexivity]. destruct (np_vstack _ _); [|reflexivity]. destruct (new2 _ _). destruct (np_concat _ _); reflexivity.
Qed.
Lemma add_equality_ineqs A b indices m o : ineqs (snd (h_add_equality A b indices m o)) = ineqs o.
Proof.
  unfold h_add_equality. destruct (same_number_rows _ _); [|reflexivity]. destruct (np_dot _ _); [|reflexivity]. destruct (np_vstack _ _); [|reflexivity]. destruct (new2 _ _). destruct (np_concat _ _); reflexivity.
Qed.
Lemma add_lower_eqs x indices m o : eqs (snd (h_add_lower_bound x indices m o)) = eqs o.
Proof. unfold h_add_lower_bound. destruct (h_bound_array m x). destruct (new2 _ _). destruct (newn _ _). apply add_inequality_eqs. Qed.
Lemma add_upper_eqs x indices m o : eqs (snd (h_add_upper_bound x indices m o)) = eqs o.
Proof. unfold h_add_upper_bound. destruct (h_bound_array m x). destruct (new2 _ _). apply add_inequality_eqs. Qed.
Lemma add_bounds_eqs x y indices m o : eqs (snd (h_add_bounds x y indices m o)) = eqs o.
Proof.
  unfold h_add_bounds. pose proof (add_lower_eqs x indices m o) as E. destruct (h_add_lower_bound x indices m o) as [[[u|e] m1] o1]; [|exact E]. rewrite add_upper_eqs. exact E.
Qed.
Lemma remove_eqs np m o : eqs (snd (h_remove_redundant_inequalities np m o)) = eqs o.
Proof. unfold h_remove_redundant_inequalities. destruct (minimal_facets np tol7 (view m o)) as [[[mf|]|e] p]; try reflexivity. destruct (new2 _ _). reflexivity. Qed.
Lemma intersection_sides m p1 p2 : exist_in m (addrs p1) -> exist_in m (addrs p2) -> sizes p2 -> let '(r, m', p3) := h_intersection p1 p2 m in r = Ok tt -> disjoint (paddrs (ineqs p3)) (paddrs (eqs p3)).
Proof.
  intros X1 X2 (S1 & S2). pose proof (proj1 (exist_addrs m p1) X1) as (E1 & E2 & E3 & E4). unfold h_intersection.
  pose proof (add_inequality_heap m p2 (o_A p1) (H1 (o_b p1)) None X2 E2) as A. destruct (h_add_inequality (o_A p1) (H1 (o_b p1)) None m p2) as [[[[]|e] m1] q]; [|discriminate]. destruct A as (A1 & A2 & A3 & A4 & A5).
  pose proof A2 as ((e & ->) & G2 & G3). pose proof (add_equality_heap (m ++ e) q (o_C p1) (H1 (o_d p1)) None G2 (exist_app _ _ _ E4)) as B. destruct (h_add_equality (o_C p1) (H1 (o_d p1)) None (m ++ e) q) as [[r m2] p3]. destruct B as (B1 & B2 & B3 & B4 & B5).
  intros ->. specialize (A5 eq_refl S1). specialize (B5 eq_refl). rewrite A3 in B5. specialize (B5 S2). rewrite B3. intros k Hk Hq. pose proof (proj2 A5 k Hk). pose proof (proj2 B5 k Hq). lia.
Qed.
Lemma tidy_sizes h j o : tidy h -> nth_error (objs h) j = Some o -> sizes o.
Proof. intros T E. destruct (pair_in h j o E) as (P1 & P2). split; [apply (T _ P1)|apply (T _ P2)]. Qed.
(** a method that makes at most one new pair *)
Lemma tidy_method h k (f : om Datatypes.unit) v (od : Prop) o : heap_ok h -> tidy h -> nth_error (objs h) k = Some o -> method_ok f v od (mem h) o -> od ->
  eqs (snd (f (mem h) o)) = eqs o \/ ineqs (snd (f (mem h) o)) = ineqs o -> tidy (on k f h).
Proof.
  intros H T E M D SD. destruct (pair_in h k o E) as (PI & PE). unfold on. rewrite E. unfold method_ok in M. destruct (f (mem h) o) as [[r m'] o']. cbn [snd] in SD. destruct M as (_ & _ & M). destruct (M D (tidy_sizes h k o T E)) as (M1 & M2).
  assert (CASE : forall P, pair_of (Hp m' (put_obj k o' (objs h))) P -> pair_of h P \/ P = ineqs o' \/ P = eqs o'). { intros P (o1 & Ho & HP). apply in_put_obj in Ho. destruct Ho as [Ho| -> ]; [left; exists o1; auto|right; exact HP]. }
  apply (tidy_extend h); [exact H|exact T| |]; cbn [mem].
  - intros P HP. destruct (CASE P HP) as [Q|[ -> | -> ]]; [left; exact Q|destruct M1 as [ -> |Q]; auto|destruct M2 as [ -> |Q]; auto].
  - assert (OLD : forall P, pair_of h P -> pair_new (mem h) m' P -> forall l, disjoint (paddrs P) l). { intros P HP (_ & N) l x Hx _. pose proof (pair_exist h P H HP x Hx). specialize (N x Hx). lia. }
    assert (SYM : forall l l', disjoint l l' -> disjoint l' l) by (intros l l' Q x I J; exact (Q x J I)).
    intros P Q HP HQ NP NQ. destruct (CASE P HP) as [I|I]; [right; apply (OLD P I NP)|]. destruct (CASE Q HQ) as [J|J]; [right; apply SYM, (OLD Q J NQ)|].
    destruct SD as [SD|SD].
    + rewrite SD in I, J. destruct I as [ -> | -> ]; [|right; apply (OLD _ PE NP)]. destruct J as [ -> | -> ]; [left; reflexivity|right; apply SYM, (OLD _ PE NQ)].
    + rewrite SD in I, J. destruct I as [ -> | -> ]; [right; apply (OLD _ PI NP)|]. destruct J as [ -> | -> ]; [right; apply SYM, (OLD _ PI NQ)|left; reflexivity].
Qed.
Lemma tidy_made h r m o o' : heap_ok h -> tidy h -> In o (objs h) -> pairs_step (mem h) m o o' -> (r = Ok tt -> disjoint (paddrs (ineqs o')) (paddrs (eqs o')) \/ ineqs o' = ineqs o) -> (exists e, m = mem h ++ e) -> tidy (made h (r, m, o')).
Proof.
  intros H T E (M1 & M2) SD (e & EM). destruct r as [[]|x]; cbn [made].
  2:{ intros P HP. destruct (T P) as (T1 & T2); [destruct HP as (o1 & Ho & HP); exists o1; auto|]. split; [exact T1|]. intros Q HQ. apply T2. destruct HQ as (o1 & Ho & HQ); exists o1; auto. }
  specialize (SD eq_refl).
  assert (PI : pair_of h (ineqs o)) by (exists o; auto). assert (PE : pair_of h (eqs o)) by (exists o; auto).
  assert (CASE : forall P, pair_of (Hp m (objs h ++ [o'])) P -> pair_of h P \/ P = ineqs o' \/ P = eqs o'). { intros P (o1 & Ho & HP). apply in_app_iff in Ho. destruct Ho as [Ho|[<-|[]]]; [left; exists o1; auto|right; exact HP]. }
  apply (tidy_extend h); [exact H|exact T| |]; cbn [mem].
  - intros P HP. destruct (CASE P HP) as [Q|[ -> | -> ]]; [left; exact Q|destruct M1 as [ -> |Q]; auto|destruct M2 as [ -> |Q]; auto].
  - assert (OLD : forall P, pair_of h P -> pair_new (mem h) m P -> forall l, disjoint (paddrs P) l). { intros P HP (_ & N) l x Hx _. pose proof (pair_exist h P H HP x Hx). specialize (N x Hx). lia. }
    assert (SYM : forall l l', disjoint l l' -> disjoint l' l) by (intros l l' Q x I J; exact (Q x J I)).
    intros P Q HP HQ NP NQ. destruct (CASE P HP) as [I|I]; [right; apply (OLD P I NP)|]. destruct (CASE Q HQ) as [J|J]; [right; apply SYM, (OLD Q J NQ)|].
    destruct SD as [SD|SD].
    + destruct I as [ -> | -> ], J as [ -> | -> ]; auto.
    + rewrite SD in I, J. destruct I as [ -> | -> ]; [right; apply (OLD _ PI NP)|]. destruct J as [ -> | -> ]; [right; apply SYM, (OLD _ PI NQ)|left; reflexivity].
Qed.
Lemma on_objs_same h k (f : om Datatypes.unit) o : nth_error (objs h) k = Some o -> (let '(_, _, o') := f (mem h) o in ineqs o' = ineqs o /\ eqs o' = eqs o) -> forall P, pair_of (on k f h) P -> pair_of h P.
Proof.
  intros E G P (o1 & Ho & HP). unfold on in Ho. rewrite E in Ho. destruct (f (mem h) o) as [[r m] o']. cbn [objs] in Ho. apply in_put_obj in Ho. destruct Ho as [Ho| -> ]; [exists o1; auto|]. exists o. split; [eapply nth_error_In; exact E|]. destruct G as (G1 & G2). rewrite G1, G2 in HP. exact HP.
Qed.
Lemma tidy_sub h h' : tidy h -> (forall P, pair_of h' P -> pair_of h P) -> tidy h'.
Proof. intros T S P HP. destruct (T P (S P HP)) as (T1 & T2). split; [exact T1|]. intros Q HQ. apply T2, S, HQ. Qed.
Lemma exec_tidy np h c : heap_ok h -> tidy h -> exist_in (mem h) (args c) -> tidy_call h c -> tidy (exec np h c).
Proof.
  intros H T X TC. destruct c; cbn [exec]; cbn [args] in X; cbn [tidy_call] in TC.
  - pose proof (new_heap (mem h) A b C d X) as N. destruct (h_Polyhedron (mem h) A b C d) as [[o|e] m]; destruct N as (-> & _ & N); [|destruct h; exact T].
    destruct (N o eq_refl) as (N1 & (Z1 & Z2) & N2 & N3). set (P1 := (a_rows A, addrs_of b)) in *. match type of N3 with _ = ?P2 => set (Q1 := P2) in * end. cbv zeta in TC.
    assert (CASE : forall P, pair_of (Hp (mem h) (objs h ++ [o])) P -> pair_of h P \/ In P [P1; Q1]). { intros P (o1 & Ho & HP). apply in_app_iff in Ho. destruct Ho as [Ho|[<-|[]]]; [left; exists o1; auto|right]. rewrite N2, N3 in HP. cbn. destruct HP; auto. }
    assert (SZ : forall P, In P [P1; Q1] -> length (fst P) = length (snd P)). { intros P [<-|[<-|[]]]; [rewrite <- N2; exact Z1|rewrite <- N3; exact Z2]. }
    intros P HP. destruct (CASE P HP) as [I|I].
    + destruct (T P I) as (T1 & T2). split; [exact T1|]. intros Q HQ. destruct (CASE Q HQ) as [J|J]; [apply T2, J|]. destruct (proj2 (TC Q J) P (or_introl I)) as [<-|D]; [left; reflexivity|right; intros k K1 K2; exact (D k K2 K1)].
    + destruct (TC P I) as (T1 & T2). split; [split; [exact T1|apply SZ, I]|]. intros Q HQ. apply T2. destruct (CASE Q HQ); auto.
  - apply (tidy_sub h _ T). intros P (o & Ho & HP). exists o. auto.
  - destruct (nth_error (objs h) k) as [o|] eqn:E; [|exact T]. apply (tidy_sub h _ T). intros P (o1 & Ho & HP). cbn [objs] in Ho. apply in_app_iff in Ho. apply nth_error_In in E. destruct Ho as [Ho|[<-|[]]]; [exists o1|exists o]; auto.
  - destruct (nth_error (objs h) k1) as [p1|] eqn:E1; [|exact T]. destruct (nth_error (objs h) k2) as [p2|] eqn:E2; [|exact T].
    pose proof (intersection_heap (mem h) p1 p2 (heap_nth _ _ _ H E1) (heap_nth _ _ _ H E2)) as I. pose proof (intersection_sides (mem h) p1 p2 (heap_nth _ _ _ H E1) (heap_nth _ _ _ H E2) (tidy_sizes _ _ _ T E2)) as SD. destruct (h_intersection p1 p2 (mem h)) as [[r m] p3]. destruct I as (_ & (G & _) & I & _). apply (tidy_made h r m p2); auto; [eapply nth_error_In; exact E2|apply I, (tidy_sizes _ _ _ T E2)].
  - destruct (nth_error (objs h) k) as [p|] eqn:E1; [|exact T]. pose proof (facet_heap (mem h) p i (heap_nth _ _ _ H E1)) as I. destruct (h_facet i p (mem h)) as [[r m] p3]. destruct I as (_ & (G & _) & I1 & I2). apply (tidy_made h r m p); auto; [eapply nth_error_In; exact E1|apply I2, (tidy_sizes _ _ _ T E1)].
  - destruct (nth_error (objs h) k) as [p|] eqn:E1; [|rewrite on_none by exact E1; exact T]. apply exist_split in X. eapply tidy_method; [exact H|exact T|exact E1| |exact TC|left; apply add_inequality_eqs]. apply add_inequality_method; [eapply heap_nth; eassumption|apply X|apply X].
  - destruct (nth_error (objs h) k) as [p|] eqn:E1; [|rewrite on_none by exact E1; exact T]. apply exist_split in X. eapply tidy_method; [exact H|exact T|exact E1| |exact TC|right; apply add_equality_ineqs]. apply add_equality_method; [eapply heap_nth; eassumption|apply X|apply X].
  - destruct (nth_error (objs h) k) as [p|] eqn:E1; [|rewrite on_none by exact E1; exact T]. eapply tidy_method; [exact H|exact T|exact E1| |exact TC|left; apply add_lower_eqs]. apply add_lower_method; [eapply heap_nth; eassumption|exact X].
  - destruct (nth_error (objs h) k) as [p|] eqn:E1; [|rewrite on_none by exact E1; exact T]. eapply tidy_method; [exact H|exact T|exact E1| |exact TC|left; apply add_upper_eqs]. apply add_upper_method; [eapply heap_nth; eassumption|exact X].
  - destruct (nth_error (objs h) k) as [p|] eqn:E1; [|rewrite on_none by exact E1; exact T]. apply exist_split in X. eapply tidy_method; [exact H|exact T|exact E1| |exact TC|left; apply add_bounds_eqs]. apply add_bounds_method; [eapply heap_nth; eassumption|apply X|apply X].
  - destruct (nth_error (objs h) k) as [p|] eqn:E1; [|rewrite on_none by exact E1; exact T]. eapply tidy_method; [exact H|exact T|exact E1| |exact I|left; apply remove_eqs]. apply remove_method. eapply heap_nth; eassumption.
  - destruct (nth_error (objs h) k) as [p|] eqn:E1; [|rewrite on_none by exact E1; exact T]. apply (tidy_sub h _ T). apply (on_objs_same h k _ p E1). unfold h_query. destruct (ask np q (view (mem h) p)). split; reflexivity.
  - destruct (nth_error (objs h) k) as [p|] eqn:E1; [|rewrite on_none by exact E1; exact T]. apply (tidy_sub h _ T). apply (on_objs_same h k _ p E1). pose proof (normalize_frame tol (mem h) p) as F. destruct (h_normalize tol (mem h) p) as [[r m] o']. destruct F as (-> & _). auto.
Qed.
Lemma exec_sets np h c j o : heap_ok h -> tidy h -> exist_in (mem h) (args c) -> tidy_call h c -> nth_error (objs h) j = Some o -> edits c <> Some j ->
  exists o', nth_error (objs (exec np h c)) j = Some o' /\ forall x, in_poly (view (mem (exec np h c)) o') x <-> in_poly (view (mem h) o) x.
Proof.
  intros H T X TC E NE. destruct (exec_step np h c H X) as (S1 & S2 & S3 & S4 & S5). assert (LJ : (j < length (objs h))%nat) by (apply nth_error_Some; congruence).
  assert (OTHER : target c <> Some j -> normalizes c = false -> exists o', nth_error (objs (exec np h c)) j = Some o' /\ forall x, in_poly (view (mem (exec np h c)) o') x <-> in_poly (view (mem h) o) x).
  { intros NT NN. exists o. split; [rewrite S5; auto|]. intros x. rewrite (view_ext (mem h)); [reflexivity|]. intros a Ha. apply S3; [exact (heap_nth _ _ _ H E a Ha)|]. destruct c; try discriminate; cbn; auto. }
  destruct c; try (apply OTHER; [cbn in NE |- *; congruence|reflexivity]).
  - destruct (Nat.eq_dec k j) as [->|NK]; [|apply OTHER; [cbn; congruence|reflexivity]]. cbn [exec]. unfold on. rewrite E. unfold h_query. pose proof (keeps_ask np q (view (mem h) o)) as K. destruct (ask np q (view (mem h) o)) as [r p]. cbn [objs mem]. exists (o_caches o p). split; [rewrite nth_error_put_obj, Nat.eqb_refl by exact LJ; reflexivity|]. intros x. reflexivity.
  - cbn [exec]. unfold on. destruct (nth_error (objs h) k) as [p|] eqn:EK; [|exists o; split; [exact E|reflexivity]]. destruct (pair_in h k p EK) as (PI & PE). destruct (pair_in h j o E) as (OI & OE). cbn [tidy_call] in TC.
    pose proof (normalize_frame tol (mem h) p) as F. pose proof (fun x => normalize_sets tol (mem h) p o x TC (proj1 (T _ PI)) (proj1 (T _ PE)) (heap_nth _ _ _ H EK)) as NS.
    assert (PAIRS : forall P Q, P = ineqs p \/ P = eqs p -> Q = ineqs o \/ Q = eqs o -> P = Q \/ disjoint (paddrs P) (paddrs Q)). { intros P Q HP HQ. assert (pair_of h P) by (destruct HP as [ -> | -> ]; assumption). assert (pair_of h Q) by (destruct HQ as [ -> | -> ]; assumption). apply T; assumption. }
    destruct (h_normalize tol (mem h) p) as [[r m] o']. destruct F as (-> & _). cbn [objs mem]. exists o. split; [|intros x; exact (NS x PAIRS)]. rewrite nth_error_put_obj by (apply nth_error_Some; congruence). destruct (Nat.eqb j k) eqn:Q; [|exact E]. apply Nat.eqb_eq in Q. congruence.
Qed.
(*@ Theorem C55_sets : As long as polyhedra that share arrays share whole pairs (A, b) or (C, d) -- as copies do -- no history of calls on any polyhedra changes the set of points of a polyhedron, except the calls that add constraints to it or remove constraints from it; in particular normalizing a copy does not change the set of the original *)
Lemma sets np l : forall h, heap_ok h -> tidy h -> tidy_calls np h l -> forall j o, nth_error (objs h) j = Some o -> (forall c, In c l -> edits c <> Some j) ->
  exists o', nth_error (objs (execs np h l)) j = Some o' /\ forall x, in_poly (view (mem (execs np h l)) o') x <-> in_poly (view (mem h) o) x.
Proof.
  induction l as [|c l IH]; intros h H T XX j o E NE; [exists o; split; [exact E|reflexivity]|]. destruct XX as (X & TC & XS). cbn [execs fold_left]. fold (execs np (exec np h c) l).
  destruct (exec_sets np h c j o H T X TC E (NE c (or_introl eq_refl))) as (o1 & E1 & S1). destruct (exec_step np h c H X) as (H' & _).
  destruct (IH (exec np h c) H' (exec_tidy np h c H T X TC) XS j o1 E1) as (o' & E' & S'); [intros c' Hc; apply NE; right; exact Hc|]. exists o'. split; [exact E'|]. intros x. rewrite S'. apply S1.
Qed.

(** ** same_rows *)
Lemma Reqb_eq a b : Reqb a b = true -> a = b.
Proof. unfold Reqb. destruct (Req_EM_T a b); [auto|discriminate]. Qed.
Lemma same_rows_frame A : forall m B m', same_rows_loop m A B = Some m' -> length m' = length m /\ forall k, ~ In k (concat A ++ concat B) -> nth k m' 0 = nth k m 0.
Proof.
  induction A as [|a A IH]; intros m B m' E; [injection E as <-; auto|]. destruct B as [|b B]; [injection E as <-; auto|]. cbn [same_rows_loop] in E. cbv zeta in E.
  destruct (Reqb (norm (rd m a)) 0); [discriminate|]. set (m1 := wr m a (map (fun x => x / norm (rd m a)) (rd m a))) in *. destruct (Reqb (norm (rd m1 b)) 0); [discriminate|].
  destruct (IH _ B m' E) as (L & F). split; [rewrite L, wr_length; apply wr_length|]. intros k Hk. cbn [concat] in Hk. rewrite !in_app_iff in Hk. rewrite F by (rewrite in_app_iff; tauto). rewrite nth_wr_other by tauto. apply nth_wr_other. tauto.
Qed.
Definition unit_row (r : vec) : vec := map (fun x => x / norm r) r.
Lemma same_rows_value A : forall m B, length A = length B -> NoDup (concat A ++ concat B) -> exist_in m (concat A ++ concat B) -> (forall r, In r A \/ In r B -> norm (rd m r) <> 0) ->
  exists m', same_rows_loop m A B = Some m' /\ map (rd m') A = map unit_row (map (rd m) A) /\ map (rd m') B = map unit_row (map (rd m) B).
Proof.
  induction A as [|a A IH]; intros m B L N X NZ; destruct B as [|b B]; try discriminate; [exists m; auto|]. cbn [concat] in N, X.
  apply nodup_app in N. destruct N as (N1 & N2 & N3). apply nodup_app in N1. destruct N1 as (Na & NA & NaA). apply nodup_app in N2. destruct N2 as (Nb & NB & NbB).
  assert (XA : exist_in m a) by (intros k Hk; apply X; rewrite !in_app_iff; tauto). assert (XB : exist_in m b) by (intros k Hk; apply X; rewrite !in_app_iff; tauto).
  assert (DAB : forall k, In k b -> ~ In k a) by (intros k Hb Ha; apply (N3 k); apply in_or_app; auto).
  assert (DR : forall k, In k (concat A ++ concat B) -> ~ In k a /\ ~ In k b). { intros k Hk. apply in_app_iff in Hk. split; intros Q; destruct Hk as [Hk|Hk]; [exact (NaA k Q Hk)|apply (N3 k); apply in_or_app; auto|apply (N3 k); apply in_or_app; auto|exact (NbB k Q Hk)]. }
  cbn [same_rows_loop]. cbv zeta. assert (Z : forall r, norm r <> 0 -> Reqb (norm r) 0 = false). { intros r H. destruct (Reqb (norm r) 0) eqn:Q; [|reflexivity]. apply Reqb_eq in Q. contradiction. }
  rewrite Z by (apply NZ; left; left; reflexivity). set (m1 := wr m a (map (fun x => x / norm (rd m a)) (rd m a))). assert (L1 : length m1 = length m) by apply wr_length.
  assert (RB : rd m1 b = rd m b) by (apply rd_wr_other; exact DAB). rewrite RB. rewrite Z by (apply NZ; right; left; reflexivity). set (m2 := wr m1 b (map (fun x => x / norm (rd m b)) (rd m b))). assert (L2 : length m2 = length m) by (unfold m2; rewrite wr_length; exact L1).
  assert (SAME : forall k, In k (concat A ++ concat B) -> nth k m2 0 = nth k m 0). { intros k Hk. destruct (DR k Hk). unfold m2. rewrite nth_wr_other by assumption. apply nth_wr_other. assumption. }
  assert (RR : forall r, In r A \/ In r B -> rd m2 r = rd m r). { intros r Hr. apply rd_ext. intros k Hk. apply SAME. apply in_or_app. destruct Hr; [left|right]; apply in_concat; eauto. }
  destruct (IH m2 B) as (m' & E & VA & VB).
  - cbn in L. lia.
  - apply nodup_app. split; [exact NA|]. split; [exact NB|]. intros k H1 H2. apply (N3 k); apply in_or_app; auto.
  - intros k Hk. rewrite L2. apply X. rewrite !in_app_iff in *. tauto.
  - intros r Hr. rewrite RR by exact Hr. apply NZ. destruct Hr; [left|right]; right; assumption.
  - exists m'. split; [exact E|]. destruct (same_rows_frame A m2 B m' E) as (_ & F).
    assert (KA : rd m' a = unit_row (rd m a)). { transitivity (rd m2 a); [apply rd_ext; intros k Hk; apply F; intros Q; exact (proj1 (DR k Q) Hk)|]. transitivity (rd m1 a); [apply rd_wr_other; intros k Hk Q; exact (DAB k Q Hk)|]. apply rd_wr; [exact Na|exact XA|]. unfold unit_row, rd; rewrite !map_length; reflexivity. }
    assert (KB : rd m' b = unit_row (rd m b)). { transitivity (rd m2 b); [apply rd_ext; intros k Hk; apply F; intros Q; exact (proj2 (DR k Q) Hk)|]. apply rd_wr; [exact Nb|intros k Hk; rewrite L1; apply XB, Hk|]. unfold unit_row, rd; rewrite !map_length; reflexivity. }
    assert (QA : map (rd m2) A = map (rd m) A) by (apply map_ext_in; intros r Hr; apply RR; left; exact Hr). assert (QB : map (rd m2) B = map (rd m) B) by (apply map_ext_in; intros r Hr; apply RR; right; exact Hr).
    cbn [map]. rewrite KA, KB, VA, VB, QA, QB. split; reflexivity.
Qed.
Lemma unit_row_eq r : norm r <> 0 -> normalize_row r = Some (unit_row r).
Proof.
  intros H. unfold normalize_row. destruct (Reqb (norm r) 0) eqn:E; [apply Reqb_eq in E; contradiction|]. cbn [andb]. f_equal. apply map_ext. intros a. unfold Rdiv. apply Rmult_comm.
Qed.
(*@ Theorem C55_same_rows : same_rows changes no array that has no entry in common with its two arguments; without normalize it changes nothing; with normalize, when the arguments do not overlap and no row is zero, it returns what the value model returns and leaves both arguments of the caller normalized *)
Lemma same_rows_heap m A B : (forall r m', h_same_rows m A B false = Some (r, m') -> m' = m /\ r = same_rows (rd2 m A) (rd2 m B) false) /\
  (forall r m' a, h_same_rows m A B true = Some (r, m') -> ~ shares a (concat (a_rows A) ++ concat (a_rows B)) -> rd m' a = rd m a) /\
  (length (a_rows A) = length (a_rows B) -> NoDup (concat (a_rows A) ++ concat (a_rows B)) -> exist_in m (concat (a_rows A) ++ concat (a_rows B)) ->
   (forall r, In r (a_rows A) \/ In r (a_rows B) -> norm (rd m r) <> 0) ->
   exists m', h_same_rows m A B true = Some (same_rows (rd2 m A) (rd2 m B) true, m') /\ rows (rd2 m' A) = map unit_row (rows (rd2 m A)) /\ rows (rd2 m' B) = map unit_row (rows (rd2 m B))).
Proof.
  unfold h_same_rows. split; [|split].
  - intros r m' E. destruct (Nat.eqb _ _) eqn:Q; cbn [negb] in E; injection E as <- <-; split; try reflexivity. unfold same_rows, nrows. cbn [rd2 rows]. rewrite !map_length, Q. reflexivity.
  - intros r m' a E NS. destruct (Nat.eqb _ _); cbn [negb] in E; [|injection E as _ <-; reflexivity]. destruct (same_rows_loop m (a_rows A) (a_rows B)) as [m1|] eqn:EL; [|discriminate]. injection E as _ <-. destruct (same_rows_frame _ _ _ _ EL) as (_ & F). apply rd_ext. intros k Hk. apply F. intros I. apply NS. exists k. auto.
  - intros L N X NZ. destruct (same_rows_value (a_rows A) m (a_rows B) L N X NZ) as (m' & E & VA & VB). exists m'. rewrite L, Nat.eqb_refl, E. cbn [negb]. split; [|split; assumption]. f_equal. f_equal.
    unfold same_rows, nrows. cbn [rd2 rows ncols]. rewrite !map_length, L, Nat.eqb_refl. cbn [negb]. destruct (Nat.eqb (length (a_rows B)) 0); [reflexivity|]. destruct (negb _); [reflexivity|]. rewrite VA, VB.
    assert (K : forall l, (forall r, In r l -> norm (rd m r) <> 0) -> map (fun r => Some r) (map unit_row (map (rd m) l)) = map normalize_row (map (rd m) l)). { intros l H. rewrite !map_map. apply map_ext_in. intros r Hr. symmetry. apply unit_row_eq, H, Hr. }
    rewrite !K by auto. reflexivity.
Qed.

(** ** What sharing can do *)
Lemma norm_2 : norm [2] = 2. Proof. unfold norm. cbn. replace (2 * 2 + 0) with (2 * 2) by ring. apply sqrt_square. lra. Qed.
Lemma norm_34 : norm [3; 4] = 5. Proof. unfold norm. cbn. replace (3 * 3 + (4 * 4 + 0)) with (5 * 5) by ring. apply sqrt_square. lra. Qed.
Definition obj_ineqs (A : arr2) (b : list nat) : obj := Obj A b (Arr2 (a_cols A) []) [] None None None None None.
Lemma normalize_1 m kA kb : nth kA m 0 = 2 -> h_normalize tol7 m (obj_ineqs (Arr2 1 [[kA]]) [kb]) =
  (Ok tt, put kb (nth kb (put kA (2 / 2) m) 0 / 2) (put kA (2 / 2) m), obj_ineqs (Arr2 1 [[kA]]) [kb]).
Proof.
  intros H. unfold h_normalize, obj_ineqs. cbn [o_A o_b o_C o_d a_rows normalize_loop rd map]. rewrite H, norm_2. rewrite (proj2 (Rltb_true tol7 2)) by (unfold tol7; lra). reflexivity.
Qed.
(*@ Theorem C55_shared_matrix_refuted : Two polyhedra made from the same matrix A and two vectors: normalizing the first changes the set of points of the second *)
Lemma shared_matrix_refuted : exists h o1 o2 x, heap_ok h /\ nth_error (objs h) 0 = Some o1 /\ nth_error (objs h) 1 = Some o2 /\ o_A o1 = o_A o2 /\ ~ shares (o_b o1) (addrs o2) /\
  forall np, let h' := exec np h (ONormalize 0 tol7) in ~ in_poly (view (mem h) o2) x /\ nth_error (objs h') 1 = Some o2 /\ in_poly (view (mem h') o2) x.
Proof.
  exists (Hp [2; 2; 4] [obj_ineqs (Arr2 1 [[0%nat]]) [1%nat]; obj_ineqs (Arr2 1 [[0%nat]]) [2%nat]]), (obj_ineqs (Arr2 1 [[0%nat]]) [1%nat]), (obj_ineqs (Arr2 1 [[0%nat]]) [2%nat]), [3].
  split; [intros o [<-|[<-|[]]] k Hk; cbn in Hk |- *; lia|]. split; [reflexivity|]. split; [reflexivity|]. split; [reflexivity|]. split; [intros (k & K1 & K2); cbn in K1, K2; lia|].
  intros np h'. split.
  - intros (_ & I & _). unfold ineq_holds in I. cbn in I. inversion I as [|? ? ? ? Q]; subst. unfold dot in Q. cbn in Q. lra.
  - unfold h'. cbn [exec]. unfold on. cbn [objs nth_error mem]. rewrite normalize_1 by reflexivity. cbn. split; [reflexivity|].
    split; [reflexivity|]. split; [apply Forall2_cons; [unfold dot; cbn; lra|apply Forall2_nil]|apply Forall2_nil].
Qed.
(*@ Theorem C55_view_refuted : A polyhedron whose right-hand side is a column of its matrix (b = A[:,0]): normalize changes its own set of points *)
Lemma view_refuted : exists m o x, exist_in m (addrs o) /\ length (a_rows (o_A o)) = length (o_b o) /\ in_poly (view m o) x /\
  let '(r, m', o') := h_normalize tol7 m o in r = Ok tt /\ ~ in_poly (view m' o') x.
Proof.
  exists [3; 4], (obj_ineqs (Arr2 2 [[0%nat; 1%nat]]) [0%nat]), [0; 3 / 4]. split; [intros k Hk; cbn in Hk |- *; lia|]. split; [reflexivity|]. split.
  - split; [reflexivity|]. split; [apply Forall2_cons; [unfold dot; cbn; lra|apply Forall2_nil]|apply Forall2_nil].
  - unfold h_normalize. cbn [obj_ineqs o_A o_b o_C o_d a_rows normalize_loop rd map nth]. change (norm _) with (norm [3; 4]). rewrite norm_34. rewrite (proj2 (Rltb_true tol7 5)) by (unfold tol7; lra). cbn. split; [reflexivity|]. intros (_ & I & _). unfold ineq_holds in I. cbn in I. inversion I as [|? ? ? ? Q]; subst. unfold dot in Q. cbn in Q. lra.
Qed.
(*@ Example C55_example : a polyhedron 2 x <= 2: the hypotheses of C55_mutation, C55_derived and C55_sets hold of histories that intersect, add, copy and normalize; the copy's normalization rewrites the arrays of the original to x <= 1, the set stays *)
Lemma heap_example np : let o := obj_ineqs (Arr2 1 [[0%nat]]) [1%nat] in let h := Hp [2; 2] [o] in
  let l1 := [OIntersection 0 0; OAddUpper 1 (HFloat (/ 2)) None; OCopy 0; OAddUpper 2 (HFloat (/ 2)) None] in
  let l2 := [OIntersection 0 0; OAddUpper 1 (HFloat (/ 2)) None; ONormalize 1 tol7] in
  let l3 := [OCopy 0; ONormalize 1 tol7; OAddUpper 1 (HFloat (/ 2)) None] in
  heap_ok h /\ tidy h /\ args_exist np h l1 /\ args_exist np h l2 /\ tidy_calls np h l3 /\
  (forall c, In c l1 -> normalizes c = false) /\ (forall c k, In c l1 -> target c = Some k -> (1 <= k)%nat) /\ (forall c k, In c l2 -> target c = Some k \/ base c = Some k -> (1 <= k)%nat) /\ (forall c, In c l3 -> edits c <> Some 0%nat) /\
  length (objs (execs np h l2)) = 2%nat /\ view (mem (execs np h l3)) o = Poly (Mat 1 [[1]]) [1] (Mat 1 []) [] None None None None None.
Proof.
  intros o h l1 l2 l3. split; [intros o1 [<-|[]] k Hk; cbn in Hk |- *; lia|]. split.
  { assert (PP : forall P, pair_of h P -> P = ([[0%nat]], [1%nat]) \/ P = ([], [])) by (intros P (o1 & [<-|[]] & HP); exact HP). intros P HP. split.
    - destruct (PP P HP) as [ -> | -> ]; split; try reflexivity; cbn; [constructor; [cbn; lia|constructor; [cbn; tauto|constructor]]|constructor].
    - intros Q HQ. destruct (PP P HP) as [ -> | -> ], (PP Q HQ) as [ -> | -> ]; auto; right; intros k K1 K2; cbn in K1, K2; tauto. }
  split; [repeat split; intros k []|]. split; [repeat split; intros k []|]. split; [split; [intros k []|]; split; [exact I|]; split; [intros k []|]; split; [cbn; unfold tol7; lra|]; split; [intros k []|]; split; [exact I|exact I]|].
  split; [intros c [<-|[<-|[<-|[<-|[]]]]]; reflexivity|]. split; [intros c k [<-|[<-|[<-|[<-|[]]]]] E; cbn in E; try discriminate; injection E as <-; lia|]. split; [intros c k [<-|[<-|[<-|[]]]] [E|E]; cbn in E; try discriminate; injection E as <-; lia|]. split; [intros c [<-|[<-|[<-|[]]]]; discriminate|].
  split.
  - unfold l2, execs. cbn [fold_left]. match goal with |- context [exec np ?g (ONormalize 1 tol7)] => set (g1 := g) end. cbn [exec]. unfold on. destruct (nth_error (objs g1) 1) eqn:E; [|cbn in E; discriminate]. destruct (h_normalize tol7 (mem g1) o0) as [[? ?] ?]. cbn [objs]. rewrite put_obj_length; reflexivity || (cbn; lia).
  - unfold l3, execs. unfold h. cbn [fold_left exec nth_error objs mem app]. unfold on at 2. cbn [nth_error objs mem app]. match goal with |- context [h_normalize tol7 ?m ?q] => change (h_normalize tol7 m q) with (h_normalize tol7 [2; 2] (obj_ineqs (Arr2 1 [[0%nat]]) [1%nat])) end. rewrite normalize_1 by reflexivity. cbn. unfold view, rd2. cbn. replace (2 / 2) with 1 by field. reflexivity.
Qed.
