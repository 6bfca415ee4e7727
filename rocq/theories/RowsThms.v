(** * RowsThms: same_rows on matrices with different numbers of columns *)
From Coq Require Import Permutation.
From Verif Require Import Arr ArrFacts Spec SpecGeom Numpy PnnlsFacts GeomUtils GeomThms.

(** a number repeated k times is close to the row, in either order of the arguments of np.allclose *)
Definition wide_left (k : nat) (nz : bool) (a b : vec) : Prop :=
  if nz then 0 < norm a /\ 0 < norm b /\ close (repeat (nth 0 a 0 / norm a) k) (vscale (/ norm b) b)
  else close (repeat (nth 0 a 0) k) b.
Definition wide_right (k : nat) (nz : bool) (a b : vec) : Prop :=
  if nz then 0 < norm a /\ 0 < norm b /\ close (vscale (/ norm a) a) (repeat (nth 0 b 0 / norm b) k)
  else close a (repeat (nth 0 b 0) k).

Lemma close_pairs (a b : vec) : length a = length b ->
  forallb (fun ab => Rleb (Rabs (fst ab - snd ab)) (/ 100000000 + / 100000 * Rabs (snd ab))) (combine a b) = true <-> close a b.
Proof. intros L. rewrite <- (allclose_iff a b L). unfold allclose. destruct (combine_same_bcast a b L) as [-> ->]. reflexivity. Qed.
Lemma allclose_left (a b : vec) : length a = 1%nat -> (2 <= length b)%nat -> allclose a b = true <-> close (repeat (nth 0 a 0) (length b)) b.
Proof.
  intros La Lb. unfold allclose. destruct a as [|x [|]]; cbn in La; try discriminate. cbn [length nth]. replace (bcast b 1) with b by (destruct b as [|y [|]]; cbn in Lb; try lia; reflexivity).
  cbn [bcast]. apply close_pairs. rewrite repeat_length. reflexivity.
Qed.
Lemma allclose_right (a b : vec) : length b = 1%nat -> (2 <= length a)%nat -> allclose a b = true <-> close a (repeat (nth 0 b 0) (length a)).
Proof.
  intros Lb La. unfold allclose. destruct b as [|x [|]]; cbn in Lb; try discriminate. cbn [length nth]. replace (bcast a 1) with a by (destruct a as [|y [|]]; cbn in La; try lia; reflexivity).
  cbn [bcast]. apply close_pairs. rewrite repeat_length. reflexivity.
Qed.
Lemma rows_relation nz (r : vec -> vec -> Prop) A B m : length A = m -> length B = m ->
  (forall a b, In a A -> In b B -> allclose_nan (if nz : bool then normalize_row a else Some a) (if nz then normalize_row b else Some b) = true <-> r a b) ->
  match_rows allclose_nan (map (fun a => if nz then normalize_row a else Some a) A) (map (fun a => if nz then normalize_row a else Some a) B) = true <-> matched_in_order [] r A B.
Proof.
  intros LA LB H. set (f := fun a => if nz then normalize_row a else Some a). rewrite (match_rows_true (f [])) by (rewrite !map_length; lia). apply matched_order_map. exact H.
Qed.
Lemma nan_norm a : (0 < length a)%nat -> normalize_row a = (if Reqb (norm a) 0 then None else Some (vscale (/ norm a) a)).
Proof. intros L. unfold normalize_row. replace (length a =? 0)%nat with false by (symmetry; apply Nat.eqb_neq; lia). cbn [negb]. rewrite Bool.andb_true_r. reflexivity. Qed.
Lemma nan_iff a b (P : Prop) : (0 < length a)%nat -> (0 < length b)%nat -> (allclose (vscale (/ norm a) a) (vscale (/ norm b) b) = true <-> P) ->
  allclose_nan (normalize_row a) (normalize_row b) = true <-> 0 < norm a /\ 0 < norm b /\ P.
Proof.
  intros La Lb H. rewrite !nan_norm by assumption. rewrite !norm_pos_iff. unfold Reqb. destruct (Req_EM_T (norm a) 0) as [Ea|Ea], (Req_EM_T (norm b) 0) as [Eb|Eb]; cbn [allclose_nan]; try (split; [discriminate|intros (? & ? & _); contradiction]). rewrite H. tauto.
Qed.

(*@ Theorem C52_widths : same_rows on two matrices with the same number m > 0 of rows and different numbers of columns n, p >= 1: if neither has one column it raises ValueError, if one has a single column its entries are stretched along the rows of the other and the rows matched as in C52_same_rows_partial, so the answer may be True *)
Lemma same_rows_widths A B m n p nz : shape A m n -> shape B m p -> (0 < m)%nat -> (0 < n)%nat -> (0 < p)%nat -> n <> p ->
  ((n <> 1)%nat -> (p <> 1)%nat -> same_rows A B nz = Err ValueError) /\
  (n = 1%nat -> exists b, same_rows A B nz = Ok b /\ (b = true <-> matched_in_order [] (wide_left p nz) (rows A) (rows B))) /\
  (p = 1%nat -> exists b, same_rows A B nz = Ok b /\ (b = true <-> matched_in_order [] (wide_right n nz) (rows A) (rows B))).
Proof.
  intros HA HB Hm Hn Hp Hnp. assert (LA : length (rows A) = m) by apply HA. assert (LB : length (rows B) = m) by apply HB. assert (CA : ncols A = n) by apply HA. assert (CB : ncols B = p) by apply HB.
  assert (FA : forall a, In a (rows A) -> length a = n) by (destruct HA as (_ & _ & F); rewrite Forall_forall in F; exact F). assert (FB : forall b, In b (rows B) -> length b = p) by (destruct HB as (_ & _ & F); rewrite Forall_forall in F; exact F).
  unfold same_rows, nrows. rewrite LA, LB, Nat.eqb_refl, CA, CB. cbn [negb]. replace (m =? 0)%nat with false by (symmetry; apply Nat.eqb_neq; lia). replace (n =? p)%nat with false by (symmetry; apply Nat.eqb_neq; lia).
  replace (n =? 0)%nat with false by (symmetry; apply Nat.eqb_neq; lia). replace (p =? 0)%nat with false by (symmetry; apply Nat.eqb_neq; lia). cbn [orb]. split; [|split].
  - intros N1 P1. replace (n =? 1)%nat with false by (symmetry; apply Nat.eqb_neq; lia). replace (p =? 1)%nat with false by (symmetry; apply Nat.eqb_neq; lia). reflexivity.
  - intros ->. cbn [Nat.eqb orb negb]. eexists. split; [reflexivity|]. apply (rows_relation nz _ _ _ m LA LB). intros a b Ia Ib. pose proof (FA a Ia) as La. pose proof (FB b Ib) as Lb. unfold wide_left. destruct nz.
    + apply nan_iff; [lia|lia|]. rewrite allclose_left by len. replace (length (vscale (/ norm b) b)) with p by len. destruct a as [|x [|]]; cbn in La; try discriminate. cbn [vscale map nth]. unfold Rdiv. rewrite (Rmult_comm x). reflexivity.
    + cbn [allclose_nan]. rewrite allclose_left by lia. rewrite Lb. reflexivity.
  - intros ->. cbn [Nat.eqb orb negb]. rewrite Bool.orb_true_r. cbn [negb]. eexists. split; [reflexivity|]. apply (rows_relation nz _ _ _ m LA LB). intros a b Ia Ib. pose proof (FA a Ia) as La. pose proof (FB b Ib) as Lb. unfold wide_right. destruct nz.
    + apply nan_iff; [lia|lia|]. rewrite allclose_right by len. replace (length (vscale (/ norm a) a)) with n by len. destruct b as [|x [|]]; cbn in Lb; try discriminate. cbn [vscale map nth]. unfold Rdiv. rewrite (Rmult_comm x). reflexivity.
    + cbn [allclose_nan]. rewrite allclose_right by lia. rewrite La. reflexivity.
Qed.
(*@ Theorem C52_widths_refuted : a matrix with one column and a matrix with two columns are reported to have the same rows, in both orders, although no row of one is close to a row of the other *)
Lemma same_rows_broadcast : same_rows (Mat 1 [[1]]) (Mat 2 [[1; 1]]) false = Ok true /\ same_rows (Mat 2 [[1; 1]]) (Mat 1 [[1]]) false = Ok true /\
  ~ matched close [[1]] [[1; 1]] /\ ~ matched close [[1; 1]] [[1]].
Proof.
  assert (C : close [1; 1] [1; 1]) by apply close_refl.
  assert (NM : forall a b : vec, length a <> length b -> ~ matched close [a] [b]). { intros a b L (B' & P & F). apply Permutation_length_1_inv in P. subst B'. inversion F; subst. apply L, close_length. assumption. }
  split; [|split; [|split; apply NM; cbn; lia]].
  - destruct (same_rows_widths (Mat 1 [[1]]) (Mat 2 [[1; 1]]) 1 1 2 false) as (_ & H & _); try lia; try (repeat constructor; fail). destruct (H eq_refl) as (b & -> & Hb). f_equal. apply Hb. exists [[1; 1]]. split; [reflexivity|]. split; [constructor; [exact C|constructor]|]. cbn. intros; lia.
  - destruct (same_rows_widths (Mat 2 [[1; 1]]) (Mat 1 [[1]]) 1 2 1 false) as (_ & _ & H); try lia; try (repeat constructor; fail). destruct (H eq_refl) as (b & -> & Hb). f_equal. apply Hb. exists [[1]]. split; [reflexivity|]. split; [constructor; [exact C|constructor]|]. cbn. intros; lia.
Qed.
