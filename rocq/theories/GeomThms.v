(** * GeomThms: the functions of geometry/utils.py *)
From Coq Require Import Permutation Sorted Classical.
From Verif Require Import Arr ArrFacts Spec SpecGeom Numpy PnnlsFacts QpFacts GeomUtils Polyhedron Oracle NullFacts.

(** ** plane_through_points *)
Lemma norm_pos_of_dot a p c : dot a p = c -> c <> 0 -> 0 < norm a.
Proof.
  intros E Hc. destruct (norm_nonneg a) as [|E0]; [assumption|exfalso].
  pose proof (norm_sqr a) as Q. rewrite <- E0 in Q. assert (dot a a = 0) by lra.
  apply dot_self_zero in H. rewrite H in E. rewrite dot_zeros_l in E. lra.
Qed.

Lemma norm_vscale k v : norm (vscale k v) = Rabs k * norm v.
Proof.
  unfold norm. autorewrite with dotx. rewrite <- Rmult_assoc. fold (Rsqr k).
  rewrite sqrt_mult_alt by apply Rle_0_sqr. rewrite sqrt_Rsqr_abs. reflexivity.
Qed.

Lemma forallb_len {n} (ps : list vec) : forallb (fun p => Nat.eqb (length p) n) ps = true <-> Forall (fun p => length p = n) ps.
Proof. rewrite forallb_forall, Forall_forall. split; intros H p Hp; specialize (H p Hp); apply Nat.eqb_eq; exact H. Qed.

Lemma plane_ok np offset points n : solve_ok np -> length points = n -> (1 <= n)%nat -> Forall (fun p => length p = n) points -> length offset = n ->
  let M := Mat n (map (fun p => vadd p offset) points) in
  (exists a d, plane_through_points np offset points = Ok (a, d) /\
     length a = n /\ Forall (fun p => dot a p = d) points /\ norm a = 1 /\ 0 <= d /\
     forall z, length z = n -> mv M z = zeros n -> z = zeros n) \/
  ((exists z, length z = n /\ z <> zeros n /\ mv M z = zeros n) /\ plane_through_points np offset points = Err LinAlgError).
Proof.
  intros Hs Lp Hn Fp Lo. cbv zeta. unfold plane_through_points.
  destruct points as [|p0 ps] eqn:EP; [cbn in Lp; lia|]. rewrite <- EP in *. set (M := Mat n (map (fun p => vadd p offset) points)).
  assert (L0 : length p0 = n) by (rewrite EP in Fp; inversion Fp; assumption).
  rewrite L0. rewrite (proj2 (forallb_len points) Fp). cbn [negb]. rewrite Lp, Nat.eqb_refl. cbn [negb]. fold M.
  assert (SM : shape M n n).
  { split; [cbn [rows M]; rewrite map_length; exact Lp|]. split; [reflexivity|]. cbn [rows M]. rewrite Forall_map. eapply Forall_impl; [|exact Fp].
    intros p L. len. }
  destruct (Hs M (ones n) n SM ltac:(len)) as [(a & E & La & Ea & Inj)|(K & E)].
  2:{ right. split; [exact K|]. rewrite E. reflexivity. }
  left. rewrite E. cbn [bind].
  assert (D1 : forall p, In p points -> dot a p = 1 - dot a offset).
  { intros p Hp. assert (X : dot (vadd p offset) a = 1).
    { unfold mv in Ea. cbn [rows M] in Ea. rewrite map_map in Ea.
      destruct (In_nth _ _ [] Hp) as (i & Hi & <-).
      assert (Y : nth i (map (fun p => dot (vadd p offset) a) points) 0 = nth i (ones n) 0) by (rewrite Ea; reflexivity).
      rewrite (nth_indep (map _ points) 0 (dot (vadd [] offset) a)) in Y by (rewrite map_length; exact Hi). rewrite (map_nth (fun p => dot (vadd p offset) a)) in Y.
      rewrite Y. apply nth_ones. lia. }
    rewrite dot_vadd_l in X by (rewrite Forall_forall in Fp; rewrite (Fp p Hp); symmetry; exact Lo). rewrite (dot_comm a p), (dot_comm a offset). lra. }
  set (d := 1 - dot a offset) in *. set (sg := if Rltb d 0 then -1 else 1).
  assert (Na : 0 < norm a).
  { apply (norm_pos_of_dot a (vadd p0 offset) 1); [|lra]. assert (In p0 points) by (rewrite EP; left; reflexivity).
    rewrite dot_vadd_r by (rewrite L0; symmetry; exact Lo). rewrite (D1 _ H). unfold d. lra. }
  assert (Hsg : (sg = 1 /\ 0 <= d) \/ (sg = -1 /\ d < 0)).
  { unfold sg. destruct (Rltb d 0) eqn:Er; [right|left]; [apply Rltb_true in Er|apply Rltb_false in Er]; split; auto; lra. }
  assert (NZ : norm a * sg <> 0) by (destruct Hsg as [[-> _]|[-> _]]; lra).
  exists (vscale (/ (norm a * sg)) a), (d / (norm a * sg)). split; [reflexivity|]. split; [len|]. split; [|split; [|split]].
  - rewrite Forall_forall. intros p Hp. autorewrite with dotx. rewrite (D1 p Hp). unfold Rdiv. ring.
  - rewrite norm_vscale, Rabs_inv, Rabs_mult. rewrite (Rabs_pos_eq (norm a)) by lra.
    assert (Rabs sg = 1) as -> by (destruct Hsg as [[-> _]|[-> _]]; [apply Rabs_R1|rewrite Rabs_left by lra; lra]). field. lra.
  - destruct Hsg as [[-> Hd]|[-> Hd]].
    + apply Rmult_le_pos; [lra|]. left. apply Rinv_0_lt_compat. lra.
    + replace (d / (norm a * -1)) with ((- d) / norm a) by (field; lra). apply Rmult_le_pos; [lra|]. left. apply Rinv_0_lt_compat. lra.
  - exact Inj.
Qed.

(*@ Theorem C51_plane : for every random offset, plane_through_points returns a plane through all the points with unit normal and nonnegative right-hand side, or raises LinAlgError *)
Lemma plane_through_points_ok np offset points n : solve_ok np -> length points = n -> (1 <= n)%nat -> Forall (fun p => length p = n) points -> length offset = n ->
  (exists a d, plane_through_points np offset points = Ok (a, d) /\
     length a = n /\ Forall (fun p => dot a p = d) points /\ norm a = 1 /\ 0 <= d) \/
  plane_through_points np offset points = Err LinAlgError.
Proof.
  intros H1 H2 H3 H4 H5. destruct (plane_ok np offset points n H1 H2 H3 H4 H5) as [(a & d & E & A & B & C & D & _)|(_ & E)]; [left|right; exact E].
  exists a, d. auto.
Qed.

(*@ Theorem C51_unique : if the points lie on exactly one hyperplane, the function returns it for exactly the offsets that move it away from the origin *)
Lemma plane_unique np offset points n a0 d0 : solve_ok np -> length points = n -> (1 <= n)%nat -> Forall (fun p => length p = n) points -> length offset = n ->
  length a0 = n -> norm a0 = 1 -> Forall (fun p => dot a0 p = d0) points ->
  (forall a d, length a = n -> Forall (fun p => dot a p = d) points -> exists k, a = vscale k a0) ->
  (d0 + dot a0 offset <> 0 /\ exists s, (s = 1 \/ s = -1) /\ 0 <= s * d0 /\
     plane_through_points np offset points = Ok (vscale s a0, s * d0)) \/
  (d0 + dot a0 offset = 0 /\ plane_through_points np offset points = Err LinAlgError).
Proof.
  intros H1 Lp Hn Fp Lo La0 Na0 F0 Huniq.
  assert (MV : forall z, length z = n -> mv (Mat n (map (fun p => vadd p offset) points)) z = map (fun p => dot z p + dot z offset) points).
  { intros z Lz. unfold mv. cbn [rows]. rewrite map_map. apply map_ext_in. intros p Hp. rewrite dot_vadd_l by (rewrite Forall_forall in Fp; rewrite (Fp p Hp); symmetry; exact Lo).
    rewrite (dot_comm p), (dot_comm offset). reflexivity. }
  assert (NZ0 : a0 <> zeros n).
  { intros ->. unfold norm in Na0. rewrite dot_zeros_l, sqrt_0 in Na0. lra. }
  destruct (plane_ok np offset points n H1 Lp Hn Fp Lo) as [(a & d & E & La & Fa & Na & Hd & Inj)|((z & Lz & Nz & Ez) & E)].
  - left. split.
    + intros E0. apply NZ0, Inj; [exact La0|]. rewrite (MV a0 La0).
      apply nth_ext with 0 0; [rewrite map_length; len|]. intros i Hi. rewrite map_length in Hi.
      rewrite (nth_indep (map _ points) 0 (dot a0 [] + dot a0 offset)) by (rewrite map_length; exact Hi). rewrite (map_nth (fun p => dot a0 p + dot a0 offset)).
      rewrite Forall_forall in F0. rewrite (F0 (nth i points [])) by (apply nth_In; exact Hi). unfold zeros. rewrite nth_repeat. exact E0.
    + destruct (Huniq a d La Fa) as (k & Ek).
      assert (Ed : d = k * d0).
      { destruct points as [|p ps]; [cbn in Lp; lia|]. inversion Fa as [|? ? A1 A2]; subst. inversion F0 as [|? ? B1 B2]; subst. autorewrite with dotx. reflexivity. }
      assert (Rabs k = 1) as Hk. { rewrite Ek, norm_vscale, Na0 in Na. lra. }
      exists k. split; [|split; [rewrite <- Ed; exact Hd|rewrite E, Ek, Ed; reflexivity]].
      unfold Rabs in Hk. destruct (Rcase_abs k); [right|left]; lra.
  - right. split; [|exact E].
    assert (Fz : Forall (fun p => dot z p = - dot z offset) points).
    { rewrite (MV z Lz) in Ez. rewrite Forall_forall. intros p Hp. destruct (In_nth _ _ [] Hp) as (i & Hi & <-).
      assert (Y : nth i (map (fun p => dot z p + dot z offset) points) 0 = nth i (zeros n) 0) by (rewrite Ez; reflexivity).
      rewrite (nth_indep (map _ points) 0 (dot z [] + dot z offset)) in Y by (rewrite map_length; exact Hi). rewrite (map_nth (fun p => dot z p + dot z offset)) in Y.
      unfold zeros in Y. rewrite nth_repeat in Y. lra. }
    destruct (Huniq z _ Lz Fz) as (k & Ek).
    assert (Hk : k <> 0). { intros ->. apply Nz. rewrite Ek. apply nth_ext with 0 0; [len|]. intros i Hi. unfold vscale. rewrite (nth_indep (map _ a0) 0 (0 * 0)) by (revert Hi; len). rewrite (map_nth (Rmult 0)). unfold zeros. rewrite nth_repeat. ring. }
    destruct points as [|p ps]; [cbn in Lp; lia|]. inversion Fz as [|? ? A1 A2]; subst. inversion F0 as [|? ? B1 B2]; subst.
    autorewrite with dotx in A1. apply (Rmult_eq_reg_l k); [lra|exact Hk].
Qed.

(** a plane that misses the origin by the offset, and points on a plane through the origin *)
Definition pts2 : list vec := [[1; 2]; [3; 4]].
Lemma pts2_on : Forall (fun p => dot [1; -1] p = -1) pts2.
Proof. repeat constructor; cbn; lra. Qed.

(*@ Example C51_example : the line through (1,2) and (3,4) *)
Lemma plane_example np : solve_ok np -> exists a d, plane_through_points np [0; 0] pts2 = Ok (a, d) /\ nth 0 a 0 = - nth 1 a 0 /\ 0 < d.
Proof.
  intros Hs. destruct (plane_ok np [0; 0] pts2 2 Hs eq_refl ltac:(lia) ltac:(repeat constructor) eq_refl) as [(a & d & E & La & F & N & Hd & _)|((z & Lz & Nz & Ez) & _)].
  - exists a, d. split; [exact E|]. destruct a as [|a0 [|a1 [|]]]; cbn in La; try discriminate.
    pose proof (Forall_inv F) as F1. pose proof (Forall_inv (Forall_inv_tail F)) as F2. cbn in F1, F2, Hd |- *. split; [lra|].
    destruct Hd as [|Hd]; [lra|exfalso]. assert (a1 = 0) by lra. assert (a0 = 0) by lra. subst. unfold norm in N. cbn in N.
    replace (0 * 0 + (0 * 0 + 0)) with 0 in N by ring. rewrite sqrt_0 in N. lra.
  - exfalso. apply Nz. destruct z as [|z0 [|z1 [|]]]; cbn in Lz; try discriminate. unfold mv in Ez. cbn in Ez. injection Ez as E1 E2.
    assert (z1 = 0) by lra. assert (z0 = 0) by lra. subst. reflexivity.
Qed.

(** ** same_rows *)
Lemma where_filter {T} (p : T -> bool) d B : map (fun i => nth i B d) (where_ p B) = filter p B.
Proof.
  unfold where_. set (P := fun iv => p (snd iv)).
  assert (G : forall L k f, (forall i, (i < length L)%nat -> f (k + i)%nat = nth i L d) ->
     map f (map fst (filter P (combine (seq k (length L)) L))) = filter p L).
  { induction L as [|x L IH]; intros k f Hf; [reflexivity|]. cbn [length seq combine filter].
    unfold P at 1. cbn [snd]. assert (IH' := IH (S k) f). rewrite <- IH'; clear IH IH'.
    - destruct (p x); [|reflexivity]. cbn [map fst]. f_equal. specialize (Hf 0%nat). rewrite Nat.add_0_r in Hf. apply Hf. cbn. lia.
    - intros i Hi. specialize (Hf (S i)). rewrite Nat.add_succ_r in Hf. apply Hf. cbn. lia. }
  apply G. intros. reflexivity.
Qed.

Lemma delete_perm {T} (d : T) i B : (i < length B)%nat -> Permutation B (nth i B d :: delete_nth i B).
Proof.
  revert i. induction B as [|b B IH]; intros [|i] H; cbn in H; try lia; unfold delete_nth.
  - cbn. reflexivity.
  - cbn [nth firstn skipn app]. transitivity (b :: nth i B d :: delete_nth i B); [constructor; apply IH; lia|]. unfold delete_nth. constructor.
Qed.

Lemma perm_filter {T} (p : T -> bool) l l' : Permutation l l' -> Permutation (filter p l) (filter p l').
Proof.
  induction 1; cbn; auto.
  - destruct (p x); auto.
  - destruct (p x), (p y); auto. constructor.
  - eapply perm_trans; eauto.
Qed.

Lemma where_single {T} (p : T -> bool) d B i : where_ p B = [i] ->
  (i < length B)%nat /\ p (nth i B d) = true /\ Forall (fun b => p b = false) (delete_nth i B).
Proof.
  intros E. assert (Hi : In i (where_ p B)) by (rewrite E; left; reflexivity). pose proof Hi as Hi'.
  apply (In_where p B d i) in Hi. destruct Hi as [Hi Hp]. split; [exact Hi|]. split; [exact Hp|].
  pose proof (where_filter p d B) as F. rewrite E in F. cbn [map] in F.
  pose proof (perm_filter p _ _ (delete_perm d i B Hi)) as Q. cbn [filter] in Q. rewrite Hp, <- F in Q.
  apply Permutation_cons_inv in Q. apply Permutation_nil in Q. rewrite Forall_forall. intros b Hb.
  destruct (p b) eqn:Eb; [|reflexivity]. exfalso. assert (In b (filter p (delete_nth i B))) by (apply filter_In; auto). rewrite Q in H. exact H.
Qed.

Lemma match_rows_true {T} (d : T) (cl : T -> T -> bool) A : forall B, length A = length B ->
  match_rows cl A B = true <-> matched_in_order d (fun a b => cl a b = true) A B.
Proof.
  induction A as [|a A IH]; intros B L.
  - destruct B; [|discriminate]. cbn. split; [|reflexivity]. intros _. exists []. repeat split; auto. cbn. intros; lia.
  - cbn [match_rows]. split.
    + destruct (where_ (fun b => cl a b) B) as [|i [|]] eqn:E; try discriminate. intros H.
      destruct (where_single _ d B i E) as (Hi & Hp & Hf). pose proof (delete_perm d i B Hi) as Q.
      assert (LD : length (delete_nth i B) = length A) by (apply Permutation_length in Q; cbn in Q, L; lia).
      apply IH in H; [|symmetry; exact LD]. destruct H as (B' & P' & F2 & O').
      exists (nth i B d :: B'). split; [eapply perm_trans; [exact Q|constructor; exact P']|]. split; [constructor; assumption|].
      intros x y [Hxy Hy]. destruct y as [|y]; [lia|]. cbn [length] in Hy. destruct x as [|x]; cbn [nth].
      * assert (F' : Forall (fun b => cl a b = false) B') by (eapply Permutation_Forall; [exact P'|exact Hf]).
        rewrite Forall_forall in F'. rewrite F'; [discriminate|]. apply nth_In. apply Permutation_length in P'. lia.
      * apply O'. lia.
    + intros (B' & P' & F2 & O). inversion F2 as [|? b ? B2 Hab F2' E1 E2]; subst.
      assert (LB2 : length A = length B2) by (apply Permutation_length in P'; cbn in P', L; lia).
      assert (Hn : Forall (fun b => cl a b = false) B2).
      { rewrite Forall_forall. intros x Hx. destruct (In_nth _ _ d Hx) as (j & Hj & <-). specialize (O 0%nat (S j)). cbn [nth] in O.
        destruct (cl a (nth j B2 d)) eqn:E; [exfalso; apply O; [cbn; lia|reflexivity]|reflexivity]. }
      pose proof (perm_filter (fun b => cl a b) _ _ P') as Q. cbn [filter] in Q. rewrite Hab in Q.
      assert (filter (fun b => cl a b) B2 = []) as EN.
      { clear - Hn. induction Hn; cbn; [reflexivity|]. rewrite H. exact IHHn. }
      rewrite EN in Q. rewrite <- (where_filter _ d) in Q.
      destruct (where_ (fun b => cl a b) B) as [|i [|]] eqn:E.
      * apply Permutation_length in Q. discriminate.
      * cbn [map] in Q. apply Permutation_length_1 in Q. destruct (where_single _ d B i E) as (Hi & Hp & Hf).
        apply IH; [pose proof (Permutation_length (delete_perm d i B Hi)) as LQ; cbn in LQ, L; lia|].
        exists B2. split; [|split; [exact F2'|]].
        -- apply (Permutation_cons_inv (a := b)). eapply perm_trans; [|exact P']. rewrite <- Q. symmetry. apply delete_perm. exact Hi.
        -- intros x y Hxy. apply (O (S x) (S y)). cbn. lia.
      * apply Permutation_length in Q. discriminate.
Qed.

Lemma combine_same_bcast (a b : vec) : length a = length b -> bcast a (length b) = a /\ bcast b (length a) = b.
Proof.
  intros L. unfold bcast. destruct a as [|x [|]], b as [|y [|]]; cbn in L |- *; try discriminate; auto.
Qed.
Lemma allclose_iff (a b : vec) : length a = length b -> allclose a b = true <-> close a b.
Proof.
  intros L. unfold allclose. destruct (combine_same_bcast a b L) as [-> ->]. unfold close. revert b L.
  induction a as [|x a IH]; intros [|y b] L; cbn in L; try discriminate; cbn; [split; auto|].
  rewrite Bool.andb_true_iff, Rleb_true, IH by lia. split; [intros []; constructor; auto|intros H; inversion H; auto].
Qed.

Lemma close_length a b : close a b -> length a = length b.
Proof. apply Forall2_len. Qed.

Lemma perm_map_inv {T U} (f : T -> U) l l' : Permutation (map f l) l' -> exists k, l' = map f k /\ Permutation l k.
Proof. intros H. destruct (Permutation_map_inv _ _ (Permutation_sym H)) as (k & E & P). exists k. auto. Qed.

Lemma forall2_map {T U} (r : U -> U -> Prop) (f : T -> U) l k : Forall2 r (map f l) (map f k) <-> Forall2 (fun a b => r (f a) (f b)) l k.
Proof.
  revert k. induction l as [|a l IH]; intros [|b k]; cbn; split; intros H; inversion H; subst; constructor; auto; apply IH; assumption.
Qed.
Lemma forall2_impl_in {T} (r r' : T -> T -> Prop) l k : (forall a b, In a l -> In b k -> r a b -> r' a b) -> Forall2 r l k -> Forall2 r' l k.
Proof. intros H F. induction F; constructor; [apply H; auto; left; reflexivity|]. apply IHF. intros; apply H; auto; right; assumption. Qed.

(** the relation compared by same_rows *)
Definition row_close (normalize : bool) : vec -> vec -> Prop := if normalize then close_directions else close.

Lemma norm_pos_iff r : 0 < norm r <-> norm r <> 0.
Proof. pose proof (norm_nonneg r). split; intros; lra. Qed.

Lemma row_close_iff nz n a b : length a = n -> length b = n -> (1 <= n)%nat ->
  let f r := if nz : bool then normalize_row r else Some r in
  allclose_nan (f a) (f b) = true <-> row_close nz a b.
Proof.
  intros La Lb Hn f. unfold f, row_close. destruct nz; [|cbn; apply allclose_iff; lia].
  unfold normalize_row, close_directions. rewrite !norm_pos_iff.
  replace (length a =? 0)%nat with false by (symmetry; apply Nat.eqb_neq; lia).
  replace (length b =? 0)%nat with false by (symmetry; apply Nat.eqb_neq; lia).
  cbn [negb]. rewrite !Bool.andb_true_r.
  unfold Reqb. destruct (Req_EM_T (norm a) 0) as [Ea|Ea], (Req_EM_T (norm b) 0) as [Eb|Eb]; cbn [allclose_nan];
    try (split; [discriminate|intros (? & ? & _); contradiction]).
  rewrite allclose_iff by len. tauto.
Qed.

Lemma matched_order_map {T U} (f : T -> U) (d : T) (r : U -> U -> Prop) (r' : T -> T -> Prop) A B :
  (forall a b, In a A -> In b B -> r (f a) (f b) <-> r' a b) ->
  matched_in_order (f d) r (map f A) (map f B) <-> matched_in_order d r' A B.
Proof.
  intros H. split.
  - intros (B' & P & F & O). destruct (perm_map_inv f B B' P) as (K & -> & PK). exists K. split; [exact PK|]. apply (forall2_map r f) in F.
    pose proof (Forall2_len _ _ _ F) as LK.
    assert (InK : forall x, In x K -> In x B) by (intros x Hx; eapply Permutation_in; [symmetry; exact PK|exact Hx]).
    split; [eapply forall2_impl_in; [|exact F]; intros a b Ha Hb; apply H; auto|].
    intros i j Hij Hr. apply (O i j); [rewrite map_length; exact Hij|]. rewrite !map_nth. apply H; [apply nth_In; lia|apply InK, nth_In; lia|exact Hr].
  - intros (K & PK & F & O). exists (map f K). pose proof (Forall2_len _ _ _ F) as LK.
    assert (InK : forall x, In x K -> In x B) by (intros x Hx; eapply Permutation_in; [symmetry; exact PK|exact Hx]).
    split; [apply Permutation_map; exact PK|]. split.
    + apply forall2_map. eapply forall2_impl_in; [|exact F]. intros a b Ha Hb; apply H; auto.
    + rewrite map_length. intros i j Hij. rewrite !map_nth. intros Hr. apply (O i j Hij). apply H; [apply nth_In; lia|apply InK, nth_In; lia|exact Hr].
Qed.

(*@ Theorem C52_same_rows_partial : same_rows returns True iff the rows can be matched one-to-one in such a way that no row of A is close to the partner of a later row; what is missing for the property is that this last condition be dropped, see C52_duplicates_refuted *)
Lemma same_rows_iff A B m n nz : shape A m n -> shape B m n -> (1 <= n)%nat ->
  exists b, same_rows A B nz = Ok b /\
  (b = true <-> matched_in_order [] (row_close nz) (rows A) (rows B)).
Proof.
  intros HA HB Hn. assert (LA : length (rows A) = m) by apply HA. assert (LB : length (rows B) = m) by apply HB.
  assert (CA : ncols A = n) by apply HA. assert (CB : ncols B = n) by apply HB.
  unfold same_rows, nrows. rewrite LA, LB, Nat.eqb_refl, CA, CB, Nat.eqb_refl. cbn [negb orb].
  replace (n =? 0)%nat with false by (symmetry; apply Nat.eqb_neq; lia). cbn [orb].
  destruct (m =? 0)%nat eqn:E0.
  - apply Nat.eqb_eq in E0. exists true. split; [reflexivity|]. split; [|reflexivity]. intros _.
    destruct (rows A); [|cbn in LA; lia]. destruct (rows B); [|cbn in LB; lia]. exists []. repeat split; auto. cbn. intros; lia.
  - eexists. split; [reflexivity|]. set (f := fun r => if nz then normalize_row r else Some r).
    rewrite (match_rows_true (f [])) by (rewrite !map_length; lia).
    apply matched_order_map. intros a b Ha Hb. apply (row_close_iff nz n); [| |exact Hn].
    + destruct HA as (_ & _ & FA). rewrite Forall_forall in FA. apply FA, Ha.
    + destruct HB as (_ & _ & FB). rewrite Forall_forall in FB. apply FB, Hb.
Qed.

(*@ Theorem C52_sound : if same_rows returns True then the rows can be matched one-to-one *)
Lemma same_rows_sound A B m n nz : shape A m n -> shape B m n -> (1 <= n)%nat ->
  same_rows A B nz = Ok true -> matched (row_close nz) (rows A) (rows B).
Proof.
  intros HA HB Hn E. destruct (same_rows_iff A B m n nz HA HB Hn) as (b & Eb & Hb). rewrite E in Eb. injection Eb as <-.
  destruct (proj1 Hb eq_refl) as (B' & P & F & _). exists B'. auto.
Qed.

(*@ Theorem C52_distinct : if no two rows of B (at different positions) are close to the same row of A, same_rows returns True exactly when the rows can be matched one-to-one *)
Lemma same_rows_distinct A B m n nz : shape A m n -> shape B m n -> (1 <= n)%nat ->
  (forall a i j, In a (rows A) -> (i < m)%nat -> (j < m)%nat -> row_close nz a (row B i) -> row_close nz a (row B j) -> i = j) ->
  exists b, same_rows A B nz = Ok b /\ (b = true <-> matched (row_close nz) (rows A) (rows B)).
Proof.
  intros HA HB Hn Hd. assert (LA : length (rows A) = m) by apply HA. assert (LB : length (rows B) = m) by apply HB.
  destruct (same_rows_iff A B m n nz HA HB Hn) as (b & Eb & Hb). exists b. split; [exact Eb|]. rewrite Hb.
  split; [intros (B' & P & F & _); exists B'; auto|]. intros (B' & P & F). exists B'. split; [exact P|]. split; [exact F|].
  pose proof (Forall2_len _ _ _ F) as L'. intros i j [Hij Hj] Hc.
  assert (Hi : row_close nz (nth i (rows A) []) (nth i B' [])).
  { clear - F Hij Hj. assert (Hi : (i < length (rows A))%nat) by lia. clear Hij Hj. revert i Hi. induction F; intros [|i] Hi; cbn in Hi |- *; try lia; auto. apply IHF. lia. }
  destruct (proj1 (Permutation_nth (rows B) B' []) P) as (LL & g & Bg & Ig & Ng). rewrite <- LL in Ng.
  rewrite !Ng in * by lia. assert (g i = g j).
  { apply (Hd (nth i (rows A) [])); [apply nth_In; lia|rewrite <- LB; apply Bg; lia|rewrite <- LB; apply Bg; lia|exact Hi|exact Hc]. }
  apply Ig in H; lia.
Qed.

Lemma close_refl a : close a a.
Proof. unfold close. induction a; constructor; auto. rewrite Rminus_diag_eq by reflexivity. rewrite Rabs_R0. pose proof (Rabs_pos a). lra. Qed.

(*@ Theorem C52_duplicates_refuted : the literal property fails: a matrix with two equal rows is reported different from itself *)
Lemma same_rows_duplicates : exists A, matched close (rows A) (rows A) /\ same_rows A A false = Ok false.
Proof.
  exists (Mat 1 [[1]; [1]]). split; [exists [[1]; [1]]; split; [reflexivity|constructor; [apply close_refl|constructor; [apply close_refl|constructor]]]|].
  destruct (same_rows_iff (Mat 1 [[1]; [1]]) (Mat 1 [[1]; [1]]) 2 1 false) as (b & E & Hb); [repeat constructor|repeat constructor|lia|].
  rewrite E. destruct b; [|reflexivity]. exfalso. destruct (proj1 Hb eq_refl) as (B' & P & F & O). cbn [rows] in *.
  apply (O 0%nat 1%nat); [cbn; lia|]. assert (Forall (fun b => b = [1]) B') by (eapply Permutation_Forall; [exact P|repeat constructor]).
  pose proof (Permutation_length P) as L. cbn in L. destruct B' as [|b0 [|b1 [|]]]; cbn in L; try discriminate.
  inversion H as [|? ? H1 H2]; subst. inversion H2; subst. cbn. apply close_refl.
Qed.

(*@ Theorem C52_zero_row_refuted : with normalize, a matrix with a zero row is reported different from itself *)
Lemma same_rows_zero_row : same_rows (Mat 2 [[0; 0]]) (Mat 2 [[0; 0]]) true = Ok false.
Proof.
  destruct (same_rows_iff (Mat 2 [[0; 0]]) (Mat 2 [[0; 0]]) 1 2 true) as (b & E & Hb); [repeat constructor|repeat constructor|lia|].
  rewrite E. destruct b; [|reflexivity]. exfalso. destruct (proj1 Hb eq_refl) as (B' & P & F & _). cbn [rows] in *.
  inversion F as [|? ? ? ? C _]; subst. destruct C as (C & _). unfold norm in C. cbn in C.
  replace (0 * 0 + (0 * 0 + 0)) with 0 in C by ring. rewrite sqrt_0 in C. lra.
Qed.

Lemma vec_1d_iff (l : list vec) : forallb (fun a => match a with D1 _ => true | _ => false end) (map D1 l) = true.
Proof. induction l; auto. Qed.

(*@ Theorem C52_same_vectors_partial : same_vectors on nonempty lists of vectors of one length, in the same sense; lists of different lengths give False *)
Lemma same_vectors_iff (vs us : list vec) n : Forall (fun v => length v = n) vs -> Forall (fun v => length v = n) us -> (1 <= n)%nat ->
  vs <> [] -> us <> [] ->
  exists b, same_vectors (map D1 vs) (map D1 us) = Ok b /\ (b = true <-> matched_in_order [] close vs us).
Proof.
  intros Fv Fu Hn Nv Nu. unfold same_vectors. rewrite !vec_1d_iff. cbn [andb].
  destruct vs as [|v vs]; [contradiction|]. destruct us as [|u us]; [contradiction|]. cbn [map].
  change (D1 v :: map D1 vs) with (map D1 (v :: vs)). change (D1 u :: map D1 us) with (map D1 (u :: us)).
  rewrite !map_map. cbn beta iota. rewrite !map_id. rewrite (Forall_inv Fv), (Forall_inv Fu), !(proj2 (forallb_len _)) by assumption. cbn [andb].
  destruct (Nat.eq_dec (length (v :: vs)) (length (u :: us))) as [L|L].
  - apply (same_rows_iff (Mat n (v :: vs)) (Mat n (u :: us)) (length (v :: vs)) n false); [repeat split; auto|repeat split; auto|exact Hn].
  - exists false. split.
    + unfold same_rows, nrows. cbn [rows]. rewrite (proj2 (Nat.eqb_neq _ _) L). reflexivity.
    + split; [discriminate|]. intros (B' & P & F & _). exfalso. apply L. rewrite (Permutation_length P). apply (Forall2_len _ _ _ F).
Qed.

(*@ Theorem C52_same_vectors_raises : arrays that are not one-dimensional are rejected *)
Lemma same_vectors_2d vs us M : In (D2 M) vs \/ In (D2 M) us -> same_vectors vs us = Err ValueError.
Proof.
  intros H. unfold same_vectors.
  assert (Hf : forall l, In (D2 M) l -> forallb (fun a => match a with D1 _ => true | _ => false end) l = false).
  { intros l Hl. apply Bool.not_true_iff_false. rewrite forallb_forall. intros F. specialize (F _ Hl). discriminate. }
  destruct H as [H|H]; rewrite (Hf _ H); [|rewrite Bool.andb_false_r]; reflexivity.
Qed.

(*@ Example C52_example : two orders of the same two directions *)
Lemma same_rows_example : matched (row_close true) [[2; 0]; [0; 3]] [[0; 1]; [1; 0]].
Proof.
  assert (N : forall x, 0 < x -> norm [x; 0] = x /\ norm [0; x] = x).
  { intros x Hx. unfold norm. cbn. replace (x * x + (0 * 0 + 0)) with (x * x) by ring. replace (0 * 0 + (x * x + 0)) with (x * x) by ring. rewrite sqrt_square by lra. auto. }
  exists [[1; 0]; [0; 1]]. split; [constructor|].
  constructor; [|constructor; [|constructor]]; unfold row_close, close_directions; rewrite ?(proj1 (N 2 ltac:(lra))), ?(proj2 (N 3 ltac:(lra))), ?(proj1 (N 1 ltac:(lra))), ?(proj2 (N 1 ltac:(lra)));
    (split; [lra|split; [lra|]]); unfold vscale; cbn [map].
  - replace (/ 2 * 2) with (/ 1 * 1) by field. replace (/ 2 * 0) with (/ 1 * 0) by ring. apply close_refl.
  - replace (/ 3 * 3) with (/ 1 * 1) by field. replace (/ 3 * 0) with (/ 1 * 0) by ring. apply close_refl.
Qed.

(** ** linearly_independent_rows *)
Lemma dot_single a b i : length a = length b -> (i < length a)%nat -> (forall j, j <> i -> nth j a 0 * nth j b 0 = 0) -> dot a b = nth i a 0 * nth i b 0.
Proof.
  revert b i. induction a as [|x a IH]; intros [|y b] i L Hi H; cbn in L, Hi; try lia; try discriminate.
  destruct i as [|i].
  - cbn. rewrite dot_entries_zero; [ring|lia|]. intros k Hk. apply (H (S k)). lia.
  - cbn. rewrite (IH b i); [|lia|lia|intros j Hj; apply (H (S j)); lia]. specialize (H 0%nat ltac:(lia)). cbn in H. lra.
Qed.

Lemma vsum_cons x l : vsum (x :: l) = x + vsum l.
Proof. reflexivity. Qed.
Lemma vsum_app l1 l2 : vsum (l1 ++ l2) = vsum l1 + vsum l2.
Proof. induction l1; cbn [app]; rewrite ?vsum_cons; [unfold vsum at 2; cbn; ring|rewrite IHl1; ring]. Qed.

Lemma vsum_filter (g : nat -> R) q l : vsum (map g (filter q l)) = vsum (map (fun i => if q i : bool then g i else 0) l).
Proof. induction l as [|i l IH]; [reflexivity|]. cbn [map filter]. rewrite vsum_cons, <- IH. destruct (q i); cbn [map]; rewrite ?vsum_cons; ring. Qed.

Lemma where_seq {T} (p : T -> bool) d v : where_ p v = filter (fun i => p (nth i v d)) (seq 0 (length v)).
Proof.
  unfold where_. assert (G : forall L k f, (forall i, (i < length L)%nat -> f (k + i)%nat = p (nth i L d)) ->
     map fst (filter (fun iv => p (snd iv)) (combine (seq k (length L)) L)) = filter f (seq k (length L))).
  { induction L as [|x L IH]; intros k f Hf; [reflexivity|]. cbn [length seq combine filter snd].
    pose proof (Hf 0%nat ltac:(cbn; lia)) as H0. rewrite Nat.add_0_r in H0. cbn [nth] in H0. rewrite H0.
    rewrite <- (IH (S k) f); [destruct (p x); reflexivity|]. intros i Hi. specialize (Hf (S i)). rewrite Nat.add_succ_r in Hf. apply Hf. cbn. lia. }
  apply G. intros. reflexivity.
Qed.

Lemma dot_map_seq f g m : dot (map f (seq 0 m)) (map g (seq 0 m)) = vsum (map (fun i => f i * g i) (seq 0 m)).
Proof. generalize (seq 0 m) as l. induction l; cbn; [reflexivity|]. rewrite IHl. reflexivity. Qed.

(** the k-th entry of A' y *)
Lemma nth_tr_mv A m n f k : shape A m n -> (k < n)%nat ->
  nth k (mv (tr A) (map f (seq 0 m))) 0 = vsum (map (fun i => f i * nth k (row A i) 0) (seq 0 m)).
Proof.
  intros HA Hk. rewrite (mv_tr A m n) by (try exact HA; rewrite map_length, seq_length; reflexivity).
  rewrite (nth_vm _ A m n) by (try exact HA; try exact Hk; rewrite map_length, seq_length; reflexivity).
  rewrite <- (dot_map_seq f). f_equal. assert (LA : length (rows A) = m) by apply HA. rewrite <- LA. unfold row.
  clear. induction (rows A) as [|r l IH] using rev_ind; [reflexivity|]. rewrite app_length. cbn [length]. rewrite Nat.add_1_r, seq_S, !map_app, IH. f_equal.
  - apply map_ext_in. intros i Hi. apply in_seq in Hi. rewrite app_nth1 by lia. reflexivity.
  - cbn [map Nat.add]. rewrite app_nth2, Nat.sub_diag by lia. reflexivity.
Qed.

(** the part of the factorization the function depends on: |A' y| = |R y| with R upper triangular *)
Lemma qr_norm np A m n : shape A m n -> qr_ok np (tr A) n m ->
  let k := Nat.min n m in let Rm := np_qr_r np (tr A) in
  shape Rm k m /\ (forall i j, (j < i < k)%nat -> nth j (row Rm i) 0 = 0) /\
  forall y, length y = m -> norm (mv (tr A) y) = norm (mv Rm y).
Proof.
  intros HA (Q & SQ & OQ & SR & E & U) k Rm. fold k Rm in SQ, OQ, SR, E, U. split; [exact SR|]. split; [exact U|].
  intros y Ly. rewrite <- E, (mv_mm Q Rm k m) by exact SR. unfold norm. f_equal.
  assert (Lr : length (mv Rm y) = k) by (unfold mv; rewrite map_length; apply SR).
  rewrite <- (dot_mv_tr Q n k) by (try exact SQ; unfold mv; rewrite map_length; apply SQ).
  rewrite <- (mv_mm (tr Q) Q n k) by exact SQ. rewrite OQ, mv_eye by exact Lr. reflexivity.
Qed.

Lemma norm_zero_iff v : norm v = 0 <-> v = zeros (length v).
Proof.
  split; [|intros ->; unfold norm; rewrite dot_zeros_l; apply sqrt_0].
  intros H. apply dot_self_zero. rewrite <- norm_sqr, H. ring.
Qed.

Lemma nth_diag M k m i : shape M k m -> (i < Nat.min k m)%nat -> nth i (diag M) 0 = nth i (row M i) 0.
Proof.
  intros (L & C & _) Hi. unfold diag, nrows. rewrite L, C. rewrite (nth_map_seq (fun i => nth i (row M i) 0)) by exact Hi. reflexivity.
Qed.
Lemma diag_length M k m : shape M k m -> length (diag M) = Nat.min k m.
Proof. intros (L & C & _). unfold diag, nrows. rewrite map_length, seq_length, L, C. reflexivity. Qed.

Lemma lir_eq np tol A m n : shape A m n -> qr_ok np (tr A) n m -> let k := Nat.min n m in let Rm := np_qr_r np (tr A) in
  linearly_independent_rows np tol A = filter (fun i => (i <? k)%nat && Rltb tol (Rabs (nth i (row Rm i) 0)))%bool (seq 0 m).
Proof.
  intros HA Hq k Rm. destruct (qr_norm np A m n HA Hq) as (SR & _ & _). fold k Rm in SR.
  unfold linearly_independent_rows. fold Rm. rewrite (where_seq _ 0), (diag_length Rm k m SR).
  assert (Hk : (k <= m)%nat) by (unfold k; lia). replace (Nat.min k m) with k by lia.
  replace (seq 0 m) with (seq 0 (k + (m - k))) by (f_equal; lia). rewrite seq_app, filter_app. cbn [Nat.add].
  assert (forall l, (forall i, In i l -> (k <= i)%nat) -> filter (fun i => (i <? k)%nat && Rltb tol (Rabs (nth i (row Rm i) 0)))%bool l = []) as EN.
  { induction l as [|i l IH]; intros H; [reflexivity|]. cbn [filter]. rewrite (proj2 (Nat.ltb_ge i k)) by (apply H; left; reflexivity). cbn [andb]. apply IH. intros; apply H; right; assumption. }
  rewrite (EN (seq k (m - k))) by (intros i Hi; apply in_seq in Hi; lia). rewrite app_nil_r.
  apply filter_ext_in. intros i Hi. apply in_seq in Hi. replace (i <? k)%nat with true by (symmetry; apply Nat.ltb_lt; lia). cbn [andb].
  rewrite (nth_diag Rm k m) by (try exact SR; lia). reflexivity.
Qed.

(** an upper triangular row against a vector that vanishes after position i *)
Lemma upper_row Rm k m i y : shape Rm k m -> (i < k)%nat -> (k <= m)%nat -> (forall i j, (j < i < k)%nat -> nth j (row Rm i) 0 = 0) ->
  length y = m -> (forall j, (i < j < m)%nat -> nth j y 0 = 0) -> nth i (mv Rm y) 0 = nth i (row Rm i) 0 * nth i y 0.
Proof.
  intros SR Hi Hk U Ly Hy. rewrite nth_mv. fold (row Rm i). assert (Lr : length (row Rm i) = m) by (apply (shape_row Rm k m); assumption).
  apply dot_single; [lia|lia|]. intros j Hj. destruct (Nat.lt_ge_cases j i) as [H|H]; [rewrite U by lia; ring|].
  destruct (Nat.lt_ge_cases j m) as [H'|H']; [rewrite (Hy j) by lia; ring|]. rewrite (nth_overflow y) by lia. ring.
Qed.

(*@ Theorem C53_independent : the returned indices are indices of linearly independent rows *)
Lemma lir_indep np tol A m n : shape A m n -> qr_ok np (tr A) n m -> 0 <= tol ->
  Forall (fun i => (i < m)%nat) (linearly_independent_rows np tol A) /\ indep_at A n (linearly_independent_rows np tol A).
Proof.
  intros HA Hq Ht. rewrite (lir_eq np tol A m n HA Hq). destruct (qr_norm np A m n HA Hq) as (SR & U & Nrm).
  set (k := Nat.min n m) in *. set (Rm := np_qr_r np (tr A)) in *.
  set (q := fun i => ((i <? k)%nat && Rltb tol (Rabs (nth i (row Rm i) 0)))%bool).
  split; [rewrite Forall_forall; intros i Hi; apply filter_In in Hi; destruct Hi as [Hi _]; apply in_seq in Hi; lia|].
  split; [apply NoDup_filter, seq_NoDup|]. intros c Hc.
  set (y := map (fun i => if q i then c i else 0) (seq 0 m)).
  assert (Ly : length y = m) by (unfold y; rewrite map_length, seq_length; reflexivity).
  assert (Z : mv (tr A) y = zeros n).
  { apply nth_ext with 0 0; [unfold mv; rewrite map_length, zeros_length; apply (shape_tr A m n HA)|]. intros t Ht'.
    assert (Htn : (t < n)%nat) by (unfold mv in Ht'; rewrite map_length in Ht'; destruct (shape_tr A m n HA) as (E & _); lia).
    unfold y. rewrite (nth_tr_mv A m n) by assumption. rewrite nth_zeros. transitivity (vsum (map (fun i => c i * nth t (row A i) 0) (filter q (seq 0 m)))); [|exact (Hc t Htn)]. rewrite vsum_filter. f_equal. apply map_ext. intros i. destruct (q i); ring. }
  assert (Ry : mv Rm y = zeros k).
  { assert (N0 : norm (mv Rm y) = 0) by (rewrite <- Nrm by exact Ly; rewrite Z; unfold norm; rewrite dot_zeros_l; apply sqrt_0).
    apply norm_zero_iff in N0. rewrite N0. f_equal. unfold mv. rewrite map_length. apply SR. }
  assert (Y : forall t i, (m - i <= t)%nat -> (i < m)%nat -> nth i y 0 = 0).
  { induction t as [|t IH]; intros i H1 H2; [lia|]. destruct (q i) eqn:Eq.
    2:{ unfold y. rewrite (nth_map_seq (fun i => if q i then c i else 0)) by exact H2. rewrite Eq. reflexivity. }
    unfold q in Eq. apply andb_prop in Eq. destruct Eq as [E1 E2]. apply Nat.ltb_lt in E1. apply Rltb_true in E2.
    assert (X : nth i (mv Rm y) 0 = nth i (row Rm i) 0 * nth i y 0).
    { apply (upper_row Rm k m); auto; [unfold k; lia|]. intros j Hj. apply IH; lia. }
    rewrite Ry, nth_zeros in X. symmetry in X. apply Rmult_integral in X. destruct X as [X|X]; [|exact X].
    rewrite X, Rabs_R0 in E2. lra. }
  intros i Hi. apply filter_In in Hi. destruct Hi as [Hi Eq]. apply in_seq in Hi.
  specialize (Y (m - i)%nat i ltac:(lia) ltac:(lia)). unfold y in Y. rewrite (nth_map_seq (fun i => if q i then c i else 0)) in Y by lia. rewrite Eq in Y. exact Y.
Qed.

Lemma norm_single v i : (forall j, j <> i -> nth j v 0 = 0) -> norm v = Rabs (nth i v 0).
Proof.
  intros H. unfold norm. destruct (Nat.lt_ge_cases i (length v)) as [Hi|Hi].
  - rewrite (dot_single v v i); [|reflexivity|exact Hi|intros j Hj; rewrite H by exact Hj; ring]. fold (Rsqr (nth i v 0)). apply sqrt_Rsqr_abs.
  - rewrite dot_entries_zero; [|reflexivity|intros j Hj; rewrite H by lia; ring]. rewrite nth_overflow by lia. rewrite sqrt_0, Rabs_R0. reflexivity.
Qed.
Lemma norm_ge_nth v i : Rabs (nth i v 0) <= norm v.
Proof.
  destruct (Nat.lt_ge_cases i (length v)) as [Hi|Hi]; [|rewrite nth_overflow by lia; rewrite Rabs_R0; apply norm_nonneg].
  apply Rsqr_incr_0_var; [|apply norm_nonneg]. unfold Rsqr at 2. rewrite norm_sqr, <- Rsqr_abs. unfold Rsqr. clear - Hi. revert i Hi.
  induction v as [|x v IH]; intros [|i] Hi; cbn in Hi |- *; try lia; [pose proof (dot_self_nonneg v); lra|].
  specialize (IH i ltac:(lia)). pose proof (Rle_0_sqr x). unfold Rsqr in H. lra.
Qed.

(** back substitution *)
Lemma back_subst Rm k m i : shape Rm k m -> (i < k)%nat -> (k <= m)%nat -> (forall i j, (j < i < k)%nat -> nth j (row Rm i) 0 = 0) ->
  (forall j, (j < i)%nat -> nth j (row Rm j) 0 <> 0) ->
  forall t, (t <= i)%nat -> exists y, length y = m /\ nth i y 0 = 1 /\ (forall j, (i < j)%nat -> nth j y 0 = 0) /\
    forall j, (i - t <= j < i)%nat -> nth j (mv Rm y) 0 = 0.
Proof.
  intros SR Hi Hk U Dz t. induction t as [|t IH]; intros Ht.
  - exists (unit m i). split; [apply unit_length|]. split; [rewrite nth_unit by lia; rewrite Nat.eqb_refl; reflexivity|]. split; [|intros; lia].
    intros j Hj. destruct (Nat.lt_ge_cases j m) as [H|H]; [rewrite nth_unit by lia; replace (j =? i)%nat with false by (symmetry; apply Nat.eqb_neq; lia); reflexivity|].
    apply nth_overflow. rewrite unit_length. lia.
  - destruct IH as (y & Ly & Y1 & Y2 & Y3); [lia|]. set (j0 := (i - S t)%nat).
    set (s := - nth j0 (mv Rm y) 0 / nth j0 (row Rm j0) 0).
    exists (vadd y (vscale s (unit m j0))).
    assert (Lu : length (vscale s (unit m j0)) = m) by (rewrite vscale_length; apply unit_length).
    assert (NU : forall j, j <> j0 -> nth j (unit m j0) 0 = 0).
    { intros j Hj. destruct (Nat.lt_ge_cases j m) as [H|H]; [rewrite nth_unit by lia; replace (j =? j0)%nat with false by (symmetry; apply Nat.eqb_neq; exact Hj); reflexivity|].
      apply nth_overflow. rewrite unit_length. lia. }
    split; [len|]. split; [|split].
    + rewrite nth_vadd, nth_vscale, Y1, NU by (try lia; unfold j0; lia). ring.
    + intros j Hj. rewrite nth_vadd, nth_vscale, Y2, NU by (try lia; unfold j0; lia). ring.
    + intros j Hj. rewrite nth_mv, dot_vadd_r, dot_vscale_r, <- nth_mv by lia. fold (row Rm j).
      assert (Lj : length (row Rm j) = m) by (apply (shape_row Rm k m); [exact SR|lia]).
      rewrite (dot_comm _ (unit m j0)), dot_unit by (first [exact Lj|unfold j0; lia]).
      destruct (Nat.eq_dec j j0) as [->|Hne].
      * unfold s. field. apply Dz. unfold j0. lia.
      * rewrite (Y3 j) by (unfold j0 in Hne; lia). rewrite (U j j0) by (unfold j0 in *; lia). ring.
Qed.

(*@ Theorem C53_complete_partial : all the rows are returned exactly when each of them is farther than tol from the span of the previous ones.  What is missing for the property: when some row depends on the previous ones, fewer indices than the rank may be returned (C53_rank_refuted) *)
Lemma lir_complete np tol A m n : shape A m n -> qr_ok np (tr A) n m -> 0 <= tol -> (m <= n)%nat ->
  linearly_independent_rows np tol A = seq 0 m <-> (forall i, (i < m)%nat -> far_from_previous A n tol i).
Proof.
  intros HA Hq Ht Hmn. rewrite (lir_eq np tol A m n HA Hq). destruct (qr_norm np A m n HA Hq) as (SR & U & Nrm).
  replace (Nat.min n m) with m in * by lia. set (Rm := np_qr_r np (tr A)) in *.
  set (q := fun i => ((i <? m)%nat && Rltb tol (Rabs (nth i (row Rm i) 0)))%bool).
  assert (Q : filter q (seq 0 m) = seq 0 m <-> forall i, (i < m)%nat -> tol < Rabs (nth i (row Rm i) 0)).
  { split.
    - intros E i Hi. assert (In i (filter q (seq 0 m))) as H by (rewrite E; apply in_seq; lia). apply filter_In in H. destruct H as [_ H].
      unfold q in H. apply andb_prop in H. apply Rltb_true. apply H.
    - intros H. assert (G : forall l, (forall i, In i l -> (i < m)%nat) -> filter q l = l).
      { induction l as [|i l IH]; intros Hl; [reflexivity|]. cbn [filter]. assert (q i = true) as ->.
        { unfold q. rewrite (proj2 (Nat.ltb_lt i m)) by (apply Hl; left; reflexivity). cbn. apply Rltb_true. apply H, Hl. left. reflexivity. }
        rewrite IH; [reflexivity|]. intros; apply Hl; right; assumption. }
      apply G. intros i Hi. apply in_seq in Hi. lia. }
  rewrite Q. clear Q q. split.
  - intros H i Hi c v Lv Hv. set (f := fun j => if (j <? i)%nat then - c j else if (j =? i)%nat then 1 else 0).
    set (y := map f (seq 0 m)). assert (Ly : length y = m) by (unfold y; rewrite map_length, seq_length; reflexivity).
    assert (Ev : v = mv (tr A) y).
    { apply nth_ext with 0 0; [rewrite Lv; unfold mv; rewrite map_length; symmetry; apply (shape_tr A m n HA)|]. intros t Htt. rewrite Lv in Htt.
      rewrite (Hv t Htt). unfold y. rewrite (nth_tr_mv A m n) by assumption.
      replace (seq 0 m) with (seq 0 (i + S (m - S i))) by (f_equal; lia). rewrite seq_app, map_app. cbn [seq map Nat.add].
      rewrite vsum_app. rewrite vsum_cons.
      assert (E1 : vsum (map (fun j => f j * nth t (row A j) 0) (seq 0 i)) = - vsum (map (fun j => c j * nth t (row A j) 0) (seq 0 i))).
      { assert (G : forall l, (forall j, In j l -> (j < i)%nat) -> vsum (map (fun j => f j * nth t (row A j) 0) l) = - vsum (map (fun j => c j * nth t (row A j) 0) l)).
        { induction l as [|j l IH]; intros Hl; [cbn; ring|]. cbn [map]. rewrite !vsum_cons, IH by (intros; apply Hl; right; assumption).
          unfold f. rewrite (proj2 (Nat.ltb_lt j i)) by (apply Hl; left; reflexivity). ring. }
        apply G. intros j Hj. apply in_seq in Hj. lia. }
      assert (E2 : vsum (map (fun j => f j * nth t (row A j) 0) (seq (S i) (m - S i))) = 0).
      { assert (G : forall l, (forall j, In j l -> (i < j)%nat) -> vsum (map (fun j => f j * nth t (row A j) 0) l) = 0).
        { induction l as [|j l IH]; intros Hl; [reflexivity|]. cbn [map]. rewrite !vsum_cons, IH by (intros; apply Hl; right; assumption).
          assert (i < j)%nat by (apply Hl; left; reflexivity). unfold f. rewrite (proj2 (Nat.ltb_ge j i)) by lia. rewrite (proj2 (Nat.eqb_neq j i)) by lia. ring. }
        apply G. intros j Hj. apply in_seq in Hj. lia. }
      rewrite E1, E2. unfold f. rewrite (proj2 (Nat.ltb_ge i i)) by lia. rewrite Nat.eqb_refl. ring. }
    rewrite Ev, (Nrm y Ly). eapply Rlt_le_trans; [apply (H i Hi)|]. eapply Rle_trans; [|apply (norm_ge_nth _ i)]. right. f_equal.
    rewrite (upper_row Rm m m i y); [|exact SR|exact Hi|lia|exact U|exact Ly|].
    + unfold y. rewrite (nth_map_seq f) by exact Hi. unfold f. rewrite (proj2 (Nat.ltb_ge i i)), Nat.eqb_refl by lia. ring.
    + intros j Hj. unfold y. rewrite (nth_map_seq f) by lia. unfold f. rewrite (proj2 (Nat.ltb_ge j i)) by lia. rewrite (proj2 (Nat.eqb_neq j i)) by lia. reflexivity.
  - intros F i. induction i as [i IH] using lt_wf_ind. intros Hi. apply Rnot_le_lt. intros Hle.
    destruct (back_subst Rm m m i SR Hi ltac:(lia) U) with (t := i) as (y & Ly & Y1 & Y2 & Y3).
    { intros j Hj E. specialize (IH j Hj ltac:(lia)). rewrite E, Rabs_R0 in IH. lra. }
    { lia. }
    assert (N : norm (mv (tr A) y) = Rabs (nth i (row Rm i) 0)).
    { rewrite (Nrm y Ly). assert (Ei : nth i (mv Rm y) 0 = nth i (row Rm i) 0).
      { rewrite (upper_row Rm m m i y); [rewrite Y1; ring|exact SR|exact Hi|lia|exact U|exact Ly|]. intros j Hj. apply Y2. lia. }
      rewrite <- Ei. apply norm_single. intros j Hj. destruct (Nat.lt_ge_cases j i) as [H|H]; [apply Y3; lia|].
      destruct (Nat.lt_ge_cases j m) as [H'|H'].
      - rewrite (upper_row Rm m m j y); [rewrite (Y2 j) by lia; ring|exact SR|exact H'|lia|exact U|exact Ly|]. intros; apply Y2; lia.
      - apply nth_overflow. unfold mv. rewrite map_length. destruct SR as (E & _). lia. }
    assert (tol < norm (mv (tr A) y)); [|lra].
    apply (F i Hi (fun j => - nth j y 0)); [unfold mv; rewrite map_length; apply (shape_tr A m n HA)|].
    intros t Htt. assert (Ey : y = map (fun j => nth j y 0) (seq 0 m)).
    { apply nth_ext with 0 0; [rewrite map_length, seq_length; exact Ly|]. intros j Hj. rewrite (nth_map_seq (fun j => nth j y 0)) by lia. reflexivity. }
    rewrite Ey at 1. rewrite (nth_tr_mv A m n) by assumption.
    replace (seq 0 m) with (seq 0 (i + S (m - S i))) by (f_equal; lia). rewrite seq_app, map_app. cbn [seq map Nat.add]. rewrite vsum_app.
    rewrite vsum_cons.
    assert (E2 : vsum (map (fun j => nth j y 0 * nth t (row A j) 0) (seq (S i) (m - S i))) = 0).
    { assert (G : forall l, (forall j, In j l -> (i < j)%nat) -> vsum (map (fun j => nth j y 0 * nth t (row A j) 0) l) = 0).
      { induction l as [|j l IHl]; intros Hl; [reflexivity|]. cbn [map]. rewrite !vsum_cons, IHl by (intros; apply Hl; right; assumption). rewrite (Y2 j) by (apply Hl; left; reflexivity). ring. }
      apply G. intros j Hj. apply in_seq in Hj. lia. }
    assert (E1 : vsum (map (fun j => - nth j y 0 * nth t (row A j) 0) (seq 0 i)) = - vsum (map (fun j => nth j y 0 * nth t (row A j) 0) (seq 0 i))).
    { generalize (seq 0 i) as l. induction l as [|j l IHl]; [cbn; ring|]. cbn [map]. rewrite !vsum_cons, IHl. ring. }
    rewrite E1, E2, Y1. ring.
Qed.

(*@ Theorem C53_rank_refuted : the number of indices may be smaller than the rank: for the rows (0), (1) nothing is returned although the second row is independent *)
Lemma lir_rank_refuted np tol : 0 <= tol -> qr_ok np (tr (Mat 1 [[0]; [1]])) 1 2 ->
  linearly_independent_rows np tol (Mat 1 [[0]; [1]]) = [] /\ indep_at (Mat 1 [[0]; [1]]) 1 [1%nat].
Proof.
  intros Ht Hq. assert (HA : shape (Mat 1 [[0]; [1]]) 2 1) by (repeat constructor). split.
  - rewrite (lir_eq np tol _ 2 1 HA Hq). destruct (qr_norm np _ 2 1 HA Hq) as (SR & U & Nrm).
    set (Rm := np_qr_r np (tr (Mat 1 [[0]; [1]]))) in *. cbn [Nat.min seq filter].
    assert (E : nth 0 (row Rm 0) 0 = 0).
    { specialize (Nrm [1; 0] eq_refl). assert (X : mv (tr (Mat 1 [[0]; [1]])) [1; 0] = [0]) by (unfold mv, tr; cbn; f_equal; ring).
      rewrite X in Nrm. assert (Y : mv Rm [1; 0] = [nth 0 (row Rm 0) 0]).
      { destruct SR as (L1 & _ & L2). unfold mv, row. destruct (rows Rm) as [|r [|]]; cbn in L1; try discriminate. inversion L2; subst.
        destruct r as [|x [|z [|]]]; cbn in H1; try discriminate. cbn. f_equal. ring. }
      rewrite Y in Nrm. rewrite (norm_single [0] 0), (norm_single [nth 0 (row Rm 0) 0] 0) in Nrm by (intros [|[|j]] Hj; cbn; try reflexivity; lia).
      cbn [nth] in Nrm. rewrite Rabs_R0 in Nrm. symmetry in Nrm. destruct (Req_dec (nth 0 (row Rm 0) 0) 0) as [|Hn]; [assumption|]. exfalso. revert Nrm. apply Rabs_no_R0. exact Hn. }
    rewrite E, Rabs_R0. cbn [Nat.ltb Nat.leb andb]. assert (Rltb tol 0 = false) as -> by (apply Rltb_false; lra). reflexivity.
  - split; [repeat constructor; auto|]. intros c Hc i [<-|[]]. specialize (Hc 0%nat ltac:(lia)). cbn in Hc. lra.
Qed.

(*@ Theorem C53_tolerance_refuted : a row of norm 1e-7 is independent but is not returned with the default tolerance 1e-6 *)
Lemma lir_tol_refuted np : qr_ok np (tr (Mat 1 [[/ 10000000]])) 1 1 ->
  linearly_independent_rows np (/ 1000000) (Mat 1 [[/ 10000000]]) <> [0%nat] /\ indep_at (Mat 1 [[/ 10000000]]) 1 [0%nat].
Proof.
  intros Hq. assert (HA : shape (Mat 1 [[/ 10000000]]) 1 1) by (repeat constructor). split.
  - intros E. apply (proj1 (lir_complete np (/ 1000000) _ 1 1 HA Hq ltac:(lra) (le_n 1))) with (i := 0%nat) in E; [|lia].
    assert (/ 1000000 < norm [/ 10000000]); [|rewrite (norm_single _ 0) in H by (intros [|[|j]] Hj; cbn; try reflexivity; lia); cbn [nth] in H; rewrite Rabs_pos_eq in H by lra; lra].
    apply (E (fun _ => 0)); [reflexivity|]. intros [|k] Hk; [|lia]. cbn. ring.
  - split; [repeat constructor; auto|]. intros c Hc i [<-|[]]. specialize (Hc 0%nat ltac:(lia)). cbn in Hc. lra.
Qed.

(** the factorizations of the two matrices, and of one with independent rows *)
Definition np_qr (np : numpy) (Rm : mat) : numpy :=
  Numpy (np_nnls np) (np_pinv np) (np_chol np) (np_inv np) (np_solve np) (np_rank np) (np_svd_vt np) (fun _ => Rm)
    (np_eig_max np) (np_expm np) (np_dare np) (np_rand np) (np_halfspaces np) (np_hull np).
Definition A_tri : mat := Mat 2 [[2; 0]; [1; 3]].

(*@ Example C53_example : the contract of qr holds of the factorizations Q = 1 of these matrices, and both rows of (2,0), (1,3) are returned *)
Lemma lir_example np : qr_ok (np_qr np (tr (Mat 1 [[0]; [1]]))) (tr (Mat 1 [[0]; [1]])) 1 2 /\
  qr_ok (np_qr np (tr A_tri)) (tr A_tri) 2 2 /\ linearly_independent_rows (np_qr np (tr A_tri)) (/ 1000000) A_tri = [0%nat; 1%nat].
Proof.
  assert (H1 : qr_ok (np_qr np (tr (Mat 1 [[0]; [1]]))) (tr (Mat 1 [[0]; [1]])) 1 2).
  { exists (eye 1). cbn [Nat.min np_qr np_qr_r]. assert (S1 : shape (tr (Mat 1 [[0]; [1]])) 1 2) by (apply shape_tr; repeat constructor).
    split; [apply shape_eye|]. split; [rewrite tr_eye; apply (mm_eye_l _ 1 1); apply shape_eye|]. split; [exact S1|]. split; [apply (mm_eye_l _ 1 2 S1)|]. intros; lia. }
  assert (SA : shape A_tri 2 2) by (repeat constructor).
  assert (H2 : qr_ok (np_qr np (tr A_tri)) (tr A_tri) 2 2).
  { exists (eye 2). cbn [Nat.min np_qr np_qr_r]. assert (S1 : shape (tr A_tri) 2 2) by (apply shape_tr; exact SA).
    split; [apply shape_eye|]. split; [rewrite tr_eye; apply (mm_eye_l _ 2 2); apply shape_eye|]. split; [exact S1|]. split; [apply (mm_eye_l _ 2 2 S1)|].
    intros i j H. assert (i = 1%nat) by lia. assert (j = 0%nat) by lia. subst. cbn. reflexivity. }
  split; [exact H1|]. split; [exact H2|]. rewrite (lir_eq _ _ A_tri 2 2 SA H2). cbn [np_qr np_qr_r Nat.min seq filter Nat.ltb Nat.leb andb].
  assert (E0 : nth 0 (row (tr A_tri) 0) 0 = 2) by (cbn; reflexivity). assert (E1 : nth 1 (row (tr A_tri) 1) 0 = 3) by (cbn; reflexivity).
  rewrite E0, E1, !Rabs_pos_eq by lra. assert (Rltb (/ 1000000) 2 = true) as -> by (apply Rltb_true; lra). assert (Rltb (/ 1000000) 3 = true) as -> by (apply Rltb_true; lra). reflexivity.
Qed.
