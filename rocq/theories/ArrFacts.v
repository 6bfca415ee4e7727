(** * ArrFacts: lemmas about the array operations of [Arr] *)
From Verif Require Import Arr.

(** ** booleans *)
Lemma Rleb_true a b : Rleb a b = true <-> a <= b.
Proof. unfold Rleb; destruct (Rle_dec a b); split; intros; try easy; lra. Qed.
Lemma Rleb_false a b : Rleb a b = false <-> b < a.
Proof. unfold Rleb; destruct (Rle_dec a b); split; intros; try easy; lra. Qed.
Lemma Rltb_true a b : Rltb a b = true <-> a < b.
Proof. unfold Rltb; destruct (Rlt_dec a b); split; intros; try easy; lra. Qed.
Lemma Rltb_false a b : Rltb a b = false <-> b <= a.
Proof. unfold Rltb; destruct (Rlt_dec a b); split; intros; try easy; lra. Qed.

(** ** map2 *)
Lemma map2_length {A B C} (f : A -> B -> C) u v :
  length (map2 f u v) = Nat.min (length u) (length v).
Proof. revert v; induction u as [|a u IH]; intros [|b v]; simpl; auto. Qed.

Lemma map2_app {A B C} (f : A -> B -> C) u1 u2 v1 v2 :
  length u1 = length v1 -> map2 f (u1 ++ u2) (v1 ++ v2) = map2 f u1 v1 ++ map2 f u2 v2.
Proof.
  revert v1; induction u1 as [|a u1 IH]; intros [|b v1] H; simpl in *; try discriminate; auto.
  rewrite IH; auto.
Qed.

Lemma nth_map2 {A B C} (f : A -> B -> C) u v i da db dc :
  (i < length u)%nat -> (i < length v)%nat ->
  nth i (map2 f u v) dc = f (nth i u da) (nth i v db).
Proof.
  revert v i; induction u as [|a u IH]; intros [|b v] [|i] H1 H2; simpl in *; try lia; auto.
  apply IH; lia.
Qed.

Lemma map2_map_l {A A' B C} (f : A -> B -> C) (g : A' -> A) u v :
  map2 f (map g u) v = map2 (fun a b => f (g a) b) u v.
Proof. revert v; induction u as [|a u IH]; intros [|b v]; simpl; congruence. Qed.
Lemma map2_map_r {A B B' C} (f : A -> B -> C) (g : B' -> B) u v :
  map2 f u (map g v) = map2 (fun a b => f a (g b)) u v.
Proof. revert v; induction u as [|a u IH]; intros [|b v]; simpl; congruence. Qed.
Lemma map_map2 {A B C D} (f : A -> B -> C) (g : C -> D) u v :
  map g (map2 f u v) = map2 (fun a b => g (f a b)) u v.
Proof. revert v; induction u as [|a u IH]; intros [|b v]; simpl; congruence. Qed.
Lemma map2_same {A C} (f : A -> A -> C) u : map2 f u u = map (fun a => f a a) u.
Proof. induction u; simpl; congruence. Qed.
Lemma map2_ext_in {A B C} (f g : A -> B -> C) u v :
  (forall a b, In a u -> In b v -> f a b = g a b) -> map2 f u v = map2 g u v.
Proof.
  revert v; induction u as [|a u IH]; intros [|b v] H; simpl; auto.
  rewrite H by (simpl; auto). rewrite IH; auto. intros; apply H; simpl; auto.
Qed.

Lemma skipn_skipn' {A} a b (l : list A) : skipn a (skipn b l) = skipn (b + a) l.
Proof. revert l; induction b as [|b IH]; intros l; simpl; auto. destruct l; auto. destruct a; auto. Qed.

(** ** lengths *)
Lemma vadd_length u v : length (vadd u v) = Nat.min (length u) (length v).
Proof. apply map2_length. Qed.
Lemma vsub_length u v : length (vsub u v) = Nat.min (length u) (length v).
Proof. apply map2_length. Qed.
Lemma vneg_length u : length (vneg u) = length u.
Proof. apply map_length. Qed.
Lemma vscale_length k u : length (vscale k u) = length u.
Proof. apply map_length. Qed.
Lemma zeros_length n : length (zeros n) = n.
Proof. apply repeat_length. Qed.
Lemma ones_length n : length (ones n) = n.
Proof. apply repeat_length. Qed.
Lemma unit_length n i : length (unit n i) = n.
Proof. unfold unit; rewrite map_length, seq_length; auto. Qed.
Lemma mv_length M x : length (mv M x) = length (rows M).
Proof. apply map_length. Qed.
Lemma vtake_length v idx : length (vtake v idx) = length idx.
Proof. apply map_length. Qed.
Lemma slice_length {A} i j (v : list A) : length (slice i j v) = Nat.min (j - i) (length v - i).
Proof. unfold slice; rewrite firstn_length, skipn_length; lia. Qed.

#[export] Hint Rewrite vadd_length vsub_length vneg_length vscale_length zeros_length ones_length
  unit_length mv_length vtake_length @map_length @app_length @repeat_length @seq_length
  @map2_length @firstn_length @skipn_length @slice_length @rev_length : len.
Lemma rows_Mat n l : rows (Mat n l) = l. Proof. reflexivity. Qed.
Lemma ncols_Mat n l : ncols (Mat n l) = n. Proof. reflexivity. Qed.
#[export] Hint Rewrite rows_Mat ncols_Mat : len.
Ltac len := repeat (progress (autorewrite with len; cbn [length app])); try lia;
  try (solve [autorewrite with len in *; cbn [length app] in *; lia]).
Ltac lenh H := repeat (progress (autorewrite with len in H; cbn [length app] in H)).

(** ** nth of vector operations (default 0) *)
Lemma nth_vadd u v i : length u = length v -> nth i (vadd u v) 0 = nth i u 0 + nth i v 0.
Proof.
  revert v i; induction u as [|a u IH]; intros [|b v] i H; simpl in *; try discriminate.
  - destruct i; simpl; lra.
  - destruct i; simpl; auto.
Qed.
Lemma nth_vsub u v i : length u = length v -> nth i (vsub u v) 0 = nth i u 0 - nth i v 0.
Proof.
  revert v i; induction u as [|a u IH]; intros [|b v] i H; simpl in *; try discriminate.
  - destruct i; simpl; lra.
  - destruct i; simpl; auto.
Qed.
Lemma nth_vneg u i : nth i (vneg u) 0 = - nth i u 0.
Proof. unfold vneg. rewrite <- (Ropp_0) at 1. apply map_nth. Qed.
Lemma nth_vscale k u i : nth i (vscale k u) 0 = k * nth i u 0.
Proof. unfold vscale. replace 0 with (k * 0) at 1 by ring. apply map_nth. Qed.
Lemma nth_zeros n i : nth i (zeros n) 0 = 0.
Proof. unfold zeros; revert i; induction n; intros [|i]; simpl; auto. Qed.
Lemma nth_ones n i : (i < n)%nat -> nth i (ones n) 0 = 1.
Proof. unfold ones; revert i; induction n; intros [|i] H; simpl; auto; try lia. apply IHn; lia. Qed.
Lemma nth_map_seq {A} (f : nat -> A) n i d : (i < n)%nat -> nth i (map f (seq 0 n)) d = f i.
Proof.
  intros H. rewrite nth_indep with (d' := f 0%nat) by (rewrite map_length, seq_length; auto).
  rewrite map_nth, seq_nth; auto.
Qed.
Lemma nth_unit n i j : (j < n)%nat -> nth j (unit n i) 0 = if Nat.eqb j i then 1 else 0.
Proof. intros; unfold unit; rewrite nth_map_seq; auto. Qed.
Lemma nth_mv M x i : nth i (mv M x) 0 = dot (nth i (rows M) []) x.
Proof. unfold mv. change 0 with ((fun r => dot r x) []) at 1. apply map_nth. Qed.
Lemma nth_vtake v idx i : (i < length idx)%nat -> nth i (vtake v idx) 0 = nth (nth i idx O) v 0.
Proof.
  intros; unfold vtake.
  rewrite nth_indep with (d' := (fun i => nth i v 0) O) by (rewrite map_length; auto).
  exact (map_nth (fun i => nth i v 0) idx O i).
Qed.

Lemma vec_ext (u v : vec) :
  length u = length v -> (forall i, (i < length u)%nat -> nth i u 0 = nth i v 0) -> u = v.
Proof. intros; apply nth_ext with 0 0; auto. Qed.

#[export] Hint Rewrite nth_vneg nth_vscale nth_zeros nth_mv : nthv.
#[export] Hint Rewrite nth_vadd nth_vsub using (len; fail) : nthv.

(** prove an equality of vectors entry by entry with [ring] *)
Ltac vring :=
  apply vec_ext; [ len | intros; autorewrite with nthv; try ring ].

(** ** dot *)
Lemma dot_comm u v : dot u v = dot v u.
Proof. revert v; induction u as [|a u IH]; intros [|b v]; simpl; auto; rewrite IH; ring. Qed.
Lemma dot_nil_r u : dot u [] = 0.
Proof. destruct u; auto. Qed.
Lemma dot_app u1 u2 v1 v2 :
  length u1 = length v1 -> dot (u1 ++ u2) (v1 ++ v2) = dot u1 v1 + dot u2 v2.
Proof.
  revert v1; induction u1 as [|a u1 IH]; intros [|b v1] H; simpl in *; try discriminate; try lra.
  rewrite IH by lia; ring.
Qed.
Lemma dot_zeros_l n v : dot (zeros n) v = 0.
Proof. revert v; induction n as [|n IH]; intros [|b v]; simpl; auto. rewrite IH; ring. Qed.
Lemma dot_zeros_r n v : dot v (zeros n) = 0.
Proof. rewrite dot_comm; apply dot_zeros_l. Qed.
Lemma dot_vadd_l u v w : length u = length v -> dot (vadd u v) w = dot u w + dot v w.
Proof.
  revert v w; induction u as [|a u IH]; intros [|b v] [|c w] H; simpl in *; try discriminate; try lra.
  rewrite IH by lia; ring.
Qed.
Lemma dot_vadd_r u v w : length u = length v -> dot w (vadd u v) = dot w u + dot w v.
Proof. intros; rewrite dot_comm, dot_vadd_l by auto. rewrite (dot_comm u), (dot_comm v); auto. Qed.
Lemma dot_vsub_l u v w : length u = length v -> dot (vsub u v) w = dot u w - dot v w.
Proof.
  revert v w; induction u as [|a u IH]; intros [|b v] [|c w] H; simpl in *; try discriminate; try lra.
  rewrite IH by lia; ring.
Qed.
Lemma dot_vsub_r u v w : length u = length v -> dot w (vsub u v) = dot w u - dot w v.
Proof. intros; rewrite dot_comm, dot_vsub_l by auto. rewrite (dot_comm u), (dot_comm v); auto. Qed.
Lemma dot_vscale_l k u v : dot (vscale k u) v = k * dot u v.
Proof. revert v; induction u as [|a u IH]; intros [|b v]; simpl; try ring. rewrite IH; ring. Qed.
Lemma dot_vscale_r k u v : dot u (vscale k v) = k * dot u v.
Proof. rewrite dot_comm, dot_vscale_l, dot_comm; auto. Qed.
Lemma dot_vneg_l u v : dot (vneg u) v = - dot u v.
Proof. revert v; induction u as [|a u IH]; intros [|b v]; simpl; try ring. rewrite IH; ring. Qed.
Lemma dot_vneg_r u v : dot u (vneg v) = - dot u v.
Proof. rewrite dot_comm, dot_vneg_l, dot_comm; auto. Qed.

#[export] Hint Rewrite dot_vneg_l dot_vneg_r dot_vscale_l dot_vscale_r dot_zeros_l dot_zeros_r : dotx.
#[export] Hint Rewrite dot_vadd_l dot_vadd_r dot_vsub_l dot_vsub_r using (len; fail) : dotx.

Lemma dot_self_nonneg v : 0 <= dot v v.
Proof. induction v as [|a v IH]; simpl; try lra. nra. Qed.
Lemma dot_self_zero v : dot v v = 0 -> v = zeros (length v).
Proof.
  induction v as [|a v IH]; simpl; auto; intros H.
  pose proof (dot_self_nonneg v). assert (a = 0) by nra. assert (dot v v = 0) by nra.
  subst; unfold zeros in *; simpl. f_equal; auto.
Qed.
Lemma dot_all_zero v : (forall w, length w = length v -> dot v w = 0) -> v = zeros (length v).
Proof. intros H; apply dot_self_zero; apply H; auto. Qed.

Lemma dot_unit n i v : (i < n)%nat -> length v = n -> dot (unit n i) v = nth i v 0.
Proof.
  intros Hi Hv.
  assert (G : forall (s i : nat) v, dot (map (fun j => if Nat.eqb j (s + i) then 1 else 0) (seq s (length v))) v
              = nth i v 0).
  { clear. intros s i v; revert s i; induction v as [|b v IH]; intros s i; simpl.
    - destruct i; auto.
    - destruct i as [|i].
      + replace (s + 0)%nat with s by lia. rewrite Nat.eqb_refl.
        assert (Z : dot (map (fun j => if Nat.eqb j s then 1 else 0) (seq (S s) (length v))) v = 0).
        { clear. assert (G : forall k w, (s < k)%nat -> dot (map (fun j => if Nat.eqb j s then 1 else 0) (seq k (length w))) w = 0).
          { intros k w; revert k; induction w as [|c w IH]; intros k H; simpl; auto.
            rewrite IH by lia. destruct (Nat.eqb_spec k s); try lia. ring. }
          apply G; lia. }
        rewrite Z. ring.
      + destruct (Nat.eqb_spec s (s + S i)); try lia.
        replace (s + S i)%nat with (S s + i)%nat by lia. rewrite IH. ring. }
  unfold unit. rewrite <- Hv. specialize (G O i v). simpl in G. exact G.
Qed.

Lemma dot_eq_ext u v : length u = length v ->
  (forall w, length w = length u -> dot u w = dot v w) -> u = v.
Proof.
  intros L H. apply vec_ext; auto. intros i Hi.
  rewrite <- (dot_unit (length u) i u), <- (dot_unit (length u) i v) by auto.
  rewrite dot_comm, H by (len). apply dot_comm.
Qed.

(** Cauchy-Schwarz *)
Lemma cauchy_schwarz u v : (dot u v)² <= dot u u * dot v v.
Proof.
  assert (G : forall u v, length u = length v -> (dot u v)² <= dot u u * dot v v).
  { clear. intros u v L. unfold Rsqr.
    set (a := dot u u). set (b := dot u v). set (c := dot v v).
    assert (Hq : forall t, 0 <= a + 2 * t * b + t * t * c).
    { intros t. pose proof (dot_self_nonneg (vadd u (vscale t v))) as H.
      rewrite dot_vadd_l, !dot_vadd_r, !dot_vscale_l, !dot_vscale_r in H by len.
      rewrite (dot_comm v u) in H. fold a b c in H. lra. }
    assert (Hc : 0 <= c) by apply dot_self_nonneg.
    assert (Ha : 0 <= a) by apply dot_self_nonneg.
    destruct (Req_EM_T c 0) as [Hc0|Hc0].
    - rewrite Hc0 in *. destruct (Req_EM_T b 0) as [Hb|Hb]; [rewrite Hb; lra|].
      pose proof (Hq (- (a + 1) / (2 * b))) as H.
      replace (a + 2 * (- (a + 1) / (2 * b)) * b + - (a + 1) / (2 * b) * (- (a + 1) / (2 * b)) * 0)
        with (-1) in H by (field; auto). lra.
    - pose proof (Hq (- b / c)) as H.
      replace (a + 2 * (- b / c) * b + - b / c * (- b / c) * c) with ((a * c - b * b) / c) in H by (field; auto).
      assert (0 <= (a * c - b * b) / c * c) by (apply Rmult_le_pos; auto).
      replace ((a * c - b * b) / c * c) with (a * c - b * b) in H0 by (field; auto). lra. }
  set (n := Nat.min (length u) (length v)).
  assert (D : forall u v, dot u v = dot (firstn (length v) u) (firstn (length u) v)).
  { clear. induction u as [|a u IH]; intros [|b v]; simpl; auto. rewrite IH; auto. }
  assert (F : forall n u, dot (firstn n u) (firstn n u) <= dot u u).
  { clear. induction n as [|n IH]; intros [|a u]; simpl; try lra.
    - pose proof (dot_self_nonneg u). nra.
    - specialize (IH u). lra. }
  assert (FM : forall (w : vec) a, firstn a w = firstn (Nat.min a (length w)) w).
  { clear. intros w a. destruct (le_lt_dec a (length w)).
    - rewrite Nat.min_l by lia; auto.
    - rewrite Nat.min_r by lia. rewrite firstn_all2 by lia. rewrite firstn_all; auto. }
  rewrite D.
  eapply Rle_trans; [apply G; len|].
  pose proof (F (length v) u). pose proof (F (length u) v).
  pose proof (dot_self_nonneg (firstn (length v) u)). pose proof (dot_self_nonneg (firstn (length u) v)).
  apply Rmult_le_compat; auto.
Qed.

Lemma norm_nonneg v : 0 <= norm v.
Proof. apply sqrt_pos. Qed.
Lemma norm_sqr v : norm v * norm v = dot v v.
Proof. unfold norm; apply sqrt_sqrt, dot_self_nonneg. Qed.
Lemma dot_le_norm u v : dot u v <= norm u * norm v.
Proof.
  pose proof (cauchy_schwarz u v) as H. unfold Rsqr in H.
  rewrite <- !norm_sqr in H. pose proof (norm_nonneg u). pose proof (norm_nonneg v).
  assert (0 <= norm u * norm v) by (apply Rmult_le_pos; auto).
  destruct (Rle_lt_dec (dot u v) (norm u * norm v)); auto. nra.
Qed.

(** ** vector space laws *)
Lemma vadd_comm u v : vadd u v = vadd v u.
Proof. revert v; unfold vadd; induction u as [|a u IH]; intros [|b v]; simpl; auto. rewrite IH, Rplus_comm; auto. Qed.
Lemma vadd_assoc u v w : vadd u (vadd v w) = vadd (vadd u v) w.
Proof.
  revert v w; unfold vadd; induction u as [|a u IH]; intros [|b v] [|c w]; simpl; auto.
  rewrite IH, Rplus_assoc; auto.
Qed.
Lemma vadd_zeros_r n u : length u = n -> vadd u (zeros n) = u.
Proof. intros; subst; vring. Qed.
Lemma vadd_zeros_l n u : length u = n -> vadd (zeros n) u = u.
Proof. intros; subst; vring. Qed.
Lemma vsub_zeros_r n u : length u = n -> vsub u (zeros n) = u.
Proof. intros; subst; vring. Qed.
Lemma vsub_vneg u v : vsub u v = vadd u (vneg v).
Proof. revert v; unfold vsub, vadd, vneg; induction u as [|a u IH]; intros [|b v]; simpl; auto. rewrite IH; auto. Qed.
Lemma vsub_self u : vsub u u = zeros (length u).
Proof. vring. Qed.
Lemma vscale_1 u : vscale 1 u = u.
Proof. vring. Qed.
Lemma vscale_0 u : vscale 0 u = zeros (length u).
Proof. vring. Qed.
Lemma vscale_zeros k n : vscale k (zeros n) = zeros n.
Proof. vring. Qed.
Lemma vscale_vadd k u v : vscale k (vadd u v) = vadd (vscale k u) (vscale k v).
Proof. revert v; unfold vscale, vadd; induction u as [|a u IH]; intros [|b v]; simpl; auto. rewrite IH; f_equal; ring. Qed.
Lemma vscale_vscale k l u : vscale k (vscale l u) = vscale (k * l) u.
Proof. vring. Qed.
Lemma vneg_vscale u : vneg u = vscale (-1) u.
Proof. vring. Qed.
Lemma vneg_vneg u : vneg (vneg u) = u.
Proof. vring. Qed.
Lemma vneg_zeros n : vneg (zeros n) = zeros n.
Proof. vring. Qed.
Lemma zeros_app n m : zeros (n + m) = zeros n ++ zeros m.
Proof. apply repeat_app. Qed.
Lemma vadd_app u1 u2 v1 v2 : length u1 = length v1 -> vadd (u1 ++ u2) (v1 ++ v2) = vadd u1 v1 ++ vadd u2 v2.
Proof. apply map2_app. Qed.
Lemma vsub_app u1 u2 v1 v2 : length u1 = length v1 -> vsub (u1 ++ u2) (v1 ++ v2) = vsub u1 v1 ++ vsub u2 v2.
Proof. apply map2_app. Qed.
Lemma vscale_app k u v : vscale k (u ++ v) = vscale k u ++ vscale k v.
Proof. apply map_app. Qed.
Lemma vneg_app u v : vneg (u ++ v) = vneg u ++ vneg v.
Proof. apply map_app. Qed.

(** ** shapes *)
Lemma shape_rows M m n : shape M m n -> length (rows M) = m.
Proof. intros [H _]; auto. Qed.
Lemma shape_cols M m n : shape M m n -> ncols M = n.
Proof. intros [_ [H _]]; auto. Qed.
Lemma shape_In M m n r : shape M m n -> In r (rows M) -> length r = n.
Proof. intros [_ [_ H]] I. rewrite Forall_forall in H; auto. Qed.
Lemma shape_row M m n i : shape M m n -> (i < m)%nat -> length (row M i) = n.
Proof. intros H Hi. apply (shape_In M m n); auto. apply nth_In. destruct H; lia. Qed.
Lemma shape_zmat m n : shape (zmat m n) m n.
Proof.
  unfold zmat; repeat split; simpl; len. apply Forall_forall; intros r H.
  apply repeat_spec in H; subst; len.
Qed.
Lemma shape_eye n : shape (eye n) n n.
Proof.
  unfold eye; repeat split; simpl; len. apply Forall_forall; intros r H.
  apply in_map_iff in H; destruct H as [i [<- _]]; len.
Qed.
Lemma shape_rowmat v : shape (rowmat v) 1 (length v).
Proof. repeat split; simpl; auto. Qed.
Lemma shape_vstack A B m1 m2 n : shape A m1 n -> shape B m2 n -> shape (vstack A B) (m1 + m2) n.
Proof.
  intros [HA1 [HA2 HA3]] [HB1 [HB2 HB3]]; repeat split; simpl; auto.
  - rewrite app_length; lia.
  - apply Forall_app; auto.
Qed.
Lemma Forall_map2 {A B C} (P : C -> Prop) (f : A -> B -> C) u v :
  (forall a b, In a u -> In b v -> P (f a b)) -> Forall P (map2 f u v).
Proof.
  revert v; induction u as [|a u IH]; intros [|b v] H; simpl; auto.
  constructor; [apply H; simpl; auto|]. apply IH; intros; apply H; simpl; auto.
Qed.
Lemma shape_hstack A B m n1 n2 : shape A m n1 -> shape B m n2 -> shape (hstack A B) m (n1 + n2).
Proof.
  intros HA HB. repeat split; simpl.
  - rewrite map2_length. rewrite (shape_rows _ _ _ HA), (shape_rows _ _ _ HB). lia.
  - rewrite (shape_cols _ _ _ HA), (shape_cols _ _ _ HB); auto.
  - apply Forall_map2; intros a b Ia Ib. rewrite app_length.
    rewrite (shape_In _ _ _ _ HA Ia), (shape_In _ _ _ _ HB Ib); auto.
Qed.
Lemma lincomb_length n y rs : Forall (fun r => length r = n) rs -> length (lincomb n y rs) = n.
Proof.
  revert rs; induction y as [|a y IH]; intros [|r rs] H; simpl; len.
  inversion H; subst. rewrite IH; auto. lia.
Qed.
Lemma vm_length y M m n : shape M m n -> length (vm y M) = n.
Proof. intros [H1 [H2 H3]]; unfold vm; rewrite H2; apply lincomb_length; auto. Qed.
Lemma shape_mm A B m k n : shape A m k -> shape B k n -> shape (mm A B) m n.
Proof.
  intros HA HB; repeat split; simpl.
  - rewrite map_length; apply HA.
  - apply HB.
  - apply Forall_forall; intros r H; apply in_map_iff in H; destruct H as [r' [<- _]].
    eapply vm_length; eauto.
Qed.
Lemma shape_tr M m n : shape M m n -> shape (tr M) n m.
Proof.
  intros H; repeat split; simpl.
  - rewrite map_length, seq_length; apply H.
  - apply H.
  - apply Forall_forall; intros r I; apply in_map_iff in I; destruct I as [j [<- _]].
    rewrite map_length; apply H.
Qed.
Lemma shape_madd A B m n : shape A m n -> shape B m n -> shape (madd A B) m n.
Proof.
  intros HA HB; repeat split; simpl.
  - rewrite map2_length, (shape_rows _ _ _ HA), (shape_rows _ _ _ HB); lia.
  - apply HA.
  - apply Forall_map2; intros a b Ia Ib.
    rewrite vadd_length, (shape_In _ _ _ _ HA Ia), (shape_In _ _ _ _ HB Ib); lia.
Qed.
Lemma shape_msub A B m n : shape A m n -> shape B m n -> shape (msub A B) m n.
Proof.
  intros HA HB; repeat split; simpl.
  - rewrite map2_length, (shape_rows _ _ _ HA), (shape_rows _ _ _ HB); lia.
  - apply HA.
  - apply Forall_map2; intros a b Ia Ib.
    rewrite vsub_length, (shape_In _ _ _ _ HA Ia), (shape_In _ _ _ _ HB Ib); lia.
Qed.
Lemma shape_map (f : vec -> vec) A m n n' : shape A m n -> (forall r, length r = n -> length (f r) = n') ->
  shape (Mat n' (map f (rows A))) m n'.
Proof.
  intros H Hf; repeat split; simpl.
  - rewrite map_length; apply H.
  - apply Forall_forall; intros r I; apply in_map_iff in I; destruct I as [r' [<- I]].
    apply Hf. eapply shape_In; eauto.
Qed.
Lemma shape_mneg A m n : shape A m n -> shape (mneg A) m n.
Proof.
  intros H. unfold mneg. rewrite (shape_cols _ _ _ H). eapply shape_map; eauto.
  intros; len.
Qed.
Lemma shape_mscale k A m n : shape A m n -> shape (mscale k A) m n.
Proof.
  intros H. unfold mscale. rewrite (shape_cols _ _ _ H). eapply shape_map; eauto.
  intros; len.
Qed.
Lemma shape_bdiag2 A B m1 n1 m2 n2 : shape A m1 n1 -> shape B m2 n2 -> shape (bdiag2 A B) (m1 + m2) (n1 + n2).
Proof.
  intros HA HB. unfold bdiag2. apply shape_vstack.
  - apply shape_hstack; auto. unfold nrows. rewrite (shape_rows _ _ _ HA), (shape_cols _ _ _ HB).
    apply shape_zmat.
  - apply shape_hstack; auto. unfold nrows. rewrite (shape_rows _ _ _ HB), (shape_cols _ _ _ HA).
    apply shape_zmat.
Qed.
Lemma shape_mtake M m n idx : shape M m n -> (forall i, In i idx -> (i < m)%nat) -> shape (mtake M idx) (length idx) n.
Proof.
  intros H Hi; repeat split; simpl.
  - apply map_length.
  - apply H.
  - apply Forall_forall; intros r I; apply in_map_iff in I; destruct I as [i [<- I]].
    eapply shape_row; eauto.
Qed.
Lemma shape_cols_to M m n k : shape M m n -> (k <= n)%nat -> shape (cols_to M k) m k.
Proof.
  intros H Hk. unfold cols_to. rewrite (shape_cols _ _ _ H), Nat.min_l by lia.
  eapply shape_map; eauto. intros; len.
Qed.
Lemma shape_cols_from M m n k : shape M m n -> shape (cols_from M k) m (n - k).
Proof.
  intros H. unfold cols_from. rewrite (shape_cols _ _ _ H).
  eapply shape_map; eauto. intros; len.
Qed.
Lemma shape_ctake M m n idx : shape M m n -> shape (ctake M idx) m (length idx).
Proof. intros H. unfold ctake. eapply shape_map; eauto. intros; len. Qed.
Lemma shape_mpow A n t : shape A n n -> shape (mpow A t) n n.
Proof.
  intros H; induction t as [|t IH]; simpl.
  - rewrite (shape_cols _ _ _ H); apply shape_eye.
  - eapply shape_mm; eauto.
Qed.

#[export] Hint Resolve shape_zmat shape_eye shape_rowmat shape_vstack shape_hstack shape_mm shape_tr shape_madd
  shape_msub shape_mneg shape_mscale shape_bdiag2 shape_cols_to shape_cols_from shape_ctake shape_mpow : shp.

(** ** matrix-vector products *)
Lemma mv_vadd M m n x y : shape M m n -> length x = n -> length y = n ->
  mv M (vadd x y) = vadd (mv M x) (mv M y).
Proof.
  intros H Hx Hy. apply vec_ext; [len|]. intros i Hi. rewrite nth_vadd by len. rewrite !nth_mv. apply dot_vadd_r; lia.
Qed.
Lemma mv_vsub M m n x y : shape M m n -> length x = n -> length y = n ->
  mv M (vsub x y) = vsub (mv M x) (mv M y).
Proof.
  intros H Hx Hy. apply vec_ext; [len|]. intros i Hi. rewrite nth_vsub by len.
  rewrite !nth_mv. apply dot_vsub_r; lia.
Qed.
Lemma mv_vscale M k x : mv M (vscale k x) = vscale k (mv M x).
Proof. unfold mv, vscale. rewrite map_map. apply map_ext; intros; apply dot_vscale_r. Qed.
Lemma mv_vneg M x : mv M (vneg x) = vneg (mv M x).
Proof. unfold mv, vneg. rewrite map_map. apply map_ext; intros; apply dot_vneg_r. Qed.
Lemma mv_zeros M n : mv M (zeros n) = zeros (length (rows M)).
Proof.
  apply vec_ext; [len|]. intros; autorewrite with nthv. apply dot_zeros_r.
Qed.
Lemma mv_vstack A B x : mv (vstack A B) x = mv A x ++ mv B x.
Proof. unfold mv, vstack; simpl. apply map_app. Qed.
Lemma mv_hstack A B m n1 n2 x y : shape A m n1 -> shape B m n2 -> length x = n1 ->
  mv (hstack A B) (x ++ y) = vadd (mv A x) (mv B y).
Proof.
  intros HA HB Hx. unfold mv, hstack, vadd; simpl. rewrite map_map2, map2_map_l, map2_map_r.
  apply map2_ext_in. intros a b Ia _. apply dot_app. rewrite (shape_In _ _ _ _ HA Ia); auto.
Qed.
Lemma mv_zmat m n x : mv (zmat m n) x = zeros m.
Proof.
  unfold mv, zmat; simpl. induction m as [|m IH]; simpl; auto.
  rewrite dot_zeros_l, IH; auto.
Qed.
Lemma mv_eye n x : length x = n -> mv (eye n) x = x.
Proof.
  intros H. apply vec_ext; [unfold eye; simpl; len|].
  intros i Hi. unfold eye in Hi; lenh Hi. rewrite nth_mv. unfold eye; simpl.
  rewrite nth_map_seq by lia. apply dot_unit; auto.
Qed.
Lemma mv_rowmat v x : mv (rowmat v) x = [dot v x].
Proof. reflexivity. Qed.
Lemma mv_madd A B m n x : shape A m n -> shape B m n -> mv (madd A B) x = vadd (mv A x) (mv B x).
Proof.
  intros HA HB. unfold mv, madd, vadd; simpl. rewrite map_map2, map2_map_l, map2_map_r.
  apply map2_ext_in. intros a b Ia Ib. apply dot_vadd_l.
  rewrite (shape_In _ _ _ _ HA Ia), (shape_In _ _ _ _ HB Ib); auto.
Qed.
Lemma mv_msub A B m n x : shape A m n -> shape B m n -> mv (msub A B) x = vsub (mv A x) (mv B x).
Proof.
  intros HA HB. unfold mv, msub, vsub; simpl. rewrite map_map2, map2_map_l, map2_map_r.
  apply map2_ext_in. intros a b Ia Ib. apply dot_vsub_l.
  rewrite (shape_In _ _ _ _ HA Ia), (shape_In _ _ _ _ HB Ib); auto.
Qed.
Lemma mv_mneg A x : mv (mneg A) x = vneg (mv A x).
Proof. unfold mv, mneg, vneg; simpl. rewrite !map_map. apply map_ext; intros; apply dot_vneg_l. Qed.
Lemma mv_mscale k A x : mv (mscale k A) x = vscale k (mv A x).
Proof. unfold mv, mscale, vscale; simpl. rewrite !map_map. apply map_ext; intros; apply dot_vscale_l. Qed.

Lemma dot_lincomb n y rs x : Forall (fun r => length r = n) rs ->
  dot (lincomb n y rs) x = dot y (map (fun r => dot r x) rs).
Proof.
  revert rs; induction y as [|a y IH]; intros [|r rs] H; simpl; try apply dot_zeros_l.
  inversion H; subst. rewrite dot_vadd_l.
  - rewrite dot_vscale_l, IH; auto.
  - rewrite vscale_length, lincomb_length; auto.
Qed.
Lemma dot_vm y M m n x : shape M m n -> dot (vm y M) x = dot y (mv M x).
Proof. intros [H1 [H2 H3]]. unfold vm, mv. rewrite H2. apply dot_lincomb; auto. Qed.
Lemma mv_mm A B k n x : shape B k n -> mv (mm A B) x = mv A (mv B x).
Proof.
  intros HB. unfold mm. unfold mv at 1; simpl. rewrite map_map. unfold mv at 1.
  apply map_ext. intros r. eapply dot_vm; eauto.
Qed.
Lemma nth_vm y M m n j : shape M m n -> length y = m -> (j < n)%nat ->
  nth j (vm y M) 0 = dot y (map (fun r => nth j r 0) (rows M)).
Proof.
  intros H Hy Hj. rewrite <- (dot_unit n j (vm y M)) by (auto; eapply vm_length; eauto).
  rewrite dot_comm. erewrite dot_vm by eauto. f_equal. unfold mv. apply map_ext_in.
  intros r Ir. rewrite dot_comm. apply dot_unit; auto. eapply shape_In; eauto.
Qed.
Lemma mv_tr M m n y : shape M m n -> length y = m -> mv (tr M) y = vm y M.
Proof.
  intros H Hy. apply vec_ext.
  - unfold tr; len. rewrite (shape_cols _ _ _ H). erewrite vm_length; eauto.
  - intros j Hj. unfold tr in Hj; lenh Hj. rewrite (shape_cols _ _ _ H) in Hj.
    rewrite nth_mv. unfold tr; simpl. rewrite nth_map_seq by (rewrite (shape_cols _ _ _ H); auto).
    erewrite nth_vm by eauto. apply dot_comm.
Qed.
(** adjoint *)
Lemma dot_mv_tr M m n y x : shape M m n -> length y = m -> dot (mv (tr M) y) x = dot y (mv M x).
Proof. intros. erewrite mv_tr by eauto. eapply dot_vm; eauto. Qed.
Lemma dot_mv_tr_r M m n y x : shape M m n -> length y = m -> dot x (mv (tr M) y) = dot (mv M x) y.
Proof. intros. rewrite dot_comm. erewrite dot_mv_tr by eauto. apply dot_comm. Qed.

(** matrices of equal shape are equal when they act equally *)
Lemma mat_ext A B m n : shape A m n -> shape B m n ->
  (forall x, length x = n -> mv A x = mv B x) -> A = B.
Proof.
  intros HA HB H. destruct A as [a ra], B as [b rb].
  pose proof (shape_cols _ _ _ HA); pose proof (shape_cols _ _ _ HB); simpl in *; subst.
  f_equal. pose proof (shape_rows _ _ _ HA) as LA; pose proof (shape_rows _ _ _ HB) as LB; simpl in *.
  apply nth_ext with [] []; [lia|]. intros i Hi.
  assert (La : length (nth i ra []) = n).
  { change (length (row (Mat n ra) i) = n). eapply shape_row; eauto. lia. }
  assert (Lb : length (nth i rb []) = n).
  { change (length (row (Mat n rb) i) = n). eapply shape_row; eauto. lia. }
  apply dot_eq_ext; [congruence|]. intros w Hw.
  specialize (H w ltac:(congruence)).
  pose proof (nth_mv (Mat n ra) w i) as E1; pose proof (nth_mv (Mat n rb) w i) as E2.
  simpl in *. rewrite <- E1, <- E2, H; auto.
Qed.

Lemma mm_assoc A B C m k l n : shape A m k -> shape B k l -> shape C l n ->
  mm A (mm B C) = mm (mm A B) C.
Proof.
  intros HA HB HC. eapply mat_ext; [eauto with shp..|].
  intros x Hx. erewrite !mv_mm by eauto with shp. auto.
Qed.
Lemma mm_eye_l A m n : shape A m n -> mm (eye m) A = A.
Proof.
  intros HA. eapply mat_ext; [eauto with shp..|]. intros x Hx.
  erewrite mv_mm by eauto. apply mv_eye. rewrite mv_length. apply HA.
Qed.
Lemma mm_eye_r A m n : shape A m n -> mm A (eye n) = A.
Proof.
  intros HA. eapply mat_ext; [eauto with shp..|]. intros x Hx.
  erewrite mv_mm by eauto with shp. rewrite mv_eye; auto.
Qed.
Lemma tr_tr A m n : shape A m n -> tr (tr A) = A.
Proof.
  intros HA. eapply mat_ext; [eauto with shp..|]. intros x Hx.
  apply dot_eq_ext.
  - rewrite !mv_length. rewrite (shape_rows _ _ _ HA). apply (shape_rows _ m n). auto with shp.
  - intros w Hw. rewrite mv_length in Hw. 
    assert (length w = m) by (rewrite Hw; apply (shape_rows _ m n); auto with shp).
    erewrite dot_mv_tr by eauto with shp. rewrite dot_comm.
    erewrite dot_mv_tr by eauto with shp. apply dot_comm.
Qed.
Lemma tr_mm A B m k n : shape A m k -> shape B k n -> tr (mm A B) = mm (tr B) (tr A).
Proof.
  intros HA HB. eapply mat_ext; [eauto with shp..|]. intros x Hx.
  erewrite (mv_mm (tr B)) by eauto with shp. apply dot_eq_ext.
  - rewrite !mv_length. rewrite (shape_rows (tr (mm A B)) n m), (shape_rows (tr B) n k); eauto with shp.
  - intros w Hw. erewrite dot_mv_tr by eauto with shp.
    erewrite mv_mm by eauto. erewrite (dot_mv_tr B) by
      (eauto; rewrite mv_length; apply (shape_rows _ k m); auto with shp).
    erewrite dot_mv_tr; eauto.
Qed.
Lemma tr_madd A B m n : shape A m n -> shape B m n -> tr (madd A B) = madd (tr A) (tr B).
Proof.
  intros HA HB. eapply mat_ext; [eauto with shp..|]. intros x Hx.
  erewrite (mv_madd (tr A)) by eauto with shp. apply dot_eq_ext.
  - rewrite vadd_length, !mv_length. rewrite (shape_rows (tr (madd A B)) n m), (shape_rows (tr A) n m), (shape_rows (tr B) n m); eauto with shp. lia.
  - intros w Hw. erewrite dot_mv_tr by eauto with shp. erewrite mv_madd by eauto.
    rewrite dot_vadd_l by (rewrite !mv_length, (shape_rows (tr A) n m), (shape_rows (tr B) n m); eauto with shp).
    erewrite !dot_mv_tr by eauto. apply dot_vadd_r. rewrite !mv_length.
    rewrite (shape_rows _ _ _ HA), (shape_rows _ _ _ HB); auto.
Qed.
Lemma tr_eye n : tr (eye n) = eye n.
Proof.
  eapply mat_ext; [eauto with shp..|]. intros x Hx. rewrite mv_eye by auto.
  apply dot_eq_ext.
  - rewrite mv_length, (shape_rows _ n n); auto with shp.
  - intros w Hw. rewrite mv_length, (shape_rows _ n n) in Hw by auto with shp.
    erewrite dot_mv_tr by eauto with shp. rewrite mv_eye; auto.
Qed.

(** symmetric matrices *)
Definition sym (M : mat) : Prop := tr M = M.
Lemma sym_dot M n x y : shape M n n -> sym M -> length x = n -> length y = n ->
  dot x (mv M y) = dot y (mv M x).
Proof.
  intros H HS Hx Hy. unfold sym in HS. rewrite <- HS at 1. erewrite dot_mv_tr_r by eauto. apply dot_comm.
Qed.

(** ** block diagonal *)
Lemma mv_bdiag2 A B m1 n1 m2 n2 x y : shape A m1 n1 -> shape B m2 n2 -> length x = n1 ->
  mv (bdiag2 A B) (x ++ y) = mv A x ++ mv B y.
Proof.
  intros HA HB Hx. unfold bdiag2. rewrite mv_vstack. unfold nrows.
  rewrite (shape_rows _ _ _ HA), (shape_rows _ _ _ HB), (shape_cols _ _ _ HA), (shape_cols _ _ _ HB).
  erewrite !mv_hstack by eauto with shp. rewrite !mv_zmat. f_equal.
  - apply vadd_zeros_r. rewrite mv_length; apply HA.
  - apply vadd_zeros_l. rewrite mv_length; apply HB.
Qed.

Fixpoint sum_nat (l : list nat) : nat := match l with [] => O | a :: l' => (a + sum_nat l')%nat end.

Lemma shape_block_diag l ms ns : l <> [] -> Forall2 (fun A mn => shape A (fst mn) (snd mn)) l (combine ms ns) ->
  length ms = length ns ->
  shape (block_diag l) (sum_nat ms) (sum_nat ns).
Proof.
  intros Hne HF HL. revert ms ns Hne HF HL.
  induction l as [|A l IH]; intros ms ns Hne HF HL; [congruence|].
  destruct ms as [|m ms], ns as [|n ns]; simpl in *; try discriminate; inversion HF; subst; simpl in *.
  destruct l as [|B l].
  - destruct ms as [|m' ms], ns as [|n' ns]; simpl in *; try discriminate; inversion H4; simpl.
    rewrite !Nat.add_0_r; auto.
  - apply shape_bdiag2; auto. apply IH; auto. discriminate.
Qed.

(** block_diag acts blockwise *)
Lemma mv_block_diag l : forall xs, Forall2 (fun A x => shape A (nrows A) (length x)) l xs -> l <> [] ->
  mv (block_diag l) (concat xs) = concat (map2 mv l xs) /\
  shape (block_diag l) (sum_nat (map nrows l)) (sum_nat (map (@length R) xs)).
Proof.
  induction l as [|A l IH]; intros xs HF Hne; [congruence|].
  inversion HF as [|A' x l' xs' HA HF']; subst. simpl.
  destruct l as [|B l].
  - inversion HF'; subst; simpl. rewrite !app_nil_r, !Nat.add_0_r. auto.
  - destruct (IH xs' HF' ltac:(discriminate)) as [E S].
    split.
    + erewrite mv_bdiag2; eauto. rewrite E; auto.
    + apply shape_bdiag2; auto.
Qed.

(** quadratic forms add up over block_diag *)
Lemma dot_concat us vs : Forall2 (fun (u v : vec) => length u = length v) us vs ->
  dot (concat us) (concat vs) = fold_right Rplus 0 (map2 dot us vs).
Proof.
  induction 1; simpl; auto. rewrite dot_app by auto. rewrite IHForall2; auto.
Qed.

(** ** fancy indexing *)
Lemma mv_mtake M idx x : mv (mtake M idx) x = map (fun i => dot (row M i) x) idx.
Proof. unfold mv, mtake; simpl. rewrite map_map; auto. Qed.
Lemma mv_mtake_vtake M idx x : mv (mtake M idx) x = vtake (mv M x) idx.
Proof.
  rewrite mv_mtake. unfold vtake. apply map_ext; intros i. rewrite nth_mv; auto.
Qed.
Lemma dot_firstn_skipn k r x y : length x = k -> (k <= length r)%nat ->
  dot r (x ++ y) = dot (firstn k r) x + dot (skipn k r) y.
Proof.
  intros Hx Hr. rewrite <- (firstn_skipn k r) at 1. apply dot_app. len.
Qed.
Lemma mv_cols_split M m n k x y : shape M m n -> (k <= n)%nat -> length x = k ->
  mv M (x ++ y) = vadd (mv (cols_to M k) x) (mv (cols_from M k) y).
Proof.
  intros H Hk Hx. unfold mv, cols_to, cols_from, vadd; simpl. rewrite !map_map, map2_map_l, map2_map_r, map2_same.
  apply map_ext_in; intros r Ir. apply dot_firstn_skipn; auto. rewrite (shape_In _ _ _ _ H Ir); auto.
Qed.

(** ** powers *)
Lemma mpow_comm A n t : shape A n n -> mm A (mpow A t) = mm (mpow A t) A.
Proof.
  intros H. induction t as [|t IH]; simpl.
  - rewrite (shape_cols _ _ _ H). erewrite mm_eye_l, mm_eye_r; eauto.
  - rewrite IH at 1. eapply mm_assoc; eauto with shp.
Qed.
Lemma mv_mpow_S A n t x : shape A n n -> mv (mpow A (S t)) x = mv A (mv (mpow A t) x).
Proof. intros H. simpl. eapply mv_mm; eauto with shp. Qed.
Lemma mv_mpow_S' A n t x : shape A n n -> mv (mpow A (S t)) x = mv (mpow A t) (mv A x).
Proof. intros H. simpl. rewrite (mpow_comm A n) by auto. eapply mv_mm; eauto with shp. Qed.
Lemma mv_mpow_0 A n x : shape A n n -> length x = n -> mv (mpow A 0) x = x.
Proof. intros H Hx. simpl. rewrite (shape_cols _ _ _ H). apply mv_eye; auto. Qed.

(** ** entrywise order *)
Definition vle (u v : vec) : Prop := Forall2 Rle u v.
Lemma vle_nth u v : vle u v <-> length u = length v /\ forall i, (i < length u)%nat -> nth i u 0 <= nth i v 0.
Proof.
  split.
  - induction 1 as [|a b u v Hab H [IHl IHn]]; simpl; split; auto; try lia.
    intros [|i] Hi; simpl; auto. apply IHn; lia.
  - revert v; induction u as [|a u IH]; intros [|b v] [L H]; simpl in *; try lia; constructor.
    + apply (H O); lia.
    + apply IH. split; [lia|]. intros i Hi. apply (H (S i)); lia.
Qed.
Lemma vle_length u v : vle u v -> length u = length v.
Proof. intros H; apply vle_nth in H; tauto. Qed.
Lemma vle_app u1 u2 v1 v2 : length u1 = length v1 -> vle (u1 ++ u2) (v1 ++ v2) <-> vle u1 v1 /\ vle u2 v2.
Proof.
  revert v1; induction u1 as [|a u1 IH]; intros [|b v1] H; simpl in *; try discriminate.
  - split; [split; [constructor|auto]|tauto].
  - assert (L : length u1 = length v1) by lia. specialize (IH v1 L). split.
    + intros HF; inversion HF; subst. apply IH in H5. destruct H5. split; auto. constructor; auto.
    + intros [HF1 HF2]. inversion HF1; subst. constructor; auto. apply IH; auto.
Qed.
Lemma vle_refl u : vle u u.
Proof. induction u; constructor; auto; lra. Qed.
Lemma vle_trans u v w : vle u v -> vle v w -> vle u w.
Proof.
  intros H; revert w; induction H; intros w Hw; inversion Hw; subst; constructor; auto; try lra.
  apply IHForall2; auto.
Qed.
Lemma dot_vle y u v : vle (zeros (length y)) y -> vle u v -> dot y u <= dot y v.
Proof.
  revert u v; induction y as [|a y IH]; intros u v Hy Huv; simpl; try lra.
  inversion Hy; subst. inversion Huv; subst; try lra.
  specialize (IH _ _ H4 H0). nra.
Qed.
Lemma dot_nonneg u v : vle (zeros (length u)) u -> vle (zeros (length v)) v -> 0 <= dot u v.
Proof.
  revert v; induction u as [|a u IH]; intros v Hu Hv; simpl; try lra.
  inversion Hu as [|? ? ? ? Ha Hu']; subst. destruct v as [|b v]; try lra.
  inversion Hv as [|? ? ? ? Hb Hv']; subst. specialize (IH _ Hu' Hv'). nra.
Qed.
Lemma vle_zeros_Forall u : vle (zeros (length u)) u <-> Forall (fun a => 0 <= a) u.
Proof.
  split.
  - induction u as [|a u IH]; intros H; auto. inversion H; subst. constructor; auto.
  - induction 1; simpl; constructor; auto.
Qed.
Lemma vle_vadd_compat u v w z : vle u v -> vle w z -> vle (vadd u w) (vadd v z).
Proof.
  intros H; revert w z; induction H; intros w z H'; inversion H'; subst; simpl; try constructor; try lra.
  apply IHForall2; auto.
Qed.

(** ** np.where *)
Lemma In_where {A} (p : A -> bool) (v : list A) d i :
  In i (where_ p v) <-> (i < length v)%nat /\ p (nth i v d) = true.
Proof.
  unfold where_. rewrite in_map_iff. split.
  - intros ((j, a) & E & H). simpl in E. subst j. apply filter_In in H. destruct H as (H & P). simpl in P.
    apply (In_nth _ _ (O, d)) in H. destruct H as (k & Hk & E).
    rewrite combine_length, seq_length, Nat.min_id in Hk.
    rewrite combine_nth in E by apply seq_length. rewrite seq_nth in E by exact Hk. simpl in E.
    injection E as E1 E2. subst. auto.
  - intros (Hi & P). exists (i, nth i v d). split; [reflexivity|]. apply filter_In. split; [|exact P].
    replace (i, nth i v d) with (nth i (combine (seq 0 (length v)) v) (O, d)).
    + apply nth_In. now rewrite combine_length, seq_length, Nat.min_id.
    + rewrite combine_nth by apply seq_length. now rewrite seq_nth by exact Hi.
Qed.

(** ** decomposition of explicit Forall2 *)
Lemma Forall2_cons_inv {A B} (P : A -> B -> Prop) a b l m : Forall2 P (a :: l) (b :: m) -> P a b /\ Forall2 P l m.
Proof. intros H. inversion H; auto. Qed.
Ltac inv2 H := repeat match type of H with
  | Forall2 _ (_ :: _) (_ :: _) => apply Forall2_cons_inv in H; let H1 := fresh "I" in destruct H as (H1 & H); cbn in H1
  end.

(** ** misc *)
Lemma nrows_shape A m n : shape A m n -> nrows A = m. Proof. intros H. apply H. Qed.
Lemma nth_firstn' {A} k (l : list A) i d : (i < k)%nat -> nth i (firstn k l) d = nth i l d.
Proof. revert l i; induction k; intros [|a l] [|i] H; simpl; try lia; auto. apply IHk. lia. Qed.
Lemma nth_skipn' {A} k (l : list A) i d : nth i (skipn k l) d = nth (k + i) l d.
Proof. revert l; induction k; intros [|a l]; simpl; auto. now destruct i. Qed.
Lemma firstn_app_l {A} k (u v : list A) : length u = k -> firstn k (u ++ v) = u.
Proof. intros <-. rewrite firstn_app, Nat.sub_diag. simpl. rewrite app_nil_r. apply firstn_all. Qed.
Lemma skipn_app_l {A} k (u v : list A) : length u = k -> skipn k (u ++ v) = v.
Proof. intros <-. rewrite skipn_app, Nat.sub_diag, skipn_all. reflexivity. Qed.
Lemma Forall2_len {A B} (P : A -> B -> Prop) l1 l2 : Forall2 P l1 l2 -> length l1 = length l2.
Proof. induction 1; simpl; auto. Qed.
Lemma app_inj_iff {A} (u v w z : list A) : length u = length w -> (u ++ v = w ++ z <-> u = w /\ v = z).
Proof.
  revert w; induction u as [|a u IH]; intros [|b w] L; simpl in *; try lia; [tauto|]. split.
  - intros E. injection E as -> E. apply IH in E; [|lia]. destruct E; subst; auto.
  - intros (E1 & ->). injection E1 as -> ->. reflexivity.
Qed.
