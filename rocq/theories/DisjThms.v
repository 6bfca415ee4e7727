(** * DisjThms: relaxations of the union of two polytopes (C74), proofs *)
From Coq Require Import ZArith Classical.
From Verif Require Import Arr ArrFacts Spec SpecGeom SpecDisj Numpy Pnnls PnnlsFacts QpFacts GeomUtils Polyhedron PolyThms Oracle SolverThms NullFacts PolySolveThms PolySetThms PolyBoundThms PolyChebThms PolyCacheThms GeomThms HullOracle VertThms Projection ProjThms Disj.

Lemma points_vle A b x : points A b x <-> length x = ncols A /\ vle (mv A x) b.
Proof. unfold points. rewrite ineq_holds_vle. reflexivity. Qed.
Lemma keep_one n i : (i < n)%nat -> keep (Some [Z.of_nat i]) n = [i].
Proof.
  intros Hi. cbn [keep existsb]. assert (E : forall l s, filter (fun j => (Z.eqb (Z.of_nat j) (Z.of_nat i) || false)%bool) (seq s l) = if (s <=? i)%nat && (i <? s + l)%nat then [i] else []).
  { induction l as [|l IH]; intros s; cbn [seq filter].
    - destruct (Nat.leb_spec s i); destruct (Nat.ltb_spec i (s + 0)); cbn; try reflexivity; lia.
    - rewrite IH, Bool.orb_false_r. destruct (Z.eqb_spec (Z.of_nat s) (Z.of_nat i)) as [E|N].
      + apply Nat2Z.inj in E. subst s. destruct (Nat.leb_spec (S i) i); [lia|]. destruct (Nat.leb_spec i i); [|lia]. destruct (Nat.ltb_spec i (i + S l)); [|lia]. reflexivity.
      + assert (s <> i) by (intros ->; congruence). destruct (Nat.leb_spec (S s) i); destruct (Nat.leb_spec s i); destruct (Nat.ltb_spec i (S s + l)); destruct (Nat.ltb_spec i (s + S l)); cbn; try reflexivity; lia. }
  rewrite E. destruct (Nat.leb_spec 0 i); [|lia]. destruct (Nat.ltb_spec i (0 + n)); [reflexivity|lia].
Qed.
Lemma coords_one x i : (i < length x)%nat -> coords (Some [Z.of_nat i]) x = [nth i x 0].
Proof. intros Hi. unfold coords. change (filter _ _) with (keep (Some [Z.of_nat i]) (length x)). rewrite keep_one by exact Hi. reflexivity. Qed.
Lemma add_one_inequality (A : mat) r p m n : wf p m 0 n -> shape A 1 n ->
  exists p', add_inequality A (D1 [r]) None p = (Ok tt, p') /\ wf p' (m + 1) 0 n /\ forall x, in_poly p' x <-> in_poly p x /\ ineq_holds A [r] x.
Proof.
  intros W SA. assert (En : ncols (pA p) = n) by apply W. destruct (add_inequality A (D1 [r]) None p) as (rr, p') eqn:E. assert (ER : rr = Ok tt). { rewrite add_inequality_eq in E. cbn [nd_size length] in E. rewrite (nrows_shape _ _ _ SA), (shape_cols _ _ _ SA) in E. cbn [keep] in E. rewrite seq_length, En, !Nat.eqb_refl in E. injection E as <- _. reflexivity. }
  subst rr. exists p'. split; [reflexivity|]. assert (RA : rect A) by (unfold rect; rewrite (nrows_shape _ _ _ SA), (shape_cols _ _ _ SA); exact SA). destruct (add_inequality_step A (D1 [r]) None p m 0 n p' W RA E) as (bv & Eb & W' & H). injection Eb as <-. rewrite (nrows_shape _ _ _ SA) in W'. split; [exact W'|exact H].
Qed.
(** the relaxed polytope of one disjunct *)
Lemma relaxed_ok A b m n i : shape A m n -> length b = m -> (i < n)%nat ->
  exists p, relaxed A b i = Ok p /\ wf p (m + 2) 0 n /\ forall w, in_poly p w <-> length w = n /\ vle (mv A w) b /\ 0 <= nth i w 0 <= 1.
Proof.
  intros SA Lb Hi. unfold relaxed, run_on, Polyhedron, same_number_rows, nd_size. rewrite (nrows_shape _ _ _ SA), Lb, Nat.eqb_refl. cbn [bind]. 
  set (p0 := Poly A b (zmat 0 (ncols A)) (zeros 0) None None None None None). assert (W0 : wf p0 m 0 n). { unfold wf. cbn [p0 pA pb pC pd]. rewrite (shape_cols _ _ _ SA). split; [exact SA|]. split; [exact Lb|]. split; [apply shape_zmat|reflexivity]. }
  unfold add_bounds, add_lower_bound, add_upper_bound, pbind, pget. cbn [bound_array nd_neg vneg map].
  assert (SS : forall p m', wf p m' 0 n -> shape (selection_matrix p (Some [Z.of_nat i])) 1 n). { intros p m' W. pose proof (shape_selection p (Some [Z.of_nat i])) as Q. rewrite (proj1 (proj2 (proj1 W))), keep_one in Q by exact Hi. exact Q. }
  destruct (add_one_inequality (mneg (selection_matrix p0 (Some [Z.of_nat i]))) (- 0) p0 m n W0) as (p1 & E1 & W1 & H1); [apply shape_mneg, (SS p0 m W0)|]. 
  change (vneg [0]) with [- 0]. rewrite E1. destruct (add_one_inequality (selection_matrix p1 (Some [Z.of_nat i])) 1 p1 (m + 1) n W1) as (p2 & E2 & W2 & H2); [apply (SS p1 (m + 1)%nat W1)|]. rewrite E2.
  exists p2. split; [reflexivity|]. split; [replace (m + 2)%nat with (m + 1 + 1)%nat by lia; exact W2|]. intros w. rewrite H2, H1, !ineq_holds_vle, (in_poly_noeq p0 m n w W0), mv_mneg. cbn [p0 pA pb].
  assert (EN : ncols (pA p1) = n) by apply W1.
  split.
  - intros (((Lw & HA) & HL) & HU). rewrite mv_selection in HL by (cbn [p0 pA]; rewrite (shape_cols _ _ _ SA); exact Lw). rewrite mv_selection in HU by congruence. rewrite coords_one in HL, HU by lia. split; [exact Lw|]. split; [exact HA|]. inversion HL; inversion HU; subst. lra.
  - intros (Lw & HA & HB). rewrite !mv_selection by (try (cbn [p0 pA]; rewrite (shape_cols _ _ _ SA)); congruence). rewrite coords_one by lia. split; [split; [split; assumption|]|]; (constructor; [lra|constructor]).
Qed.
Lemma shape_column v : shape (column v) (length v) 1.
Proof. unfold column. split; [cbn; apply map_length|]. split; [reflexivity|]. apply Forall_forall. intros r Hr. apply in_map_iff in Hr. destruct Hr as (a & <- & _). reflexivity. Qed.
Lemma mv_column v t : mv (column v) [t] = vscale t v.
Proof. unfold mv, column, vscale. cbn [rows]. rewrite map_map. apply map_ext. intros a. unfold dot. cbn. ring. Qed.
Lemma column_stack_2 A B m n1 n2 : shape A m n1 -> shape B m n2 -> column_stack [A; B] = Ok (hstack A B).
Proof. intros SA SB. cbn [column_stack bind]. rewrite (nrows_shape _ _ _ SA), (nrows_shape _ _ _ SB), Nat.eqb_refl. reflexivity. Qed.
Lemma column_stack_3 A B C m n1 n2 n3 : shape A m n1 -> shape B m n2 -> shape C m n3 -> column_stack [A; B; C] = Ok (hstack A (hstack B C)).
Proof. intros SA SB SC. change (column_stack [A; B; C]) with (D <- column_stack [B; C] ;; if Nat.eqb (nrows A) (nrows D) then Ok (hstack A D) else Err ValueError). rewrite (column_stack_2 B C m n2 n3 SB SC). cbn [bind]. rewrite (nrows_shape _ _ _ SA), (nrows_shape _ _ _ (shape_hstack _ _ _ _ _ SB SC)), Nat.eqb_refl. reflexivity. Qed.
Lemma split_last (w : vec) n : length w = (n + 1)%nat -> exists x d, w = x ++ [d] /\ length x = n.
Proof.
  intros L. exists (firstn n w), (nth n w 0). split; [|len]. apply vec_ext; [rewrite app_length; cbn; rewrite firstn_length; lia|]. intros i Hi. destruct (Nat.eq_dec i n) as [->|N]; [rewrite app_nth2, firstn_length by (rewrite firstn_length; lia); replace (n - Nat.min n (length w))%nat with 0%nat by lia; reflexivity|]. rewrite app_nth1 by (rewrite firstn_length; lia). symmetry. apply nth_firstn'. lia.
Qed.

Lemma vle_iff u v u' v' k : length u = k -> length v = k -> length u' = k -> length v' = k ->
  (forall i, (i < k)%nat -> (nth i u 0 <= nth i v 0 <-> nth i u' 0 <= nth i v' 0)) -> (vle u v <-> vle u' v').
Proof. intros L1 L2 L3 L4 H. rewrite (vle_nth u v), (vle_nth u' v'), L1, L2, L3, L4. split; intros (_ & Q); (split; [reflexivity|]); intros i Hi; apply H; auto. Qed.

(** nonempty polytopes have no recession directions *)
Lemma no_recession n A b m d : shape A m n -> length b = m -> (exists q, points A b q) -> bounded_set (points A b) -> length d = n -> vle (mv A d) (zeros m) -> d = zeros n.
Proof.
  intros SA Lb (q & Hq) (B & HB) Ld Hd. assert (Lq : length q = n) by (rewrite (proj1 Hq); apply SA). apply points_vle in Hq. destruct Hq as (_ & Hq).
  assert (K : forall k, 0 <= k -> k * norm d <= B + norm q).
  { intros k Hk. assert (P : points A b (vadd q (vscale k d))). { apply points_vle. split; [rewrite (shape_cols _ _ _ SA); len|]. rewrite (mv_vadd A m n q (vscale k d)) by (assumption || len). rewrite mv_vscale. apply vle_nth in Hq. apply vle_nth in Hd. destruct Hq as (Q1 & Q2), Hd as (D1 & D2). rewrite mv_length in Q2, D2. apply vle_nth. split; [len|]. intros i Hi. rewrite nth_vadd, nth_vscale by len. assert (Hi' : (i < length (rows A))%nat) by (rewrite vadd_length, vscale_length, !mv_length in Hi; lia). specialize (Q2 i Hi'). specialize (D2 i Hi'). rewrite nth_zeros in D2. nra. }
    pose proof (HB _ P) as HP. assert (E : vscale k d = vadd (vadd q (vscale k d)) (vscale (-1) q)) by (apply vec_ext; [len|]; intros i Hi; rewrite !nth_vadd, !nth_vscale by len; lra).
    pose proof (norm_triangle (vadd q (vscale k d)) (vscale (-1) q) ltac:(len)) as T. rewrite <- E, !norm_vscale, (Rabs_right k) in T by lra. replace (Rabs (-1)) with 1 in T by (rewrite Rabs_left; lra). lra. }
  destruct (Req_dec (norm d) 0) as [Z|NZ]; [rewrite <- Ld; apply norm_zero; exact Z|]. exfalso. pose proof (norm_nonneg d) as Nd. pose proof (norm_nonneg q) as Nq. pose proof (K 0 ltac:(lra)) as K0. pose proof (K ((B + norm q + 1) / norm d) ltac:(apply Rlt_le, Rdiv_lt_0_compat; lra)) as K1. unfold Rdiv in K1. rewrite Rmult_assoc, Rinv_l, Rmult_1_r in K1 by exact NZ. lra.
Qed.
Lemma scaled_point n A b m k z : shape A m n -> length b = m -> length z = n -> 0 < k -> vle (mv A z) (vscale k b) -> points A b (vscale (/ k) z).
Proof.
  intros SA Lb Lz Hk Hz. apply points_vle. split; [rewrite (shape_cols _ _ _ SA); len|]. rewrite mv_vscale. apply vle_nth in Hz. destruct Hz as (Z1 & Z2). apply vle_nth. lenh Z1. split; [rewrite vscale_length, mv_length; exact Z1|]. intros i Hi. rewrite vscale_length in Hi. specialize (Z2 i Hi). rewrite !nth_vscale in *. apply (Rmult_le_reg_l k); [exact Hk|]. rewrite <- Rmult_assoc, Rinv_r, Rmult_1_l by lra. exact Z2.
Qed.

Section Two.
Variables (A1 A2 : mat) (b1 b2 : vec) (m1 m2 n : nat).
Hypothesis SA1 : shape A1 m1 n.
Hypothesis SA2 : shape A2 m2 n.
Hypothesis Lb1 : length b1 = m1.
Hypothesis Lb2 : length b2 = m2.

(** the constraints of the convex-hull method *)
Lemma hull_cs : exists p m, hull_constraints A1 b1 A2 b2 = Ok p /\ wf p m 0 (n + n + 1) /\ p = fresh p /\
  forall x y t, length x = n -> length y = n -> (in_poly p (x ++ y ++ [t]) <-> vle (mv A1 y) (vscale (1 - t) b1) /\ vle (mv A2 (vsub x y)) (vscale t b2) /\ 0 <= t <= 1).
Proof.
  unfold hull_constraints. rewrite (nrows_shape _ _ _ SA1), (shape_cols _ _ _ SA1), (shape_cols _ _ _ SA2).
  assert (SC1 : shape (column b1) m1 1) by (rewrite <- Lb1; apply shape_column). assert (SC2 : shape (column (vneg b2)) m2 1) by (rewrite <- Lb2, <- (vneg_length b2); apply shape_column).
  rewrite (column_stack_3 _ _ _ m1 n n 1 (shape_zmat m1 n) SA1 SC1). cbn [bind]. pose proof (shape_hstack _ _ _ _ _ (shape_zmat m1 n) (shape_hstack _ _ _ _ _ SA1 SC1)) as S1. replace (n + (n + 1))%nat with (n + n + 1)%nat in S1 by lia.
  destruct (relaxed_ok _ b1 m1 (n + n + 1) (n + n) S1 Lb1 ltac:(lia)) as (P1 & E1 & W1 & H1). rewrite E1. cbn [bind].
  rewrite (column_stack_3 _ _ _ m2 n n 1 SA2 (shape_mneg _ _ _ SA2) SC2). cbn [bind]. pose proof (shape_hstack _ _ _ _ _ SA2 (shape_hstack _ _ _ _ _ (shape_mneg _ _ _ SA2) SC2)) as S2. replace (n + (n + 1))%nat with (n + n + 1)%nat in S2 by lia.
  destruct (relaxed_ok _ (zeros (length b2)) m2 (n + n + 1) (n + n) S2 ltac:(len) ltac:(lia)) as (P2 & E2 & W2 & H2). rewrite E2. cbn [bind].
  destruct (intersection_ok P1 P2 _ _ _ _ _ W1 W2) as (P3 & E3 & W3 & H3 & F1 & F2 & F3 & F4 & F5). exists P3, (m2 + 2 + (m1 + 2))%nat. split; [exact E3|]. split; [exact W3|]. split; [destruct P3; cbn in *; unfold fresh; cbn; congruence|].
  intros x y t Lx Ly. rewrite H3, H1, H2. assert (NT : nth (n + n) (x ++ y ++ [t]) 0 = t) by (rewrite !app_nth2 by (try rewrite app_length; lia); replace (n + n - length x - length y)%nat with 0%nat by lia; reflexivity). rewrite NT.
  rewrite (mv_hstack _ _ m1 n (n + 1) x (y ++ [t]) (shape_zmat m1 n) (shape_hstack _ _ _ _ _ SA1 SC1) Lx), (mv_hstack _ _ m1 n 1 y [t] SA1 SC1 Ly), mv_zmat, mv_column.
  rewrite (mv_hstack _ _ m2 n (n + 1) x (y ++ [t]) SA2 (shape_hstack _ _ _ _ _ (shape_mneg _ _ _ SA2) SC2) Lx), (mv_hstack _ _ m2 n 1 y [t] (shape_mneg _ _ _ SA2) SC2 Ly), mv_mneg, mv_column.
  rewrite (mv_vsub A2 m2 n x y SA2 Lx Ly). assert (L1 : length (mv A1 y) = m1) by (rewrite mv_length; apply SA1). assert (L2 : forall z, length (mv A2 z) = m2) by (intros z; rewrite mv_length; apply SA2).
  assert (V1 : vle (vadd (zeros m1) (vadd (mv A1 y) (vscale t b1))) b1 <-> vle (mv A1 y) (vscale (1 - t) b1)).
  { apply (vle_iff _ _ _ _ m1); try len. intros i Hi. rewrite !nth_vadd, nth_zeros, !nth_vscale by len. lra. }
  assert (V2 : vle (vadd (mv A2 x) (vadd (vneg (mv A2 y)) (vscale t (vneg b2)))) (zeros (length b2)) <-> vle (vsub (mv A2 x) (mv A2 y)) (vscale t b2)).
  { pose proof (L2 x) as L2x. pose proof (L2 y) as L2y. apply (vle_iff _ _ _ _ m2); [rewrite !vadd_length, vscale_length, !vneg_length; lia|rewrite zeros_length; exact Lb2|rewrite vsub_length; lia|rewrite vscale_length; exact Lb2|]. intros i Hi. rewrite !nth_vadd, nth_zeros, !nth_vscale, !nth_vneg, nth_vsub by len. lra. }
  rewrite V1, V2, !app_length. cbn [length]. split; [tauto|]. intros (Q1 & Q2 & Q3). repeat split; try assumption; lia || lra.
Qed.
(** splitting a combination of points of the union *)
Lemma split_combination l : forall pts, length l = length pts -> nonneg l -> Forall (union (points A1 b1) (points A2 b2)) pts ->
  exists y z t1 t2, length y = n /\ length z = n /\ 0 <= t1 /\ 0 <= t2 /\ t1 + t2 = vsum l /\ vle (mv A1 y) (vscale t1 b1) /\ vle (mv A2 z) (vscale t2 b2) /\ lincomb n l pts = vadd y z.
Proof.
  assert (ZZ : forall A b m, shape A m n -> length b = m -> vle (mv A (zeros n)) (vscale 0 b)). { intros A b m SA Lb. rewrite mv_zeros, vscale_0, (proj1 SA), Lb. apply vle_nth. split; [reflexivity|]. intros; lra. }
  assert (ADD : forall A b m y r t a, shape A m n -> length b = m -> length y = n -> length r = n -> 0 <= a -> vle (mv A y) (vscale t b) -> vle (mv A r) b -> vle (mv A (vadd (vscale a r) y)) (vscale (a + t) b)).
  { intros A b m y r t a SA Lb Ly Lr Ha Hy Hr. rewrite (mv_vadd A m n (vscale a r) y) by (assumption || len). rewrite mv_vscale. apply vle_nth in Hy. apply vle_nth in Hr. destruct Hy as (Y1 & Y2), Hr as (R1 & R2). apply vle_nth. rewrite !mv_length in *. split; [rewrite vadd_length, !vscale_length, !mv_length; lia|]. intros i Hi. rewrite vadd_length, vscale_length, !mv_length in Hi. specialize (Y2 i ltac:(lia)). specialize (R2 i ltac:(lia)). rewrite nth_vadd, !nth_vscale in * by len. nra. }
  induction l as [|a l IH]; intros pts Ll Nl HU; destruct pts as [|r pts]; try discriminate.
  - exists (zeros n), (zeros n), 0, 0. cbn [vsum lincomb]. rewrite !zeros_length. repeat split; try lra; try (eapply ZZ; eassumption). + unfold vsum; cbn; lra. + symmetry. apply vadd_zeros_l. len.
  - destruct (IH pts ltac:(cbn in Ll; lia) (Forall_inv_tail Nl) (Forall_inv_tail HU)) as (y & z & t1 & t2 & Ly & Lz & T1 & T2 & ET & H1 & H2 & E). pose proof (Forall_inv Nl) as Ha. cbn beta in Ha. rewrite vsum_cons. cbn [lincomb]. rewrite E.
    destruct (Forall_inv HU) as [P|P]; apply points_vle in P; destruct P as (Lr & P).
    + rewrite (shape_cols _ _ _ SA1) in Lr. exists (vadd (vscale a r) y), z, (a + t1), t2. split; [len|]. split; [len|]. split; [lra|]. split; [lra|]. split; [lra|]. split; [eapply ADD; eassumption|]. split; [exact H2|]. vring.
    + rewrite (shape_cols _ _ _ SA2) in Lr. exists y, (vadd (vscale a r) z), t1, (a + t2). split; [len|]. split; [len|]. split; [lra|]. split; [lra|]. split; [lra|]. split; [exact H1|]. split; [eapply ADD; eassumption|]. vring.
Qed.
Hypothesis NE1 : exists q, points A1 b1 q.
Hypothesis NE2 : exists q, points A2 b2 q.
Hypothesis BD1 : bounded_set (points A1 b1).
Hypothesis BD2 : bounded_set (points A2 b2).
Lemma conv_one (T : vec -> Prop) x : length x = n -> T x -> conv n T x.
Proof. intros Lx Hx. exists [x]. split; [repeat constructor; exact Hx|]. apply in_hull_pt; [repeat constructor; exact Lx|left; reflexivity]. Qed.
Lemma hull_sets x y t : length x = n -> length y = n -> vle (mv A1 y) (vscale (1 - t) b1) -> vle (mv A2 (vsub x y)) (vscale t b2) -> 0 <= t <= 1 -> 
  (t = 0 /\ points A1 b1 x) \/ (t = 1 /\ points A2 b2 x) \/ exists p q, points A1 b1 p /\ points A2 b2 q /\ x = vadd (vscale (1 - t) p) (vscale t q).
Proof.
  intros Lx Ly H1 H2 Ht. destruct (Req_dec t 0) as [->|N0].
  - left. split; [reflexivity|]. rewrite Rminus_0_r, vscale_1 in H1. rewrite vscale_0, Lb2 in H2. pose proof (no_recession n A2 b2 m2 (vsub x y) SA2 Lb2 NE2 BD2 ltac:(len) H2) as E. assert (x = y). { apply vec_ext; [lia|]. intros i Hi. apply (f_equal (fun v => nth i v 0)) in E. rewrite nth_vsub, nth_zeros in E by len. lra. } subst y. apply points_vle. split; [rewrite (shape_cols _ _ _ SA1); exact Lx|exact H1].
  - destruct (Req_dec t 1) as [->|N1].
    + right. left. split; [reflexivity|]. replace (1 - 1) with 0 in H1 by lra. rewrite vscale_0, Lb1 in H1. rewrite vscale_1 in H2. pose proof (no_recession n A1 b1 m1 y SA1 Lb1 NE1 BD1 Ly H1) as E. subst y. assert (vsub x (zeros n) = x) as EX by (apply vec_ext; [len|]; intros i Hi; rewrite nth_vsub, nth_zeros by len; lra). rewrite EX in H2. apply points_vle. split; [rewrite (shape_cols _ _ _ SA2); exact Lx|exact H2].
    + right. right. exists (vscale (/ (1 - t)) y), (vscale (/ t) (vsub x y)). split; [eapply scaled_point; try eassumption; lra|]. split; [eapply scaled_point; try eassumption; try len; lra|]. rewrite !vscale_vscale, !Rinv_r, !vscale_1 by lra. vring.
Qed.
Lemma hull_projection x : length x = n -> ((exists y t, length y = n /\ vle (mv A1 y) (vscale (1 - t) b1) /\ vle (mv A2 (vsub x y)) (vscale t b2) /\ 0 <= t <= 1) <-> conv n (union (points A1 b1) (points A2 b2)) x).
Proof.
  intros Lx. split.
  - intros (y & t & Ly & H1 & H2 & Ht). destruct (hull_sets x y t Lx Ly H1 H2 Ht) as [(_ & H)|[(_ & H)|(p & q & Hp & Hq & E)]]; [apply conv_one; [exact Lx|left; exact H]|apply conv_one; [exact Lx|right; exact H]|].
    exists [p; q]. split; [constructor; [left; exact Hp|constructor; [right; exact Hq|constructor]]|]. assert (Lp : length p = n) by (rewrite (proj1 Hp); apply SA1). assert (Lq : length q = n) by (rewrite (proj1 Hq); apply SA2). exists [1 - t; t]. split; [reflexivity|]. split; [constructor; [lra|constructor; [lra|constructor]]|]. split; [unfold vsum; cbn; lra|]. cbn [lincomb]. rewrite E. f_equal. symmetry. apply vadd_zeros_r. len.
  - intros (pts & HU & l & Ll & Nl & Sl & E). destruct (split_combination l pts Ll Nl HU) as (y & z & t1 & t2 & Ly & Lz & T1 & T2 & ET & H1 & H2 & E'). exists y, t2. split; [exact Ly|]. split; [replace (1 - t2) with t1 by lra; exact H1|]. assert (vsub x y = z) as ->. { rewrite E, E'. apply vec_ext; [len|]. intros i Hi. rewrite nth_vsub, nth_vadd by len. lra. } split; [exact H2|lra].
Qed.
End Two.

Lemma thin_iff S T n : (forall y, S y <-> T y) -> thin S n -> thin T n.
Proof. intros E (a & La & Na & H). exists a. split; [exact La|]. split; [exact Na|]. intros y y' Hy Hy'. apply H; apply E; assumption. Qed.
Lemma unlucky_iff np S T n : (forall y, S y <-> T y) -> unlucky np S n -> unlucky np T n.
Proof.
  intros E (i & v1 & v2 & vs & z & Hi & Hl & HS & HO & H). exists i, v1, v2, vs, z. split; [exact Hi|]. split; [exact Hl|]. split; [revert HS; apply Forall_impl; intros v; apply E|]. split; [|exact H]. intros y Hy. apply HO, E, Hy.
Qed.
Lemma take_front (x r : vec) n : length x = n -> map (fun i => nth i (x ++ r) 0) (seq 0 n) = x.
Proof. intros Lx. apply vec_ext; [rewrite map_length, seq_length; lia|]. intros i Hi. rewrite map_length, seq_length in Hi. rewrite (nth_map_seq (fun i => nth i (x ++ r) 0)) by exact Hi. apply app_nth1. lia. Qed.
Lemma split3 (w : vec) n : length w = (n + n + 1)%nat -> exists x y t, w = x ++ y ++ [t] /\ length x = n /\ length y = n.
Proof. intros L. destruct (split_last w (n + n) L) as (v & t & -> & Lv). exists (firstn n v), (skipn n v), t. rewrite app_assoc, firstn_skipn. split; [reflexivity|]. rewrite firstn_length, skipn_length. lia. Qed.

(*@ Theorem C74_convex_hull : for two nonempty polytopes P1 and P2 of the same dimension, the constraints of the convex-hull method are built without exceptions; with the indicator delta at 0 they say x in P1, with delta at 1 they say x in P2; and the points x for which some auxiliary y and delta in [0, 1] satisfy them are exactly the convex hull of the union of P1 and P2 *)
Lemma hull_ok_all A1 b1 A2 b2 m1 m2 n : shape A1 m1 n -> shape A2 m2 n -> length b1 = m1 -> length b2 = m2 ->
  (exists q, points A1 b1 q) -> (exists q, points A2 b2 q) -> bounded_set (points A1 b1) -> bounded_set (points A2 b2) ->
  exists cs m, hull_constraints A1 b1 A2 b2 = Ok cs /\ wf cs m 0 (n + n + 1) /\ bounded_set (in_poly cs) /\
    (forall x, length x = n -> ((exists y, length y = n /\ in_poly cs (x ++ y ++ [0])) <-> points A1 b1 x)) /\
    (forall x, length x = n -> ((exists y, length y = n /\ in_poly cs (x ++ y ++ [1])) <-> points A2 b2 x)) /\
    (forall x, projection (in_poly cs) (seq 0 n) x <-> length x = n /\ conv n (union (points A1 b1) (points A2 b2)) x).
Proof.
  intros S1 S2 L1 L2 N1 N2 B1 B2. destruct (hull_cs A1 A2 b1 b2 m1 m2 n S1 S2 L1 L2) as (cs & m & E & W & _ & H). exists cs, m. split; [exact E|]. split; [exact W|].
  assert (VZ : forall A mm z (b : vec), shape A mm n -> length b = mm -> z = zeros n -> vle (mv A z) (vscale 0 b)). { intros A mm z b SA Lb ->. rewrite mv_zeros, vscale_0, (proj1 SA), Lb. apply vle_nth. split; [reflexivity|]. intros; lra. }
  split.
  { destruct B1 as (D1 & B1), B2 as (D2 & B2). exists (3 * Rmax 0 D1 + 2 * Rmax 0 D2 + 1). intros w Iw. assert (Lw : length w = (n + n + 1)%nat) by (destruct Iw as (Q & _); rewrite Q; apply W). destruct (split3 w n Lw) as (x & y & t & -> & Lx & Ly). apply H in Iw; [|exact Lx|exact Ly]. destruct Iw as (H1 & H2 & Ht).
    pose proof (Rmax_l 0 D1). pose proof (Rmax_r 0 D1). pose proof (Rmax_l 0 D2). pose proof (Rmax_r 0 D2).
    assert (NY : norm y <= Rmax 0 D1). { destruct (Req_dec t 1) as [->|NT]. - replace (1 - 1) with 0 in H1 by lra. rewrite vscale_0, L1 in H1. rewrite (no_recession n A1 b1 m1 y S1 L1 N1 (ex_intro _ D1 B1) Ly H1), norm_zeros. lra. - pose proof (B1 _ (scaled_point n A1 b1 m1 (1 - t) y S1 L1 Ly ltac:(lra) H1)) as Q. rewrite norm_vscale, Rabs_right in Q by (apply Rle_ge, Rlt_le, Rinv_0_lt_compat; lra). apply (Rmult_le_compat_l (1 - t)) in Q; [|lra]. rewrite <- Rmult_assoc, Rinv_r, Rmult_1_l in Q by lra. nra. }
    assert (NZ : norm (vsub x y) <= Rmax 0 D2). { destruct (Req_dec t 0) as [->|NT]. - rewrite vscale_0, L2 in H2. rewrite (no_recession n A2 b2 m2 (vsub x y) S2 L2 N2 (ex_intro _ D2 B2) ltac:(len) H2), norm_zeros. lra. - pose proof (B2 _ (scaled_point n A2 b2 m2 t (vsub x y) S2 L2 ltac:(len) ltac:(lra) H2)) as Q. rewrite norm_vscale, Rabs_right in Q by (apply Rle_ge, Rlt_le, Rinv_0_lt_compat; lra). apply (Rmult_le_compat_l t) in Q; [|lra]. rewrite <- Rmult_assoc, Rinv_r, Rmult_1_l in Q by lra. nra. }
    assert (NX : norm x <= Rmax 0 D1 + Rmax 0 D2). { pose proof (norm_triangle y (vsub x y) ltac:(len)) as T. assert (EX : vadd y (vsub x y) = x) by vring. rewrite EX in T. lra. }
    pose proof (norm_nonneg x). pose proof (norm_nonneg y). apply norm_le_sqr; [lra|]. rewrite !dot_app by reflexivity. rewrite <- (norm_sqr x), <- (norm_sqr y). cbn. nra. }
  split; [|split].
  - intros x Lx. split.
    + intros (y & Ly & Iy). apply H in Iy; [|assumption|assumption]. destruct Iy as (H1 & H2 & Ht). destruct (hull_sets A1 A2 b1 b2 m1 m2 n S1 S2 L1 L2 N1 N2 B1 B2 x y 0 Lx Ly H1 H2 Ht) as [(_ & Q)|[(Q & _)|(p & q & P1 & P2 & EX)]]; [exact Q|lra|]. assert (x = p) as ->; [|exact P1]. assert (length p = n) by (rewrite (proj1 P1); apply S1). assert (length q = n) by (rewrite (proj1 P2); apply S2). rewrite EX. apply vec_ext; [len|]. intros i Hi. rewrite nth_vadd, !nth_vscale by len. lra.
    + intros P. exists x. split; [exact Lx|]. apply H; [assumption|assumption|]. apply points_vle in P. split; [rewrite Rminus_0_r, vscale_1; apply P|]. split; [|lra]. apply (VZ A2 m2); [assumption|assumption|]. rewrite <- Lx. apply vsub_self.
  - intros x Lx. split.
    + intros (y & Ly & Iy). apply H in Iy; [|assumption|assumption]. destruct Iy as (H1 & H2 & Ht). destruct (hull_sets A1 A2 b1 b2 m1 m2 n S1 S2 L1 L2 N1 N2 B1 B2 x y 1 Lx Ly H1 H2 Ht) as [(Q & _)|[(_ & Q)|(p & q & P1 & P2 & EX)]]; [lra|exact Q|]. assert (x = q) as ->; [|exact P2]. assert (length p = n) by (rewrite (proj1 P1); apply S1). assert (length q = n) by (rewrite (proj1 P2); apply S2). rewrite EX. apply vec_ext; [len|]. intros i Hi. rewrite nth_vadd, !nth_vscale by len. lra.
    + intros P. exists (zeros n). split; [len|]. apply H; [assumption|len|]. apply points_vle in P. split; [replace (1 - 1) with 0 by lra; apply (VZ A1 m1); auto|]. split; [|lra]. rewrite vscale_1. replace (vsub x (zeros n)) with x; [apply P|]. apply vec_ext; [len|]. intros i Hi. rewrite nth_vsub, nth_zeros by len. lra.
  - intros x. split.
    + intros (w & Iw & <-). assert (Lw : length w = (n + n + 1)%nat) by (destruct Iw as (Q & _); rewrite Q; apply W). destruct (split3 w n Lw) as (x & y & t & -> & Lx & Ly). rewrite take_front by exact Lx. split; [exact Lx|]. apply (hull_projection A1 A2 b1 b2 m1 m2 n S1 S2 L1 L2 N1 N2 B1 B2 x Lx). exists y, t. split; [exact Ly|]. apply H; assumption.
    + intros (Lx & C). apply (hull_projection A1 A2 b1 b2 m1 m2 n S1 S2 L1 L2 N1 N2 B1 B2 x Lx) in C. destruct C as (y & t & Ly & Q). exists (x ++ y ++ [t]). split; [apply H; assumption|]. apply take_front, Lx.
Qed.
(*@ Theorem C74_hull_drawn_partial : the relaxation drawn by the notebook for the convex-hull method (two or more variables, diameter of the union at most D, a point of P1 of moderate size): a polyhedron inside the convex hull of the union of P1 and P2 that fills it up to the error of project_to; otherwise LinAlgError, only for an unlucky random offset, or QhullError, only if that convex hull is thinner than the tolerance.
   Missing: the error and the exceptions of project_to (see C17). *)
Lemma hull_drawn np A1 b1 A2 b2 m1 m2 n D : exact_np np -> hull_ok np -> hull_total np -> rand_ok np -> (2 <= n)%nat ->
  shape A1 m1 n -> shape A2 m2 n -> length b1 = m1 -> length b2 = m2 ->
  (exists q, points A1 b1 q /\ near (q ++ q)) -> (exists q, points A2 b2 q) -> bounded_set (points A1 b1) -> bounded_set (points A2 b2) ->
  let S := fun x => length x = n /\ conv n (union (points A1 b1) (points A2 b2)) x in
  (forall y y', S y -> S y' -> norm (vsub y y') <= D) ->
  exists F, forall fuel, let r := relaxation np fuel n (hull_constraints A1 b1 A2 b2) in
  (exists q k, r = Ok q /\ wf q k 0 n /\ (forall x, in_poly q x -> S x) /\ Forall (fun a => norm a = 1) (rows (pA q)) /\
     (forall x, S x -> forall i, (i < k)%nat -> dot (row (pA q) i) x <= nth i (pb q) 0 + (tol7 + (/ 100000 + INR n * / 100000000) * D))) \/
  (r = Err LinAlgError /\ unlucky np S n) \/ (r = Err QhullError /\ thin S n) \/ (r = Err OutOfFuel /\ (fuel < F)%nat).
Proof.
  intros Hnp Hh Ht Hr Hn S1 S2 L1 L2 (q1 & P1 & NQ) N2 B1 B2 S HD. assert (N1 : exists q, points A1 b1 q) by eauto.
  destruct (hull_cs A1 A2 b1 b2 m1 m2 n S1 S2 L1 L2) as (cs' & m' & E' & _ & FR & _).
  destruct (hull_ok_all A1 b1 A2 b2 m1 m2 n S1 S2 L1 L2 N1 N2 B1 B2) as (cs & m & E & W & BD & H0 & _ & HP). assert (cs' = cs) by congruence. subst cs'. clear E' m'.
  assert (LS : length (seq 0 n) = n) by apply seq_length. fold S in HP.
  assert (NR : exists x, in_poly cs x /\ near x). { assert (Lq : length q1 = n) by (rewrite (proj1 P1); apply S1). destruct (hull_cs A1 A2 b1 b2 m1 m2 n S1 S2 L1 L2) as (cs' & m' & E' & _ & _ & HI). assert (cs' = cs) by congruence. subst cs'. exists (q1 ++ q1 ++ [0]). split.
    - apply HI; [assumption|assumption|]. apply points_vle in P1. split; [rewrite Rminus_0_r, vscale_1; apply P1|]. split; [|lra]. assert (vsub q1 q1 = zeros n) as -> by (rewrite <- Lq; apply vsub_self). rewrite mv_zeros, vscale_0, (proj1 S2), L2. apply vle_nth. split; [reflexivity|]. intros; lra.
    - unfold near in *. rewrite !dot_app in * by reflexivity. cbn. rewrite Rmult_0_l, !Rplus_0_r. exact NQ. }
  destruct (project_to_ok np cs m (n + n + 1) (seq 0 n) D Hnp Hh Ht Hr W) as (F & H).
  { rewrite FR. apply cache_fresh. } { exact NR. } { exact BD. } { apply seq_NoDup. } { apply Forall_forall. intros i Hi. apply in_seq in Hi. lia. } { lia. } { intros y y' Hy Hy'. apply HD; apply HP; assumption. }
  rewrite LS in H. exists F. intros fuel r. unfold r, relaxation. rewrite E. cbn [bind]. destruct (H fuel) as [(q & vs & k & Q1 & Q2 & _ & _ & _ & Q6 & Q7 & Q8 & _)|[(Q & U)|[(Q & U)|Q]]].
  - left. exists q, k. split; [exact Q1|]. split; [exact Q2|]. split; [intros x Hx; apply HP, Q6, Hx|]. split; [exact Q8|]. intros x Hx. apply Q7, HP, Hx.
  - right. left. split; [exact Q|]. revert U. apply unlucky_iff. exact HP.
  - right. right. left. split; [exact Q|]. revert U. apply thin_iff. exact HP.
  - right. right. right. exact Q.
Qed.

Lemma big_m_cs A1 b1 A2 b2 M m n : shape A1 m n -> shape A2 m n -> length b1 = m -> length b2 = m -> length M = m ->
  exists cs k, big_m_constraints A1 b1 A2 b2 M = Ok cs /\ wf cs k 0 (n + 1) /\
  forall x t, length x = n -> (in_poly cs (x ++ [t]) <-> vle (mv A1 x) (vadd b1 (vscale t M)) /\ vle (mv A2 x) (vadd b2 (vscale t M)) /\ 0 <= t <= 1).
Proof.
  intros S1 S2 L1 L2 LM. unfold big_m_constraints. rewrite (shape_cols _ _ _ S1), (shape_cols _ _ _ S2). assert (SC : shape (column (vneg M)) m 1) by (rewrite <- LM, <- (vneg_length M); apply shape_column).
  rewrite (column_stack_2 _ _ m n 1 S1 SC), (column_stack_2 _ _ m n 1 S2 SC). cbn [bind].
  destruct (relaxed_ok _ b1 m (n + 1) n (shape_hstack _ _ _ _ _ S1 SC) L1 ltac:(lia)) as (P1 & E1 & W1 & H1). destruct (relaxed_ok _ b2 m (n + 1) n (shape_hstack _ _ _ _ _ S2 SC) L2 ltac:(lia)) as (P2 & E2 & W2 & H2). rewrite E1. cbn [bind]. rewrite E2. cbn [bind].
  destruct (intersection_ok P1 P2 _ _ _ _ _ W1 W2) as (P3 & E3 & W3 & H3 & _). exists P3, (m + 2 + (m + 2))%nat. split; [exact E3|]. split; [exact W3|].
  intros x t Lx. rewrite H3, H1, H2. assert (NT : nth n (x ++ [t]) 0 = t) by (rewrite app_nth2 by lia; replace (n - length x)%nat with 0%nat by lia; reflexivity). rewrite NT.
  rewrite (mv_hstack _ _ m n 1 x [t] S1 SC Lx), (mv_hstack _ _ m n 1 x [t] S2 SC Lx), mv_column.
  assert (V : forall A (b : vec), shape A m n -> length b = m -> (vle (vadd (mv A x) (vscale t (vneg M))) b <-> vle (mv A x) (vadd b (vscale t M)))).
  { intros A b SA Lb. assert (LA : length (mv A x) = m) by (rewrite mv_length; apply SA). apply (vle_iff _ _ _ _ m); [rewrite vadd_length, vscale_length, vneg_length; lia|exact Lb|exact LA|rewrite vadd_length, vscale_length; lia|]. intros i Hi. rewrite !nth_vadd, !nth_vscale, nth_vneg by (rewrite vscale_length, ?vneg_length; lia). lra. }
  rewrite (V A1 b1 S1 L1), (V A2 b2 S2 L2), app_length. cbn [length]. split; [tauto|]. intros (Q1 & Q2 & Q3). repeat split; try assumption; lia || lra.
Qed.
(*@ Theorem C74_big_m_partial : what the big-M cell computes, M nonnegative: the projection of its constraints is the set of x with A_1 x <= b_1 + M and A_2 x <= b_2 + M, because the second disjunct gets M delta instead of M (1 - delta); this set contains the big-M relaxation the notebook describes, hence the union of P1 and P2 if M is large enough.
   Missing: it is not that relaxation (see C74_big_m_refuted). *)
Lemma big_m_drawn A1 b1 A2 b2 M m n : shape A1 m n -> shape A2 m n -> length b1 = m -> length b2 = m -> length M = m -> nonneg M ->
  exists cs k, big_m_constraints A1 b1 A2 b2 M = Ok cs /\ wf cs k 0 (n + 1) /\
  (forall x, projection (in_poly cs) (seq 0 n) x <-> points A1 (vadd b1 M) x /\ points A2 (vadd b2 M) x) /\
  (forall x delta, 0 <= delta <= 1 -> big_m A1 b1 A2 b2 M x delta -> projection (in_poly cs) (seq 0 n) x) /\
  ((forall x, points A2 b2 x -> points A1 (vadd b1 M) x) -> (forall x, points A1 b1 x -> points A2 (vadd b2 M) x) -> forall x, union (points A1 b1) (points A2 b2) x -> projection (in_poly cs) (seq 0 n) x).
Proof.
  intros S1 S2 L1 L2 LM NM. destruct (big_m_cs A1 b1 A2 b2 M m n S1 S2 L1 L2 LM) as (cs & k & E & W & H). exists cs, k. split; [exact E|]. split; [exact W|].
  assert (MO : forall A (b : vec) x t, shape A m n -> length b = m -> 0 <= t <= 1 -> vle (mv A x) (vadd b (vscale t M)) -> vle (mv A x) (vadd b M)).
  { intros A b x t SA Lb Ht Q. apply (vle_trans _ _ _ Q). apply vle_nth. rewrite !vadd_length, vscale_length. split; [reflexivity|]. intros i Hi. rewrite !nth_vadd, nth_vscale by (rewrite ?vscale_length; lia). assert (0 <= nth i M 0). { unfold nonneg in NM. rewrite Forall_forall in NM. apply NM, nth_In. lia. } nra. }
  assert (PR : forall x, projection (in_poly cs) (seq 0 n) x <-> points A1 (vadd b1 M) x /\ points A2 (vadd b2 M) x).
  { intros x. rewrite !points_vle, (shape_cols _ _ _ S1), (shape_cols _ _ _ S2). split.
    - intros (w & Iw & <-). assert (Lw : length w = (n + 1)%nat) by (destruct Iw as (Q & _); rewrite Q; apply W). destruct (split_last w n Lw) as (x & t & -> & Lx). rewrite take_front by exact Lx. apply H in Iw; [|exact Lx]. destruct Iw as (Q1 & Q2 & Ht). repeat split; try exact Lx; eapply MO; eassumption.
    - intros ((Lx & Q1) & (_ & Q2)). exists (x ++ [1]). split; [|apply take_front, Lx]. apply H; [exact Lx|]. rewrite vscale_1. repeat split; try assumption; lra. }
  split; [exact PR|]. split.
  - intros x t Ht (P1 & P2). apply PR. apply points_vle in P1. apply points_vle in P2. destruct P1 as (Lx & P1), P2 as (Lx' & P2). split; apply points_vle; (split; [assumption|]); [apply (MO A1 b1 x t)|apply (MO A2 b2 x (1 - t))]; try assumption. lra.
  - intros I1 I2 x U. apply PR. assert (IM : forall A (b : vec), shape A m n -> length b = m -> points A b x -> points A (vadd b M) x). { intros A b SA Lb P. rewrite points_vle in *. destruct P as (Lx & P). split; [exact Lx|]. eapply MO with (t := 0); try eassumption; [lra|]. rewrite vscale_0, LM, <- Lb, (vadd_zeros_r (length b)) by reflexivity. exact P. }
    destruct U as [P|P]; [split; [apply IM; assumption|apply I2, P]|split; [apply I1, P|apply IM; assumption]].
Qed.
(** the notebook's data *)
Definition nA1 : mat := Mat 2 [[-1; 0]; [0; -1]; [1; 1]].
Definition nb1 : vec := [-1/10; -1/10; 1].
Definition nA2 : mat := mneg nA1.
Definition nb2 : vec := [-1/20; -1/20; 1/2].
Definition nM : vec := [95/100; 95/100; 0].
Lemma nA1_shape : shape nA1 3 2. Proof. repeat split; repeat constructor. Qed.
Lemma nA2_shape : shape nA2 3 2. Proof. apply shape_mneg, nA1_shape. Qed.
Lemma nvle3 a b c d e f : vle [a; b; c] [d; e; f] <-> a <= d /\ b <= e /\ c <= f.
Proof. split; [intros H; inversion H as [|? ? ? ? ? H']; inversion H' as [|? ? ? ? ? H'']; inversion H''; subst; auto|intros (? & ? & ?); do 3 (constructor; [assumption|]); constructor]. Qed.
Lemma nP1 x y : points nA1 nb1 [x; y] <-> 1/10 <= x /\ 1/10 <= y /\ x + y <= 1.
Proof. rewrite points_vle. change (mv nA1 [x; y]) with [dot [-1; 0] [x; y]; dot [0; -1] [x; y]; dot [1; 1] [x; y]]. unfold nb1. rewrite nvle3. cbn. split; [intros (_ & Q)|intros Q; split; [reflexivity|]]; lra. Qed.
Lemma nP2 x y : points nA2 nb2 [x; y] <-> x <= -1/20 /\ y <= -1/20 /\ -1/2 <= x + y.
Proof. rewrite points_vle. unfold nA2. rewrite mv_mneg. change (mv nA1 [x; y]) with [dot [-1; 0] [x; y]; dot [0; -1] [x; y]; dot [1; 1] [x; y]]. unfold nb2. cbn [vneg map]. rewrite nvle3. cbn. split; [intros (_ & Q)|intros Q; split; [reflexivity|]]; lra. Qed.
Lemma two (x : vec) : length x = 2%nat -> exists a b, x = [a; b].
Proof. destruct x as [|a [|b [|]]]; try discriminate. eauto. Qed.
Lemma points_two A b x : points A b x -> ncols A = 2%nat -> exists u v, x = [u; v].
Proof. intros (L & _) E. apply two. congruence. Qed.
(*@ Theorem C74_big_m_refuted : with the notebook's polytopes and its M (which is large enough), the drawn relaxation contains a point at which the notebook's own big-M constraints hold for no delta in [0, 1]; and no point at all satisfies the constraints with delta = 0, although P1 is not empty *)
Lemma big_m_wrong : exists cs, big_m_constraints nA1 nb1 nA2 nb2 nM = Ok cs /\
  (forall x, points nA2 nb2 x -> points nA1 (vadd nb1 nM) x) /\ (forall x, points nA1 nb1 x -> points nA2 (vadd nb2 nM) x) /\
  (exists x, projection (in_poly cs) [0%nat; 1%nat] x /\ forall delta, 0 <= delta <= 1 -> ~ big_m nA1 nb1 nA2 nb2 nM x delta) /\
  (forall x, ~ in_poly cs (x ++ [0])) /\ (exists x, points nA1 nb1 x).
Proof.
  assert (NM : nonneg nM) by (unfold nM, nonneg; constructor; [lra|constructor; [lra|constructor; [lra|constructor]]]).
  destruct (big_m_drawn nA1 nb1 nA2 nb2 nM 3 2 nA1_shape nA2_shape eq_refl eq_refl eq_refl NM) as (cs & k & E & W & PR & _). destruct (big_m_cs nA1 nb1 nA2 nb2 nM 3 2 nA1_shape nA2_shape eq_refl eq_refl eq_refl) as (cs' & k' & E' & W' & H). assert (cs' = cs) by congruence. subst cs'. exists cs. split; [exact E|].
  assert (V1 : forall t x y, points nA1 (vadd nb1 (vscale t nM)) [x; y] <-> - x <= -1/10 + t * (95/100) /\ - y <= -1/10 + t * (95/100) /\ x + y <= 1).
  { intros t x y. rewrite points_vle. change (mv nA1 [x; y]) with [dot [-1; 0] [x; y]; dot [0; -1] [x; y]; dot [1; 1] [x; y]]. unfold nb1, nM. cbn. rewrite nvle3. split; [intros (_ & Q)|intros Q; split; [reflexivity|]]; lra. }
  assert (V2 : forall t x y, points nA2 (vadd nb2 (vscale t nM)) [x; y] <-> x <= -1/20 + t * (95/100) /\ y <= -1/20 + t * (95/100) /\ - x - y <= 1/2).
  { intros t x y. rewrite points_vle. unfold nA2. rewrite mv_mneg. change (mv nA1 [x; y]) with [dot [-1; 0] [x; y]; dot [0; -1] [x; y]; dot [1; 1] [x; y]]. unfold nb2, nM. cbn. rewrite nvle3. split; [intros (_ & Q)|intros Q; split; [reflexivity|]]; lra. }
  split; [|split; [|split; [|split]]].
  - intros x Px. destruct (points_two _ _ _ Px eq_refl) as (u & v & ->). apply nP2 in Px. rewrite <- (vscale_1 nM). apply V1. lra.
  - intros x Px. destruct (points_two _ _ _ Px eq_refl) as (u & v & ->). apply nP1 in Px. rewrite <- (vscale_1 nM). apply V2. lra.
  - exists [-5/10; 9/10]. split; [apply PR; rewrite <- (vscale_1 nM); rewrite V1, V2; lra|]. intros t Ht (Q1 & Q2). apply V1 in Q1. apply V2 in Q2. lra.
  - intros x Ix. assert (Lx : length x = 2%nat). { destruct Ix as (Q & _). rewrite (proj1 (proj2 (proj1 W))), app_length in Q. cbn in Q. lia. } apply H in Ix; [|exact Lx]. destruct (two x Lx) as (u & v & ->). destruct Ix as (Q1 & Q2 & _). assert (points nA1 (vadd nb1 (vscale 0 nM)) [u; v]) by (apply points_vle; split; [reflexivity|exact Q1]). assert (points nA2 (vadd nb2 (vscale 0 nM)) [u; v]) by (apply points_vle; split; [reflexivity|exact Q2]). rewrite V1 in H0. rewrite V2 in H1. lra.
  - exists [1/2; 1/2]. apply nP1. lra.
Qed.
Lemma nbounded1 : bounded_set (points nA1 nb1).
Proof. exists 2. intros x Px. destruct (points_two _ _ _ Px eq_refl) as (u & v & ->). apply nP1 in Px. apply norm_le_sqr; [lra|]. cbn. nra. Qed.
Lemma nbounded2 : bounded_set (points nA2 nb2).
Proof. exists 2. intros x Px. destruct (points_two _ _ _ Px eq_refl) as (u & v & ->). apply nP2 in Px. apply norm_le_sqr; [lra|]. cbn. nra. Qed.
Definition nS (x : vec) : Prop := length x = 2%nat /\ conv 2 (union (points nA1 nb1) (points nA2 nb2)) x.
Lemma nS_half a b c u v : (forall x y, 1/10 <= x /\ 1/10 <= y /\ x + y <= 1 -> a * x + b * y <= c) -> (forall x y, x <= -1/20 /\ y <= -1/20 /\ -1/2 <= x + y -> a * x + b * y <= c) -> nS [u; v] -> a * u + b * v <= c.
Proof.
  intros H1 H2 (_ & pts & HU & HH). assert (Q : dot [a; b] [u; v] <= c); [|cbn in Q; lra].
  assert (T : forall p, In p pts -> exists x y, p = [x; y] /\ union (points nA1 nb1) (points nA2 nb2) [x; y]). { intros p Ip. rewrite Forall_forall in HU. specialize (HU p Ip). assert (exists x y, p = [x; y]) as (x & y & ->) by (destruct HU as [P|P]; apply (points_two _ _ _ P eq_refl)). eauto. }
  apply (in_hull_max 2 pts [a; b] c [u; v]); [apply Forall_forall; intros p Ip; destruct (T p Ip) as (x & y & -> & _); reflexivity| |exact HH].
  intros p Ip. destruct (T p Ip) as (x & y & -> & [P|P]); [apply nP1 in P; specialize (H1 x y P)|apply nP2 in P; specialize (H2 x y P)]; cbn; lra.
Qed.
Lemma nS_in1 x y : 1/10 <= x /\ 1/10 <= y /\ x + y <= 1 -> nS [x; y].
Proof. intros H. split; [reflexivity|]. apply conv_one; [reflexivity|]. left. apply nP1, H. Qed.
Lemma nS_in2 x y : x <= -1/20 /\ y <= -1/20 /\ -1/2 <= x + y -> nS [x; y].
Proof. intros H. split; [reflexivity|]. apply conv_one; [reflexivity|]. right. apply nP2, H. Qed.
(*@ Example C74_example : the notebook's two triangles meet the hypotheses; the origin is in the convex hull of their union but in neither; and with an exact library the convex-hull relaxation is returned, inside that convex hull *)
Lemma disj_example : (exists q, points nA1 nb1 q /\ near (q ++ q)) /\ (exists q, points nA2 nb2 q) /\ bounded_set (points nA1 nb1) /\ bounded_set (points nA2 nb2) /\
  conv 2 (union (points nA1 nb1) (points nA2 nb2)) [0; 0] /\ ~ union (points nA1 nb1) (points nA2 nb2) [0; 0] /\
  exists F, forall fuel, (F <= fuel)%nat -> exists q, relaxation np_half fuel 2 (hull_constraints nA1 nb1 nA2 nb2) = Ok q /\ forall x, in_poly q x -> conv 2 (union (points nA1 nb1) (points nA2 nb2)) x.
Proof.
  assert (HQ : exists q, points nA1 nb1 q /\ near (q ++ q)) by (exists [1/2; 1/2]; split; [apply nP1; lra|unfold near, tol7; cbn; lra]). assert (HQ2 : exists q, points nA2 nb2 q) by (exists [-1/10; -1/10]; apply nP2; lra).
  split; [exact HQ|]. split; [exact HQ2|]. split; [exact nbounded1|]. split; [exact nbounded2|]. split; [|split].
  { exists [[1/10; 1/10]; [-1/10; -1/10]]. split; [constructor; [left; apply nP1; lra|constructor; [right; apply nP2; lra|constructor]]|]. exists [1/2; 1/2]. split; [reflexivity|]. split; [constructor; [lra|constructor; [lra|constructor]]|]. split; [unfold vsum; cbn; lra|]. cbn. apply f_equal2; [lra|apply f_equal2; [lra|reflexivity]]. }
  { intros [P|P]; [apply nP1 in P|apply nP2 in P]; lra. }
  destruct (np_fm_ok (fun _ n => repeat (/ 2) n)) as (H1 & H2 & H3). fold np_half in H1, H2, H3.
  assert (HD : forall y y', nS y -> nS y' -> norm (vsub y y') <= 4).
  { intros y y' Hy Hy'. destruct (two y (proj1 Hy)) as (u & v & ->). destruct (two y' (proj1 Hy')) as (u' & v' & ->).
    assert (B : forall u v, nS [u; v] -> -1 <= u <= 1 /\ -1 <= v <= 1). { intros a b Q. pose proof (nS_half 1 0 1 a b ltac:(intros; lra) ltac:(intros; lra) Q). pose proof (nS_half (-1) 0 1 a b ltac:(intros; lra) ltac:(intros; lra) Q). pose proof (nS_half 0 1 1 a b ltac:(intros; lra) ltac:(intros; lra) Q). pose proof (nS_half 0 (-1) 1 a b ltac:(intros; lra) ltac:(intros; lra) Q). lra. }
    destruct (B _ _ Hy), (B _ _ Hy'). apply norm_le_sqr; [lra|]. cbn. nra. }
  destruct (hull_drawn np_half nA1 nb1 nA2 nb2 3 3 2 4 H1 H2 H3 np_half_rand ltac:(lia) nA1_shape nA2_shape eq_refl eq_refl HQ HQ2 nbounded1 nbounded2 HD) as (F & H).
  exists F. intros fuel Hf. destruct (H fuel) as [(q & k & E & _ & Q & _)|[(_ & U)|[(_ & T)|(_ & L)]]]; [exists q; split; [exact E|]; intros x Hx; apply Q, Hx| | |lia].
  - exfalso. fold nS in U. destruct U as (i & v1 & v2 & vs & z & Hi & Hl & HS & HO & Lz & Nz & Hz). cbn [length] in *. destruct vs; [|cbn in Hl; lia]. cbn in Hl. subst i.
    pose proof (Forall_inv HS) as S1. pose proof (Forall_inv (Forall_inv_tail HS)) as S2. fold (nS v1) in S1. fold (nS v2) in S2. destruct (two v1 (proj1 S1)) as (x1 & y1 & ->). destruct (two v2 (proj1 S2)) as (x2 & y2 & ->).
    pose proof (HO [-9/20; -1/20] (nS_in2 (-9/20) (-1/20) ltac:(lra))) as O1. pose proof (HO [9/10; 1/10] (nS_in1 (9/10) (1/10) ltac:(lra))) as O2. cbn [nth] in O1, O2.
    pose proof (nS_half (-1) (-1) (1/2) x1 y1 ltac:(intros; lra) ltac:(intros; lra) S1) as I1. pose proof (nS_half (-95/100) (55/100) (4/10) x1 y1 ltac:(intros; lra) ltac:(intros; lra) S1) as I2.
    pose proof (nS_half 1 1 1 x2 y2 ltac:(intros; lra) ltac:(intros; lra) S2) as I3. pose proof (nS_half (55/100) (-95/100) (4/10) x2 y2 ltac:(intros; lra) ltac:(intros; lra) S2) as I4.
    assert (x1 = -9/20) by lra. assert (y1 = -1/20) by lra. assert (x2 = 9/10) by lra. assert (y2 = 1/10) by lra. subst x1 y1 x2 y2. destruct z as [|z0 [|z1 [|]]]; try discriminate. pose proof (Forall_inv Hz) as Q1. pose proof (Forall_inv (Forall_inv_tail Hz)) as Q2. cbn in Q1, Q2.
    assert (z0 = 0) by lra. assert (z1 = 0) by lra. subst z0 z1. apply Nz. reflexivity.
  - exfalso. fold nS in T. destruct T as (a & La & Ua & Ha). destruct a as [|a0 [|a1 [|]]]; try discriminate. 
    assert (P : forall x y x' y', nS [x; y] -> nS [x'; y'] -> a0 * (x' - x) + a1 * (y' - y) < tol7). { intros x y x' y' Q Q'. pose proof (Ha _ _ Q Q') as R. cbn in R. lra. } clear Ha.
    assert (A : nS [1/10; 9/10]) by (apply nS_in1; lra). assert (B : nS [9/10; 1/10]) by (apply nS_in1; lra). assert (C : nS [1/10; 1/10]) by (apply nS_in1; lra).
    pose proof (P _ _ _ _ A C). pose proof (P _ _ _ _ C A). pose proof (P _ _ _ _ B C). pose proof (P _ _ _ _ C B). unfold tol7 in *.
    assert (Q : a0 * a0 + a1 * a1 = 1). { pose proof (norm_sqr [a0; a1]) as Q. rewrite Ua in Q. cbn in Q. lra. } nra.
Qed.
