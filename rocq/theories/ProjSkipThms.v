(** * ProjSkipThms: a polygon whose projection (onto all its dimensions) is cut by more than tol (C17), proofs

    u and w are the extreme points in the first coordinate; the edge from u to w is expanded to v, and the new edges
    have normals that numpy.allclose identifies with the one just explored, so that vt is never reached. *)
From Coq Require Import ZArith Permutation Classical.
From Verif Require Import Arr ArrFacts Spec SpecGeom Numpy Pnnls PnnlsFacts QpFacts GeomUtils Polyhedron PolyThms Oracle SolverThms NullFacts PolySolveThms PolyCacheThms GeomThms HullOracle Projection ProjThms.

(** cosine and sine of a small angle *)
Definition co : R := 999999999999 / 1000000000001.
Definition si : R := 2000000 / 1000000000001.
(** height of v over the edge u w *)
Definition h0 : R := 5000000 / 999999999999.
Definition sg : R := (h0 - 4 / 1000000) / (5 / 4).
Definition pu : vec := [-1; 2].
Definition pw : vec := [3; -1].
Definition pz : vec := [5 / 11; 2 / 33].
Definition pv : vec := [1 + 3 / 5 * h0; 1 / 2 + 4 / 5 * h0].
Definition pvt : vec := [3 / 5 * (4 / 1000000); 5 / 4 + 4 / 5 * (4 / 1000000)].
Definition n1 : vec := [3 / 5; 4 / 5].
Definition n2 : vec := [3 / 5 * co - 4 / 5 * si; 4 / 5 * co + 3 / 5 * si].
Definition n3 : vec := [3 / 5 * co + 4 / 5 * si; 4 / 5 * co - 3 / 5 * si].
Definition n4 : vec := [- (5 / 13); - (12 / 13)].
Definition n5 : vec := [- (4 / 5); - (3 / 5)].
(** the edges u vt, vt v, v w, w z and z u *)
Definition skip_poly : poly := Poly (Mat 2
  [[3 / 5 - 16 / 5000000 * (4 / 5); 4 / 5 + 16 / 5000000 * (3 / 5)]; [3 / 5 - sg * (4 / 5); 4 / 5 + sg * (3 / 5)]; n3; n4; n5])
  [1 + 16 / 5000000 * 2; 1 + 4 / 1000000 + sg * (3 / 4); co + 3 * si; - (3 / 13); - (2 / 5)] (Mat 2 []) [] None None None None None.
Definition hull3 : mat * vec := (Mat 2 [n1; n4; n5], [1; - (3 / 13); - (2 / 5)]).
Definition hull4 : mat * vec := (Mat 2 [n2; n3; n4; n5], [co + 2 * si; co + 3 * si; - (3 / 13); - (2 / 5)]).
Definition vecs_dec : forall l k : list vec, {l = k} + {l <> k} := list_eq_dec (list_eq_dec Req_EM_T).
Definition skip_hull (pts : list vec) : res (mat * vec) :=
  if vecs_dec pts [pu; pw; pz] then Ok hull3 else if vecs_dec pts [pu; pw; pz; pv] then Ok hull4 else fm_hull pts.
Definition np_skip : numpy :=
  exact_numpy (fun A => A) (fun _ => 0) (fun A => A) (fun _ _ Q _ => Q) (fun _ n => zeros n) (fun _ _ _ => Ok []) skip_hull.
Lemma np_skip_exact : exact_np np_skip.
Proof. unfold exact_np, np_skip. repeat apply conj; auto using exact_nnls_ok, exact_pinv_ok, exact_chol_ok, exact_inv_ok, exact_solve_ok, exact_svd_ok. Qed.
Lemma np_skip_rand : rand_ok np_skip. Proof. intros k n. apply zeros_length. Qed.

Lemma unit2 x y : x * x + y * y = 1 -> norm [x; y] = 1.
Proof. intros H. unfold norm. cbn. replace (x * x + (y * y + 0)) with 1 by lra. apply sqrt_1. Qed.
Ltac nums := unfold pu, pw, pz, pv, pvt, n1, n2, n3, n4, n5, sg in *; unfold h0, co, si in *; cbn [dot nth] in *.
Lemma u1 : norm n1 = 1. Proof. apply unit2. lra. Qed.
Lemma u2 : norm n2 = 1. Proof. apply unit2. unfold co, si. lra. Qed.
Lemma u3 : norm n3 = 1. Proof. apply unit2. unfold co, si. lra. Qed.
Lemma u4 : norm n4 = 1. Proof. apply unit2. lra. Qed.
Lemma u5 : norm n5 = 1. Proof. apply unit2. lra. Qed.

(** points of the triangle u w z and of the quadrilateral u w z v *)
Lemma tri_in x y : dot n1 [x; y] <= 1 -> dot n4 [x; y] <= - (3 / 13) -> dot n5 [x; y] <= - (2 / 5) ->
  exists a b c, 0 <= a /\ 0 <= b /\ 0 <= c /\ a + b + c = 1 /\ [x; y] = vadd (vscale a pu) (vadd (vscale b pw) (vscale c pz)).
Proof.
  intros H1 H2 H3. nums.
  exists ((- 3 + 5 * x + 12 * y) / 16), ((- 2 + 4 * x + 3 * y) / 7), ((5 - 3 * x - 4 * y) * 33 / 112).
  repeat (split; [lra|]). cbn. f_equal; [lra|]. f_equal. lra.
Qed.
Lemma cap_in x y : 1 <= dot n1 [x; y] -> dot n2 [x; y] <= co + 2 * si -> dot n3 [x; y] <= co + 3 * si ->
  exists a b c, 0 <= a /\ 0 <= b /\ 0 <= c /\ a + b + c = 1 /\ [x; y] = vadd (vscale a pu) (vadd (vscale b pw) (vscale c pv)).
Proof.
  intros H1 H2 H3. set (d2 := (co + 2 * si - dot n2 [x; y]) / (5 * si)). set (d3 := (co + 3 * si - dot n3 [x; y]) / (5 * si)). set (d1 := (dot n1 [x; y] - 1) / h0).
  exists d3, d2, d1. unfold d1, d2, d3. nums.
  repeat (split; [lra|]). cbn. f_equal; [lra|]. f_equal. lra.
Qed.
Lemma vec2 (x : vec) : length x = 2%nat -> exists a b, x = [a; b].
Proof. destruct x as [|a [|b [|]]]; try discriminate. eauto. Qed.
Lemma hull3_ok x : length x = 2%nat -> ineq_holds (fst hull3) (snd hull3) x <-> in_hull 2 [pu; pw; pz] x.
Proof.
  intros Lx. split.
  - intros H. destruct (vec2 x Lx) as (a & b & ->). unfold ineq_holds, hull3 in H. cbn [fst snd rows] in H.
    inversion H as [|? ? ? ? I1 H']; subst. inversion H' as [|? ? ? ? I2 H'']; subst. inversion H'' as [|? ? ? ? I3 _]; subst.
    destruct (tri_in a b I1 I2 I3) as (l1 & l2 & l3 & N1 & N2 & N3 & S & E). exists [l1; l2; l3]. split; [reflexivity|]. split; [unfold nonneg; auto|].
    split; [unfold vsum; cbn; lra|]. rewrite E. cbn. f_equal; [ring|]. f_equal. ring.
  - intros H. unfold ineq_holds, hull3. cbn [fst snd rows]. assert (L : Forall (fun p => length p = 2%nat) [pu; pw; pz]) by (repeat constructor).
    repeat (apply Forall2_cons || apply Forall2_nil); apply (in_hull_max 2 [pu; pw; pz]); auto; intros p [<-|[<-|[<-|[]]]]; nums; lra.
Qed.
Lemma hull4_ok x : length x = 2%nat -> ineq_holds (fst hull4) (snd hull4) x <-> in_hull 2 [pu; pw; pz; pv] x.
Proof.
  intros Lx. split.
  - intros H. destruct (vec2 x Lx) as (a & b & ->). unfold ineq_holds, hull4 in H. cbn [fst snd rows] in H.
    inversion H as [|? ? ? ? I1 H']; subst. inversion H' as [|? ? ? ? I2 H'']; subst. inversion H'' as [|? ? ? ? I3 H3]; subst. inversion H3 as [|? ? ? ? I4 _]; subst.
    destruct (Rle_dec (dot n1 [a; b]) 1) as [Q|Q].
    + destruct (tri_in a b Q I3 I4) as (l1 & l2 & l3 & N1 & N2 & N3 & S & E). exists [l1; l2; l3; 0]. split; [reflexivity|]. split; [unfold nonneg; auto using Rle_refl|].
      split; [unfold vsum; cbn; lra|]. rewrite E. cbn. f_equal; [ring|]. f_equal. ring.
    + destruct (cap_in a b ltac:(lra) I1 I2) as (l1 & l2 & l3 & N1 & N2 & N3 & S & E). exists [l1; l2; 0; l3]. split; [reflexivity|]. split; [unfold nonneg; auto using Rle_refl|].
      split; [unfold vsum; cbn; lra|]. rewrite E. cbn. f_equal; [ring|]. f_equal. ring.
  - intros H. unfold ineq_holds, hull4. cbn [fst snd rows]. assert (L : Forall (fun p => length p = 2%nat) [pu; pw; pz; pv]) by (repeat constructor).
    repeat (apply Forall2_cons || apply Forall2_nil); apply (in_hull_max 2 [pu; pw; pz; pv]); auto; intros p [<-|[<-|[<-|[<-|[]]]]]; nums; lra.
Qed.
Lemma np_skip_hull : hull_ok np_skip.
Proof.
  intros pts n E f HL H. change (skip_hull pts = Ok (E, f)) in H. unfold skip_hull in H. destruct (vecs_dec pts [pu; pw; pz]) as [->|].
  - assert (n = 2%nat) by (pose proof (Forall_inv HL) as Q; cbn in Q; auto). subst n. injection H as <- <-. split; [exists 3%nat; split; [|reflexivity]; unfold shape; cbn; repeat split; repeat constructor|]. split; [|split].
    + cbn [rows]. constructor; [apply u1|]. constructor; [apply u4|]. constructor; [apply u5|constructor].
    + cbn [rows]. constructor; [exists pu; split; [cbn; auto|nums; lra]|]. constructor; [exists pw; split; [cbn; auto|nums; lra]|]. constructor; [exists pu; split; [cbn; auto|nums; lra]|constructor].
    + exact hull3_ok.
  - destruct (vecs_dec pts [pu; pw; pz; pv]) as [->|].
    + assert (n = 2%nat) by (pose proof (Forall_inv HL) as Q; cbn in Q; auto). subst n. injection H as <- <-. split; [exists 4%nat; split; [|reflexivity]; unfold shape; cbn; repeat split; repeat constructor|]. split; [|split].
      * cbn [rows]. constructor; [apply u2|]. constructor; [apply u3|]. constructor; [apply u4|]. constructor; [apply u5|constructor].
      * cbn [rows]. constructor; [exists pu; split; [cbn; auto|nums; lra]|]. constructor; [exists pw; split; [cbn; auto|nums; lra]|]. constructor; [exists pw; split; [cbn; auto|nums; lra]|]. constructor; [exists pu; split; [cbn; auto|nums; lra]|constructor].
      * exact hull4_ok.
    + apply fm_hull_ok; assumption.
Qed.
Lemma np_skip_total : hull_total np_skip.
Proof.
  intros pts n HL H2. change (np_hull np_skip pts) with (skip_hull pts). unfold skip_hull.
  destruct (vecs_dec pts [pu; pw; pz]); [left; eexists _, _; reflexivity|]. destruct (vecs_dec pts [pu; pw; pz; pv]); [left; eexists _, _; reflexivity|]. apply fm_hull_total; assumption.
Qed.

(** the polygon *)
Definition sA : mat := pA skip_poly.
Definition sb : vec := pb skip_poly.
Lemma skip_wf : wf skip_poly 5 0 2. Proof. unfold wf, shape; cbn; repeat split; repeat constructor. Qed.
Lemma skip_in x y : in_poly skip_poly [x; y] <->
  (3 / 5 - 16 / 5000000 * (4 / 5)) * x + (4 / 5 + 16 / 5000000 * (3 / 5)) * y <= 1 + 16 / 5000000 * 2 /\
  (3 / 5 - sg * (4 / 5)) * x + (4 / 5 + sg * (3 / 5)) * y <= 1 + 4 / 1000000 + sg * (3 / 4) /\
  dot n3 [x; y] <= co + 3 * si /\ dot n4 [x; y] <= - (3 / 13) /\ dot n5 [x; y] <= - (2 / 5).
Proof.
  rewrite (in_poly_noeq skip_poly 5 2 _ skip_wf). cbn [skip_poly pA pb]. rewrite <- ineq_holds_vle. unfold ineq_holds. cbn [rows]. split.
  - intros (_ & H). inversion H as [|? ? ? ? I1 H1]; subst. inversion H1 as [|? ? ? ? I2 H2]; subst. inversion H2 as [|? ? ? ? I3 H3]; subst. inversion H3 as [|? ? ? ? I4 H4]; subst. inversion H4 as [|? ? ? ? I5 _]; subst.
    cbn [dot] in I1, I2. split; [lra|]. split; [lra|]. auto.
  - intros (H1 & H2 & H3 & H4 & H5). split; [reflexivity|]. constructor; [cbn [dot]; lra|]. constructor; [cbn [dot]; lra|]. auto.
Qed.
Ltac inp := apply skip_in; nums; lra.
Lemma in_pu : in_poly skip_poly pu. Proof. inp. Qed.
Lemma in_pw : in_poly skip_poly pw. Proof. inp. Qed.
Lemma in_pz : in_poly skip_poly pz. Proof. inp. Qed.
Lemma in_pv : in_poly skip_poly pv. Proof. inp. Qed.
Lemma in_pvt : in_poly skip_poly pvt. Proof. inp. Qed.
(** they are the unique solutions of the linear programs *)
Lemma uniq_u x y : in_poly skip_poly [x; y] -> x <= -1 -> [x; y] = pu.
Proof. intros H Hx. apply skip_in in H. nums. assert (x = -1) by lra. assert (y = 2) by lra. congruence. Qed.
Lemma uniq_w x y : in_poly skip_poly [x; y] -> 3 <= x -> [x; y] = pw.
Proof. intros H Hx. apply skip_in in H. nums. assert (x = 3) by lra. assert (y = -1) by lra. congruence. Qed.
Lemma uniq_z x y : in_poly skip_poly [x; y] -> dot n1 [x; y] <= dot n1 pz -> [x; y] = pz.
Proof. intros H Hx. apply skip_in in H. nums. assert (x = 5 / 11) by lra. assert (y = 2 / 33) by lra. congruence. Qed.
Lemma uniq_v x y : in_poly skip_poly [x; y] -> dot n1 pv <= dot n1 [x; y] -> [x; y] = pv.
Proof.
  intros H Hx. apply skip_in in H. unfold pv. assert (x = 1 + 3 / 5 * h0) by (nums; lra). assert (y = 1 / 2 + 4 / 5 * h0) by (nums; lra). congruence.
Qed.
Lemma skip_bounded : bounded_set (in_poly skip_poly).
Proof.
  exists 10. intros w Iw. destruct (vec2 w) as (x & y & ->); [apply Iw|]. apply skip_in in Iw. nums. unfold norm. rewrite <- (sqrt_square 10) by lra. apply sqrt_le_1_alt. cbn.
  assert (-1 <= x <= 3) by lra. assert (-1 <= y <= 3) by lra. nra.
Qed.
Lemma skip_near : exists x, in_poly skip_poly x /\ near x.
Proof. exists pu. split; [apply in_pu|]. unfold near, tol7. cbn. lra. Qed.

Lemma skip_reorder : reorder sA [0%nat; 1%nat] = sA. Proof. reflexivity. Qed.
Lemma sA_shape : shape sA 5 2. Proof. apply skip_wf. Qed.
Lemma skip_feas w : feas sA sb 2 w <-> in_poly skip_poly w.
Proof. unfold feas. symmetry. apply (in_poly_noeq skip_poly 5 2 w skip_wf). Qed.
Lemma skip_Pr y : Pr sA sb 2 2 y <-> in_poly skip_poly y.
Proof.
  split.
  - intros (w & Fw & <-). assert (Lw : length w = 2%nat) by apply Fw. rewrite firstn_all2 by lia. apply skip_feas. exact Fw.
  - intros H. exists y. assert (Ly : length y = 2%nat) by apply H. split; [apply skip_feas; exact H|]. apply firstn_all2. lia.
Qed.
Lemma skip_dir a : length a = 2%nat -> exists s w, lp np_skip a sA sb None None = Ok s /\ s_min s = Some (dot a w) /\ s_argmin s = Some w /\ in_poly skip_poly w /\
  forall y, in_poly skip_poly y -> dot a w <= dot a y.
Proof.
  intros La. destruct skip_bounded as (M & HM).
  destruct (lp_dir np_skip np_skip_exact sA sb 5 2 2 pu M sA_shape eq_refl (le_n 2) (proj2 (skip_feas pu) in_pu) (fun w H => HM w (proj1 (skip_feas w) H)) a 2 La (le_n 2)) as (s & w & E1 & E2 & E3 & F & _ & O).
  cbn [Nat.sub zeros repeat] in E1. rewrite app_nil_r in E1. assert (Lw : length w = 2%nat) by apply F. rewrite (firstn_all2 w) in * by lia.
  exists s, w. split; [exact E1|]. split; [exact E2|]. split; [exact E3|]. split; [apply skip_feas; exact F|]. intros y Hy. specialize (O y (proj2 (skip_Pr y) Hy)). assert (Ly : length y = 2%nat) by apply Hy.
  rewrite (firstn_all2 y) in O by lia. exact O.
Qed.
Lemma skip_two : get_two_vertices np_skip sA sb 2 = Ok [pu; pw].
Proof.
  destruct skip_bounded as (M & HM).
  destruct (two_vertices_ok np_skip np_skip_exact sA sb 5 2 2 pu M sA_shape eq_refl (le_n 2) (proj2 (skip_feas pu) in_pu) (fun w H => HM w (proj1 (skip_feas w) H)) ltac:(lia)) as (v1 & v2 & E & P1 & P2 & O).
  rewrite E. apply skip_Pr in P1, P2. pose proof (O pu (proj2 (skip_Pr _) in_pu)) as (O1 & _). pose proof (O pw (proj2 (skip_Pr _) in_pw)) as (_ & O2).
  destruct (vec2 v1) as (x1 & y1 & ->); [apply P1|]. destruct (vec2 v2) as (x2 & y2 & ->); [apply P2|]. cbn [pu pw nth] in O1, O2.
  rewrite (uniq_u _ _ P1 O1), (uniq_w _ _ P2 O2). reflexivity.
Qed.
Lemma skip_plane : plane_through_points np_skip [0; 0] [pu; pw] = Ok (n1, 1).
Proof.
  destruct (plane_ok np_skip [0; 0] [pu; pw] 2) as [(a & d & E & La & Fa & Ua & Pd & _)|((z & Lz & Nz & Mz) & _)]; [apply np_skip_exact|reflexivity|lia|repeat constructor|reflexivity| |].
  - rewrite E. destruct (vec2 a La) as (x & y & ->). pose proof (Forall_inv Fa) as F1. pose proof (Forall_inv (Forall_inv_tail Fa)) as F2. cbn in F1, F2.
    pose proof (norm_sqr [x; y]) as Q. rewrite Ua in Q. cbn in Q. assert (x = 3 / 5 * d) by lra. assert (y = 4 / 5 * d) by lra. subst x y. assert (D1 : (d - 1) * (d + 1) = 0) by lra. apply Rmult_integral in D1. assert (d = 1) by (destruct D1; lra). subst d. rewrite !Rmult_1_r. reflexivity.
  - exfalso. destruct (vec2 z Lz) as (x & y & ->). cbn in Mz. injection Mz as M1 M2. apply Nz. cbn. assert (x = 0) by lra. assert (y = 0) by lra. congruence.
Qed.
Lemma skip_simplex : get_inner_simplex np_skip sA sb 2 [pu; pw] = Ok [pu; pw; pz].
Proof.
  unfold get_inner_simplex. cbn [Nat.sub seq inner_simplex_loop map]. change (np_rand np_skip 2 2) with [0; 0]. change (firstn 2 pu) with pu. change (firstn 2 pw) with pw. rewrite skip_plane. cbn [bind].
  change (ncols sA) with 2%nat. cbn [Nat.sub zeros repeat]. rewrite app_nil_r. destruct (skip_dir n1 eq_refl) as (s & w & E1 & E2 & E3 & I & O). rewrite E1. cbn [bind].
  rewrite (argmin_to_some _ _ _ E3). cbn [bind]. destruct (vec2 w) as (x & y & ->); [apply I|]. pose proof (uniq_z x y I (O pz in_pz)) as Q. rewrite Q. change (firstn 2 pz) with pz.
  assert (X : Rltb (Rabs (dot n1 pz - 1)) tol7 = false). { apply Rltb_false. rewrite Rabs_left; nums; unfold tol7; lra. }
  rewrite X. cbn [bind]. rewrite (argmin_to_some _ _ _ E3), Q. cbn [bind]. reflexivity.
Qed.
(** a facet of the polygon is not expanded *)
Lemma scan_keep a d p facets ex : length a = 2%nat -> norm a = 1 -> (forall y, in_poly skip_poly y -> dot a y <= d) -> in_poly skip_poly p -> dot a p = d ->
  exists ex', (forall c, In c ex -> In c ex') /\ expand_scan np_skip sA 2 ((a, d) :: facets) sb ex =
    (r <- expand_scan np_skip sA 2 facets sb ex' ;; let '(b', ex'', normals, v) := r in Ok (b', ex'', a :: normals, v)).
Proof.
  intros La Ua Ha Ip Dp. cbn [expand_scan]. rewrite Ua, Rinv_1, !vscale_1. destruct (existsb (fun a2 => allclose a a2) ex); [exists ex; auto|].
  exists (ex ++ [a]). split; [intros c Hc; apply in_or_app; auto|]. change (ncols sA) with 2%nat. cbn [Nat.sub zeros repeat]. rewrite app_nil_r.
  destruct (skip_dir (vneg a)) as (s & w & E1 & E2 & E3 & I & O); [len|]. rewrite E1. cbn [bind]. rewrite E2. rewrite dot_vneg_l.
  specialize (O p Ip). rewrite !dot_vneg_l in O. specialize (Ha w I). assert (X : Rltb tol7 (- - dot a w - d) = false) by (apply Rltb_false; pose proof tol7_pos; lra). rewrite X. reflexivity.
Qed.
Lemma skip_scan1 : expand_scan np_skip sA 2 (combine (rows (fst hull3)) (snd hull3)) sb [] = Ok (sb, [n1], [n1; n4; n5], Some pv).
Proof.
  cbn [hull3 fst snd rows combine]. cbn [expand_scan existsb]. rewrite u1, Rinv_1, !vscale_1. change (ncols sA) with 2%nat. cbn [Nat.sub zeros repeat app]. rewrite app_nil_r.
  destruct (skip_dir (vneg n1)) as (s & w & E1 & E2 & E3 & I & O); [reflexivity|]. rewrite E1. cbn [bind]. rewrite E2, dot_vneg_l.
  specialize (O pv in_pv). rewrite !dot_vneg_l in O. destruct (vec2 w) as (x & y & ->); [apply I|]. rewrite (uniq_v x y I) in * by lra.
  assert (X : Rltb tol7 (- - dot n1 pv - 1) = true) by (apply Rltb_true; nums; unfold tol7; lra). rewrite X, (argmin_to_some _ _ _ E3). reflexivity.
Qed.
Lemma close_n2 : allclose n2 n1 = true.
Proof. apply allclose_iff; [reflexivity|]. unfold close, n2, n1. constructor; [|constructor; [|constructor]]; rewrite (Rabs_pos_eq (_ / 5)) by lra; apply Rabs_le; unfold co, si; lra. Qed.
Lemma close_n3 : allclose n3 n1 = true.
Proof. apply allclose_iff; [reflexivity|]. unfold close, n3, n1. constructor; [|constructor; [|constructor]]; rewrite (Rabs_pos_eq (_ / 5)) by lra; apply Rabs_le; unfold co, si; lra. Qed.
Lemma scan_close a d facets ex : norm a = 1 -> existsb (fun a2 => allclose a a2) ex = true ->
  expand_scan np_skip sA 2 ((a, d) :: facets) sb ex = (r <- expand_scan np_skip sA 2 facets sb ex ;; let '(b', ex'', normals, v) := r in Ok (b', ex'', a :: normals, v)).
Proof. intros Ua H. cbn [expand_scan]. rewrite Ua, Rinv_1, !vscale_1, H. reflexivity. Qed.
Lemma skip_scan2 : exists ex, expand_scan np_skip sA 2 (combine (rows (fst hull4)) (snd hull4)) sb [n1] = Ok (sb, ex, [n2; n3; n4; n5], None).
Proof.
  cbn [hull4 fst snd rows combine].
  destruct (scan_keep n4 (- (3 / 13)) pw [(n5, - (2 / 5))] [n1] eq_refl u4) as (ex1 & _ & E1); [intros y Hy; destruct (vec2 y) as (a & b & ->); [apply Hy|]; apply skip_in in Hy; apply Hy|exact in_pw|nums; lra|].
  destruct (scan_keep n5 (- (2 / 5)) pu [] ex1 eq_refl u5) as (ex2 & _ & E2); [intros y Hy; destruct (vec2 y) as (a & b & ->); [apply Hy|]; apply skip_in in Hy; apply Hy|exact in_pu|nums; lra|].
  exists ex2. rewrite (scan_close n2) by (try exact u2; cbn [existsb]; rewrite close_n2; reflexivity). rewrite (scan_close n3) by (try exact u3; cbn [existsb]; rewrite close_n3; reflexivity).
  rewrite E1, E2. reflexivity.
Qed.
Lemma skip_method fuel : convex_hull_method np_skip (S (S fuel)) sA sb [0%nat; 1%nat] = Ok (fst hull4, snd hull4, [pu; pw; pz; pv]).
Proof.
  unfold convex_hull_method. change (forallb (fun i => Nat.ltb i (ncols sA)) [0%nat; 1%nat]) with true. cbn [negb length]. rewrite skip_reorder, skip_two. cbn [bind Nat.eqb]. rewrite skip_simplex. cbn [bind].
  cbn [expand_simplex]. change (np_hull np_skip) with skip_hull. unfold skip_hull at 1. destruct (vecs_dec [pu; pw; pz] [pu; pw; pz]) as [_|N]; [|congruence].
  cbn [bind]. change hull3 with (fst hull3, snd hull3). cbv beta iota. rewrite skip_scan1. cbn [bind app].
  unfold skip_hull at 1. destruct (vecs_dec [pu; pw; pz; pv] [pu; pw; pz]) as [E|_]; [discriminate|]. destruct (vecs_dec [pu; pw; pz; pv] [pu; pw; pz; pv]) as [_|N]; [|congruence].
  cbn [bind]. destruct skip_scan2 as (ex & E). rewrite (surjective_pairing hull4) at 1. cbv beta iota. rewrite E. reflexivity.
Qed.

(*@ Theorem C17_skip_refuted : the error is not bounded by tol: there are a polygon of diameter below 6 and a library meeting all the contracts for which project_to (onto all the dimensions) returns a polygon that a point of the projection violates by more than tol (by more than ten times tol) *)
Lemma skip_refuted : exists np p y, (exact_np np /\ hull_ok np /\ hull_total np /\ rand_ok np) /\ wf p 5 0 2 /\ cache_ok np p /\
  (exists x, in_poly p x /\ near x) /\ bounded_set (in_poly p) /\ projection (in_poly p) [0%nat; 1%nat] y /\
  forall fuel, (2 <= fuel)%nat -> exists q, fst (project_to np fuel [0%nat; 1%nat] p) = Ok q /\ nth 0 (pb q) 0 + 10 * tol7 < dot (row (pA q) 0) y.
Proof.
  exists np_skip, skip_poly, pvt. assert (HC : cache_ok np_skip skip_poly) by apply (cache_fresh np_skip skip_poly).
  split; [exact (conj np_skip_exact (conj np_skip_hull (conj np_skip_total np_skip_rand)))|]. split; [exact skip_wf|]. split; [exact HC|]. split; [exact skip_near|]. split; [exact skip_bounded|].
  split; [exists pvt; split; [exact in_pvt|reflexivity]|]. intros fuel Hf. destruct fuel as [|[|fuel]]; try lia.
  rewrite (project_to_method np_skip (S (S fuel)) skip_poly 5 2 _ np_skip_exact skip_wf HC skip_near skip_bounded). fold sA sb. rewrite skip_method. cbn [bind].
  eexists. split; [reflexivity|]. cbn [set_vertices pA pb hull4 fst snd row rows nth]. nums. unfold tol7. lra.
Qed.
