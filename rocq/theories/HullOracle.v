(** * HullOracle: a convex-hull routine that meets the contract [hull_ok] (by elimination of the weights of the convex
    combinations, one after the other).  It shows that the contract can be met; nothing else depends on it. *)
From Verif Require Import Arr ArrFacts Spec Numpy PnnlsFacts QpFacts Oracle NullFacts GeomThms.

Definition con : Type := (vec * R)%type.
Definition holds (z : vec) (c : con) : Prop := dot (fst c) z <= snd c.
Definition hd0 (r : vec) : R := match r with [] => 0 | a :: _ => a end.

(** elimination of the first variable *)
Definition elim (cs : list con) : list con :=
  let pos := filter (fun c => Rltb 0 (hd0 (fst c))) cs in
  let neg := filter (fun c => Rltb (hd0 (fst c)) 0) cs in
  let zer := filter (fun c => Reqb (hd0 (fst c)) 0) cs in
  map (fun c => (tl (fst c), snd c)) zer ++
  flat_map (fun c1 => map (fun c2 => (vadd (vscale (- hd0 (fst c2)) (tl (fst c1))) (vscale (hd0 (fst c1)) (tl (fst c2))),
    - hd0 (fst c2) * snd c1 + hd0 (fst c1) * snd c2)) neg) pos.

Lemma between (lo hi : list R) : (forall l u, In l lo -> In u hi -> l <= u) -> exists t, (forall l, In l lo -> l <= t) /\ (forall u, In u hi -> t <= u).
Proof.
  induction lo as [|l lo IH]; intros H.
  - induction hi as [|u hi IHh]; [exists 0; split; intros ? []|]. destruct IHh as (t & _ & Ht); [intros ? ? []|].
    exists (Rmin u t). split; [intros ? []|]. intros x [<-|Hx]; [apply Rmin_l|]. eapply Rle_trans; [apply Rmin_r|auto].
  - destruct IH as (t & H1 & H2); [intros; apply H; cbn; auto|]. exists (Rmax l t). split.
    + intros x [<-|Hx]; [apply Rmax_l|]. eapply Rle_trans; [apply H1, Hx|apply Rmax_r].
    + intros u Hu. apply Rmax_lub; [apply H; cbn; auto|auto].
Qed.
Lemma holds_cons h r d t z : holds (t :: z) (h :: r, d) <-> h * t + dot r z <= d.
Proof. unfold holds. cbn. tauto. Qed.
Lemma elim_length cs k : Forall (fun c => length (fst c) = S k) cs -> Forall (fun c => length (fst c) = k) (elim cs).
Proof.
  intros H. assert (T : forall c, In c cs -> length (tl (fst c)) = k).
  { intros ([|a r] & d) Hc; rewrite Forall_forall in H; specialize (H _ Hc); cbn in *; [discriminate|lia]. }
  unfold elim. apply Forall_app. split.
  - apply Forall_map. apply Forall_forall. intros c Hc. apply filter_In in Hc. apply T, Hc.
  - apply Forall_forall. intros c Hc. apply in_flat_map in Hc. destruct Hc as (c1 & I1 & Hc). apply in_map_iff in Hc. destruct Hc as (c2 & <- & I2).
    apply filter_In in I1, I2. destruct I1 as (I1 & _). destruct I2 as (I2 & _). cbn [fst]. rewrite vadd_length, !vscale_length, (T c1 I1), (T c2 I2). lia.
Qed.
Lemma elim_ok cs k z : Forall (fun c => length (fst c) = S k) cs -> length z = k ->
  Forall (holds z) (elim cs) <-> exists t, Forall (holds (t :: z)) cs.
Proof.
  intros HL Hz. assert (C : forall c, In c cs -> exists h r d, c = (h :: r, d) /\ length r = k).
  { intros ([|a r] & d) Hc; rewrite Forall_forall in HL; specialize (HL _ Hc); cbn in *; [discriminate|]. exists a, r, d. split; [reflexivity|lia]. }
  unfold elim. rewrite Forall_app. split.
  - intros (HZ & HP). set (b c := (snd c - dot (tl (fst c)) z) / hd0 (fst c)).
    destruct (between (map b (filter (fun c => Rltb (hd0 (fst c)) 0) cs)) (map b (filter (fun c => Rltb 0 (hd0 (fst c))) cs))) as (t & T1 & T2).
    + intros l u Il Iu. apply in_map_iff in Il, Iu. destruct Il as (c2 & <- & I2). destruct Iu as (c1 & <- & I1).
      rewrite Forall_forall in HP. specialize (HP (vadd (vscale (- hd0 (fst c2)) (tl (fst c1))) (vscale (hd0 (fst c1)) (tl (fst c2))), - hd0 (fst c2) * snd c1 + hd0 (fst c1) * snd c2)).
      assert (Q : holds z (vadd (vscale (- hd0 (fst c2)) (tl (fst c1))) (vscale (hd0 (fst c1)) (tl (fst c2))), - hd0 (fst c2) * snd c1 + hd0 (fst c1) * snd c2)).
      { apply HP. apply in_flat_map. exists c1. split; [exact I1|]. apply in_map_iff. exists c2. auto. }
      apply filter_In in I1, I2. destruct I1 as (I1 & B1). destruct I2 as (I2 & B2). destruct (C c1 I1) as (h1 & r1 & d1 & -> & L1). destruct (C c2 I2) as (h2 & r2 & d2 & -> & L2).
      unfold b. cbn [fst snd hd0 tl] in *. apply Rltb_true in B1, B2. unfold holds in Q. cbn [fst snd] in Q. rewrite dot_vadd_l in Q by len. rewrite !dot_vscale_l in Q.
      apply Rmult_le_reg_l with (h1 * - h2); [nra|].
      replace (h1 * - h2 * ((d2 - dot r2 z) / h2)) with (- h1 * (d2 - dot r2 z)) by (field; lra).
      replace (h1 * - h2 * ((d1 - dot r1 z) / h1)) with (- h2 * (d1 - dot r1 z)) by (field; lra). lra.
    + exists t. apply Forall_forall. intros c Ic. destruct (C c Ic) as (h & r & d & -> & L). apply holds_cons.
      destruct (Rtotal_order h 0) as [Hh|[->|Hh]].
      * assert (Q : b (h :: r, d) <= t). { apply T1, in_map, filter_In. split; [exact Ic|]. apply Rltb_true. exact Hh. }
        unfold b in Q. cbn in Q. apply Rmult_le_compat_l with (r := - h) in Q; [|lra]. replace (- h * ((d - dot r z) / h)) with (- (d - dot r z)) in Q by (field; lra). lra.
      * rewrite Forall_map in HZ. rewrite Forall_forall in HZ. specialize (HZ (0 :: r, d)). cbn in HZ. unfold holds in HZ. cbn in HZ. rewrite Rmult_0_l, Rplus_0_l. apply HZ. apply filter_In. split; [exact Ic|].
        cbn. unfold Reqb. destruct (Req_EM_T 0 0); [reflexivity|congruence].
      * assert (Q : t <= b (h :: r, d)). { apply T2, in_map, filter_In. split; [exact Ic|]. apply Rltb_true. exact Hh. }
        unfold b in Q. cbn in Q. apply Rmult_le_compat_l with (r := h) in Q; [|lra]. replace (h * ((d - dot r z) / h)) with (d - dot r z) in Q by (field; lra). lra.
  - intros (t & Ht). rewrite Forall_forall in Ht. split.
    + apply Forall_map, Forall_forall. intros c Ic. apply filter_In in Ic. destruct Ic as (Ic & B). specialize (Ht c Ic). destruct (C c Ic) as (h & r & d & -> & L). cbn [fst snd hd0 tl] in *.
      rewrite holds_cons in Ht. unfold Reqb in B. destruct (Req_EM_T h 0) as [->|]; [|discriminate]. unfold holds. cbn [fst snd tl] in *. lra.
    + apply Forall_forall. intros c Hc. apply in_flat_map in Hc. destruct Hc as (c1 & I1 & Hc). apply in_map_iff in Hc. destruct Hc as (c2 & <- & I2).
      apply filter_In in I1, I2. destruct I1 as (I1 & B1). destruct I2 as (I2 & B2). pose proof (Ht c1 I1) as H1. pose proof (Ht c2 I2) as H2.
      destruct (C c1 I1) as (h1 & r1 & d1 & -> & L1). destruct (C c2 I2) as (h2 & r2 & d2 & -> & L2).
      apply Rltb_true in B1, B2. rewrite holds_cons in H1, H2. cbn [fst snd hd0 tl] in *. unfold holds. cbn [fst snd]. rewrite dot_vadd_l by len. rewrite !dot_vscale_l. nra.
Qed.

(** inequalities of the cone generated by the vectors gs *)
Fixpoint cone (k : nat) (gs : list vec) : list con :=
  match gs with
  | [] => map (fun r => (r, 0)) (rows (eye k)) ++ map (fun r => (vneg r, 0)) (rows (eye k))
  | g :: gs' => elim ((-1 :: zeros k, 0) :: map (fun c => (- dot (fst c) g :: fst c, snd c)) (cone k gs'))
  end.
Lemma cone_length k gs : Forall (fun c => length (fst c) = k) (cone k gs).
Proof.
  assert (LE : Forall (fun r => length r = k) (rows (eye k))) by apply (shape_eye k).
  induction gs as [|g gs IH]; cbn [cone].
  - apply Forall_app. split; apply Forall_map; (eapply Forall_impl; [|exact LE]); intros r Hr; cbn [fst]; [exact Hr|len].
  - apply elim_length. constructor; [cbn; len|]. apply Forall_map. eapply Forall_impl; [|exact IH]. intros c Hc. cbn [fst length]. f_equal. exact Hc.
Qed.
Lemma cone_ok k gs z : Forall (fun g => length g = k) gs -> length z = k ->
  Forall (holds z) (cone k gs) <-> exists l, length l = length gs /\ nonneg l /\ z = lincomb k l gs.
Proof.
  revert z. induction gs as [|g gs IH]; intros z HL Hz.
  - cbn [cone]. rewrite Forall_app, !Forall_map. unfold holds. cbn [fst snd]. split.
    + intros (H1 & H2). exists []. split; [reflexivity|]. split; [constructor|]. cbn [lincomb]. apply vec_ext; [len|]. intros i Hi. rewrite nth_zeros.
      rewrite Forall_forall in H1, H2. assert (Iu : In (unit k i) (rows (eye k))). { cbn [eye rows]. apply in_map. apply in_seq. lia. }
      specialize (H1 _ Iu). specialize (H2 _ Iu). rewrite dot_vneg_l in H2. rewrite dot_unit in H1, H2 by lia. lra.
    + intros (l & Ll & _ & ->). destruct l; [|discriminate]. cbn [lincomb]. split; apply Forall_forall; intros r _; rewrite dot_zeros_r; lra.
  - pose proof (Forall_inv HL) as Lg. pose proof (Forall_inv_tail HL) as HL'. cbn [cone]. rewrite (elim_ok _ k z); [|constructor; [cbn; len|]; apply Forall_map; (eapply Forall_impl; [|apply cone_length]); intros c Hc; cbn; f_equal; exact Hc|exact Hz].
    assert (E : forall t, Forall (holds (t :: z)) (map (fun c => (- dot (fst c) g :: fst c, snd c)) (cone k gs)) <-> Forall (holds (vsub z (vscale t g))) (cone k gs)).
    { intros t. rewrite Forall_map. pose proof (cone_length k gs) as CL. rewrite Forall_forall in CL. rewrite !Forall_forall. split; intros H c Ic; specialize (H c Ic); specialize (CL c Ic); unfold holds in *; cbn [fst snd dot] in *; rewrite dot_vsub_r, dot_vscale_r in * by len; lra. }
    split.
    + intros (t & Ht). pose proof (Forall_inv Ht) as H0. apply Forall_inv_tail in Ht. rewrite holds_cons in H0. rewrite dot_zeros_l in H0. apply E in Ht. apply IH in Ht; [|exact HL'|len].
      destruct Ht as (l & Ll & Nl & El). exists (t :: l). split; [cbn; lia|]. split; [constructor; [lra|exact Nl]|]. cbn [lincomb]. rewrite <- El. vring.
    + intros (l & Ll & Nl & El). destruct l as [|t l]; [discriminate|]. pose proof (Forall_inv Nl). pose proof (Forall_inv_tail Nl). exists t. constructor; [apply holds_cons; rewrite dot_zeros_l; lra|].
      apply E. apply IH; [exact HL'|len|]. exists l. split; [cbn in Ll; lia|]. split; [assumption|]. rewrite El. cbn [lincomb]. assert (LC : length (lincomb k l gs) = k) by (apply lincomb_length; exact HL'). vring.
Qed.

(** the hull: a cone cut at height one *)
Lemma lincomb_lift n l : forall pts, length l = length pts -> lincomb (S n) l (map (cons 1) pts) = vsum l :: lincomb n l pts.
Proof.
  induction l as [|a l IH]; intros pts H; destruct pts as [|p pts]; try discriminate; [reflexivity|]. cbn [map lincomb]. rewrite IH by (cbn in H; lia). rewrite vsum_cons. cbn. f_equal. ring.
Qed.
Definition hull_rows (n : nat) (pts : list vec) : list con :=
  map (fun c => (tl (fst c), snd c - hd0 (fst c))) (cone (S n) (map (cons 1) pts)).
Lemma hull_rows_length n pts : Forall (fun c => length (fst c) = n) (hull_rows n pts).
Proof.
  apply Forall_map. eapply Forall_impl; [|apply cone_length]. intros ([|a r] & d) H; cbn in *; [discriminate|lia].
Qed.
Lemma hull_rows_ok n pts x : Forall (fun p => length p = n) pts -> length x = n -> Forall (holds x) (hull_rows n pts) <-> in_hull n pts x.
Proof.
  intros HL Hx. transitivity (Forall (holds (1 :: x)) (cone (S n) (map (cons 1) pts))).
  - unfold hull_rows. rewrite Forall_map. pose proof (cone_length (S n) (map (cons 1) pts)) as CL. rewrite Forall_forall in CL. rewrite !Forall_forall.
    split; intros H c Ic; specialize (H c Ic); specialize (CL c Ic); destruct c as ([|a r] & d); try discriminate; unfold holds in *; cbn in *; lra.
  - rewrite cone_ok; [|apply Forall_map; eapply Forall_impl; [|exact HL]; intros p Hp; cbn [length]; f_equal; exact Hp|cbn [length]; f_equal; exact Hx]. split.
    + intros (l & Ll & Nl & El). rewrite map_length in Ll. rewrite lincomb_lift in El by exact Ll. injection El as E1 E2. exists l. auto.
    + intros (l & Ll & Nl & Sl & El). exists l. rewrite map_length. rewrite lincomb_lift by exact Ll. rewrite Sl, <- El. auto.
Qed.

(** unit normals, and right-hand sides such that a point is touched *)
Definition maxl (p0 : vec) (pts : list vec) (a : vec) : R := fold_right (fun p m => Rmax (dot a p) m) (dot a p0) pts.
Lemma maxl_ge p0 pts a p : In p (p0 :: pts) -> dot a p <= maxl p0 pts a.
Proof.
  unfold maxl. induction pts as [|q pts IH]; cbn [fold_right].
  - intros [->|[]]. lra.
  - intros [->|[->|H]]; [eapply Rle_trans; [apply IH; left; reflexivity|apply Rmax_r]|apply Rmax_l|]. eapply Rle_trans; [apply IH; right; exact H|apply Rmax_r].
Qed.
Lemma maxl_In p0 pts a : exists p, In p (p0 :: pts) /\ dot a p = maxl p0 pts a.
Proof.
  unfold maxl. induction pts as [|q pts IH]; cbn [fold_right]; [exists p0; cbn; auto|]. destruct IH as (p & Hp & E). destruct (Rle_dec (dot a q) (dot a p)) as [H|H].
  - exists p. split; [cbn in *; tauto|]. rewrite <- E. symmetry. apply Rmax_right. exact H.
  - exists q. split; [cbn; auto|]. rewrite <- E. symmetry. apply Rmax_left. lra.
Qed.
Definition fm_hull (pts : list vec) : res (mat * vec) :=
  match pts with
  | [] => Err QhullError
  | p0 :: ps =>
      let n := length p0 in
      let cs := filter (fun c => Rltb 0 (norm (fst c))) (hull_rows n pts) in
      let E := map (fun c => vscale (/ norm (fst c)) (fst c)) cs in
      Ok (Mat n E, map (maxl p0 ps) E)
  end.
Lemma in_hull_pt n pts p : Forall (fun q => length q = n) pts -> In p pts -> in_hull n pts p.
Proof.
  intros HL Ip. induction pts as [|q pts IH]; [destruct Ip|]. destruct Ip as [->|Ip].
  - exists (1 :: zeros (length pts)). split; [len|]. split; [constructor; [lra|]; apply Forall_forall; intros x Hx; apply repeat_spec in Hx; lra|].
    assert (Z : forall k, vsum (zeros k) = 0) by (intros k; induction k as [|k IHk]; [reflexivity|]; change (zeros (S k)) with (0 :: zeros k); rewrite vsum_cons, IHk; ring).
    rewrite vsum_cons, Z. split; [ring|]. cbn [lincomb]. rewrite vscale_1.
    assert (Q : lincomb n (zeros (length pts)) pts = zeros n).
    { apply Forall_inv_tail in HL. clear - HL. induction pts as [|r pts IH]; cbn [length zeros repeat lincomb]; [reflexivity|].
      change (repeat 0 (length pts)) with (zeros (length pts)). rewrite IH by (eapply Forall_inv_tail; eauto). rewrite vscale_0. rewrite (Forall_inv HL). apply vadd_zeros_r. len. }
    rewrite Q, vadd_zeros_r; [reflexivity|]. apply (Forall_inv HL).
  - destruct (IH (Forall_inv_tail HL) Ip) as (l & L1 & L2 & L3 & L4). exists (0 :: l). split; [cbn; lia|]. split; [constructor; [lra|exact L2]|].
    rewrite vsum_cons, L3. split; [ring|]. cbn [lincomb]. rewrite vscale_0, <- L4. rewrite (Forall_inv HL). symmetry. apply vadd_zeros_l.
    rewrite L4. apply lincomb_length. eapply Forall_inv_tail; eauto.
Qed.
Lemma in_hull_max n pts a c x : Forall (fun p => length p = n) pts -> (forall p, In p pts -> dot a p <= c) -> in_hull n pts x -> dot a x <= c.
Proof.
  intros HL Ha (l & Ll & Nl & Sl & ->). rewrite dot_comm, dot_lincomb by exact HL.
  assert (G : dot l (map (fun r => dot r a) pts) <= vsum l * c); [|rewrite Sl in G; lra].
  clear HL Sl. revert l Ll Nl. induction pts as [|p pts IH]; intros l Ll Nl; destruct l as [|k l]; try discriminate; [unfold vsum; cbn; lra|]. rewrite vsum_cons. cbn [map dot].
  pose proof (Forall_inv Nl). pose proof (Ha p (or_introl eq_refl)) as Hp. specialize (IH (fun q Hq => Ha q (or_intror Hq)) l ltac:(cbn in Ll; lia) (Forall_inv_tail Nl)). rewrite (dot_comm p a). nra.
Qed.
Lemma fm_hull_ok pts n E f : Forall (fun p => length p = n) pts -> fm_hull pts = Ok (E, f) ->
  (exists m, shape E m n /\ length f = m) /\ Forall (fun a => norm a = 1) (rows E) /\
  Forall2 (fun a d => exists p, In p pts /\ dot a p = d) (rows E) f /\
  forall x, length x = n -> (ineq_holds E f x <-> in_hull n pts x).
Proof.
  intros HL H. unfold fm_hull in H. destruct pts as [|p0 ps]; [discriminate|]. pose proof (Forall_inv HL) as L0. rewrite L0 in H.
  set (cs := filter (fun c => Rltb 0 (norm (fst c))) (hull_rows n (p0 :: ps))) in H. set (EE := map (fun c => vscale (/ norm (fst c)) (fst c)) cs) in H. injection H as <- <-.
  assert (HC : forall c, In c cs -> In c (hull_rows n (p0 :: ps)) /\ 0 < norm (fst c) /\ length (fst c) = n).
  { intros c Ic. apply filter_In in Ic. destruct Ic as (Ic & B). apply Rltb_true in B. split; [exact Ic|]. split; [exact B|]. pose proof (hull_rows_length n (p0 :: ps)) as Q. rewrite Forall_forall in Q. auto. }
  cbn [rows]. split; [|split; [|split]].
  - exists (length EE). split; [|len]. split; [reflexivity|]. split; [reflexivity|]. cbn [rows]. apply Forall_map, Forall_forall. intros c Ic. destruct (HC c Ic) as (_ & _ & L). len.
  - apply Forall_map, Forall_forall. intros c Ic. destruct (HC c Ic) as (_ & P & _). rewrite norm_vscale, Rabs_pos_eq; [field; lra|]. left. apply Rinv_0_lt_compat. exact P.
  - clearbody EE. induction EE as [|a EE IH]; cbn [map]; constructor; [|exact IH]. apply maxl_In.
  - intros x Lx. split.
    + intros H. apply hull_rows_ok; [exact HL|exact Lx|]. apply Forall_forall. intros c Ic. unfold holds.
      assert (Hp : forall p, In p (p0 :: ps) -> dot (fst c) p <= snd c).
      { intros p Ip. assert (Q : Forall (holds p) (hull_rows n (p0 :: ps))).
        { apply hull_rows_ok; [exact HL|rewrite Forall_forall in HL; auto|]. apply in_hull_pt; assumption. }
        rewrite Forall_forall in Q. apply (Q c Ic). }
      pose proof (hull_rows_length n (p0 :: ps)) as QL. rewrite Forall_forall in QL. specialize (QL c Ic).
      destruct (Rle_lt_dec (norm (fst c)) 0) as [Z|P].
      * assert (Z0 : norm (fst c) = 0) by (pose proof (norm_nonneg (fst c)); lra). apply norm_zero_iff in Z0. specialize (Hp p0 (or_introl eq_refl)). rewrite Z0, dot_zeros_l in *. exact Hp.
      * assert (Icc : In c cs) by (apply filter_In; split; [exact Ic|apply Rltb_true; exact P]).
        assert (Hx : dot (vscale (/ norm (fst c)) (fst c)) x <= maxl p0 ps (vscale (/ norm (fst c)) (fst c))).
        { assert (Ia : In (vscale (/ norm (fst c)) (fst c)) EE) by (unfold EE; apply (in_map (fun c => vscale (/ norm (fst c)) (fst c))); exact Icc).
          unfold ineq_holds in H. cbn [rows] in H. clear - H Ia. clearbody EE. generalize dependent (vscale (/ norm (fst c)) (fst c)). intros a Ia. induction EE as [|b EE IH]; [destruct Ia|]. cbn [map] in H. inversion H; subst. destruct Ia as [->|Ia]; auto. }
        destruct (maxl_In p0 ps (vscale (/ norm (fst c)) (fst c))) as (p & Ip & Ep). rewrite <- Ep in Hx. specialize (Hp p Ip). rewrite !dot_vscale_l in Hx.
        apply Rmult_le_reg_l with (r := / norm (fst c)); [apply Rinv_0_lt_compat; exact P|]. eapply Rle_trans; [exact Hx|]. apply Rmult_le_compat_l; [left; apply Rinv_0_lt_compat; exact P|exact Hp].
    + intros H. unfold ineq_holds. cbn [rows]. clearbody EE. induction EE as [|a EE IH]; cbn [map]; constructor; [|exact IH].
      apply (in_hull_max n (p0 :: ps)); [exact HL| |exact H]. intros p Ip. apply maxl_ge. exact Ip.
Qed.
Lemma fm_hull_total pts n : Forall (fun p => length p = n) pts -> (2 <= n)%nat ->
  (exists E f, fm_hull pts = Ok (E, f)) \/
  (fm_hull pts = Err QhullError /\ exists a d, length a = n /\ a <> zeros n /\ Forall (fun p => dot a p = d) pts).
Proof.
  intros HL H2. destruct pts as [|p0 ps]; [|left; eexists _, _; reflexivity]. right. split; [reflexivity|]. exists (ones n), 0. split; [len|]. split; [|constructor].
  destruct n; [lia|]. cbn. intros Q. injection Q. lra.
Qed.

(** a library that meets all the contracts *)
Definition np_fm (rnd : nat -> nat -> vec) : numpy :=
  exact_numpy (fun A => A) (fun _ => 0) (fun A => A) (fun _ _ Q _ => Q) rnd (fun _ _ _ => Ok []) fm_hull.
Lemma np_fm_ok rnd : exact_np (np_fm rnd) /\ hull_ok (np_fm rnd) /\ hull_total (np_fm rnd).
Proof.
  split; [|split].
  - unfold exact_np, np_fm. repeat apply conj; auto using exact_nnls_ok, exact_pinv_ok, exact_chol_ok, exact_inv_ok, exact_solve_ok, exact_svd_ok.
  - exact fm_hull_ok.
  - exact fm_hull_total.
Qed.
