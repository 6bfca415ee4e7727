(** * MpqpThms: explicit solution of multi-parametric quadratic programs (C40-C43), proofs *)
From Coq Require Import ZArith Classical.
From Verif Require Import Arr ArrFacts Spec SpecMpc Numpy Pnnls PnnlsFacts QpFacts GeomUtils Polyhedron PolyThms Oracle SolverThms NullFacts PolySolveThms PolyMore SpecDyn Dynamics DynThms CondenseThms LqrThms Mpqp.

Definition coherent (q : mpqp) (nu nx m : nat) : Prop :=
  shape (q_Huu q) nu nu /\ Spec.pd (q_Huu q) nu /\ shape (q_Hux q) nu nx /\ shape (q_Hxx q) nx nx /\
  length (q_fu q) = nu /\ length (q_fx q) = nx /\ shape (q_Au q) m nu /\ shape (q_Ax q) m nx /\ length (q_b q) = m /\
  shape (q_Huu_inv q) nu nu /\ mm (q_Huu q) (q_Huu_inv q) = eye nu /\ mm (q_Huu_inv q) (q_Huu q) = eye nu.
Definition q_cost q x u := mp_cost (q_Huu q) (q_Hux q) (q_Hxx q) (q_fu q) (q_fx q) (q_g q) x u.
Definition q_feasible q x u := mp_feasible (q_Au q) (q_Ax q) (q_b q) x u.
Definition q_minimizer q x u := mp_minimizer (q_Huu q) (q_Hux q) (q_Hxx q) (q_fu q) (q_fx q) (q_g q) (q_Au q) (q_Ax q) (q_b q) x u.
Definition q_multipliers q x u p := mp_multipliers (q_Huu q) (q_Hux q) (q_fu q) (q_Au q) (q_Ax q) (q_b q) x u p.

Lemma constructor_coherent np Huu Hux Hxx fu fx g Au Ax b nu nx m : exact_np np ->
  shape Huu nu nu -> Spec.pd Huu nu -> shape Hux nu nx -> shape Hxx nx nx -> length fu = nu -> length fx = nx ->
  shape Au m nu -> shape Ax m nx -> length b = m ->
  exists Hi, MultiParametricQuadraticProgram np Huu Hux Hxx fu fx g Au Ax b = Ok (MPQP Huu Hux Hxx fu fx g Au Ax b Hi) /\
    coherent (MPQP Huu Hux Hxx fu fx g Au Ax b Hi) nu nx m.
Proof.
  intros (_ & _ & _ & Hinv & _) HH PH H2 H3 L1 L2 HA HX Lb. unfold MultiParametricQuadraticProgram.
  destruct (Hinv Huu nu HH) as [(_ & X & EX & SX & M1 & M2)|((x & Lx & Nx & Kx) & _)].
  - rewrite EX. cbn [bind]. exists X. split; [reflexivity|]. unfold coherent. cbn. tauto.
  - exfalso. pose proof (proj2 PH x Lx Nx) as Q. rewrite Kx, dot_zeros_r in Q. lra.
Qed.

(** ** scatter *)
Lemma upd_length {A} i (v : A) l : length (upd i v l) = length l.
Proof. revert i. induction l as [|a l IH]; intros [|i]; cbn; auto. Qed.
Lemma map_upd {A B} (f : A -> B) i v l : map f (upd i v l) = upd i (f v) (map f l).
Proof. revert i. induction l as [|a l IH]; intros [|i]; cbn; auto. now rewrite IH. Qed.
Lemma nth_upd {A} i j (v : A) l d : nth j (upd i v l) d = if (Nat.eqb j i && (i <? length l)%nat)%bool then v else nth j l d.
Proof.
  revert i j. induction l as [|a l IH]; intros [|i] [|j]; cbn [upd nth length Nat.eqb andb]; try reflexivity.
  - rewrite Bool.andb_false_r. reflexivity.
  - rewrite IH. reflexivity.
Qed.
Lemma scatter_cons {A} (l : list A) i idx v vals : scatter l (i :: idx) (v :: vals) = scatter (upd i v l) idx vals.
Proof. reflexivity. Qed.
Lemma scatter_length {A} idx : forall (l : list A) vals, length (scatter l idx vals) = length l.
Proof. induction idx as [|i idx IH]; intros l [|v vals]; auto. rewrite scatter_cons, IH. apply upd_length. Qed.
Lemma map_scatter {A B} (f : A -> B) idx : forall l vals, map f (scatter l idx vals) = scatter (map f l) idx (map f vals).
Proof. induction idx as [|i idx IH]; intros l [|v vals]; auto. cbn [map]. rewrite !scatter_cons, IH, map_upd. reflexivity. Qed.
Lemma Forall_scatter {A} (P : A -> Prop) idx : forall l vals, Forall P l -> Forall P vals -> Forall P (scatter l idx vals).
Proof.
  assert (U : forall i v l, Forall P l -> P v -> Forall P (upd i v l)).
  { intros i v l. revert i. induction l as [|a l IH]; intros [|i] Hl Hv; cbn; auto; inversion Hl; subst; constructor; auto. }
  induction idx as [|i idx IH]; intros l [|v vals] Hl Hv; auto. rewrite scatter_cons. inversion Hv; subst. apply IH; auto.
Qed.
Lemma nth_scatter_out {A} idx j d : ~ In j idx -> forall (l : list A) vals, nth j (scatter l idx vals) d = nth j l d.
Proof.
  induction idx as [|i idx IH]; intros Hj l [|v vals]; auto. rewrite scatter_cons, IH by (intros Q; apply Hj; right; exact Q).
  rewrite nth_upd. destruct (Nat.eqb_spec j i) as [->|]; [exfalso; apply Hj; left; reflexivity|reflexivity].
Qed.
Lemma nth_scatter_in {A} idx d d' : NoDup idx -> forall (l : list A) vals k, length vals = length idx -> (forall i, In i idx -> (i < length l)%nat) -> (k < length idx)%nat ->
  nth (nth k idx 0%nat) (scatter l idx vals) d = nth k vals d'.
Proof.
  induction 1 as [|i idx Hi ND IH]; intros l vals k Lv Hb Hk; [cbn in Hk; lia|]. destruct vals as [|v vals]; [discriminate|]. rewrite scatter_cons.
  destruct k as [|k]; cbn [nth].
  - rewrite nth_scatter_out by exact Hi. rewrite nth_upd, Nat.eqb_refl. rewrite (proj2 (Nat.ltb_lt _ _)) by (apply Hb; left; reflexivity). reflexivity.
  - apply IH; cbn in *; [lia| |lia]. intros j Hj. rewrite upd_length. apply Hb. right. exact Hj.
Qed.
Lemma vadd_upd i a b u v : vadd (upd i a u) (upd i b v) = upd i (a + b) (vadd u v).
Proof. revert i v. induction u as [|x u IH]; intros i [|y v]; destruct i; cbn; auto. f_equal. apply IH. Qed.
Lemma vadd_scatter idx : forall l l' v v', length v = length v' -> vadd (scatter l idx v) (scatter l' idx v') = scatter (vadd l l') idx (vadd v v').
Proof. induction idx as [|i idx IH]; intros l l' [|a v] [|b v'] L; try discriminate L; auto. change (vadd (a :: v) (b :: v')) with ((a + b) :: vadd v v').
  rewrite !scatter_cons, IH, vadd_upd by (cbn in L; lia). reflexivity. Qed.
Lemma dot_upd i a u w : (i < length u)%nat -> length u = length w -> dot (upd i a u) w = dot u w + (a - nth i u 0) * nth i w 0.
Proof. revert i w. induction u as [|x u IH]; intros i [|y w] Hi L; try discriminate L; [cbn in Hi; lia|]. destruct i as [|i]; cbn [upd dot nth]; [ring|].
  rewrite IH by (cbn in *; lia). ring. Qed.
Lemma dot_scatter idx : NoDup idx -> forall l vals w, length vals = length idx -> length l = length w -> (forall i, In i idx -> (i < length l)%nat) -> (forall i, In i idx -> nth i l 0 = 0) ->
  dot (scatter l idx vals) w = dot l w + dot vals (vtake w idx).
Proof.
  induction 1 as [|i idx Hi ND IH]; intros l vals w Lv Lw Hb Hz; [destruct vals; [|discriminate]; cbn; ring|].
  destruct vals as [|v vals]; [discriminate|]. rewrite scatter_cons. rewrite IH.
  - rewrite dot_upd by (auto; apply Hb; left; reflexivity). rewrite Hz by (left; reflexivity). unfold vtake. cbn [map dot]. ring.
  - cbn in Lv. lia.
  - rewrite upd_length. exact Lw.
  - intros j Hj. rewrite upd_length. apply Hb. right. exact Hj.
  - intros j Hj. rewrite nth_upd. destruct (Nat.eqb_spec j i) as [->|]; [contradiction|]. cbn. apply Hz. right. exact Hj.
Qed.

Lemma existsb_In i l : existsb (Nat.eqb i) l = true <-> In i l.
Proof. rewrite existsb_exists. split; [intros (x & H & E); apply Nat.eqb_eq in E; subst; exact H|intros H; exists i; split; [exact H|apply Nat.eqb_refl]]. Qed.

(** ** The KKT point of an active set *)
Section Active.
Variables (q : mpqp) (nu nx m : nat) (act : list nat) (M : mat).
Hypothesis Hq : coherent q nu nx m.
Hypothesis Hact : forall i, In i act -> (i < m)%nat.
Let k := length act.
Let Aua := mtake (q_Au q) act.
Let Axa := mtake (q_Ax q) act.
Let ba := vtake (q_b q) act.
Let Hi := q_Huu_inv q.
Let G := mm (mm Aua Hi) (tr Aua).
Hypothesis SM : shape M k k.
Hypothesis GM : mm G M = eye k.
Hypothesis MG : mm M G = eye k.
Let pax := mm M (msub Axa (mm (mm Aua Hi) (q_Hux q))).
Let pa0 := vneg (mv M (vadd ba (mv (mm Aua Hi) (q_fu q)))).
Let ux := mneg (mm Hi (madd (q_Hux q) (mm (tr Aua) pax))).
Let u0 := vneg (mv Hi (vadd (q_fu q) (mv (tr Aua) pa0))).
Let pa x := vadd (mv pax x) pa0.
Let u x := vadd (mv ux x) u0.

Lemma sh : shape (q_Huu q) nu nu /\ shape (q_Hux q) nu nx /\ shape (q_Au q) m nu /\ shape (q_Ax q) m nx /\ shape Hi nu nu /\ length (q_fu q) = nu /\ length (q_b q) = m.
Proof. unfold coherent in Hq. tauto. Qed.
Lemma S_Aua : shape Aua k nu. Proof. apply (shape_mtake (q_Au q) m); [apply sh|exact Hact]. Qed.
Lemma S_Axa : shape Axa k nx. Proof. apply (shape_mtake (q_Ax q) m); [apply sh|exact Hact]. Qed.
Lemma L_ba : length ba = k. Proof. apply map_length. Qed.
Lemma S_pax : shape pax k nx.
Proof. pose proof sh as (? & ? & ? & ? & ? & ? & ?). pose proof S_Aua. pose proof S_Axa. unfold pax. eauto 8 with shp. Qed.
Lemma L_pa0 : length pa0 = k.
Proof. unfold pa0. rewrite vneg_length, mv_length. apply SM. Qed.
Lemma S_ux : shape ux nu nx.
Proof. pose proof sh as (? & ? & ? & ? & ? & ? & ?). pose proof S_Aua. pose proof S_pax. unfold ux. eauto 8 with shp. Qed.
Lemma L_u0 : length u0 = nu.
Proof. unfold u0. rewrite vneg_length, mv_length. apply sh. Qed.
Lemma L_pa x : length (pa x) = k.
Proof. unfold pa. rewrite vadd_length, mv_length, L_pa0, (proj1 S_pax). lia. Qed.
Lemma L_u x : length (u x) = nu.
Proof. unfold u. rewrite vadd_length, mv_length, L_u0, (proj1 S_ux). lia. Qed.
Lemma S_G : shape G k k.
Proof. pose proof sh as (? & ? & ? & ? & ? & ? & ?). pose proof S_Aua. unfold G. eauto 8 with shp. Qed.

Lemma act_NoDup : NoDup act.
Proof.
  apply NoDup_nth with (d := 0%nat). intros i j Hi' Hj' E. fold k in Hi', Hj'.
  destruct (Nat.eq_dec i j) as [|N]; [assumption|exfalso].
  set (y := vsub (unit k i) (unit k j)). assert (Ly : length y = k) by (unfold y; rewrite vsub_length, !unit_length; lia).
  assert (Z : mv (tr Aua) y = zeros nu).
  { apply (nth_ext _ _ 0 0); [rewrite mv_length, zeros_length; apply (shape_tr Aua k nu S_Aua)|]. intros c Hc. rewrite mv_length in Hc. rewrite (proj1 (shape_tr Aua k nu S_Aua)) in Hc.
    rewrite nth_zeros. rewrite <- (dot_unit_r nu c) by (auto; rewrite mv_length; apply (shape_tr Aua k nu S_Aua)).
    rewrite (dot_comm (mv (tr Aua) y)). rewrite (dot_mv_tr_r Aua k nu) by (auto using S_Aua, unit_length).
    unfold y. rewrite dot_vsub_r by (rewrite ?unit_length, ?mv_length; auto; try apply S_Aua).
    rewrite !dot_unit_r by (auto; rewrite mv_length; apply S_Aua). unfold Aua. rewrite mv_mtake.
    rewrite !(nth_indep _ 0 ((fun i0 => dot (row (q_Au q) i0) (unit nu c)) 0%nat)) by (rewrite map_length; assumption).
    rewrite !(map_nth (fun i0 => dot (row (q_Au q) i0) (unit nu c))), E. ring. }
  assert (Y : y = zeros k).
  { rewrite <- (mv_eye k y Ly), <- MG. rewrite (mv_mm _ _ k k) by apply S_G. unfold G. rewrite (mv_mm _ _ nu k) by (apply shape_tr; apply S_Aua). rewrite Z, mv_zeros.
    rewrite mv_zeros. f_equal. apply SM. }
  assert (Q : nth i y 0 = 1).
  { unfold y. rewrite nth_vsub by (rewrite !unit_length; reflexivity). rewrite !nth_unit by assumption. rewrite Nat.eqb_refl. rewrite (proj2 (Nat.eqb_neq i j) N). ring. }
  rewrite Y, nth_zeros in Q. lra.
Qed.

(** stationarity and active constraints *)
Lemma u_eq x : length x = nx -> u x = vneg (mv Hi (vadd (vadd (mv (q_Hux q) x) (q_fu q)) (mv (tr Aua) (pa x)))).
Proof.
  intros Lx. pose proof sh as (H1 & H2 & H3 & H4 & H5 & H6 & H7). pose proof S_Aua as H8. pose proof S_pax as H9. pose proof (shape_tr _ _ _ H8) as H10.
  unfold u, ux, u0. rewrite mv_mneg. rewrite (mv_mm _ _ nu nx) by eauto with shp. rewrite (mv_madd _ _ nu nx) by eauto with shp. rewrite (mv_mm _ _ k nx) by exact H9.
  unfold pa. rewrite (mv_vadd (tr Aua) nu k) by (auto using L_pa0; rewrite mv_length; apply H9).
  assert (L1 : length (mv (q_Hux q) x) = nu) by (rewrite mv_length; apply H2).
  assert (L2 : length (mv (tr Aua) (mv pax x)) = nu) by (rewrite mv_length; apply H10).
  assert (L3 : length (mv (tr Aua) pa0) = nu) by (rewrite mv_length; apply H10).
  rewrite !(mv_vadd Hi nu nu) by (auto; len).
  assert (L4 : forall y, length (mv Hi y) = nu) by (intros; rewrite mv_length; apply H5).
  apply (nth_ext _ _ 0 0); [len|]. intros i Hi'. rewrite vadd_length, !vneg_length, !vadd_length, !L4 in Hi'.
  repeat first [rewrite nth_vneg | rewrite nth_vadd by len]. ring.
Qed.
Lemma stationarity x v : length x = nx -> length v = nu ->
  dot (mv (q_Huu q) (u x)) v + dot (mv (q_Hux q) x) v + dot (q_fu q) v + dot (pa x) (mv Aua v) = 0.
Proof.
  intros Lx Lv. pose proof sh as (H1 & H2 & H3 & H4 & H5 & H6 & H7). pose proof S_Aua as H8. pose proof (shape_tr _ _ _ H8) as H10.
  assert (L1 : length (mv (q_Hux q) x) = nu) by (rewrite mv_length; apply H2).
  assert (L2 : length (mv (tr Aua) (pa x)) = nu) by (rewrite mv_length; apply H10).
  assert (E : mv (q_Huu q) (u x) = vneg (vadd (vadd (mv (q_Hux q) x) (q_fu q)) (mv (tr Aua) (pa x)))).
  { rewrite u_eq by exact Lx. rewrite mv_vneg. f_equal. rewrite <- (mv_mm _ _ nu nu) by exact H5. unfold Hi. replace (mm (q_Huu q) (q_Huu_inv q)) with (eye nu) by (symmetry; apply Hq).
    apply mv_eye. len. }
  rewrite E. rewrite dot_vneg_l. rewrite !dot_vadd_l by len. rewrite (dot_mv_tr Aua k nu) by (auto using L_pa). ring.
Qed.
Lemma active_tight x : length x = nx -> vadd (mv Aua (u x)) (mv Axa x) = ba.
Proof.
  intros Lx. pose proof sh as (H1 & H2 & H3 & H4 & H5 & H6 & H7). pose proof S_Aua as H8. pose proof S_Axa as H8'. pose proof (shape_tr _ _ _ H8) as H10. pose proof L_ba as Lba. pose proof S_pax as H9.
  assert (L1 : length (mv (q_Hux q) x) = nu) by (rewrite mv_length; apply H2).
  assert (L2 : length (mv (tr Aua) (pa x)) = nu) by (rewrite mv_length; apply H10).
  assert (LA : forall y, length (mv Aua y) = k) by (intros; rewrite mv_length; apply H8).
  assert (LX : forall y, length (mv Axa y) = k) by (intros; rewrite mv_length; apply H8').
  assert (LH : forall y, length (mv Hi y) = nu) by (intros; rewrite mv_length; apply H5).
  set (t := vadd (mv (q_Hux q) x) (q_fu q)). assert (Lt : length t = nu) by (unfold t; len).
  (* G pa = (Axa - Aua Hi Hux) x - (ba + Aua Hi fu) *)
  set (w1 := vsub (mv Axa x) (mv Aua (mv Hi (mv (q_Hux q) x)))). set (w2 := vadd ba (mv Aua (mv Hi (q_fu q)))).
  assert (Lw1 : length w1 = k) by (unfold w1; rewrite vsub_length, LX, LA; lia). assert (Lw2 : length w2 = k) by (unfold w2; rewrite vadd_length, Lba, LA; lia).
  assert (P1 : mv pax x = mv M w1).
  { unfold pax. rewrite (mv_mm _ _ k nx) by eauto 7 with shp. rewrite (mv_msub _ _ k nx) by eauto 7 with shp. rewrite (mv_mm _ _ nu nx) by exact H2. rewrite (mv_mm _ _ nu nu) by exact H5. reflexivity. }
  assert (P2 : pa0 = vneg (mv M w2)).
  { unfold pa0. rewrite (mv_mm Aua Hi nu nu) by exact H5. reflexivity. }
  assert (P : mv G (pa x) = vsub w1 w2).
  { unfold pa. rewrite P1, P2. rewrite <- mv_vneg, <- (mv_vadd M k k) by (auto; rewrite vneg_length; auto).
    rewrite <- (mv_mm _ _ k k) by exact SM. rewrite GM. rewrite mv_eye by (rewrite vadd_length, vneg_length; lia).
    apply (nth_ext _ _ 0 0); [rewrite vadd_length, vsub_length, vneg_length; lia|]. intros i Hi'. rewrite nth_vadd, nth_vsub, nth_vneg by (rewrite ?vneg_length; lia). ring. }
  assert (PG : mv G (pa x) = mv Aua (mv Hi (mv (tr Aua) (pa x)))).
  { unfold G. rewrite (mv_mm _ _ nu k) by exact H10. rewrite (mv_mm Aua Hi nu nu) by exact H5. reflexivity. }
  rewrite u_eq by exact Lx. fold t. rewrite mv_vneg. rewrite (mv_vadd Hi nu nu) by auto. rewrite (mv_vadd Aua k nu) by auto. rewrite <- PG, P.
  unfold t. rewrite (mv_vadd Hi nu nu) by auto. rewrite (mv_vadd Aua k nu) by auto. unfold w1, w2.
  apply (nth_ext _ _ 0 0); [repeat rewrite ?vadd_length, ?vsub_length, ?vneg_length, ?LA, ?LX; lia|]. intros i Hi'.
  repeat first [rewrite nth_vneg | rewrite nth_vadd by (repeat rewrite ?vadd_length, ?vsub_length, ?vneg_length, ?LA, ?LX; lia)
    | rewrite nth_vsub by (repeat rewrite ?vadd_length, ?vsub_length, ?vneg_length, ?LA, ?LX; lia)]. ring.
Qed.
End Active.

Definition region_ok (q : mpqp) (nu nx m : nat) (act : list nat) (cr : critical_region) : Prop :=
  NoDup act /\ cr_active cr = act /\ wf (cr_poly cr) m 0 nx /\ p_empty (cr_poly cr) = None /\
  forall x, length x = nx ->
    length (cr_u cr x) = nu /\ length (cr_p cr x) = m /\
    (forall v, length v = nu -> dot (mv (q_Huu q) (cr_u cr x)) v + dot (mv (q_Hux q) x) v + dot (q_fu q) v + dot (cr_p cr x) (mv (q_Au q) v) = 0) /\
    (forall i, In i act -> dot (row (q_Au q) i) (cr_u cr x) + dot (row (q_Ax q) i) x = nth i (q_b q) 0) /\
    (forall i, ~ In i act -> nth i (cr_p cr x) 0 = 0) /\
    cr_V cr x = q_cost q x (cr_u cr x) /\
    (in_poly (cr_poly cr) x <-> nonneg (cr_p cr x) /\ q_feasible q x (cr_u cr x)).

Lemma value_eq q nu nx m ux u0 x : coherent q nu nx m -> shape ux nu nx -> length u0 = nu -> length x = nx ->
  let Vxx := madd (madd (mm (mm (tr ux) (q_Huu q)) ux) (mscale 2 (mm (tr (q_Hux q)) ux))) (q_Hxx q) in
  let Vx := vadd (vadd (mv (madd (mm (tr ux) (tr (q_Huu q))) (tr (q_Hux q))) u0) (mv (tr ux) (q_fu q))) (q_fx q) in
  let V0 := / 2 * dot u0 (mv (q_Huu q) u0) + dot (q_fu q) u0 + q_g q in
  / 2 * dot x (mv Vxx x) + dot Vx x + V0 = q_cost q x (vadd (mv ux x) u0).
Proof.
  intros (H1 & P & H2 & H3 & L1 & L2 & _) Sx L0 Lx. cbv zeta.
  pose proof (shape_tr _ _ _ Sx) as T1. pose proof (shape_tr _ _ _ H2) as T2. pose proof (shape_tr _ _ _ H1) as T3.
  rewrite !(mv_madd _ _ nx nx) by eauto 7 with shp. rewrite mv_mscale. rewrite !(mv_mm _ ux nu nx) by exact Sx. rewrite (mv_mm _ (q_Huu q) nu nu) by exact H1.
  rewrite (mv_madd _ _ nx nu) by eauto 7 with shp. rewrite (mv_mm _ (tr (q_Huu q)) nu nu) by exact T3.
  assert (Lux : length (mv ux x) = nu) by (rewrite mv_length; apply Sx).
  assert (E1 : length (mv (tr ux) (mv (q_Huu q) (mv ux x))) = nx) by (rewrite mv_length; apply T1).
  assert (E2 : length (mv (tr (q_Hux q)) (mv ux x)) = nx) by (rewrite mv_length; apply T2).
  assert (E3 : length (mv (q_Hxx q) x) = nx) by (rewrite mv_length; apply H3).
  assert (E4 : length (mv (tr ux) (mv (tr (q_Huu q)) u0)) = nx) by (rewrite mv_length; apply T1).
  assert (E5 : length (mv (tr (q_Hux q)) u0) = nx) by (rewrite mv_length; apply T2).
  assert (E6 : length (mv (tr ux) (q_fu q)) = nx) by (rewrite mv_length; apply T1).
  rewrite !dot_vadd_r by len. rewrite !dot_vadd_l by len. rewrite dot_vscale_r.
  rewrite !(dot_mv_tr_r ux nu nx) by (auto; rewrite mv_length; apply H1). rewrite (dot_mv_tr_r (q_Hux q) nu nx) by auto.
  rewrite !(dot_mv_tr ux nu nx) by (auto; rewrite mv_length; apply T3). rewrite (dot_mv_tr (q_Hux q) nu nx) by auto. rewrite (dot_mv_tr (q_Huu q) nu nu) by auto.
  unfold q_cost, mp_cost. rewrite (mv_vadd (q_Huu q) nu nu) by auto.
  assert (E7 : length (mv (q_Huu q) (mv ux x)) = nu) by (rewrite mv_length; apply H1). assert (E8 : length (mv (q_Huu q) u0) = nu) by (rewrite mv_length; apply H1).
  assert (E9 : length (mv (q_Hux q) x) = nu) by (rewrite mv_length; apply H2).
  rewrite !dot_vadd_r by len. rewrite !dot_vadd_l by len. 
  rewrite (sym_dot (q_Huu q) nu (mv ux x) u0) by (auto; apply P). rewrite (dot_comm (mv (q_Hux q) x)). field.
Qed.

Lemma Hinv_pd q nu nx m z : coherent q nu nx m -> length z = nu -> dot z (mv (q_Huu_inv q) z) = 0 -> z = zeros nu.
Proof.
  intros (H1 & P & _ & _ & _ & _ & _ & _ & _ & SI & I1 & I2) Lz E. set (w := mv (q_Huu_inv q) z) in *.
  assert (Lw : length w = nu) by (unfold w; rewrite mv_length; apply SI).
  assert (Z : z = mv (q_Huu q) w). { unfold w. rewrite <- (mv_mm _ _ nu nu) by exact SI. rewrite I1. symmetry. apply mv_eye. exact Lz. }
  destruct (list_eq_dec Req_EM_T w (zeros nu)) as [W|W].
  - rewrite Z, W, mv_zeros. f_equal. apply H1.
  - exfalso. pose proof (proj2 P w Lw W) as Q. rewrite <- Z, dot_comm in Q. lra.
Qed.
Lemma gram_inj q nu nx m act y : coherent q nu nx m -> (forall i, In i act -> (i < m)%nat) -> indep_rows (mtake (q_Au q) act) (length act) ->
  length y = length act -> mv (mm (mm (mtake (q_Au q) act) (q_Huu_inv q)) (tr (mtake (q_Au q) act))) y = zeros (length act) -> y = zeros (length act).
Proof.
  intros Hq Hact Hind Ly Hy. set (Aua := mtake (q_Au q) act) in *.
  assert (SA : shape Aua (length act) nu) by (apply (shape_mtake (q_Au q) m); [apply Hq|exact Hact]). pose proof (shape_tr _ _ _ SA) as ST.
  assert (SI : shape (q_Huu_inv q) nu nu) by apply Hq.
  apply Hind; [exact Ly|]. replace (ncols Aua) with nu by (symmetry; apply SA).
  apply (Hinv_pd q nu nx m); [exact Hq|rewrite mv_length; apply ST|].
  rewrite (mv_mm _ _ nu (length act)) in Hy by exact ST. rewrite (mv_mm _ _ nu nu) in Hy by exact SI.
  rewrite (dot_mv_tr Aua (length act) nu) by auto. rewrite Hy. apply dot_zeros_r.
Qed.
Lemma rank_dep np C me n : svd_ok np -> inv_ok np -> shape C me n -> ~ indep_rows C me -> (np_rank np C < me)%nat.
Proof.
  intros Hs Hi HC Hd. destruct (nullspace_ok np C me n Hs HC) as (_ & _ & Hle & _).
  destruct (Nat.eq_dec (np_rank np C) me) as [E|]; [exfalso|lia]. apply Hd. intros y Ly Hy.
  destruct (proj1 (onto_rank np C me n Hs Hi HC) E y Ly) as (w & Lw & Ew).
  assert (Z : dot y y = 0). { rewrite <- Ew at 2. rewrite <- (dot_mv_tr C me n) by auto. rewrite Hy. apply dot_zeros_l. }
  rewrite <- Ly. apply dot_self_zero. exact Z.
Qed.

Lemma NoDup_app_disj {A} (l l' : list A) : NoDup l -> NoDup l' -> (forall i, In i l -> ~ In i l') -> NoDup (l ++ l').
Proof.
  induction 1 as [|a l Ha ND IH]; intros N' D; [exact N'|]. cbn. constructor.
  - intros Q. apply in_app_or in Q. destruct Q as [Q|Q]; [contradiction|]. apply (D a); [left; reflexivity|exact Q].
  - apply IH; [exact N'|]. intros i Hi. apply D. right. exact Hi.
Qed.
Lemma nth_map_0 {A} (f : nat -> A) l k d : (k < length l)%nat -> nth k (map f l) d = f (nth k l 0%nat).
Proof. intros H. rewrite (nth_indep _ d (f 0%nat)) by (rewrite map_length; exact H). apply map_nth. Qed.

Lemma active_set_ok np q nu nx m act : exact_np np -> coherent q nu nx m -> (forall i, In i act -> (i < m)%nat) ->
  (indep_rows (mtake (q_Au q) act) (length act) /\ exists cr, explicit_solve_given_active_set np q act = Ok (Some cr) /\ region_ok q nu nx m act cr) \/
  (~ indep_rows (mtake (q_Au q) act) (length act) /\ explicit_solve_given_active_set np q act = Ok None).
Proof.
  intros (_ & _ & _ & Hinv & _ & Hsvd) Hq Hact.
  assert (ISH : shape (q_Huu q) nu nu /\ shape (q_Hux q) nu nx /\ shape (q_Au q) m nu /\ shape (q_Ax q) m nx /\ shape (q_Huu_inv q) nu nu /\ length (q_fu q) = nu /\ length (q_b q) = m) by (unfold coherent in Hq; tauto).
  destruct ISH as (H1 & H2 & H3 & H4 & H5 & L1 & L2).
  assert (SA : shape (mtake (q_Au q) act) (length act) nu) by (apply (shape_mtake (q_Au q) m); [exact H3|exact Hact]).
  assert (F : negb (forallb (fun i => Nat.ltb i (nrows (q_Au q))) act) = false).
  { apply Bool.negb_false_iff, forallb_forall. intros i Hi. apply Nat.ltb_lt. unfold nrows. rewrite (proj1 H3). auto. }
  unfold explicit_solve_given_active_set. rewrite F. cbn zeta.
  destruct (classic (indep_rows (mtake (q_Au q) act) (length act))) as [Ind|Dep].
  2:{ right. split; [exact Dep|]. pose proof (rank_dep np _ _ nu Hsvd Hinv SA Dep) as Q. unfold nrows. rewrite (proj1 SA).
      rewrite (proj2 (Nat.ltb_lt _ _) Q). rewrite (proj2 (Nat.ltb_lt _ _)) by lia. reflexivity. }
  left. split; [exact Ind|]. pose proof (rank_indep np _ _ nu Hsvd SA Ind) as Q.
  replace (nrows (mtake (q_Au q) act)) with (length act) by (symmetry; apply SA). rewrite Q, Nat.ltb_irrefl, Bool.andb_false_r.
  set (G := mm (mm (mtake (q_Au q) act) (q_Huu_inv q)) (tr (mtake (q_Au q) act))).
  assert (SG : shape G (length act) (length act)) by (unfold G; eauto 8 with shp).
  destruct (Hinv G (length act) SG) as [(_ & M & EM & SM & GM & MG)|((y & Ly & Ny & Ky) & _)].
  2:{ exfalso. apply Ny. apply (gram_inj q nu nx m act); assumption. }
  rewrite EM. cbn [bind].
  pose proof (act_NoDup q nu nx m act M Hq Hact SM MG) as ND.
  pose proof (S_pax q nu nx m act M Hq Hact SM) as Spax. pose proof (L_pa0 q act M SM) as Lpa0.
  pose proof (S_ux q nu nx m act M Hq Hact SM) as Sux. pose proof (L_u0 q nu nx m act M Hq) as Lu0.
  pose proof (L_pa q nu nx m act M Hq Hact SM) as Lpa. pose proof (L_u q nu nx m act M Hq Hact SM) as Lu.
  pose proof (stationarity q nu nx m act M Hq Hact SM) as St. pose proof (active_tight q nu nx m act M Hq Hact SM GM) as Tight.
  set (pax := mm M (msub (mtake (q_Ax q) act) (mm (mm (mtake (q_Au q) act) (q_Huu_inv q)) (q_Hux q)))) in *.
  set (pa0 := vneg (mv M (vadd (vtake (q_b q) act) (mv (mm (mtake (q_Au q) act) (q_Huu_inv q)) (q_fu q))))) in *.
  set (ux := mneg (mm (q_Huu_inv q) (madd (q_Hux q) (mm (tr (mtake (q_Au q) act)) pax)))) in *.
  set (u0 := vneg (mv (q_Huu_inv q) (vadd (q_fu q) (mv (tr (mtake (q_Au q) act)) pa0)))) in *.
  set (ina := filter (fun i => negb (existsb (Nat.eqb i) act)) (seq 0 (nrows (q_Ax q)))).
  assert (Iina : forall i, In i ina <-> (i < m)%nat /\ ~ In i act).
  { intros i. unfold ina. rewrite filter_In, in_seq, Bool.negb_true_iff. unfold nrows. rewrite (proj1 H4). rewrite <- existsb_In. split; intros (P1 & P2); split; try lia; destruct (existsb (Nat.eqb i) act); congruence. }
  assert (Bina : forall i, In i ina -> (i < m)%nat) by (intros i Hi; apply Iina, Hi).
  assert (SAi : shape (mtake (q_Au q) ina) (length ina) nu) by (apply (shape_mtake (q_Au q) m); auto).
  assert (SXi : shape (mtake (q_Ax q) ina) (length ina) nx) by (apply (shape_mtake (q_Ax q) m); auto).
  assert (Card : (length act + length ina)%nat = m).
  { rewrite <- app_length. replace m with (length (seq 0 m)) by apply seq_length. apply Nat.le_antisymm; apply NoDup_incl_length.
    - apply NoDup_app_disj; [exact ND|apply NoDup_filter, seq_NoDup|]. intros i Hi Hi'. apply Iina in Hi'. tauto.
    - intros i Hi. apply in_seq. apply in_app_or in Hi. destruct Hi as [Hi|Hi]; [apply Hact in Hi|apply Bina in Hi]; lia.
    - apply seq_NoDup.
    - intros i Hi. apply in_seq in Hi. apply in_or_app. destruct (in_dec Nat.eq_dec i act); [left|right; apply Iina; split; [lia|]]; assumption. }
  set (Acr := vstack (mneg pax) (madd (mm (mtake (q_Au q) ina) ux) (mtake (q_Ax q) ina))).
  set (bcr := pa0 ++ vsub (vtake (q_b q) ina) (mv (mtake (q_Au q) ina) u0)).
  assert (SAcr : shape Acr m nx) by (unfold Acr; rewrite <- Card; eauto 8 with shp).
  assert (Lbi : length (vtake (q_b q) ina) = length ina) by apply map_length.
  assert (Lbcr : length bcr = m). { unfold bcr. rewrite app_length, Lpa0, vsub_length, mv_length, Lbi, (proj1 SAi). lia. }
  assert (EP : Polyhedron Acr (D1 bcr) None None = Ok (Poly Acr bcr (zmat 0 (ncols Acr)) (zeros 0) None None None None None)).
  { unfold Polyhedron, same_number_rows. cbn [nd_size]. unfold nrows. rewrite (proj1 SAcr), Lbcr, Nat.eqb_refl. reflexivity. }
  rewrite EP. cbn [bind]. eexists. split; [reflexivity|].
  set (P0 := Poly Acr bcr (zmat 0 (ncols Acr)) (zeros 0) None None None None None).
  assert (W0 : wf P0 m 0 nx). { unfold wf, P0. cbn [pA pb pC pd]. split; [exact SAcr|]. split; [exact Lbcr|]. split; [|reflexivity]. rewrite (proj1 (proj2 SAcr)). apply shape_zmat. }
  destruct (normalize_ok P0 m 0 nx tol7 W0 ltac:(unfold tol7; lra)) as (W1 & In1 & _).
  unfold region_ok. cbn [cr_active cr_poly].
  split; [exact ND|]. split; [reflexivity|]. split; [exact W1|]. split; [reflexivity|].
  intros x Lx. set (cr := CR _ _ _ _ _ _ _ _ _).
  assert (Eu : cr_u cr x = vadd (mv ux x) u0) by reflexivity.
  assert (Ep : cr_p cr x = scatter (zeros m) act (vadd (mv pax x) pa0)).
  { unfold cr_p, cr. cbn [cr_px cr_p0]. unfold nrows. rewrite (proj1 H4). unfold mv at 1. cbn [rows]. rewrite map_scatter.
    change (map (fun r => dot r x) (rows pax)) with (mv pax x). change (map (fun r => dot r x) (rows (zmat m (ncols (q_Ax q))))) with (mv (zmat m (ncols (q_Ax q))) x).
    rewrite mv_zmat. rewrite vadd_scatter by (rewrite mv_length, (proj1 Spax); lia). rewrite vadd_zeros_l by apply zeros_length. reflexivity. }
  assert (Lp : length (cr_p cr x) = m) by (rewrite Ep, scatter_length; apply zeros_length).
  specialize (Lpa x). specialize (Lu x). specialize (Tight x Lx). cbv beta in Lpa, Lu, Tight, St.
  assert (HT : forall i, In i act -> dot (row (q_Au q) i) (cr_u cr x) + dot (row (q_Ax q) i) x = nth i (q_b q) 0).
  { intros i Hi. destruct (In_nth _ _ 0%nat Hi) as (k & Hk & Ek). rewrite <- Ek. apply (f_equal (fun v => nth k v 0)) in Tight.
    rewrite nth_vadd in Tight by (rewrite !mv_mtake, !map_length; reflexivity). rewrite !mv_mtake_vtake in Tight. unfold vtake in Tight.
    rewrite !nth_map_0 in Tight by exact Hk. rewrite !nth_mv in Tight. rewrite Eu. exact Tight. }
  assert (HZ : forall i, ~ In i act -> nth i (cr_p cr x) 0 = 0).
  { intros i Hi. rewrite Ep, nth_scatter_out by exact Hi. apply nth_zeros. }
  split; [exact Lu|]. split; [exact Lp|]. split.
  { intros v Lv. rewrite <- (St x v Lx Lv), Eu. f_equal. rewrite Ep, dot_scatter.
    - rewrite dot_zeros_l, mv_mtake_vtake. ring.
    - exact ND.
    - exact Lpa.
    - rewrite zeros_length, mv_length. symmetry. apply H3.
    - intros i Hi. rewrite zeros_length. auto.
    - intros i _. apply nth_zeros. }
  split; [exact HT|]. split; [exact HZ|].
  split; [apply (value_eq q nu nx m ux u0 x Hq Sux Lu0 Lx)|].
  rewrite In1, (in_poly_vle P0 m 0 nx x W0). unfold P0. cbn [pA pb pC pd]. unfold Acr, bcr. rewrite mv_vstack.
  assert (Lpx : length (mv pax x) = length act) by (rewrite mv_length; apply Spax).
  rewrite vle_app by (rewrite mv_length, Lpa0; apply (shape_mneg _ _ _ Spax)).
  rewrite mv_mneg. rewrite (mv_madd _ _ (length ina) nx) by eauto with shp. rewrite (mv_mm _ ux nu nx) by exact Sux.
  assert (C1 : vle (vneg (mv pax x)) pa0 <-> nonneg (cr_p cr x)).
  { rewrite vle_nth. rewrite vneg_length, Lpx. split.
    - intros (_ & H). unfold nonneg. apply Forall_nth. intros i d Hi. rewrite (nth_indep _ d 0) by exact Hi.
      destruct (in_dec Nat.eq_dec i act) as [Hia|Hia]; [|rewrite HZ by exact Hia; lra].
      destruct (In_nth _ _ 0%nat Hia) as (k & Hk & Ek). rewrite Ep, <- Ek. rewrite (nth_scatter_in act 0 0) by (auto; intros j Hj; rewrite zeros_length; auto).
      rewrite nth_vadd by lia. specialize (H k Hk). rewrite nth_vneg in H. lra.
    - intros H. split; [lia|]. intros k Hk. rewrite nth_vneg.
      assert (Hin : In (nth k act 0%nat) act) by (apply nth_In; exact Hk).
      assert (E : 0 <= nth (nth k act 0%nat) (cr_p cr x) 0). { unfold nonneg in H. rewrite Forall_forall in H. apply H, nth_In. rewrite Lp. apply Hact, Hin. }
      rewrite Ep in E. rewrite (nth_scatter_in act 0 0) in E by (auto; intros j Hj; rewrite zeros_length; auto).
      rewrite nth_vadd in E by lia. lra. }
  assert (C2 : vle (vadd (mv (mtake (q_Au q) ina) (mv ux x)) (mv (mtake (q_Ax q) ina) x)) (vsub (vtake (q_b q) ina) (mv (mtake (q_Au q) ina) u0)) <-> q_feasible q x (cr_u cr x)).
  { assert (LA : forall y, length (mv (mtake (q_Au q) ina) y) = length ina) by (intros; rewrite mv_length; apply SAi).
    assert (LX : forall y, length (mv (mtake (q_Ax q) ina) y) = length ina) by (intros; rewrite mv_length; apply SXi).
    assert (Lux : length (mv ux x) = nu) by (rewrite mv_length; apply Sux).
    assert (EE : forall k, (k < length ina)%nat -> nth k (vadd (mv (mtake (q_Au q) ina) (mv ux x)) (mv (mtake (q_Ax q) ina) x)) 0 <= nth k (vsub (vtake (q_b q) ina) (mv (mtake (q_Au q) ina) u0)) 0 <->
       dot (row (q_Au q) (nth k ina 0%nat)) (cr_u cr x) + dot (row (q_Ax q) (nth k ina 0%nat)) x <= nth (nth k ina 0%nat) (q_b q) 0).
    { intros k Hk. rewrite nth_vadd by (rewrite LA, LX; reflexivity). rewrite nth_vsub by (rewrite LA, Lbi; reflexivity). rewrite !mv_mtake_vtake. unfold vtake. rewrite !nth_map_0 by exact Hk.
      rewrite !nth_mv. rewrite Eu. rewrite dot_vadd_r by lia. unfold row. split; lra. }
    rewrite vle_nth. rewrite vadd_length, vsub_length, LA, LX, Lbi, LA. unfold q_feasible, mp_feasible. rewrite L2, (proj1 (proj2 H3)). split.
    - intros (_ & H). split; [rewrite Eu; exact Lu|]. intros i Hi. destruct (in_dec Nat.eq_dec i act) as [Hia|Hia]; [rewrite HT by exact Hia; lra|].
      destruct (In_nth ina i 0%nat (proj2 (Iina i) (conj Hi Hia))) as (k & Hk & Ek). rewrite <- Ek. apply EE; [exact Hk|]. apply H. lia.
    - intros (_ & H). split; [lia|]. intros k Hk. apply EE; [lia|]. apply H, Bina, nth_In. lia. }
  rewrite C1, C2. split; [tauto|]. intros (Ha & Hb). split; [exact Lx|]. split; [tauto|]. reflexivity.
Qed.

(** ** Optimality on a region *)
Lemma q_cost_split q nu nx m x u : coherent q nu nx m -> length x = nx -> length u = nu ->
  q_cost q x u = qp_cost (q_Huu q) (vadd (mv (q_Hux q) x) (q_fu q)) u + (/ 2 * dot x (mv (q_Hxx q) x) + dot (q_fx q) x + q_g q).
Proof.
  intros Hq Lx Lu. unfold q_cost, mp_cost, qp_cost.
  assert (L1 : length (mv (q_Hux q) x) = nu) by (rewrite mv_length; apply Hq). assert (L2 : length (q_fu q) = nu) by apply Hq.
  rewrite dot_vadd_l by lia. rewrite (dot_comm u (mv (q_Hux q) x)). field.
Qed.
Lemma q_feasible_split q nu nx m x u : coherent q nu nx m -> length x = nx ->
  (q_feasible q x u <-> in_set (q_Au q) (vsub (q_b q) (mv (q_Ax q) x)) (zmat 0 nu) [] u).
Proof.
  intros Hq Lx. assert (L1 : length (mv (q_Ax q) x) = m) by (rewrite mv_length; apply Hq). assert (L2 : length (q_b q) = m) by apply Hq.
  assert (HA : shape (q_Au q) m nu) by apply Hq. assert (LA : length (mv (q_Au q) u) = m) by (rewrite mv_length; apply HA).
  rewrite in_set_vle. unfold q_feasible, mp_feasible. rewrite (proj1 (proj2 HA)), L2. rewrite vle_nth, vsub_length, LA, L1, L2.
  assert (EE : forall i, (i < m)%nat -> nth i (mv (q_Au q) u) 0 <= nth i (vsub (q_b q) (mv (q_Ax q) x)) 0 <-> dot (row (q_Au q) i) u + dot (row (q_Ax q) i) x <= nth i (q_b q) 0).
  { intros i Hi. rewrite nth_vsub by lia. rewrite !nth_mv. unfold row. split; lra. }
  split.
  - intros (Lu & H). split; [exact Lu|]. split; [|reflexivity]. split; [lia|]. intros i Hi. apply EE; auto.
  - intros (Lu & (_ & H) & _). split; [exact Lu|]. intros i Hi. apply EE; auto.
Qed.
(** KKT pairs are minimizers *)
Lemma kkt_minimizer q nu nx m x u p : coherent q nu nx m -> length x = nx -> q_feasible q x u -> q_multipliers q x u p -> q_minimizer q x u.
Proof.
  intros Hq Lx Hf Hm. pose proof Hq as (H1 & PD & H2 & H3 & L1 & L2 & H4 & H5 & L3 & _).
  split; [exact Hf|]. intros v Hv. destruct Hm as (Lp & Hp & Hst & Hcs).
  assert (Lu : length u = nu) by (destruct Hf as (E & _); rewrite E; apply H4). assert (Lv : length v = nu) by (destruct Hv as (E & _); rewrite E; apply H4).
  assert (L4 : length (mv (q_Hux q) x) = nu) by (rewrite mv_length; apply H2). assert (L5 : length (mv (q_Ax q) x) = m) by (rewrite mv_length; apply H5).
  assert (L6 : length (mv (q_Huu q) u) = nu) by (rewrite mv_length; apply H1).
  pose proof (kkt_qp (q_Huu q) (vadd (mv (q_Hux q) x) (q_fu q)) (q_Au q) (vsub (q_b q) (mv (q_Ax q) x)) (zmat 0 nu) [] m 0 nu u p [] H1 (pd_psd _ _ PD) H4) as K.
  specialize (K ltac:(len) (shape_zmat 0 nu) eq_refl ltac:(len) ltac:(lia) Hp (proj1 (q_feasible_split q nu nx m x u Hq Lx) Hf)).
  assert (S1 : stationary (vadd (mv (q_Huu q) u) (vadd (mv (q_Hux q) x) (q_fu q))) (q_Au q) p (zmat 0 nu) [] nu).
  { intros w Lw. rewrite !dot_vadd_l by len. cbn [dot]. specialize (Hst w ltac:(rewrite Lw; symmetry; apply H4)). lra. }
  assert (S2 : compl_slack (q_Au q) (vsub (q_b q) (mv (q_Ax q) x)) p u).
  { intros i Hi. rewrite vsub_length, L5, L3, Nat.min_id in Hi. specialize (Hcs i ltac:(lia)). rewrite nth_vsub by lia. rewrite nth_mv. unfold row in *. etransitivity; [|exact Hcs]. ring. }
  specialize (K S1 S2 v (proj1 (q_feasible_split q nu nx m x v Hq Lx) Hv)).
  fold (q_cost q x u). fold (q_cost q x v). rewrite !(q_cost_split q nu nx m) by auto.
  assert (Ld : length (vsub v u) = nu) by len.
  assert (Q : vsub v u = zeros nu \/ 0 < dot (vsub v u) (mv (q_Huu q) (vsub v u))).
  { destruct (list_eq_dec Req_EM_T (vsub v u) (zeros nu)) as [E|N]; [left; exact E|right; apply (proj2 PD); assumption]. }
  destruct Q as [Q|Q].
  - assert (E : v = u) by (apply (vsub_zero_eq v u nu); assumption). subst v. split; [lra|auto].
  - split; [lra|]. intros E. exfalso. lra.
Qed.
Lemma region_multipliers q nu nx m act cr x : coherent q nu nx m -> region_ok q nu nx m act cr -> length x = nx -> nonneg (cr_p cr x) -> q_multipliers q x (cr_u cr x) (cr_p cr x).
Proof.
  intros Hq (_ & _ & _ & _ & Hr) Lx Hp. destruct (Hr x Lx) as (Lu & Lp & Hst & Ht & Hz & _). pose proof Hq as (H1 & PD & H2 & H3 & L1 & L2 & H4 & H5 & L3 & _).
  split; [lia|]. split; [exact Hp|]. split.
  - intros v Lv. apply Hst. rewrite Lv. apply H4.
  - intros i Hi. destruct (in_dec Nat.eq_dec i act) as [Hia|Hia]; [specialize (Ht i Hia)|rewrite (Hz i Hia); ring].
    replace (nth i (q_b q) 0 - _ - _) with 0 by lra. ring.
Qed.

(** the KKT system of an independent active set has one solution *)
Lemma kkt_unique q nu nx m act x u p u' p' : coherent q nu nx m -> (forall i, In i act -> (i < m)%nat) -> NoDup act -> indep_rows (mtake (q_Au q) act) (length act) ->
  length u = nu -> length u' = nu -> length p = m -> length p' = m ->
  (forall v, length v = nu -> dot (mv (q_Huu q) u) v + dot (mv (q_Hux q) x) v + dot (q_fu q) v + dot p (mv (q_Au q) v) = 0) ->
  (forall v, length v = nu -> dot (mv (q_Huu q) u') v + dot (mv (q_Hux q) x) v + dot (q_fu q) v + dot p' (mv (q_Au q) v) = 0) ->
  (forall i, In i act -> dot (row (q_Au q) i) u = dot (row (q_Au q) i) u') ->
  (forall i, ~ In i act -> nth i p 0 = 0) -> (forall i, ~ In i act -> nth i p' 0 = 0) -> u = u' /\ p = p'.
Proof.
  intros Hq Hact ND Ind Lu Lu' Lp Lp' S1 S2 T Z1 Z2. pose proof Hq as (H1 & PD & _ & _ & _ & _ & H4 & _).
  assert (SA : shape (mtake (q_Au q) act) (length act) nu) by (apply (shape_mtake (q_Au q) m); assumption).
  assert (LA : forall w, length (mv (q_Au q) w) = m) by (intros; rewrite mv_length; apply H4).
  assert (D : forall z w, length z = m -> (forall i, ~ In i act -> nth i z 0 = 0) -> dot z (mv (q_Au q) w) = dot (vtake z act) (mv (mtake (q_Au q) act) w)).
  { intros z w Lz Hz. rewrite mv_mtake_vtake. replace z with (scatter (zeros m) act (vtake z act)) at 1.
    - rewrite dot_scatter; auto using map_length.
      + rewrite dot_zeros_l. ring.
      + apply map_length.
      + rewrite zeros_length, LA. reflexivity.
      + intros i Hi. rewrite zeros_length. auto.
      + intros i _. apply nth_zeros.
    - apply (nth_ext _ _ 0 0); [rewrite scatter_length, zeros_length; lia|]. intros i Hi. destruct (in_dec Nat.eq_dec i act) as [Hia|Hia].
      + destruct (In_nth _ _ 0%nat Hia) as (k & Hk & Ek). rewrite <- Ek. rewrite (nth_scatter_in act 0 0); auto.
        * unfold vtake. apply nth_map_0. exact Hk.
        * apply map_length.
        * intros j Hj. rewrite zeros_length. auto.
      + rewrite nth_scatter_out by exact Hia. rewrite nth_zeros. symmetry. apply Hz, Hia. }
  set (du := vsub u u'). set (dp := vsub p p'). assert (Ldu : length du = nu) by (unfold du; len). assert (Ldp : length dp = m) by (unfold dp; len).
  assert (S : forall v, length v = nu -> dot (mv (q_Huu q) du) v + dot dp (mv (q_Au q) v) = 0).
  { intros v Lv. unfold du, dp. rewrite (mv_vsub (q_Huu q) nu nu) by auto. rewrite !dot_vsub_l by (rewrite ?mv_length; auto; lia). specialize (S1 v Lv). specialize (S2 v Lv). lra. }
  assert (Zd : forall i, ~ In i act -> nth i dp 0 = 0). { intros i Hi. unfold dp. rewrite nth_vsub by lia. rewrite (Z1 i Hi), (Z2 i Hi). ring. }
  assert (T0 : mv (mtake (q_Au q) act) du = zeros (length act)).
  { apply (nth_ext _ _ 0 0); [rewrite mv_length, zeros_length; apply SA|]. intros k Hk. rewrite mv_length, (proj1 SA) in Hk. rewrite nth_zeros. rewrite mv_mtake. rewrite (nth_map_0 (fun i => dot (row (q_Au q) i) du)) by exact Hk.
    unfold du. rewrite dot_vsub_r by lia. rewrite T by (apply nth_In; exact Hk). ring. }
  assert (U0 : du = zeros nu).
  { destruct (list_eq_dec Req_EM_T du (zeros nu)) as [E|N]; [exact E|exfalso]. pose proof (proj2 PD du Ldu N) as Q. specialize (S du Ldu). rewrite (D dp du Ldp Zd), T0, dot_zeros_r in S. rewrite (dot_comm (mv (q_Huu q) du) du) in S. lra. }
  split; [apply (vsub_zero_eq u u' nu); assumption|]. apply (vsub_zero_eq p p' m); [assumption|assumption|]. fold dp.
  assert (LT : length (vtake dp act) = length act) by apply map_length.
  assert (P0 : vtake dp act = zeros (length act)).
  { apply Ind; [exact LT|]. rewrite (proj1 (proj2 SA)). pose proof (shape_tr _ _ _ SA) as ST. apply (nth_ext _ _ 0 0); [rewrite mv_length, zeros_length; apply ST|].
    intros i Hi. rewrite mv_length, (proj1 ST) in Hi. rewrite nth_zeros. rewrite <- (dot_unit_r nu i) by (auto; rewrite mv_length; apply ST).
    rewrite (dot_mv_tr (mtake (q_Au q) act) (length act) nu) by (auto using unit_length). specialize (S (unit nu i) (unit_length _ _)). rewrite U0 in S. rewrite mv_zeros, dot_zeros_l in S. rewrite <- (D dp _ Ldp Zd). lra. }
  apply (nth_ext _ _ 0 0); [rewrite zeros_length; exact Ldp|]. intros i Hi. rewrite nth_zeros. destruct (in_dec Nat.eq_dec i act) as [Hia|Hia]; [|apply Zd; exact Hia].
  destruct (In_nth _ _ 0%nat Hia) as (k & Hk & Ek). apply (f_equal (fun v => nth k v 0)) in P0. unfold vtake in P0. rewrite nth_map_0, nth_zeros, Ek in P0 by exact Hk. exact P0.
Qed.

Lemma constructed np Huu Hux Hxx fu fx g Au Ax b nu nx m q : exact_np np -> mp_data Huu Hux Hxx fu fx Au Ax b nu nx m ->
  MultiParametricQuadraticProgram np Huu Hux Hxx fu fx g Au Ax b = Ok q ->
  coherent q nu nx m /\ exists Hi, q = MPQP Huu Hux Hxx fu fx g Au Ax b Hi.
Proof.
  intros Hnp (D1 & D2 & D3 & D4 & D5 & D6 & D7 & D8 & D9) E.
  destruct (constructor_coherent np Huu Hux Hxx fu fx g Au Ax b nu nx m Hnp D1 D2 D3 D4 D5 D6 D7 D8 D9) as (Hi & E' & C).
  rewrite E' in E. injection E as <-. split; [exact C|]. exists Hi. reflexivity.
Qed.
Lemma some_range np q act cr : explicit_solve_given_active_set np q act = Ok (Some cr) -> forall i, In i act -> (i < nrows (q_Au q))%nat.
Proof.
  unfold explicit_solve_given_active_set. destruct (forallb _ act) eqn:F; cbn [negb]; [|discriminate]. intros _ i Hi.
  rewrite forallb_forall in F. apply Nat.ltb_lt, F, Hi.
Qed.
Lemma some_region np q nu nx m act cr : exact_np np -> coherent q nu nx m -> explicit_solve_given_active_set np q act = Ok (Some cr) ->
  (forall i, In i act -> (i < m)%nat) /\ indep_rows (mtake (q_Au q) act) (length act) /\ region_ok q nu nx m act cr.
Proof.
  intros Hnp Hq E. assert (R : forall i, In i act -> (i < m)%nat).
  { intros i Hi. pose proof (some_range np q act cr E i Hi) as Q. unfold nrows in Q. replace m with (length (rows (q_Au q))) by apply Hq. exact Q. }
  split; [exact R|]. destruct (active_set_ok np q nu nx m act Hnp Hq R) as [(I & c & E' & H)|(_ & E')]; rewrite E' in E; [|discriminate]. injection E as <-. auto.
Qed.

(*@ Theorem C40_region_optimal : On the region of an active set u(x) is the one and only minimizer, p(x) its multipliers and V(x) the optimal value. *)
Lemma region_optimal np Huu Hux Hxx fu fx g Au Ax b nu nx m q act cr x :
  exact_np np -> mp_data Huu Hux Hxx fu fx Au Ax b nu nx m ->
  MultiParametricQuadraticProgram np Huu Hux Hxx fu fx g Au Ax b = Ok q ->
  explicit_solve_given_active_set np q act = Ok (Some cr) -> in_poly (cr_poly cr) x ->
  mp_minimizer Huu Hux Hxx fu fx g Au Ax b x (cr_u cr x) /\
  mp_multipliers Huu Hux fu Au Ax b x (cr_u cr x) (cr_p cr x) /\
  cr_V cr x = mp_cost Huu Hux Hxx fu fx g x (cr_u cr x).
Proof.
  intros Hnp D E1 E2 Hx. destruct (constructed _ _ _ _ _ _ _ _ _ _ _ _ _ _ Hnp D E1) as (Hq & Hi & Eq).
  destruct (some_region np q nu nx m act cr Hnp Hq E2) as (R & _ & RO). pose proof RO as (_ & _ & W & _ & H).
  assert (Lx : length x = nx) by (apply (in_poly_vle _ m 0 nx x W) in Hx; apply Hx).
  destruct (H x Lx) as (_ & _ & _ & _ & _ & HV & Hin). apply Hin in Hx. destruct Hx as (Hp & Hf).
  pose proof (region_multipliers q nu nx m act cr x Hq RO Lx Hp) as Hm. pose proof (kkt_minimizer q nu nx m x _ _ Hq Lx Hf Hm) as Ho.
  subst q. split; [exact Ho|]. split; [exact Hm|exact HV].
Qed.

(*@ Theorem C40_region_exact : The region of an active set is exactly the set of parameters at which some optimal pair (u,p) has these constraints tight and zero multipliers elsewhere. *)
Lemma region_exact np Huu Hux Hxx fu fx g Au Ax b nu nx m q act cr x :
  exact_np np -> mp_data Huu Hux Hxx fu fx Au Ax b nu nx m ->
  MultiParametricQuadraticProgram np Huu Hux Hxx fu fx g Au Ax b = Ok q ->
  explicit_solve_given_active_set np q act = Ok (Some cr) -> length x = nx ->
  (in_poly (cr_poly cr) x <->
   exists u p, mp_feasible Au Ax b x u /\ mp_multipliers Huu Hux fu Au Ax b x u p /\
     (forall i, In i act -> dot (row Au i) u + dot (row Ax i) x = nth i b 0) /\ (forall i, ~ In i act -> nth i p 0 = 0)).
Proof.
  intros Hnp D E1 E2 Lx. destruct (constructed _ _ _ _ _ _ _ _ _ _ _ _ _ _ Hnp D E1) as (Hq & Hi & Eq).
  destruct (some_region np q nu nx m act cr Hnp Hq E2) as (R & Ind & RO). pose proof RO as (ND & _ & W & _ & H).
  destruct (H x Lx) as (Lu & Lp & St & Ti & Ze & HV & Hin). split.
  - intros Hx. apply Hin in Hx. destruct Hx as (Hp & Hf). pose proof (region_multipliers q nu nx m act cr x Hq RO Lx Hp) as Hm.
    subst q. exists (cr_u cr x), (cr_p cr x). auto.
  - intros (u & p & Hf & (Lp' & Hp & St' & Cs) & Ti' & Ze'). pose proof D as (_ & _ & _ & _ & _ & _ & D7 & _ & D9).
    assert (Lu' : length u = nu) by (rewrite (proj1 Hf); apply D7).
    destruct (kkt_unique q nu nx m act x (cr_u cr x) (cr_p cr x) u p Hq R ND Ind Lu Lu' Lp ltac:(lia) St) as (Eu & Ep); auto.
    + subst q. intros v Lv. apply St'. rewrite Lv. symmetry. apply D7.
    + intros i Hi'. specialize (Ti i Hi'). specialize (Ti' i Hi'). subst q. cbn [q_Au q_Ax q_b] in *. lra.
    + apply Hin. rewrite Eu, Ep. subst q. split; assumption.
Qed.

(*@ Theorem C40_region_returned : The constructor accepts all well-formed data; a region is returned exactly for active sets with linearly independent rows of Au, None for dependent ones, and an index out of range raises IndexError. *)
Lemma region_returned np Huu Hux Hxx fu fx g Au Ax b nu nx m :
  exact_np np -> mp_data Huu Hux Hxx fu fx Au Ax b nu nx m ->
  exists q, MultiParametricQuadraticProgram np Huu Hux Hxx fu fx g Au Ax b = Ok q /\ forall act,
    (~ (forall i, In i act -> (i < m)%nat) -> explicit_solve_given_active_set np q act = Err IndexError) /\
    ((forall i, In i act -> (i < m)%nat) ->
     (indep_rows (mtake Au act) (length act) <-> exists cr, explicit_solve_given_active_set np q act = Ok (Some cr)) /\
     (~ indep_rows (mtake Au act) (length act) <-> explicit_solve_given_active_set np q act = Ok None)).
Proof.
  intros Hnp D. pose proof D as (D1 & D2 & D3 & D4 & D5 & D6 & D7 & D8 & D9).
  destruct (constructor_coherent np Huu Hux Hxx fu fx g Au Ax b nu nx m Hnp D1 D2 D3 D4 D5 D6 D7 D8 D9) as (Hi & E & Hq).
  eexists. split; [exact E|]. intros act. split.
  - intros N. unfold explicit_solve_given_active_set. cbn [q_Au]. destruct (forallb _ act) eqn:F; [|reflexivity].
    exfalso. apply N. intros i Hi'. rewrite forallb_forall in F. apply F, Nat.ltb_lt in Hi'. unfold nrows in Hi'. rewrite (proj1 D7) in Hi'. exact Hi'.
  - intros R. destruct (active_set_ok np _ nu nx m act Hnp Hq R) as [(I & c & E' & _)|(I & E')]; cbn [q_Au] in I; rewrite E'.
    + split; [|split; [tauto|discriminate]]. split; [intros _; eauto|auto].
    + split; [|tauto]. split; [tauto|]. intros (c & Ec). discriminate.
Qed.

(** ** Lookup (C41) *)
(** the inequalities hold up to tol *)
Definition within (tol : R) (p : poly) (x : vec) : Prop := forall i, (i < length (pb p))%nat -> dot (row (pA p) i) x <= nth i (pb p) 0 + tol.

Lemma Forall2_nth_rows (P : vec -> R -> Prop) l b : length l = length b -> (Forall2 P l b <-> forall i, (i < length b)%nat -> P (nth i l []) (nth i b 0)).
Proof.
  revert b. induction l as [|a l IH]; intros [|c b] L; try discriminate L; [split; [intros _ i Hi; cbn in Hi; lia|constructor]|].
  split.
  - intros F. inversion F; subst. intros [|i] Hi; cbn [nth]; [assumption|]. apply IH; [cbn in L; lia|assumption|cbn in Hi; lia].
  - intros H. constructor; [exact (H 0%nat ltac:(cbn; lia))|]. apply IH; [cbn in L; lia|]. intros i Hi. apply (H (S i)). cbn. lia.
Qed.
Lemma cr_contains_ok c m nx x : wf (cr_poly c) m 0 nx -> (0 < m)%nat -> length x = nx ->
  exists r, cr_contains c x = Ok r /\ (r = true <-> within tol7 (cr_poly c) x).
Proof.
  intros W Hm Lx. destruct (contains_ok (cr_poly c) m 0 nx x tol7 W Hm ltac:(lia) Lx) as (r & E & H). exists r. split; [exact E|]. rewrite H.
  destruct W as (WA & Wb & WC & Wd). rewrite (Forall2_nth_rows (fun a bi => dot a x <= bi + tol7)) by (rewrite Wb; apply WA). unfold within, row.
  rewrite (proj1 (length_zero_iff_nil (rows (pC (cr_poly c)))) (proj1 WC)), (proj1 (length_zero_iff_nil _) Wd). split; [tauto|]. intros F. split; [exact F|constructor].
Qed.
Lemma lookup_split crs nx x : Forall (fun c => exists m, wf (cr_poly c) m 0 nx /\ (0 < m)%nat) crs -> length x = nx ->
  (exists pre c post, crs = pre ++ c :: post /\ within tol7 (cr_poly c) x /\ (forall c', In c' pre -> ~ within tol7 (cr_poly c') x) /\ get_critical_region crs x = Ok (Some c)) \/
  ((forall c, In c crs -> ~ within tol7 (cr_poly c) x) /\ get_critical_region crs x = Ok None).
Proof.
  intros F Lx. induction F as [|c crs (m & W & Hm) F IH]; [right; split; [intros c []|reflexivity]|].
  destruct (cr_contains_ok c m nx x W Hm Lx) as (r & E & Hr). cbn [get_critical_region]. rewrite E. cbn [bind]. destruct r.
  - left. exists [], c, crs. split; [reflexivity|]. split; [apply Hr; reflexivity|]. split; [intros c' []|reflexivity].
  - assert (N : ~ within tol7 (cr_poly c) x) by (intros Q; apply Hr in Q; discriminate).
    destruct IH as [(pre & c1 & post & -> & H1 & H2 & H3)|(H1 & H2)].
    + left. exists (c :: pre), c1, post. split; [reflexivity|]. split; [exact H1|]. split; [|exact H3]. intros c' [<-|Hc']; auto.
    + right. split; [|exact H2]. intros c' [<-|Hc']; auto.
Qed.

(*@ Theorem C41_lookup : u, p and V all evaluate the first region whose inequalities hold at x within 1e-7; None iff there is no such region. (Every region has at least one inequality.) *)
Lemma lookup_ok crs nx x : Forall (fun c => exists m, wf (cr_poly c) m 0 nx /\ (0 < m)%nat) crs -> length x = nx ->
  (exists pre c post, crs = pre ++ c :: post /\ within tol7 (cr_poly c) x /\ (forall c', In c' pre -> ~ within tol7 (cr_poly c') x) /\
     es_u crs x = Ok (Some (cr_u c x)) /\ es_p crs x = Ok (Some (cr_p c x)) /\ es_V crs x = Ok (Some (cr_V c x))) \/
  ((forall c, In c crs -> ~ within tol7 (cr_poly c) x) /\ es_u crs x = Ok None /\ es_p crs x = Ok None /\ es_V crs x = Ok None).
Proof.
  intros F Lx. unfold es_u, es_p, es_V, es_eval. destruct (lookup_split crs nx x F Lx) as [(pre & c & post & E & H1 & H2 & H3)|(H1 & H2)].
  - left. exists pre, c, post. rewrite H3. auto 7.
  - right. rewrite H2. auto.
Qed.

(*@ Theorem C41_unconstrained_refuted : The explicit solution of a program without constraints cannot be evaluated: the lookup raises ValueError. *)
Lemma lookup_unconstrained_refuted np Huu Hux Hxx fu fx g Au Ax b nu nx q cr x :
  exact_np np -> mp_data Huu Hux Hxx fu fx Au Ax b nu nx 0 ->
  MultiParametricQuadraticProgram np Huu Hux Hxx fu fx g Au Ax b = Ok q ->
  explicit_solve_given_active_set np q [] = Ok (Some cr) -> length x = nx ->
  es_u [cr] x = Err ValueError.
Proof.
  intros Hnp D E1 E2 Lx. destruct (constructed _ _ _ _ _ _ _ _ _ _ _ _ _ _ Hnp D E1) as (Hq & _).
  destruct (some_region np q nu nx 0 [] cr Hnp Hq E2) as (_ & _ & (_ & _ & W & _)).
  unfold es_u, es_eval, get_critical_region, cr_contains. rewrite (contains_raises (cr_poly cr) 0 nx x tol7 W Lx). reflexivity.
Qed.

(** ** Soundness of the explicit solver (C42) *)
Definition same_region (c c' : critical_region) : Prop :=
  cr_u c' = cr_u c /\ cr_p c' = cr_p c /\ cr_V c' = cr_V c /\
  pA (cr_poly c') = pA (cr_poly c) /\ pb (cr_poly c') = pb (cr_poly c) /\ pC (cr_poly c') = pC (cr_poly c) /\ pd (cr_poly c') = pd (cr_poly c).
Lemma facets_fields np tol p : let p' := snd (minimal_facets np tol p) in pA p' = pA p /\ pb p' = pb p /\ pC p' = pC p /\ pd p' = pd p.
Proof.
  cbv zeta. assert (G : forall r p1, get_empty np p = (r, p1) -> pA p1 = pA p /\ pb p1 = pb p /\ pC p1 = pC p /\ pd p1 = pd p).
  { intros r p1. unfold get_empty, pbind, pget. destruct (p_empty p); [intros E; injection E as _ <-; auto|].
    unfold plift. destruct (qp _ _ _ _ _ _ _) as [s|e]; [|intros E; injection E as _ <-; auto].
    unfold pput. intros E. cbn in E. injection E as _ <-. auto. }
  destruct (minimal_facets np tol p) as (r, p') eqn:M. cbn [snd]. revert M.
  unfold minimal_facets. unfold pbind at 1. destruct (get_empty np p) as [[e|er] p1] eqn:E; [|intros M; injection M as _ <-; eauto].
  specialize (G _ _ eq_refl). destruct e; [intros M; injection M as _ <-; exact G|]. unfold pbind, pget, plift.
  destruct (if (0 <? _)%nat then _ else _) as [[E1 f1]|er]; [|intros M; injection M as _ <-; exact G]. destruct (facets_loop _ _ _ _ _ _); intros M; injection M as _ <-; exact G.
Qed.
Lemma point_some np q x guess cr : explicit_solve_given_point np q x guess = Ok (Some cr) -> exists act, explicit_solve_given_active_set np q act = Ok (Some cr).
Proof.
  unfold explicit_solve_given_point. set (bq := (s <- _ ;; _)).
  assert (B : bq = Ok (Some cr) -> exists act, explicit_solve_given_active_set np q act = Ok (Some cr)).
  { unfold bq. destruct (mpqp_solve np q x) as [s|e]; cbn [bind]; [|discriminate]. destruct (s_active_set s); [eauto|discriminate]. }
  destruct guess as [gs|]; [|exact B]. destruct (explicit_solve_given_active_set np q gs) as [[c|]|e] eqn:E; cbn [bind]; [|exact B|discriminate].
  destruct (cr_contains c x) as [[|]|e]; cbn [bind]; [|exact B|discriminate]. intros E'. injection E' as <-. eauto.
Qed.
Lemma loop_sound np q (P : critical_region -> Prop) fuel step :
  (forall act c c', explicit_solve_given_active_set np q act = Ok (Some c) -> same_region c c' -> P c') ->
  forall buf crs res, Forall P crs -> explicit_loop np fuel step q buf crs = Ok res -> Forall P res.
Proof.
  intros HP. induction fuel as [|fuel IH]; intros buf crs res F; cbn [explicit_loop]; [discriminate|].
  destruct buf as [|xg0 buf0]; [intros E; injection E as <-; exact F|].
  destruct (uncovered crs (xg0 :: buf0)) as [buf'|e]; cbn [bind]; [|discriminate]. destruct buf' as [|(x & guess) rest]; [intros E; injection E as <-; exact F|].
  destruct (explicit_solve_given_point np q x (Some guess)) as [[c|]|e] eqn:E; cbn [bind]; [|apply IH; exact F|discriminate].
  destruct (point_some _ _ _ _ _ E) as (act & Ea).
  pose proof (facets_fields np tol7 (cr_poly c)) as Q. cbv zeta in Q. destruct (minimal_facets np tol7 (cr_poly c)) as [[[mf|]|e] p']; cbn [snd] in Q; try discriminate.
  destruct (mapM _ mf) as [new|e]; cbn [bind]; [|discriminate]. apply IH. apply Forall_app. split; [exact F|]. constructor; [|constructor].
  apply (HP act c _ Ea). split; [reflexivity|]. split; [reflexivity|]. split; [reflexivity|]. exact Q.
Qed.
Lemma same_region_poly c c' x : same_region c c' -> (in_poly (cr_poly c') x <-> in_poly (cr_poly c) x).
Proof. intros (_ & _ & _ & E1 & E2 & E3 & E4). unfold in_poly. rewrite E1, E2, E3, E4. tauto. Qed.

(*@ Theorem C42_sound : For every number of iterations and every step size, every region in the result of explicit_solve is optimal: on it u is the one and only minimizer, p the multipliers and V the optimal value. *)
Lemma explicit_sound np Huu Hux Hxx fu fx g Au Ax b nu nx m q fuel step crs cr x :
  exact_np np -> mp_data Huu Hux Hxx fu fx Au Ax b nu nx m ->
  MultiParametricQuadraticProgram np Huu Hux Hxx fu fx g Au Ax b = Ok q ->
  explicit_solve np fuel step q = Ok crs -> In cr crs -> in_poly (cr_poly cr) x ->
  mp_minimizer Huu Hux Hxx fu fx g Au Ax b x (cr_u cr x) /\
  mp_multipliers Huu Hux fu Au Ax b x (cr_u cr x) (cr_p cr x) /\
  cr_V cr x = mp_cost Huu Hux Hxx fu fx g x (cr_u cr x).
Proof.
  intros Hnp D E1 E2 Hin Hx.
  assert (F : Forall (fun c' => exists act c, explicit_solve_given_active_set np q act = Ok (Some c) /\ same_region c c') crs).
  { apply (loop_sound np q _ fuel step) with (3 := E2); [|constructor]. intros act c c' Ea Hs. eauto. }
  rewrite Forall_forall in F. destruct (F cr Hin) as (act & c & Ea & Hs). apply (same_region_poly _ _ _ Hs) in Hx.
  pose proof (region_optimal np Huu Hux Hxx fu fx g Au Ax b nu nx m q act c x Hnp D E1 Ea Hx) as Q.
  destruct Hs as (-> & -> & -> & _). exact Q.
Qed.

(** the on-line solver *)
Lemma mpqp_solve_ok np q nu nx m x v0 : exact_np np -> coherent q nu nx m -> length x = nx ->
  length v0 = nu -> mv (q_Huu q) v0 = vneg (vadd (mv (q_Hux q) x) (q_fu q)) ->
  exists s, mpqp_solve np q x = Ok s /\
    ((s = sol_none /\ forall v, q_feasible q x v -> 1 <= tol7 * tol7 * (1 + dot (vsub v v0) (mv (q_Huu q) (vsub v v0)))) \/
     ((exists v, q_feasible q x v /\ tol7 * tol7 * (1 + dot (vsub v v0) (mv (q_Huu q) (vsub v v0))) < 1) /\
      exists u l, s_argmin s = Some u /\ s_min s = Some (q_cost q x u) /\ q_minimizer q x u /\ s_multiplier_inequality s = Some l /\ q_multipliers q x u l)).
Proof.
  intros (Hn & _ & Hc & Hi & _) Hq Lx L0 E0. pose proof Hq as (H1 & PD & H2 & H3 & L1 & L2 & H4 & H5 & L3 & H6 & M1 & M2).
  assert (L4 : length (mv (q_Hux q) x) = nu) by (rewrite mv_length; apply H2). assert (L5 : length (mv (q_Ax q) x) = m) by (rewrite mv_length; apply H5).
  set (f := vadd (mv (q_Hux q) x) (q_fu q)) in *. set (b := vsub (q_b q) (mv (q_Ax q) x)). assert (Lf : length f = nu) by (unfold f; len). assert (Lb : length b = m) by (unfold b; len).
  assert (EA : eq_args nu None None (zmat 0 nu) []) by (right; auto).
  assert (HZ : shape (zmat 0 nu) 0 nu) by apply shape_zmat. assert (T : 0 < tol7) by (unfold tol7; lra).
  destruct (qp_none_iff np tol7 (q_Huu q) f (q_Au q) b None None (zmat 0 nu) [] m 0 nu v0 Hn Hc Hi T H1 PD H4 Lb HZ eq_refl Lf EA L0 E0) as (s & Es & N1 & N2).
  unfold mpqp_solve, qp. fold f. fold b. rewrite Es. cbn [bind].
  assert (FS : forall v, q_feasible q x v <-> in_set (q_Au q) b (zmat 0 nu) [] v) by (intros v; apply (q_feasible_split q nu nx m x v Hq Lx)).
  destruct (s_argmin s) as [u|] eqn:Ea.
  - destruct (qp_optimality np tol7 (q_Huu q) f (q_Au q) b None None (zmat 0 nu) [] m 0 nu s u Hn Hc Hi ltac:(lra) H1 PD H4 Lb HZ eq_refl Lf EA Es Ea) as ((F & O) & U & Emin & l & nn & El & _ & Ll & _ & Hl & St & Cs).
    eexists. split; [reflexivity|]. rewrite Emin. right. apply FS in F.
    assert (Lu : length u = nu) by (rewrite (proj1 F); apply H4).
    assert (HM : q_multipliers q x u l).
    { split; [lia|]. split; [exact Hl|]. split.
      - intros v Lv. rewrite (proj1 (proj2 H4)) in Lv. specialize (St v Lv). unfold f in St. assert (L6 : length (mv (q_Huu q) u) = nu) by (rewrite mv_length; apply H1).
        rewrite !dot_vadd_l in St by len. replace (dot nn (mv (zmat 0 nu) v)) with 0 in St by (rewrite mv_zmat; destruct nn; reflexivity). lra.
      - intros i Hi'. rewrite L3 in Hi'. specialize (Cs i ltac:(lia)). unfold b in Cs. rewrite nth_vsub in Cs by lia. rewrite nth_mv in Cs. unfold row in *. etransitivity; [|exact Cs]. ring. }
    split.
    + destruct (classic (exists z, in_set (q_Au q) b (zmat 0 nu) [] z /\ tol7 * tol7 * (1 + dot (vsub z v0) (mv (q_Huu q) (vsub z v0))) < 1)) as [(z & Hz & Q)|Q]; [exists z; split; [apply FS; exact Hz|exact Q]|].
      apply N2 in Q. subst s. discriminate.
    + exists u, l. cbn [s_argmin s_min s_multiplier_inequality]. split; [reflexivity|]. split; [rewrite (q_cost_split q nu nx m x u Hq Lx Lu); reflexivity|].
      split; [apply (kkt_minimizer q nu nx m x u l Hq Lx F HM)|]. split; [exact El|exact HM].
  - destruct (s_min s) as [mn|] eqn:Em.
    + exfalso. rewrite (quadratic_program_core _ _ _ _ _ _ _ _ (zmat 0 nu) [] m nu H4 EA) in Es.
      destruct (qp_core_spec np tol7 (q_Huu q) f (q_Au q) b (zmat 0 nu) [] m 0 nu Hn Hc Hi H1 PD H4 Lb HZ eq_refl Lf) as (u & l & nn & r & E' & _). rewrite E' in Es. injection Es as <-.
      destruct (Rltb tol7 r); discriminate.
    + eexists. split; [reflexivity|]. left. assert (s = sol_none) by (apply N1; exact eq_refl). subst s. split; [reflexivity|].
      intros v Hv. apply Rnot_lt_le. intros Q. apply (proj1 N2 eq_refl). exists v. split; [apply FS; exact Hv|exact Q].
Qed.

Lemma free_minimizer q nu nx m x : coherent q nu nx m -> exists v0, length v0 = nu /\ mv (q_Huu q) v0 = vneg (vadd (mv (q_Hux q) x) (q_fu q)).
Proof.
  intros (H1 & _ & H2 & _ & L1 & _ & _ & _ & _ & SI & I1 & _). assert (L4 : length (mv (q_Hux q) x) = nu) by (rewrite mv_length; apply H2).
  exists (mv (q_Huu_inv q) (vneg (vadd (mv (q_Hux q) x) (q_fu q)))). split; [rewrite mv_length; apply SI|].
  rewrite <- (mv_mm _ _ nu nu) by exact SI. rewrite I1. apply mv_eye. len.
Qed.
(*@ Theorem C42_agreement : Where the region found by the lookup contains x exactly, the explicit and the on-line solution agree -- unless the on-line solver gives up (None), which happens only for minimizers at distance about 1e7 or more from the unconstrained one. *)
Lemma explicit_agrees np Huu Hux Hxx fu fx g Au Ax b nu nx m q fuel step crs cr x :
  exact_np np -> mp_data Huu Hux Hxx fu fx Au Ax b nu nx m ->
  MultiParametricQuadraticProgram np Huu Hux Hxx fu fx g Au Ax b = Ok q ->
  explicit_solve np fuel step q = Ok crs -> get_critical_region crs x = Ok (Some cr) -> in_poly (cr_poly cr) x ->
  exists u V s, es_u crs x = Ok (Some u) /\ es_V crs x = Ok (Some V) /\ mpqp_solve np q x = Ok s /\
    (s = sol_none \/ (s_argmin s = Some u /\ s_min s = Some V)) /\
    (forall v0, length v0 = nu -> mv Huu v0 = vneg (vadd (mv Hux x) fu) ->
       tol7 * tol7 * (1 + dot (vsub u v0) (mv Huu (vsub u v0))) < 1 -> s_argmin s = Some u /\ s_min s = Some V).
Proof.
  intros Hnp D E1 E2 Hg Hx. destruct (constructed _ _ _ _ _ _ _ _ _ _ _ _ _ _ Hnp D E1) as (Hq & Hi & Eq).
  assert (Hin : In cr crs).
  { clear - Hg. revert Hg. induction crs as [|c crs IH]; cbn [get_critical_region]; [discriminate|]. destruct (cr_contains c x) as [[|]|]; cbn [bind]; [|intros H; right; auto|discriminate].
    intros E. injection E as <-. left. reflexivity. }
  destruct (explicit_sound np Huu Hux Hxx fu fx g Au Ax b nu nx m q fuel step crs cr x Hnp D E1 E2 Hin Hx) as (Ho & Hm & HV).
  assert (Lx : length x = nx).
  { assert (F : Forall (fun c' => wf (cr_poly c') m 0 nx) crs).
    { apply (loop_sound np q _ fuel step) with (3 := E2); [|constructor]. intros act c c' Ea (_ & _ & _ & F1 & F2 & F3 & F4).
      destruct (some_region np q nu nx m act c Hnp Hq Ea) as (_ & _ & (_ & _ & W & _)). unfold wf in *. rewrite F1, F2, F3, F4. exact W. }
    rewrite Forall_forall in F. specialize (F cr Hin). apply (in_poly_vle _ m 0 nx x F) in Hx. apply Hx. }
  assert (AG : forall v0, length v0 = nu -> mv Huu v0 = vneg (vadd (mv Hux x) fu) -> exists s, mpqp_solve np q x = Ok s /\
     ((s = sol_none /\ forall v, q_feasible q x v -> 1 <= tol7 * tol7 * (1 + dot (vsub v v0) (mv (q_Huu q) (vsub v v0)))) \/ (s_argmin s = Some (cr_u cr x) /\ s_min s = Some (cr_V cr x)))).
  { intros v0 L0 E0. destruct (mpqp_solve_ok np q nu nx m x v0 Hnp Hq Lx L0 ltac:(subst q; exact E0)) as (s & Es & [(N & Hf)|(_ & u & l & Ea & Em & Hu & _)]); exists s; (split; [exact Es|]); [left; auto|right].
    assert (Eu : u = cr_u cr x). { apply (proj2 (proj2 Ho u ltac:(subst q; apply Hu))). apply Rle_antisym; [subst q; apply (proj2 Hu); apply Ho|apply (proj2 Ho); subst q; apply Hu]. }
    rewrite Ea, Em, Eu, HV. subst q. auto. }
  destruct (free_minimizer q nu nx m x Hq) as (w0 & Lw & Ew). destruct (AG w0 Lw ltac:(subst q; exact Ew)) as (s & Es & Hs).
  exists (cr_u cr x), (cr_V cr x), s. unfold es_u, es_V, es_eval. rewrite Hg. cbn [bind]. split; [reflexivity|]. split; [reflexivity|]. split; [exact Es|]. split.
  - destruct Hs as [(Q & _)|Q]; auto.
  - intros v0 L0 E0 Q. destruct (AG v0 L0 E0) as (s' & Es' & Hs'). rewrite Es in Es'. injection Es' as <-. destruct Hs' as [(_ & N)|Q']; [|exact Q'].
    exfalso. specialize (N (cr_u cr x)). subst q. cbn [q_Huu] in N. specialize (N (proj1 Ho)). lra.
Qed.

(** ** A worked example: min 1/2 u^2 s.t. x <= u *)
Definition ex_q (Hi : mat) : mpqp := MPQP (Mat 1 [[1]]) (Mat 1 [[0]]) (Mat 1 [[0]]) [0] [0] 0 (Mat 1 [[-1]]) (Mat 1 [[1]]) [0] Hi.
Lemma ex_data : mp_data (Mat 1 [[1]]) (Mat 1 [[0]]) (Mat 1 [[0]]) [0] [0] (Mat 1 [[-1]]) (Mat 1 [[1]]) [0] 1 1 1.
Proof.
  unfold mp_data. repeat match goal with |- _ /\ _ => split end; try (apply scalar_shape); try reflexivity.
  apply scalar_pd. lra.
Qed.
Definition ex_r0 : critical_region := CR [] (Mat 1 [[0]]) [0] (Mat 1 [[0]]) [0] (Mat 1 [[0]]) [0] 0 (Poly (Mat 1 [[1]]) [0] (Mat 1 []) [] None None None None None).
Definition ex_r1 : critical_region := CR [0%nat] (Mat 1 [[1]]) [0] (Mat 1 [[1]]) [0] (Mat 1 [[1]]) [0] 0 (Poly (Mat 1 [[-1]]) [0] (Mat 1 []) [] None None None None None).
Lemma inv_scalar np a M : inv_ok np -> a <> 0 -> np_inv np (Mat 1 [[a]]) = Ok M -> M = Mat 1 [[/ a]].
Proof.
  intros Hi Ha E. destruct (Hi (Mat 1 [[a]]) 1%nat (scalar_shape a)) as [(_ & X & EX & SX & M1 & M2)|(_ & Ee)]; [|rewrite E in Ee; discriminate].
  rewrite E in EX. injection EX as <-. destruct M as [nc rs]. destruct SX as (S1 & S2 & S3). cbn in S1, S2. subst nc. destruct rs as [|[|c [|]] [|]]; try discriminate S1; inversion S3 as [|? ? L]; try discriminate L; subst.
  apply (f_equal (fun M => nth 0 (nth 0 (rows M) []) 0)) in M1. cbn in M1. repeat f_equal. apply (Rmult_eq_reg_l a); [|exact Ha]. rewrite Rinv_r by exact Ha. lra.
Qed.

Definition ex_I : mat := Mat 1 [[1]].
Lemma inv_scalar_ok np a : inv_ok np -> a <> 0 -> np_inv np (Mat 1 [[a]]) = Ok (Mat 1 [[/ a]]).
Proof.
  intros Hi Ha. destruct (Hi (Mat 1 [[a]]) 1%nat (scalar_shape a)) as [(_ & X & EX & _)|((x & Lx & Nx & Kx) & _)].
  - rewrite EX. f_equal. apply (inv_scalar np a X Hi Ha EX).
  - exfalso. apply Nx. destruct x as [|c [|]]; try discriminate Lx. cbn in Kx. injection Kx as K. change (zeros 1) with [0]. f_equal. apply (Rmult_eq_reg_l a); [lra|exact Ha].
Qed.
Lemma ex_ctor np : exact_np np -> MultiParametricQuadraticProgram np (Mat 1 [[1]]) (Mat 1 [[0]]) (Mat 1 [[0]]) [0] [0] 0 (Mat 1 [[-1]]) (Mat 1 [[1]]) [0] = Ok (ex_q ex_I).
Proof.
  intros (_ & _ & _ & Hi & _). unfold MultiParametricQuadraticProgram. rewrite (inv_scalar_ok np 1 Hi) by lra. cbn [bind]. rewrite Rinv_1. reflexivity.
Qed.
Lemma norm1 a : norm [a] = Rabs a.
Proof. unfold norm. cbn [dot]. rewrite Rplus_0_r. apply sqrt_Rsqr_abs. Qed.
Lemma ex_normalized a b : a = 1 \/ a = -1 -> normalize tol7 (Poly (Mat 1 [[a]]) [b] (Mat 1 []) [] None None None None None) = Poly (Mat 1 [[a]]) [b] (Mat 1 []) [] None None None None None.
Proof.
  intros Ha. unfold normalize, normalize_with, normalize_lhs, normalize_rhs. cbn [pA pb pC pd p_empty p_bounded p_radius p_center p_vertices ncols rows map map2].
  rewrite norm1. assert (Rabs a = 1) as ->. { destruct Ha; subst; [apply Rabs_R1|]. rewrite Rabs_left by lra. lra. }
  rewrite (proj2 (Rltb_true tol7 1)) by (unfold tol7; lra). cbn [map]. unfold Rdiv. rewrite Rinv_1, !Rmult_1_r. reflexivity.
Qed.
Ltac crfields := repeat match goal with |- @eq R _ _ => solve [field; lra | field | lra] | |- @eq mat _ _ => f_equal | |- @eq (list _) _ _ => f_equal | |- @eq critical_region _ _ => f_equal | |- @eq poly _ _ => f_equal end; try reflexivity.
Lemma ex_region0 np : exact_np np -> explicit_solve_given_active_set np (ex_q ex_I) [] = Ok (Some ex_r0).
Proof.
  intros (_ & _ & _ & Hi & _). unfold explicit_solve_given_active_set. cbn [ex_q q_Au q_Ax q_b q_Huu_inv q_Hux q_fu q_Huu q_Hxx q_fx q_g forallb negb].
  match goal with |- context [np_inv np ?G] => set (GG := G) end. assert (EG : GG = Mat 0 []) by (unfold GG; cbn; reflexivity).
  destruct (Hi GG 0%nat ltac:(rewrite EG; repeat constructor)) as [(_ & X & EX & SX & _)|((x & Lx & Nx & _) & _)]; [|exfalso; apply Nx; destruct x; [reflexivity|discriminate]].
  rewrite EX. cbn [bind]. assert (X = Mat 0 []). { destruct X as [nc rs]. destruct SX as (S1 & S2 & _). cbn in S1, S2. subst nc. destruct rs; [reflexivity|discriminate]. } subst X.
  cbn - [normalize Rmult Rplus]. apply f_equal, f_equal. unfold ex_r0. f_equal; try solve [crfields | cbv -[Rplus Rmult Ropp Rminus IZR]; crfields].
  rewrite <- ex_normalized by auto. f_equal. cbv -[Rplus Rmult Ropp Rminus IZR]. crfields.
Qed.
Lemma ex_region1 np : exact_np np -> explicit_solve_given_active_set np (ex_q ex_I) [0%nat] = Ok (Some ex_r1).
Proof.
  intros (_ & _ & _ & Hi & _ & Hs). unfold explicit_solve_given_active_set. cbn [ex_q q_Au q_Ax q_b q_Huu_inv q_Hux q_fu q_Huu q_Hxx q_fx q_g].
  change (forallb _ [0%nat]) with true. cbn [negb]. change (mtake (Mat 1 [[-1]]) [0%nat]) with (Mat 1 [[-1]]). cbv zeta.
  rewrite (rank_indep np (Mat 1 [[-1]]) 1 1 Hs (scalar_shape _)).
  2:{ intros y Ly E. destruct y as [|c [|]]; try discriminate Ly. cbn in E. injection E as E. change (zeros 1) with [0]. f_equal. lra. }
  cbn [nrows rows length Nat.ltb Nat.leb andb].
  match goal with |- context [np_inv np ?G] => replace G with (Mat 1 [[1]]) by (cbv -[Rplus Rmult Ropp IZR]; crfields) end.
  rewrite (inv_scalar_ok np 1 Hi) by lra. rewrite Rinv_1. cbn [bind].
  cbn - [normalize Rmult Rplus]. apply f_equal, f_equal. unfold ex_r1. f_equal; try solve [crfields | cbv -[Rplus Rmult Ropp Rminus IZR]; crfields].
  rewrite <- ex_normalized by auto. f_equal. cbv -[Rplus Rmult Ropp Rminus IZR]. crfields.
Qed.
Lemma ex_contains a e x : contains tol7 (Poly (Mat 1 [[a]]) [0] (Mat 1 []) [] e None None None None) [x] = Ok (Rleb (a * x) tol7).
Proof. unfold contains, np_mv. cbn [pA pb pC pd ncols length Nat.eqb bind nrows rows Nat.ltb Nat.leb mv map vsub map2 vmax fold_left dot]. rewrite Bool.andb_true_r. do 2 f_equal. ring. Qed.
Lemma ex_facets np a : exact_np np -> a = 1 \/ a = -1 -> exists e, minimal_facets np tol7 (Poly (Mat 1 [[a]]) [0] (Mat 1 []) [] None None None None None) = (Ok (Some [0%nat]), Poly (Mat 1 [[a]]) [0] (Mat 1 []) [] e None None None None).
Proof.
  intros Hnp Ha. set (p := Poly _ _ _ _ _ _ _ _ _). assert (W : wf p 1 0 1). { split; [apply scalar_shape|]. split; [reflexivity|]. split; [apply (shape_zmat 0 1)|reflexivity]. }
  destruct (minimal_facets_ok np p 1 0 1 tol7 Hnp W ltac:(unfold tol7; lra) (or_introl eq_refl) ltac:(discriminate)) as (mf & p1 & E & Hp1 & Hr & _ & _).
  { exists [0]. split; [|unfold near; cbn [dot]; unfold tol7; lra]. split; [reflexivity|]. split; [|constructor]. apply Forall2_cons; [cbn; lra|constructor]. }
  assert (mf = [0%nat]).
  { inversion Hr as [? E1 E2|i S0 S' Hi Hs Hr' E1 E2]; subst; [reflexivity|exfalso]. destruct Hi as [<-|[]]. cbn in Hs.
    assert (Q : dot [a] [2 * a] < 0 + tol7). { apply (Hs [2 * a]). split; [reflexivity|]. split; [constructor|]. intros j []. }
    cbn in Q. unfold tol7 in Q. destruct Ha; subst a; lra. }
  subst mf. destruct Hp1 as [->| ->]; [exists None|exists (Some false)]; exact E.
Qed.
Lemma ex_loop np step fuel : exact_np np -> tol7 < step -> exists e0 e1,
  explicit_solve np (3 + fuel) step (ex_q ex_I) =
  Ok [CR [] (Mat 1 [[0]]) [0] (Mat 1 [[0]]) [0] (Mat 1 [[0]]) [0] 0 (Poly (Mat 1 [[1]]) [0] (Mat 1 []) [] e0 None None None None);
      CR [0%nat] (Mat 1 [[1]]) [0] (Mat 1 [[1]]) [0] (Mat 1 [[1]]) [0] 0 (Poly (Mat 1 [[-1]]) [0] (Mat 1 []) [] e1 None None None None)].
Proof.
  intros Hnp Hst. assert (T : 0 < tol7) by (unfold tol7; lra).
  destruct (ex_facets np 1 Hnp ltac:(auto)) as (e0 & F0). destruct (ex_facets np (-1) Hnp ltac:(auto)) as (e1 & F1). exists e0, e1.
  unfold explicit_solve. change (zeros (length (q_fx (ex_q ex_I)))) with [0]. cbn [plus explicit_loop].
  (* first region *)
  cbn [uncovered fst covered mapM bind existsb].
  unfold explicit_solve_given_point at 1. rewrite (ex_region0 np Hnp). cbn [bind]. unfold cr_contains at 1. cbn [ex_r0 cr_poly]. rewrite ex_contains.
  rewrite (proj2 (Rleb_true (1 * 0) tol7)) by lra. cbn [bind]. cbn [ex_r0 cr_poly]. rewrite F0. cbn [mapM bind facet_center pA ncols Nat.eqb pb nth rows row cr_active].
  unfold facet_center at 1. cbn [pA ncols Nat.eqb pb nth rows row bind mapM app cr_active cr_ux cr_u0 cr_px cr_p0 cr_Vxx cr_Vx cr_V0 ex_r0].
  set (x1 := 0 / 1 + step * 1). change (vadd [0 / 1] (vscale step [1])) with [x1]. assert (X1 : x1 = step) by (unfold x1; field). rewrite X1. clear x1 X1.
  change (flip [] 0) with [0%nat].
  (* second region *)
  cbn [uncovered fst bind]. unfold covered at 1. cbn [mapM bind]. unfold cr_contains at 1. cbn [cr_poly]. rewrite ex_contains. cbn [bind existsb].
  rewrite (proj2 (Rleb_false (1 * step) tol7)) by lra. cbn [orb].
  unfold explicit_solve_given_point at 1. rewrite (ex_region1 np Hnp). cbn [bind]. unfold cr_contains at 1. cbn [ex_r1 cr_poly]. rewrite ex_contains.
  rewrite (proj2 (Rleb_true (-1 * step) tol7)) by lra. cbn [bind]. cbn [ex_r1 cr_poly]. rewrite F1. cbn [mapM bind].
  unfold facet_center at 1. cbn [pA ncols Nat.eqb pb nth rows row bind mapM app cr_active cr_ux cr_u0 cr_px cr_p0 cr_Vxx cr_Vx cr_V0 ex_r1].
  set (x2 := 0 / -1 + step * -1). change (vadd [0 / -1] (vscale step [-1])) with [x2]. assert (X2 : x2 = - step) by (unfold x2; field). rewrite X2. clear x2 X2.
  (* everything is covered *)
  cbn [uncovered fst bind]. unfold covered at 1. cbn [mapM bind]. unfold cr_contains at 1. cbn [cr_poly]. rewrite ex_contains. cbn [bind].
  unfold cr_contains at 1. cbn [cr_poly]. rewrite ex_contains. cbn [bind existsb].
  rewrite (proj2 (Rleb_true (1 * - step) tol7)) by lra. cbn [orb]. reflexivity.
Qed.

Lemma ex_lookup np fuel step : exact_np np -> tol7 < step -> exists crs, explicit_solve np (3 + fuel) step (ex_q ex_I) = Ok crs /\
  (forall x, length x = 1%nat -> exists c, In c crs /\ in_poly (cr_poly c) x) /\
  forall x, es_u crs [x] = Ok (Some [if Rleb x tol7 then 0 else x]).
Proof.
  intros Hnp Hst. assert (T : 0 < tol7) by (unfold tol7; lra). destruct (ex_loop np step fuel Hnp Hst) as (e0 & e1 & E). eexists. split; [exact E|]. split.
  - intros x Lx. destruct x as [|x [|]]; try discriminate Lx. destruct (Rle_dec x 0) as [H|H].
    + eexists. split; [left; reflexivity|]. split; [reflexivity|]. split; [|constructor]. cbn. apply Forall2_cons; [cbn; lra|constructor].
    + eexists. split; [right; left; reflexivity|]. split; [reflexivity|]. split; [|constructor]. cbn. apply Forall2_cons; [cbn; lra|constructor].
  - intros x. unfold es_u, es_eval. cbn [get_critical_region]. unfold cr_contains. cbn [cr_poly]. rewrite !ex_contains. cbn [bind].
    replace (1 * x) with x by ring. destruct (Rleb x tol7) eqn:Q; cbn [bind].
    + unfold cr_u. cbn. do 3 f_equal. ring.
    + apply Rleb_false in Q. rewrite (proj2 (Rleb_true (-1 * x) tol7)) by lra. cbn [bind]. unfold cr_u. cbn. do 3 f_equal. ring.
Qed.
(*@ Example C40_example : min 1/2 u^2 s.t. x <= u: with the constraint active, u(x) = x, p(x) = x, V(x) = 1/2 x^2 on the region {x >= 0}. *)
Lemma region_example np : exact_np np -> exists q cr,
  mp_data (Mat 1 [[1]]) (Mat 1 [[0]]) (Mat 1 [[0]]) [0] [0] (Mat 1 [[-1]]) (Mat 1 [[1]]) [0] 1 1 1 /\
  MultiParametricQuadraticProgram np (Mat 1 [[1]]) (Mat 1 [[0]]) (Mat 1 [[0]]) [0] [0] 0 (Mat 1 [[-1]]) (Mat 1 [[1]]) [0] = Ok q /\
  explicit_solve_given_active_set np q [0%nat] = Ok (Some cr) /\
  forall x, (in_poly (cr_poly cr) [x] <-> 0 <= x) /\ cr_u cr [x] = [x] /\ cr_p cr [x] = [x] /\ cr_V cr [x] = / 2 * (x * x).
Proof.
  intros Hnp. exists (ex_q ex_I), ex_r1. split; [exact ex_data|]. split; [apply ex_ctor; exact Hnp|]. split; [apply ex_region1; exact Hnp|].
  intros x. split.
  - unfold in_poly, in_set, ineq_holds, eq_holds. cbn. split.
    + intros (_ & H & _). inversion H; subst. cbn in *. lra.
    + intros H. split; [reflexivity|]. split; [apply Forall2_cons; [cbn; lra|constructor]|constructor].
  - unfold cr_u, cr_p, cr_V, ex_r1. cbn. split; [f_equal; ring|]. split; [f_equal; ring|]. field.
Qed.
(*@ Example C41_example : The two regions of that program: u(x) = 0 for x <= 1e-7 and u(x) = x above. *)
Lemma lookup_example np : exact_np np -> exists q crs,
  MultiParametricQuadraticProgram np (Mat 1 [[1]]) (Mat 1 [[0]]) (Mat 1 [[0]]) [0] [0] 0 (Mat 1 [[-1]]) (Mat 1 [[1]]) [0] = Ok q /\
  explicit_solve np 3 (/ 100000) q = Ok crs /\ Forall (fun c => exists m, wf (cr_poly c) m 0 1 /\ (0 < m)%nat) crs /\
  forall x, es_u crs [x] = Ok (Some [if Rleb x tol7 then 0 else x]).
Proof.
  intros Hnp. destruct (ex_lookup np 0 (/ 100000) Hnp ltac:(unfold tol7; lra)) as (crs & E & _ & H). exists (ex_q ex_I), crs.
  split; [apply ex_ctor; exact Hnp|]. split; [exact E|]. split; [|exact H].
  pose proof (constructed _ _ _ _ _ _ _ _ _ _ _ _ _ _ Hnp ex_data (ex_ctor np Hnp)) as (Hq & _).
  apply (loop_sound np (ex_q ex_I) _ 3 (/ 100000)) with (3 := E); [|constructor]. intros act c c' Ea (_ & _ & _ & F1 & F2 & F3 & F4).
  destruct (some_region np _ 1 1 1 act c Hnp Hq Ea) as (_ & _ & (_ & _ & W & _)). exists 1%nat. split; [|lia]. unfold wf in *. rewrite F1, F2, F3, F4. exact W.
Qed.
(*@ Theorem C42_tolerance_refuted : Within the tolerance of the lookup the explicit controller may return an input that violates the constraints. *)
Lemma tolerance_refuted : exists Huu Hux Hxx fu fx g Au Ax b x, mp_data Huu Hux Hxx fu fx Au Ax b 1 1 1 /\
  forall np, exact_np np -> exists q crs u, MultiParametricQuadraticProgram np Huu Hux Hxx fu fx g Au Ax b = Ok q /\
    explicit_solve np 3 (/ 100000) q = Ok crs /\ es_u crs x = Ok (Some u) /\ ~ mp_feasible Au Ax b x u.
Proof.
  exists (Mat 1 [[1]]), (Mat 1 [[0]]), (Mat 1 [[0]]), [0], [0], 0, (Mat 1 [[-1]]), (Mat 1 [[1]]), [0], [/ 100000000]. split; [exact ex_data|]. intros np Hnp.
  destruct (ex_lookup np 0 (/ 100000) Hnp ltac:(unfold tol7; lra)) as (crs & E & _ & H). exists (ex_q ex_I), crs. eexists. split; [apply ex_ctor; exact Hnp|]. split; [exact E|].
  split; [apply H|]. rewrite (proj2 (Rleb_true (/ 100000000) tol7)) by (unfold tol7; lra). intros (_ & Q). specialize (Q 0%nat ltac:(cbn; lia)). cbn in Q. lra.
Qed.
(*@ Theorem C42_far_refuted : At parameters with a far minimizer the explicit controller answers while the on-line solver reports an infeasible problem. *)
Lemma far_refuted : exists Huu Hux Hxx fu fx g Au Ax b x u, mp_data Huu Hux Hxx fu fx Au Ax b 1 1 1 /\
  mp_minimizer Huu Hux Hxx fu fx g Au Ax b x u /\
  forall np, exact_np np -> exists q crs, MultiParametricQuadraticProgram np Huu Hux Hxx fu fx g Au Ax b = Ok q /\
    explicit_solve np 3 (/ 100000) q = Ok crs /\ es_u crs x = Ok (Some u) /\ mpqp_solve np q x = Ok sol_none.
Proof.
  exists (Mat 1 [[1]]), (Mat 1 [[0]]), (Mat 1 [[0]]), [0], [0], 0, (Mat 1 [[-1]]), (Mat 1 [[1]]), [0], [20000000], [20000000]. split; [exact ex_data|]. split.
  - split; [split; [reflexivity|]; intros i Hi; cbn in Hi; assert (i = 0%nat) by lia; subst; cbn; lra|].
    intros v (Lv & Fv). destruct v as [|v [|]]; try discriminate Lv. specialize (Fv 0%nat ltac:(cbn; lia)). cbn in Fv. unfold mp_cost. cbn. split; [nra|].
    intros E. f_equal. assert (v * v = 20000000 * 20000000) by lra. nra.
  - intros np Hnp. destruct (ex_lookup np 0 (/ 100000) Hnp ltac:(unfold tol7; lra)) as (crs & E & _ & H). exists (ex_q ex_I), crs. split; [apply ex_ctor; exact Hnp|]. split; [exact E|].
    split; [rewrite H, (proj2 (Rleb_false 20000000 tol7)) by (unfold tol7; lra); reflexivity|].
    pose proof (constructed _ _ _ _ _ _ _ _ _ _ _ _ _ _ Hnp ex_data (ex_ctor np Hnp)) as (Hq & _).
    destruct (mpqp_solve_ok np (ex_q ex_I) 1 1 1 [20000000] [0] Hnp Hq eq_refl eq_refl) as (s & Es & [(-> & _)|((v & Fv & Q) & _)]).
    + cbn. f_equal. ring.
    + exact Es.
    + exfalso. destruct Fv as (Lv & Fv). destruct v as [|v [|]]; try discriminate Lv. specialize (Fv 0%nat ltac:(cbn; lia)). cbn in Fv, Q. unfold tol7 in Q. nra.
Qed.
(*@ Example C42_example : The result of explicit_solve on that program: two regions that cover the whole line. *)
Lemma explicit_example np : exact_np np -> exists q crs,
  mp_data (Mat 1 [[1]]) (Mat 1 [[0]]) (Mat 1 [[0]]) [0] [0] (Mat 1 [[-1]]) (Mat 1 [[1]]) [0] 1 1 1 /\
  MultiParametricQuadraticProgram np (Mat 1 [[1]]) (Mat 1 [[0]]) (Mat 1 [[0]]) [0] [0] 0 (Mat 1 [[-1]]) (Mat 1 [[1]]) [0] = Ok q /\
  explicit_solve np 3 (/ 100000) q = Ok crs /\ length crs = 2%nat /\ (forall x, length x = 1%nat -> exists c, In c crs /\ in_poly (cr_poly c) x) /\
  exists cr, get_critical_region crs [5] = Ok (Some cr) /\ in_poly (cr_poly cr) [5].
Proof.
  intros Hnp. destruct (ex_loop np (/ 100000) 0 Hnp ltac:(unfold tol7; lra)) as (e0 & e1 & E). destruct (ex_lookup np 0 (/ 100000) Hnp ltac:(unfold tol7; lra)) as (crs & E' & H & _).
  exists (ex_q ex_I), crs. split; [exact ex_data|]. split; [apply ex_ctor; exact Hnp|]. split; [exact E'|]. rewrite E in E'. injection E' as <-. split; [reflexivity|]. split; [exact H|].
  eexists. split.
  - cbn [get_critical_region]. unfold cr_contains. cbn [cr_poly]. rewrite !ex_contains. cbn [bind]. rewrite (proj2 (Rleb_false (1 * 5) tol7)) by (unfold tol7; lra). cbn [bind].
    rewrite (proj2 (Rleb_true (-1 * 5) tol7)) by (unfold tol7; lra). reflexivity.
  - split; [reflexivity|]. split; [|constructor]. cbn. apply Forall2_cons; [cbn; lra|constructor].
Qed.

(** ** Coverage (C43) *)
(** x was dealt with: it is contained (within 1e-7) in a region, or the solver was called there and returned None or a region that was kept *)
Definition explored np q (crs : list critical_region) (x : vec) : Prop :=
  (exists c, In c crs /\ cr_contains c x = Ok true) \/ (exists guess, explicit_solve_given_point np q x (Some guess) = Ok None) \/
  (exists guess c c', explicit_solve_given_point np q x (Some guess) = Ok (Some c) /\ In c' crs /\ same_region c c').
Lemma explored_mono np q crs crs' x : incl crs crs' -> explored np q crs x -> explored np q crs' x.
Proof. intros I [(c & Hc & E)|[H|(gs & c & c' & E & Hc & Hs)]]; [left; eauto|right; left; exact H|right; right; exists gs, c, c'; auto]. Qed.
Lemma mapM_in {A B} (f : A -> res B) l l' : mapM f l = Ok l' -> (forall a, In a l -> exists b, f a = Ok b /\ In b l') /\ (forall b, In b l' -> exists a, In a l /\ f a = Ok b).
Proof.
  revert l'. induction l as [|a l IH]; intros l'; cbn [mapM]; [intros E; injection E as <-; split; intros ? []|].
  destruct (f a) as [b|] eqn:Ea; cbn [bind]; [|discriminate]. destruct (mapM f l) as [bs|]; cbn [bind]; [|discriminate]. intros E. injection E as <-. destruct (IH bs eq_refl) as (I1 & I2). split.
  - intros c [<-|Hc]; [exists b; split; [exact Ea|left; reflexivity]|]. destruct (I1 c Hc) as (d & E & Hd). exists d. split; [exact E|right; exact Hd].
  - intros c [<-|Hc]; [exists a; split; [left; reflexivity|exact Ea]|]. destruct (I2 c Hc) as (d & Hd & E). exists d. split; [right; exact Hd|exact E].
Qed.
Lemma uncovered_split crs buf buf' : uncovered crs buf = Ok buf' -> forall xg, In xg buf -> In xg buf' \/ exists c, In c crs /\ cr_contains c (fst xg) = Ok true.
Proof.
  revert buf'. induction buf as [|a buf IH]; intros buf' E xg; [intros []|]. cbn [uncovered] in E. destruct (covered crs (fst a)) as [cv|] eqn:Ec; cbn [bind] in E; [|discriminate].
  destruct (uncovered crs buf) as [b1|]; cbn [bind] in E; [|discriminate]. injection E as <-. intros [<-|H].
  - destruct cv; [right|left; left; reflexivity]. unfold covered in Ec. destruct (mapM _ crs) as [bs|] eqn:Em; cbn [bind] in Ec; [|discriminate]. injection Ec as Ec.
    apply existsb_exists in Ec. destruct Ec as (b & Hb & ->). destruct (proj2 (mapM_in _ _ _ Em) true Hb) as (c & Hc & Q). eauto.
  - destruct (IH b1 eq_refl xg H) as [Q|Q]; [|right; exact Q]. left. destruct cv; [exact Q|right; exact Q].
Qed.
Definition frontier np step crs (known : vec -> Prop) : Prop := forall c, In c crs -> exists p mf, minimal_facets np tol7 p = (Ok (Some mf), cr_poly c) /\
  forall i, In i mf -> exists ctr, facet_center np (cr_poly c) i = Ok (Some ctr) /\ known (vadd ctr (vscale step (row (pA (cr_poly c)) i))).
Lemma loop_frontier np q step x0 fuel : forall buf crs res,
  let known crs buf x := In x (map fst buf) \/ explored np q crs x in
  known crs buf x0 -> frontier np step crs (known crs buf) -> explicit_loop np fuel step q buf crs = Ok res ->
  explored np q res x0 /\ frontier np step res (explored np q res).
Proof.
  induction fuel as [|fuel IH]; intros buf crs res known K0 KF; cbn [explicit_loop]; [discriminate|].
  assert (DONE : (forall x, known crs buf x -> explored np q crs x) -> explored np q crs x0 /\ frontier np step crs (explored np q crs)).
  { intros D. split; [apply D, K0|]. intros c Hc. destruct (KF c Hc) as (p & mf & E & H). exists p, mf. split; [exact E|]. intros i Hi. destruct (H i Hi) as (ctr & Ec & Hk). eauto. }
  destruct buf as [|xg0 buf0]; [intros E; injection E as <-; apply DONE; intros x [[]|H]; exact H|].
  set (buf := xg0 :: buf0) in *. destruct (uncovered crs buf) as [buf'|e] eqn:Eu; cbn [bind]; [|discriminate]. pose proof (uncovered_split crs buf buf' Eu) as US.
  assert (NX : forall x, known crs buf x -> In x (map fst buf') \/ explored np q crs x).
  { intros x [H|H]; [|right; exact H]. apply in_map_iff in H. destruct H as (xg & <- & H). destruct (US xg H) as [Q|Q]; [left; apply in_map; exact Q|right; left; exact Q]. }
  destruct buf' as [|(x & guess) rest]; [intros E; injection E as <-; apply DONE; intros x Hx; destruct (NX x Hx) as [[]|Q]; exact Q|].
  destruct (explicit_solve_given_point np q x (Some guess)) as [[c|]|e] eqn:E; cbn [bind]; [| |discriminate].
  - destruct (point_some _ _ _ _ _ E) as (act & Ea).
    pose proof (facets_fields np tol7 (cr_poly c)) as Q. cbv zeta in Q. destruct (minimal_facets np tol7 (cr_poly c)) as [[[mf|]|e] p'] eqn:Em; cbn [snd] in Q; try discriminate.
    destruct (mapM _ mf) as [new|e] eqn:En; cbn [bind]; [|discriminate]. set (c' := CR _ _ _ _ _ _ _ _ _).
    assert (SR : same_region c c') by (split; [reflexivity|]; split; [reflexivity|]; split; [reflexivity|]; exact Q).
    assert (IC : incl crs (crs ++ [c'])) by (intros a Ha; apply in_or_app; left; exact Ha).
    assert (STEP : forall y, known crs buf y -> In y (map fst (rest ++ new)) \/ explored np q (crs ++ [c']) y).
    { intros y Hy. destruct (NX y Hy) as [[<-|H]|H].
      - right. right. right. exists guess, c, c'. split; [exact E|]. split; [apply in_or_app; right; left; reflexivity|exact SR].
      - left. rewrite map_app. apply in_or_app. left. exact H.
      - right. apply (explored_mono np q crs); assumption. }
    apply IH; [apply STEP, K0|]. intros d Hd. apply in_app_or in Hd. destruct Hd as [Hd|[<-|[]]].
    + destruct (KF d Hd) as (p & mf' & E' & H). exists p, mf'. split; [exact E'|]. intros i Hi. destruct (H i Hi) as (ctr & Ec & Hk). exists ctr. split; [exact Ec|]. apply STEP, Hk.
    + exists (cr_poly c), mf. split; [exact Em|]. intros i Hi. destruct (proj1 (mapM_in _ _ _ En) i Hi) as (xg & Exg & Hxg).
      unfold c'. cbn [cr_poly]. destruct (facet_center np p' i) as [[ctr|]|e]; cbn [bind] in Exg; try discriminate. injection Exg as <-. exists ctr. split; [reflexivity|]. left.
      rewrite map_app. apply in_or_app. right. apply (in_map fst _ _ Hxg).
  - assert (STEP : forall y, known crs buf y -> In y (map fst rest) \/ explored np q crs y).
    { intros y Hy. destruct (NX y Hy) as [[<-|H]|H]; [right; right; left; eauto|left; exact H|right; exact H]. }
    apply IH; [apply STEP, K0|]. intros d Hd. destruct (KF d Hd) as (p & mf' & E' & H). exists p, mf'. split; [exact E'|]. intros i Hi. destruct (H i Hi) as (ctr & Ec & Hk). exists ctr. split; [exact Ec|]. apply STEP, Hk.
Qed.

(*@ Theorem C43_frontier_partial : What termination of explicit_solve guarantees: the origin, and the point at distance step beyond the centre of every facet of every region, were dealt with -- contained in a region, or the solver was called there. Missing: coverage of the feasible set, which is false (C43_cover_refuted). *)
Lemma explicit_frontier np q fuel step crs : explicit_solve np fuel step q = Ok crs ->
  explored np q crs (zeros (length (q_fx q))) /\ frontier np step crs (explored np q crs).
Proof. intros E. apply (loop_frontier np q step _ fuel _ [] crs) with (3 := E); [left; left; reflexivity|intros c []]. Qed.

(*@ Theorem C43_cover_refuted : min 1/2 u^2 with the parameters restricted to x >= 1: the result of explicit_solve is empty, as the exploration starts at the infeasible origin and stops there. *)
Lemma cover_refuted : exists Huu Hux Hxx fu fx g Au Ax b x, mp_data Huu Hux Hxx fu fx Au Ax b 1 1 1 /\
  (exists u, mp_minimizer Huu Hux Hxx fu fx g Au Ax b x u) /\
  forall np fuel step, exact_np np -> exists q, MultiParametricQuadraticProgram np Huu Hux Hxx fu fx g Au Ax b = Ok q /\
    explicit_solve np (S (S fuel)) step q = Ok [].
Proof.
  assert (D : mp_data (Mat 1 [[1]]) (Mat 1 [[0]]) (Mat 1 [[0]]) [0] [0] (Mat 1 [[0]]) (Mat 1 [[-1]]) [-1] 1 1 1).
  { unfold mp_data. repeat match goal with |- _ /\ _ => split end; try (apply scalar_shape); try reflexivity. apply scalar_pd. lra. }
  exists (Mat 1 [[1]]), (Mat 1 [[0]]), (Mat 1 [[0]]), [0], [0], 0, (Mat 1 [[0]]), (Mat 1 [[-1]]), [-1], [2]. split; [exact D|]. split.
  - exists [0]. split; [split; [reflexivity|]; intros i Hi; cbn in Hi; assert (i = 0%nat) by lia; subst; cbn; lra|].
    intros v (Lv & Fv). destruct v as [|v [|]]; try discriminate Lv. unfold mp_cost. cbn. split; [nra|]. intros E. f_equal. nra.
  - intros np fuel step Hnp. pose proof Hnp as (_ & _ & _ & Hi & _).
    assert (EC : MultiParametricQuadraticProgram np (Mat 1 [[1]]) (Mat 1 [[0]]) (Mat 1 [[0]]) [0] [0] 0 (Mat 1 [[0]]) (Mat 1 [[-1]]) [-1] =
      Ok (MPQP (Mat 1 [[1]]) (Mat 1 [[0]]) (Mat 1 [[0]]) [0] [0] 0 (Mat 1 [[0]]) (Mat 1 [[-1]]) [-1] ex_I)).
    { unfold MultiParametricQuadraticProgram. rewrite (inv_scalar_ok np 1 Hi) by lra. cbn [bind]. rewrite Rinv_1. reflexivity. }
    eexists. split; [exact EC|]. set (q := MPQP _ _ _ _ _ _ _ _ _ _). pose proof (constructed _ _ _ _ _ _ _ _ _ _ _ _ _ _ Hnp D EC) as (Hq & _). fold q in Hq.
    assert (NF : forall v, ~ q_feasible q [0] v). { intros v (Lv & Fv). destruct v as [|v [|]]; try discriminate Lv. specialize (Fv 0%nat ltac:(cbn; lia)). cbn in Fv. lra. }
    assert (ES : mpqp_solve np q [0] = Ok sol_none).
    { destruct (mpqp_solve_ok np q 1 1 1 [0] [0] Hnp Hq eq_refl eq_refl) as (s & Es & [(-> & _)|((v & Fv & _) & _)]); [cbn; f_equal; ring|exact Es|exfalso; exact (NF v Fv)]. }
    assert (Er : explicit_solve_given_active_set np q [] = Ok (Some (CR [] (Mat 1 [[0]]) [0] (Mat 1 [[0]]) [0] (Mat 1 [[0]]) [0] 0 (Poly (Mat 1 [[-1]]) [-1] (Mat 1 []) [] None None None None None)))).
    { unfold explicit_solve_given_active_set, q. cbn [q_Au q_Ax q_b q_Huu_inv q_Hux q_fu q_Huu q_Hxx q_fx q_g forallb negb].
      match goal with |- context [np_inv np ?G] => set (GG := G) end. assert (EG : GG = Mat 0 []) by (unfold GG; cbn; reflexivity).
      destruct (Hi GG 0%nat ltac:(rewrite EG; repeat constructor)) as [(_ & X & EX & SX & _)|((x & Lx & Nx & _) & _)]; [|exfalso; apply Nx; destruct x; [reflexivity|discriminate]].
      rewrite EX. cbn [bind]. assert (X = Mat 0 []). { destruct X as [nc rs]. destruct SX as (S1 & S2 & _). cbn in S1, S2. subst nc. destruct rs; [reflexivity|discriminate]. } subst X.
      cbn - [normalize Rmult Rplus]. apply f_equal, f_equal. f_equal; try solve [crfields | cbv -[Rplus Rmult Ropp Rminus IZR]; crfields].
      rewrite <- ex_normalized by auto. f_equal. cbv -[Rplus Rmult Ropp Rminus IZR]. crfields. }
    assert (EP : explicit_solve_given_point np q [0] (Some []) = Ok None).
    { unfold explicit_solve_given_point. rewrite Er, ES. cbn [bind s_active_set sol_none].
      unfold cr_contains, contains, np_mv. cbn [cr_poly pA pb pC pd ncols length Nat.eqb bind nrows rows Nat.ltb Nat.leb mv map vsub map2 vmax fold_left dot].
      rewrite (proj2 (Rleb_false _ tol7)) by (unfold tol7; lra). reflexivity. }
    unfold explicit_solve. change (zeros (length (q_fx q))) with [0]. cbn [explicit_loop uncovered fst covered mapM bind existsb]. rewrite EP. cbn [bind]. reflexivity.
Qed.
(*@ Example C43_example : A terminating run, in which the regions do cover every parameter. *)
Lemma cover_example np : exact_np np -> exists q crs,
  MultiParametricQuadraticProgram np (Mat 1 [[1]]) (Mat 1 [[0]]) (Mat 1 [[0]]) [0] [0] 0 (Mat 1 [[-1]]) (Mat 1 [[1]]) [0] = Ok q /\
  explicit_solve np 3 (/ 100000) q = Ok crs /\ forall x, length x = 1%nat -> exists c, In c crs /\ in_poly (cr_poly c) x.
Proof. intros Hnp. destruct (explicit_example np Hnp) as (q & crs & _ & E1 & E2 & _ & H & _). eauto. Qed.
