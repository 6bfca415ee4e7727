(** * PlanarThms: the corners of a planar hull can be put in counterclockwise order (the contract used in C72, C73), proofs *)
From Coq Require Import ZArith Classical Sorted Permutation.
From Verif Require Import Arr ArrFacts Spec SpecVert SpecPlot Numpy HullOracle VertFacts Plots PolyPlotThms.

(** twice the area of the triangle o, a, b, positive if it is counterclockwise *)
Definition crs (o a b : vec) : R := (nth 0 a 0 - nth 0 o 0) * (nth 1 b 0 - nth 1 o 0) - (nth 1 a 0 - nth 1 o 0) * (nth 0 b 0 - nth 0 o 0).
Lemma left_of_crs a b x : left_of a b x <-> 0 <= crs a b x.
Proof. reflexivity. Qed.
Notation pt v := (length v = 2%nat).
Lemma crs_cyc a b c : crs a b c = crs b c a. Proof. unfold crs. ring. Qed.
Lemma crs_split o a b c : crs a b c = crs o a b + crs o b c + crs o c a. Proof. unfold crs. ring. Qed.
Lemma crs_swap o a b : crs o a b = - crs o b a. Proof. unfold crs. ring. Qed.
Lemma crs_same o a : crs o a a = 0. Proof. unfold crs. ring. Qed.
Lemma crs_same_l o a : crs o o a = 0. Proof. unfold crs. ring. Qed.
Lemma crs_same_r o a : crs o a o = 0. Proof. unfold crs. ring. Qed.
(** coordinates of v in the basis p - o, q - o *)
Lemma basis o p q v : pt o -> pt p -> pt q -> pt v -> crs o p q <> 0 ->
  v = vadd (vadd (vscale (1 - crs o v q / crs o p q - crs o p v / crs o p q) o) (vscale (crs o v q / crs o p q) p)) (vscale (crs o p v / crs o p q) q).
Proof.
  intros Lo Lp Lq Lv D. destruct o as [|o0 [|o1 [|]]]; try discriminate Lo. destruct p as [|p0 [|p1 [|]]]; try discriminate Lp. destruct q as [|q0 [|q1 [|]]]; try discriminate Lq. destruct v as [|v0 [|v1 [|]]]; try discriminate Lv.
  unfold crs in *. cbn in *. f_equal; [field; exact D|f_equal; field; exact D].
Qed.
Lemma triangle_in H o p q a b : Forall (fun v => pt v) H -> in_hull 2 H o -> in_hull 2 H p -> in_hull 2 H q -> pt o -> pt p -> pt q -> 0 <= a -> 0 <= b -> a + b <= 1 ->
  in_hull 2 H (vadd (vadd (vscale (1 - a - b) o) (vscale a p)) (vscale b q)).
Proof.
  intros F Ho Hp Hq Lo Lp Lq Ha Hb Hab. destruct (Req_dec (a + b) 0) as [Z|Z].
  - assert (a = 0) by lra. assert (b = 0) by lra. subst a b. replace (vadd (vadd (vscale (1 - 0 - 0) o) (vscale 0 p)) (vscale 0 q)) with o; [exact Ho|]. apply vec_ext; [len|]. intros i Hi. rewrite !nth_vadd, !nth_vscale by len. ring.
  - set (s := a + b) in *. assert (HS : 0 < s) by (unfold s in *; lra). replace (vadd (vadd (vscale (1 - a - b) o) (vscale a p)) (vscale b q)) with (vadd (vscale s (vadd (vscale (a / s) p) (vscale (1 - a / s) q))) (vscale (1 - s) o)).
    + apply in_hull_convex; [exact F|lra| |exact Ho]. apply in_hull_convex; auto. assert (0 <= / s) by (apply Rlt_le, Rinv_0_lt_compat, HS). split; [unfold Rdiv; apply Rmult_le_pos; assumption|]. apply (Rmult_le_reg_r s); [exact HS|]. unfold Rdiv. rewrite Rmult_assoc, Rinv_l by lra. unfold s in *. lra.
    + apply vec_ext; [len|]. intros i Hi. rewrite !nth_vadd, !nth_vscale, !nth_vadd, !nth_vscale by len. unfold s in *. field. lra.
Qed.
(** hulls of points of a hull *)
Lemma hull_sub H E x : Forall (fun v => pt v) H -> Forall (fun v => pt v) E -> (forall v, In v E -> in_hull 2 H v) -> in_hull 2 E x -> in_hull 2 H x.
Proof.
  intros FH FE HE Hx. assert (Lx : pt x) by (destruct Hx as (l & _ & _ & _ & ->); apply lincomb_length, FE).
  apply (hull_rows_ok 2 H x FH Lx). apply Forall_forall. intros c Hc. unfold holds. apply (in_hull_max 2 E _ _ _ FE); [|exact Hx]. intros v Hv. pose proof (HE v Hv) as Hv'. assert (Lv : pt v) by (rewrite Forall_forall in FE; apply FE, Hv).
  apply (hull_rows_ok 2 H v FH Lv) in Hv'. rewrite Forall_forall in Hv'. apply Hv', Hc.
Qed.
(** points none of which is in the hull of the others *)
Definition minimal (E : list vec) : Prop := forall l1 v l2, E = l1 ++ v :: l2 -> ~ in_hull 2 (l1 ++ l2) v.
Lemma minimal_exists n : forall pts, (length pts <= n)%nat -> Forall (fun v => pt v) pts -> exists E, incl E pts /\ minimal E /\ forall x, in_hull 2 E x <-> in_hull 2 pts x.
Proof.
  induction n as [|n IH]; intros pts Ln F.
  - exists pts. split; [apply incl_refl|]. split; [|reflexivity]. intros l1 v l2 E. destruct pts; [destruct l1; discriminate E|cbn in Ln; lia].
  - destruct (classic (minimal pts)) as [M|NM]; [exists pts; split; [apply incl_refl|split; [exact M|reflexivity]]|].
    assert (exists l1 v l2, pts = l1 ++ v :: l2 /\ in_hull 2 (l1 ++ l2) v) as (l1 & v & l2 & E & Hv).
    { apply NNPP. intros C. apply NM. intros l1 v l2 E Hv. apply C. exists l1, v, l2. split; assumption. }
    assert (F2 : Forall (fun v => pt v) (l1 ++ l2)) by (rewrite E in F; apply Forall_app in F; destruct F as (F1 & F2); inversion F2; apply Forall_app; split; assumption).
    destruct (IH (l1 ++ l2)) as (D & ID & MD & HD); [rewrite E, app_length in Ln; cbn in Ln; rewrite app_length; lia|exact F2|].
    assert (IN : incl (l1 ++ l2) pts) by (rewrite E; intros w Hw; apply in_app_iff in Hw; apply in_app_iff; cbn; tauto).
    exists D. split; [intros w Hw; apply IN, ID, Hw|]. split; [exact MD|]. intros x. rewrite HD. split.
    + apply hull_sub; [exact F|exact F2|]. intros w Hw. apply in_hull_pt; [exact F|apply IN, Hw].
    + apply hull_sub; [exact F2|exact F|]. intros w Hw. rewrite E in Hw. apply in_app_iff in Hw. destruct Hw as [Hw|[<-|Hw]]; [apply in_hull_pt; [exact F2|apply in_app_iff; tauto]|exact Hv|apply in_hull_pt; [exact F2|apply in_app_iff; tauto]].
Qed.
Lemma minimal_use E v o p q a b : minimal E -> Forall (fun v => pt v) E -> In v E -> In o E -> In p E -> In q E -> v <> o -> v <> p -> v <> q -> 0 <= a -> 0 <= b -> a + b <= 1 ->
  v <> vadd (vadd (vscale (1 - a - b) o) (vscale a p)) (vscale b q).
Proof.
  intros M F Iv Io Ip Iq No Np Nq Ha Hb Hab Ev. apply in_split in Iv. destruct Iv as (l1 & l2 & E1). apply (M l1 v l2 E1). assert (F2 : Forall (fun v => pt v) (l1 ++ l2)) by (rewrite E1 in F; apply Forall_app in F; destruct F as (F1 & F2); inversion F2; apply Forall_app; split; assumption).
  assert (OT : forall w, In w E -> v <> w -> in_hull 2 (l1 ++ l2) w) by (intros w Hw N; apply in_hull_pt; [exact F2|]; rewrite E1 in Hw; apply in_app_iff in Hw; apply in_app_iff; destruct Hw as [Hw|[Hw|Hw]]; [tauto|congruence|tauto]).
  rewrite Forall_forall in F. rewrite Ev. apply triangle_in; auto.
Qed.
Lemma minimal_nodup E : minimal E -> Forall (fun v => pt v) E -> NoDup E.
Proof.
  induction E as [|v E IH]; intros M F; [constructor|]. inversion F as [|? ? Lv FE]; subst. constructor.
  - intros Hin. apply (M [] v E eq_refl). apply in_hull_pt; assumption.
  - apply IH; [|exact FE]. intros l1 w l2 El Hw. apply (M (v :: l1) w l2); [rewrite El; reflexivity|].
    assert (F2 : Forall (fun v => pt v) (l1 ++ l2)) by (rewrite El in FE; apply Forall_app in FE; destruct FE as (F1 & F2); inversion F2; apply Forall_app; split; assumption).
    apply (hull_sub ((v :: l1) ++ l2) (l1 ++ l2)); [constructor; assumption|exact F2| |exact Hw]. intros u Hu. apply in_hull_pt; [constructor; assumption|right; exact Hu].
Qed.
(** the lexicographically least point *)
Definition lex (o p : vec) : Prop := nth 0 o 0 < nth 0 p 0 \/ (nth 0 o 0 = nth 0 p 0 /\ nth 1 o 0 < nth 1 p 0).
Lemma lex_total o p : pt o -> pt p -> o <> p -> lex o p \/ lex p o.
Proof.
  intros Lo Lp N. destruct o as [|a [|b [|]]]; try discriminate Lo. destruct p as [|c [|d [|]]]; try discriminate Lp. unfold lex. cbn. destruct (Rtotal_order a c) as [?|[E|?]]; [tauto| |tauto]. destruct (Rtotal_order b d) as [?|[E2|?]]; [tauto| |right; right; split; [lra|lra]]. subst. congruence.
Qed.
Lemma lex_min E : E <> [] -> Forall (fun v => pt v) E -> exists o, In o E /\ forall p, In p E -> p <> o -> lex o p.
Proof.
  induction E as [|v E IH]; intros NE F; [congruence|]. inversion F as [|? ? Lv FE]; subst. destruct E as [|w E']; [exists v; split; [left; reflexivity|]; intros p [<-|[]] N; congruence|].
  destruct (IH ltac:(discriminate) FE) as (o & Io & Ho). rewrite Forall_forall in FE. destruct (classic (v = o)) as [->|N].
  - exists o. split; [left; reflexivity|]. intros p [<-|Hp] Np; [congruence|apply Ho; assumption].
  - destruct (lex_total o v (FE o Io) Lv ltac:(congruence)) as [H|H].
    + exists o. split; [right; exact Io|]. intros p [<-|Hp] Np; [exact H|apply Ho; assumption].
    + exists v. split; [left; reflexivity|]. intros p [<-|Hp] Np; [congruence|]. destruct (classic (p = o)) as [->|N2]; [exact H|]. pose proof (Ho p Hp N2) as H2. unfold lex in *. lra.
Qed.
(** sorting *)
Lemma sorted_exists {A} (R : A -> A -> Prop) l : NoDup l -> (forall a b, In a l -> In b l -> a <> b -> R a b \/ R b a) -> (forall a b c, In a l -> In b l -> In c l -> R a b -> R b c -> R a c) ->
  exists l', Permutation l l' /\ StronglySorted R l'.
Proof.
  induction l as [|a l IH]; intros ND TO TR; [exists []; split; [constructor|constructor]|]. inversion ND as [|? ? NI ND']; subst.
  destruct IH as (l' & P & S); [exact ND'|intros; apply TO; cbn; auto|intros x y z Hx Hy Hz; apply TR; cbn; auto|].
  assert (IN : forall x, In x l' -> In x l) by (intros x Hx; apply (Permutation_in x (Permutation_sym P)), Hx).
  assert (exists l2, Permutation (a :: l') l2 /\ StronglySorted R l2) as (l2 & P2 & S2).
  { clear P. induction S as [|b l' S IHS Fb]; [exists [a]; split; [apply Permutation_refl|repeat constructor]|].
    destruct (TO a b) as [H|H]; [left; reflexivity|right; apply IN; left; reflexivity|intros ->; apply NI, IN; left; reflexivity| |].
    - exists (a :: b :: l'). split; [apply Permutation_refl|]. constructor; [constructor; assumption|]. constructor; [exact H|]. apply Forall_forall. intros c Hc. rewrite Forall_forall in Fb. apply (TR a b c); [left; reflexivity|right; apply IN; left; reflexivity|right; apply IN; right; exact Hc|exact H|apply Fb, Hc].
    - destruct IHS as (l2 & P2 & S2); [intros x Hx; apply IN; right; exact Hx|]. exists (b :: l2). split; [eapply perm_trans; [apply perm_swap|]; constructor; exact P2|]. constructor; [exact S2|]. apply Forall_forall. intros c Hc. apply (Permutation_in c (Permutation_sym P2)) in Hc. destruct Hc as [<-|Hc]; [exact H|rewrite Forall_forall in Fb; apply Fb, Hc]. }
  exists l2. split; [eapply perm_trans; [constructor; exact P|exact P2]|exact S2].
Qed.
(** the order by angle around the least point *)
Lemma angle_trans o p q r : (p = o \/ lex o p) -> lex o q -> (r = o \/ lex o r) -> 0 < crs o p q -> 0 < crs o q r -> 0 < crs o p r.
Proof.
  intros Hp Hq Hr. unfold crs, lex in *. assert (Ep : p = o -> crs o p q = 0) by (intros ->; apply crs_same_l). assert (Er : r = o -> crs o q r = 0) by (intros ->; apply crs_same_r). unfold crs in Ep, Er.
  set (a1 := nth 0 p 0 - nth 0 o 0) in *. set (b1 := nth 1 p 0 - nth 1 o 0) in *. set (a2 := nth 0 q 0 - nth 0 o 0) in *. set (b2 := nth 1 q 0 - nth 1 o 0) in *. set (a3 := nth 0 r 0 - nth 0 o 0) in *. set (b3 := nth 1 r 0 - nth 1 o 0) in *.
  intros H1 H2. destruct Hp as [Hp|Hp]; [specialize (Ep Hp); lra|]. destruct Hr as [Hr|Hr]; [specialize (Er Hr); lra|].
  assert (P1 : 0 < a1 \/ (a1 = 0 /\ 0 < b1)) by (unfold a1, b1; lra). assert (P2 : 0 < a2 \/ (a2 = 0 /\ 0 < b2)) by (unfold a2, b2; lra). assert (P3 : 0 < a3 \/ (a3 = 0 /\ 0 < b3)) by (unfold a3, b3; lra).
  clearbody a1 a2 a3 b1 b2 b3. clear - H1 H2 P1 P2 P3. destruct P2 as [P2|(-> & P2)].
  - destruct P1 as [P1|(-> & P1)]; [|nra]. apply (Rmult_lt_reg_l a2); [exact P2|]. replace (a2 * (a1 * b3 - b1 * a3)) with (a1 * (a2 * b3 - b2 * a3) + a3 * (a1 * b2 - b1 * a2)) by ring. rewrite Rmult_0_r. assert (0 < a1 * (a2 * b3 - b2 * a3)) by (apply Rmult_lt_0_compat; assumption). assert (0 <= a3 * (a1 * b2 - b1 * a2)) by (apply Rmult_le_pos; lra). lra.
  - destruct P3 as [P3|(-> & P3)]; nra.
Qed.
Lemma parallel o p q : pt o -> pt p -> pt q -> lex o p -> lex o q -> crs o p q = 0 -> exists t, 0 < t /\ q = vadd (vscale (1 - t) o) (vscale t p).
Proof.
  intros Lo Lp Lq Hp Hq H. destruct o as [|o0 [|o1 [|]]]; try discriminate Lo. destruct p as [|p0 [|p1 [|]]]; try discriminate Lp. destruct q as [|q0 [|q1 [|]]]; try discriminate Lq. unfold crs, lex in *. cbn in *.
  destruct Hp as [Hp|(Ep & Hp)].
  - assert (Q0 : o0 < q0). { destruct Hq as [|(Eq & Hq)]; [assumption|exfalso]. assert ((p0 - o0) * (q1 - o1) = 0) by nra. assert (0 < (p0 - o0) * (q1 - o1)) by (apply Rmult_lt_0_compat; lra). lra. }
    exists ((q0 - o0) / (p0 - o0)). split; [apply Rdiv_lt_0_compat; lra|]. f_equal; [field; lra|]. f_equal. apply (Rmult_eq_reg_l (p0 - o0)); [|lra]. field_simplify; [|lra]. nra.
  - assert (EQ : q0 = o0). { assert ((p1 - o1) * (q0 - o0) = 0) by nra. apply Rmult_integral in H0. lra. } subst p0 q0. assert (o1 < q1) by lra. exists ((q1 - o1) / (p1 - o1)). split; [apply Rdiv_lt_0_compat; lra|]. f_equal; [ring|]. f_equal. field. lra.
Qed.
Lemma sorted_nth {A} (R : A -> A -> Prop) l d : StronglySorted R l -> forall i j, (i < j)%nat -> (j < length l)%nat -> R (nth i l d) (nth j l d).
Proof.
  induction 1 as [|a l S IH F]; intros i j Hij Hj; [cbn in Hj; lia|]. destruct j as [|j]; [lia|]. cbn in Hj. destruct i as [|i]; cbn [nth]; [rewrite Forall_forall in F; apply F, nth_In; lia|apply IH; lia].
Qed.
Lemma crossing (f : nat -> R) n : 0 <= f 0%nat -> f (S n) <= 0 -> exists i, (i <= n)%nat /\ 0 <= f i /\ f (S i) <= 0.
Proof.
  induction n as [|n IH]; intros H0 Hn; [exists 0%nat; auto|]. destruct (Rle_dec (f (S n)) 0) as [L|L]; [destruct (IH H0 L) as (i & Hi & H); exists i; split; [lia|exact H]|]. exists (S n). split; [lia|]. split; [lra|exact Hn].
Qed.
Lemma crs_hull E a b x : Forall (fun v => pt v) E -> (forall v, In v E -> 0 <= crs a b v) -> in_hull 2 E x -> 0 <= crs a b x.
Proof.
  intros F H Hx. assert (Lx : pt x) by (destruct Hx as (l & _ & _ & _ & ->); apply lincomb_length, F).
  assert (EQ : forall v, pt v -> dot [nth 1 b 0 - nth 1 a 0; nth 0 a 0 - nth 0 b 0] v = (nth 1 b 0 - nth 1 a 0) * nth 0 v 0 + (nth 0 a 0 - nth 0 b 0) * nth 1 v 0) by (intros v Lv; destruct v as [|v0 [|v1 [|]]]; try discriminate Lv; unfold dot; cbn; ring).
  pose proof (in_hull_max 2 E [nth 1 b 0 - nth 1 a 0; nth 0 a 0 - nth 0 b 0] ((nth 1 b 0 - nth 1 a 0) * nth 0 a 0 + (nth 0 a 0 - nth 0 b 0) * nth 1 a 0) x F) as M. rewrite (EQ x Lx) in M.
  assert (G : (nth 1 b 0 - nth 1 a 0) * nth 0 x 0 + (nth 0 a 0 - nth 0 b 0) * nth 1 x 0 <= (nth 1 b 0 - nth 1 a 0) * nth 0 a 0 + (nth 0 a 0 - nth 0 b 0) * nth 1 a 0).
  { apply M; [|exact Hx]. intros v Hv. pose proof (H v Hv) as Hc. rewrite Forall_forall in F. rewrite (EQ v (F v Hv)). unfold crs in Hc. nra. }
  unfold crs. nra.
Qed.
Lemma hull_line E pts a d : Forall (fun v => pt v) E -> Forall (fun v => dot a v = d) E -> (forall v, In v pts -> in_hull 2 E v) -> Forall (fun v => dot a v = d) pts.
Proof.
  intros F H HP. rewrite Forall_forall in H. apply Forall_forall. intros v Hv. specialize (HP v Hv). apply Rle_antisym; [apply (in_hull_max 2 E a d v F); [intros w Hw; rewrite (H w Hw); lra|exact HP]|].
  assert (dot (vscale (-1) a) v <= - d) as L; [|rewrite dot_vscale_l in L; lra]. apply (in_hull_max 2 E _ _ v F); [|exact HP]. intros w Hw. rewrite dot_vscale_l, (H w Hw). lra.
Qed.
(** the corners of a set of points that are not on a line, in counterclockwise order *)
Lemma corners_exist pts : Forall (fun v => pt v) pts -> ~ collinear pts -> exists path, path <> [] /\ NoDup path /\ incl path pts /\ goes_around (path ++ [hd [] path]) (in_hull 2 pts).
Proof.
  intros F NC. destruct (minimal_exists (length pts) pts (le_n _) F) as (E & IE & M & HE).
  assert (FE : Forall (fun v => pt v) E) by (rewrite Forall_forall in *; intros v Hv; apply F, IE, Hv). assert (FA := F). rewrite Forall_forall in FA. assert (FEA := FE). rewrite Forall_forall in FEA.
  assert (PE : forall v, In v pts -> in_hull 2 E v) by (intros v Hv; apply HE; apply in_hull_pt; assumption).
  assert (NE : E <> []). { intros ->. apply NC. exists [1; 0], 0. split; [reflexivity|]. split; [intros Q; injection Q; lra|]. apply (hull_line [] pts); auto. }
  destruct (lex_min E NE FE) as (o & Io & Ho). pose proof (FEA o Io) as Lo. destruct (in_split o E Io) as (l1 & l2 & E1). set (P := l1 ++ l2).
  pose proof (minimal_nodup E M FE) as ND. assert (NDo : NoDup (o :: P)) by (unfold P; rewrite E1 in ND; apply NoDup_remove in ND; constructor; tauto). assert (INP : forall v, In v (o :: P) <-> In v E) by (intros v; unfold P; rewrite E1; cbn; rewrite !in_app_iff; cbn; tauto).
  apply NoDup_cons_iff in NDo. destruct NDo as (NIo & NDP). assert (PL : forall v, In v P -> In v E /\ v <> o /\ lex o v /\ pt v). { intros v Hv. assert (Iv : In v E) by (apply INP; right; exact Hv). assert (v <> o) by (intros ->; contradiction). auto. }
  destruct (sorted_exists (fun p q => 0 < crs o p q) P NDP) as (S & PS & SS).
  { intros a b Ha Hb N. destruct (PL a Ha) as (Ia & Na & Xa & La). destruct (PL b Hb) as (Ib & Nb & Xb & Lb). destruct (Rtotal_order (crs o a b) 0) as [H|[H|H]]; [right; rewrite crs_swap; lra| |left; exact H]. exfalso.
    destruct (parallel o a b Lo La Lb Xa Xb H) as (t & Ht & Et). destruct (Rle_dec t 1) as [L1|L1].
    - apply (minimal_use E b o a a t 0 M FE Ib Io Ia Ia); auto; try lra. rewrite Et at 1. apply vec_ext; [len|]. intros i Hi. rewrite !nth_vadd, !nth_vscale by len. ring.
    - assert (T : 0 < / t) by (apply Rinv_0_lt_compat; lra). apply (minimal_use E a o b b (/ t) 0 M FE Ia Io Ib Ib); auto; try lra.
      + rewrite Rplus_0_r. rewrite <- Rinv_1. apply Rinv_le_contravar; lra.
      + rewrite Et. apply vec_ext; [len|]. intros i Hi. rewrite !nth_vadd, !nth_vscale, !nth_vadd, !nth_vscale by len. field. lra. }
  { intros a b c Ha Hb Hc. apply angle_trans; [right|..|right]; apply PL; assumption. }
  assert (INS : forall v, In v S <-> In v P) by (intros v; split; [apply (Permutation_in v (Permutation_sym PS))|apply (Permutation_in v PS)]).
  assert (SL : forall v, In v S -> In v E /\ v <> o /\ lex o v /\ pt v) by (intros v Hv; apply PL, INS, Hv).
  assert (SN : forall i j, (i < j)%nat -> (j < length S)%nat -> 0 < crs o (nth i S []) (nth j S [])) by (intros; apply (sorted_nth (fun p q => 0 < crs o p q)); assumption).
  assert (ES : forall v, In v E -> v = o \/ In v S) by (intros v Hv; apply INP in Hv; destruct Hv as [->|Hv]; [left; reflexivity|right; apply INS, Hv]).
  assert (L2 : (2 <= length S)%nat).
  { destruct S as [|p [|q S']]; [| |cbn; lia]; exfalso; apply NC.
    - exists [1; 0], (nth 0 o 0). split; [reflexivity|]. split; [intros Q; injection Q; lra|]. apply (hull_line E pts); auto. apply Forall_forall. intros v Hv. destruct (ES v Hv) as [->|[]]. destruct o as [|a [|b [|]]]; try discriminate Lo. unfold dot. cbn. ring.
    - destruct (SL p (or_introl eq_refl)) as (_ & _ & Xp & Lp). exists [nth 1 p 0 - nth 1 o 0; nth 0 o 0 - nth 0 p 0], (dot [nth 1 p 0 - nth 1 o 0; nth 0 o 0 - nth 0 p 0] o). split; [reflexivity|]. split; [intros Q; injection Q as Q1 Q2; unfold lex in Xp; lra|]. apply (hull_line E pts); auto. apply Forall_forall. intros v Hv. destruct (ES v Hv) as [->|[<-|[]]]; [reflexivity|]. destruct o as [|a [|b [|]]]; try discriminate Lo. destruct p as [|c [|d [|]]]; try discriminate Lp. unfold dot. cbn. ring. }
  set (n := (length S - 2)%nat). assert (Ln : length S = (n + 2)%nat) by (unfold n; lia). clearbody n.
  assert (N0 : forall i, (i < length S)%nat -> In (nth i S []) S) by (intros; apply nth_In; assumption).
  exists (o :: S). split; [discriminate|]. split; [|split].
  - constructor; [intros H; apply SL in H; tauto|]. apply (Permutation_NoDup PS NDP).
  - intros v [<-|Hv]; [apply IE, Io|apply IE, SL, Hv].
  - cbn [hd]. split; [|split].
    + split; [cbn [length app]; rewrite app_length; cbn; lia|]. cbn [app nth]. cbn [length]. rewrite app_length. cbn [length]. replace (Datatypes.S (length S + 1) - 1)%nat with (Datatypes.S (length S)) by lia. cbn [nth]. rewrite app_nth2, Nat.sub_diag by lia. reflexivity.
    + rewrite Forall_forall. intros v Hv. apply in_app_iff in Hv. destruct Hv as [[<-|Hv]|[<-|[]]]; auto. apply SL, Hv.
    + assert (PN : forall k, (k < length S)%nat -> nth (Datatypes.S k) ((o :: S) ++ [o]) [] = nth k S []) by (intros k Hk; cbn [app nth]; apply app_nth1, Hk). assert (PL2 : nth (Datatypes.S (length S)) ((o :: S) ++ [o]) [] = o) by (cbn [app nth]; rewrite app_nth2, Nat.sub_diag by lia; reflexivity). assert (PLn : length ((o :: S) ++ [o]) = Datatypes.S (Datatypes.S (length S))) by (rewrite app_length; cbn; lia).
      intros x Lx. rewrite <- HE. split.
      * intros Hx a b (k & Hk & -> & ->). apply left_of_crs. apply (crs_hull E); [exact FE| |exact Hx]. intros p Hp. rewrite PLn in Hk. apply ES in Hp. destruct k as [|k].
        { rewrite PN by lia. change (nth 0 ((o :: S) ++ [o]) []) with o. destruct Hp as [->|Hp]; [rewrite crs_same_r; lra|]. destruct (In_nth S p [] Hp) as (j & Hj & <-). destruct j as [|j]; [rewrite crs_same; lra|]. apply Rlt_le, SN; lia. }
        rewrite (PN k) by lia. destruct (Nat.eq_dec (Datatypes.S k) (length S)) as [EK|NK].
        { rewrite EK, PL2. rewrite crs_cyc. destruct Hp as [->|Hp]; [rewrite crs_same_l; lra|]. destruct (In_nth S p [] Hp) as (j & Hj & <-). destruct (Nat.eq_dec j k) as [->|Nj]; [rewrite crs_same; lra|]. apply Rlt_le, SN; lia. }
        rewrite (PN (Datatypes.S k)) by lia. set (a := nth k S []). set (b := nth (Datatypes.S k) S []). assert (Hab : 0 < crs o a b) by (apply SN; lia).
        destruct (SL a ltac:(apply N0; lia)) as (Ia & Na & Xa & La). destruct (SL b ltac:(apply N0; lia)) as (Ib & Nb & Xb & Lb).
        destruct Hp as [->|Hp]; [rewrite <- crs_cyc; lra|]. destruct (SL p Hp) as (Ip & Np & Xp & Lp). destruct (In_nth S p [] Hp) as (j & Hj & EJ).
        destruct (Rle_dec 0 (crs a b p)) as [L|L]; [exact L|exfalso]. pose proof (crs_split o a b p) as SP.
        destruct (lt_eq_lt_dec j k) as [[Q|Q]|Q].
        { assert (H1 : 0 < crs o p a) by (rewrite <- EJ; apply SN; lia). assert (H2 : 0 < crs o p b) by (rewrite <- EJ; apply SN; lia). rewrite (crs_swap o b p) in SP.
          assert (I : 0 < / crs o p b) by (apply Rinv_0_lt_compat, H2).
          apply (minimal_use E a o p b (crs o a b / crs o p b) (crs o p a / crs o p b) M FE Ia Io Ip Ib); auto.
          - intros Q2. rewrite Q2, crs_same in H1. lra.
          - intros Q2. rewrite Q2, crs_same in Hab. lra.
          - apply Rlt_le, Rmult_lt_0_compat; assumption.
          - apply Rlt_le, Rmult_lt_0_compat; assumption.
          - apply (Rmult_le_reg_r (crs o p b)); [exact H2|]. replace ((crs o a b / crs o p b + crs o p a / crs o p b) * crs o p b) with (crs o a b + crs o p a) by (field; lra). lra.
          - apply basis; auto. lra. }
        { subst j. fold a in EJ. rewrite <- EJ in L. apply L. rewrite crs_same_r. lra. }
        destruct (Nat.eq_dec j (Datatypes.S k)) as [->|Nj]; [fold b in EJ; rewrite <- EJ in L; apply L; rewrite crs_cyc, crs_same_l; lra|].
        { assert (H1 : 0 < crs o b p) by (rewrite <- EJ; apply SN; lia). assert (H2 : 0 < crs o a p) by (rewrite <- EJ; apply SN; lia). rewrite (crs_swap o p a) in SP.
          assert (I : 0 < / crs o a p) by (apply Rinv_0_lt_compat, H2).
          apply (minimal_use E b o a p (crs o b p / crs o a p) (crs o a b / crs o a p) M FE Ib Io Ia Ip); auto.
          - intros Q2. rewrite Q2, crs_same in Hab. lra.
          - intros Q2. rewrite Q2, crs_same in H1. lra.
          - apply Rlt_le, Rmult_lt_0_compat; assumption.
          - apply Rlt_le, Rmult_lt_0_compat; assumption.
          - apply (Rmult_le_reg_r (crs o a p)); [exact H2|]. replace ((crs o b p / crs o a p + crs o a b / crs o a p) * crs o a p) with (crs o b p + crs o a b) by (field; lra). lra.
          - apply basis; auto. lra. }
      * intros HL. assert (LF : forall k, (k < Datatypes.S (length S))%nat -> 0 <= crs (nth k ((o :: S) ++ [o]) []) (nth (Datatypes.S k) ((o :: S) ++ [o]) []) x) by (intros k Hk; apply left_of_crs, HL; exists k; rewrite PLn; split; [lia|split; reflexivity]).
        destruct (crossing (fun i => crs o (nth i S []) x) n) as (i & Hi & H1 & H2).
        { specialize (LF 0%nat ltac:(lia)). rewrite PN in LF by lia. exact LF. }
        { specialize (LF (Datatypes.S (Datatypes.S n)) ltac:(lia)). rewrite PN in LF by lia. replace (Datatypes.S (Datatypes.S n)) with (length S) in LF by lia. rewrite PL2, crs_cyc, crs_swap in LF. lra. }
        specialize (LF (Datatypes.S i) ltac:(lia)). rewrite !PN in LF by lia. cbn beta in H1, H2. set (a := nth i S []) in *. set (b := nth (Datatypes.S i) S []) in *. assert (Hab : 0 < crs o a b) by (apply SN; lia).
        destruct (SL a ltac:(apply N0; lia)) as (Ia & Na & Xa & La). destruct (SL b ltac:(apply N0; lia)) as (Ib & Nb & Xb & Lb). rewrite (crs_split o) in LF. rewrite (crs_swap o x a) in LF. rewrite (crs_swap o b x) in *.
        assert (I : 0 < / crs o a b) by (apply Rinv_0_lt_compat, Hab). rewrite (basis o a b x Lo La Lb Lx) by lra. apply triangle_in; auto using in_hull_pt.
        { apply Rmult_le_pos; lra. }
        { apply Rmult_le_pos; lra. }
        { apply (Rmult_le_reg_r (crs o a b)); [exact Hab|]. replace ((crs o x b / crs o a b + crs o a x / crs o a b) * crs o a b) with (crs o x b + crs o a x) by (field; lra). lra. }
Qed.
(*@ Theorem C72_contract : The contract of ConvexHull(points).vertices in the plane assumed in C72 and C73 can be met for every list of points: unless they are on one line, some of them in some order form a closed path that goes around exactly their convex hull. *)
Lemma hull2_satisfiable pts : Forall (fun v => length v = 2%nat) pts -> exists r, hull2_ok pts r.
Proof.
  intros F. destruct (classic (collinear pts)) as [C|NC]; [exists (Err QhullError); split; [reflexivity|exact C]|]. destruct (corners_exist pts F NC) as (path & NE & ND & IP & GA).
  assert (EN : forall v, In v path -> nth (find_vec v pts) pts [] = v) by (intros v Hv; apply find_vec_ok, IP, Hv).
  exists (Ok (map (fun v => find_vec v pts) path)). split; [destruct path; [congruence|discriminate]|]. split; [|split].
  - clear -ND EN. induction ND as [|v l NI ND IH]; [constructor|]. cbn. constructor; [|apply IH; intros; apply EN; right; assumption]. intros H. apply in_map_iff in H. destruct H as (w & Ew & Hw). apply NI. rewrite <- (EN v (or_introl eq_refl)), <- Ew, (EN w (or_intror Hw)). exact Hw.
  - apply Forall_forall. intros i Hi. apply in_map_iff in Hi. destruct Hi as (v & <- & Hv). apply find_vec_ok, IP, Hv.
  - rewrite map_map. rewrite (map_ext_in _ (fun v => v)) by exact EN. rewrite map_id. destruct path as [|v path]; [congruence|]. cbn [map hd] in *. rewrite EN by (left; reflexivity). exact GA.
Qed.
