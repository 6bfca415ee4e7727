(** * PolyMore: what add_inequality, add_equality and intersection store *)
From Coq Require Import ZArith.
From Verif Require Import Arr ArrFacts Spec Numpy Pnnls PnnlsFacts QpFacts GeomUtils Polyhedron PolyThms Oracle SolverThms NullFacts PolySolveThms.

Lemma Forall2_impl {T U} (P Q : T -> U -> Prop) l l' : (forall a b, P a b -> Q a b) -> Forall2 P l l' -> Forall2 Q l l'.
Proof. intros H F. induction F; constructor; auto. Qed.
(** equality of explicit matrices, vectors, polyhedra whose entries are equal by field *)
Ltac mateq := repeat match goal with
  | |- @eq R _ _ => solve [field; lra | field | lra]
  | |- @eq mat _ _ => f_equal
  | |- @eq poly _ _ => f_equal
  | |- @eq (list _) _ _ => f_equal
  end; try reflexivity.
Lemma norm_vneg v : norm (vneg v) = norm v.
Proof. unfold norm. rewrite dot_vneg_l, dot_vneg_r. f_equal; ring. Qed.
Lemma selection_none p : selection_matrix p None = eye (ncols (pA p)).
Proof. rewrite selection_rows. reflexivity. Qed.
Lemma add_inequality_all A b p m me k n : wf p m me n -> shape A k n -> length b = k ->
  add_inequality A (D1 b) None p = (Ok tt, Poly (vstack (pA p) A) (pb p ++ b) (pC p) (pd p) None None None None None).
Proof.
  intros (WA & Wb & WC & Wd) HA Hb. rewrite add_inequality_eq. cbn [nd_size]. rewrite (nrows_shape _ _ _ HA), Hb, Nat.eqb_refl.
  cbn [keep]. rewrite seq_length, (shape_cols _ _ _ HA), (shape_cols _ _ _ WA), Nat.eqb_refl.
  rewrite selection_none, (shape_cols _ _ _ WA), (mm_eye_r A k n HA). reflexivity.
Qed.
Lemma add_equality_all C d p m me k n : wf p m me n -> shape C k n -> length d = k ->
  add_equality C (D1 d) None p = (Ok tt, Poly (pA p) (pb p) (vstack (pC p) C) (pd p ++ d) None None None None None).
Proof.
  intros (WA & Wb & WC & Wd) HC Hd. rewrite add_equality_eq by (rewrite (shape_cols _ _ _ WA), (shape_cols _ _ _ WC); reflexivity).
  cbn [nd_size]. rewrite (nrows_shape _ _ _ HC), Hd, Nat.eqb_refl.
  cbn [keep]. rewrite seq_length, (shape_cols _ _ _ HC), (shape_cols _ _ _ WA), Nat.eqb_refl.
  rewrite selection_none, (shape_cols _ _ _ WA), (mm_eye_r C k n HC). reflexivity.
Qed.
Lemma intersection_all p1 p2 m1 me1 m2 me2 n : wf p1 m1 me1 n -> wf p2 m2 me2 n ->
  intersection p1 p2 = Ok (Poly (vstack (pA p2) (pA p1)) (pb p2 ++ pb p1) (vstack (pC p2) (pC p1)) (pd p2 ++ pd p1) None None None None None).
Proof.
  intros (WA1 & Wb1 & WC1 & Wd1) W2. unfold intersection, pbind.
  rewrite (add_inequality_all _ _ p2 m2 me2 m1 n W2 WA1 Wb1).
  rewrite (add_equality_all _ _ _ (m2 + m1) me2 me1 n); [reflexivity| |exact WC1|exact Wd1].
  destruct W2 as (WA2 & Wb2 & WC2 & Wd2). split; [cbn; auto with shp|]. split; [cbn; rewrite app_length; lia|]. split; [exact WC2|exact Wd2].
Qed.

(** reading [bounded] only changes the caches *)
Lemma get_empty_state np p r p' : get_empty np p = (r, p') ->
  pA p' = pA p /\ pb p' = pb p /\ pC p' = pC p /\ pd p' = pd p /\ (forall e, r = Ok e -> p_empty p' = Some e) /\ (forall e, p_empty p = Some e -> p' = p /\ r = Ok e).
Proof.
  unfold get_empty, pbind, pget. destruct (p_empty p) as [e|] eqn:E.
  - unfold pret. intros [= <- <-]. repeat match goal with |- _ /\ _ => split end; auto; [intros e' [= <-]; auto|intros e' [= <-]; auto].
  - unfold plift. destruct (qp np (eye (ncols (pA p))) (zeros (ncols (pA p))) (pA p) (pb p) (Some (pC p)) (Some (pd p))) as [s|er].
    + unfold pput, pret. intros [= <- <-]. repeat match goal with |- _ /\ _ => split end; try reflexivity; [intros e [= <-]; reflexivity|discriminate].
    + intros [= <- <-]. repeat match goal with |- _ /\ _ => split end; try reflexivity; discriminate.
Qed.
Lemma get_bounded_state np p r p' : get_bounded np p = (r, p') ->
  pA p' = pA p /\ pb p' = pb p /\ pC p' = pC p /\ pd p' = pd p /\
  (p' = p \/ exists e p1, get_empty np p = (e, p1) /\ p_empty p' = p_empty p1).
Proof.
  unfold get_bounded, pbind, pget. destruct (p_bounded p) as [e|] eqn:E.
  - unfold pret. intros [= <- <-]. auto 10.
  - destruct (get_empty np p) as [re p1] eqn:Ee. destruct (get_empty_state _ _ _ _ Ee) as (H1 & H2 & H3 & H4 & _).
    destruct re as [e|er].
    + destruct e.
      * unfold pret. intros [= <- <-]. repeat match goal with |- _ /\ _ => split end; auto. right. eauto.
      * destruct (0 <? _)%nat.
        -- unfold pret. intros [= <- <-]. repeat match goal with |- _ /\ _ => split end; auto. right. eauto.
        -- unfold plift. destruct (lp np _ _ _ _ _) as [s|er].
           ++ unfold pput, pret. intros [= <- <-]. repeat match goal with |- _ /\ _ => split end; auto. right. eauto.
           ++ intros [= <- <-]. repeat match goal with |- _ /\ _ => split end; auto. right. eauto.
    + intros [= <- <-]. repeat match goal with |- _ /\ _ => split end; auto. right. eauto.
Qed.
Lemma dist2_self c : dist2 c c = 0.
Proof. unfold dist2. induction c as [|a c IH]; [reflexivity|]. change (vsub (a :: c) (a :: c)) with ((a - a) :: vsub c c). change (dot ((a - a) :: vsub c c) ((a - a) :: vsub c c)) with ((a - a) * (a - a) + dot (vsub c c) (vsub c c)). rewrite IH. ring. Qed.
