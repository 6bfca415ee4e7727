(** * SymThms: constructors from symbolic expressions (C35), proofs *)
From Coq Require Import String Lra Lia ZArith.
From Verif Require Import Arr ArrFacts Spec SpecSym SpecDyn SpecGeom Numpy Pnnls GeomUtils Polyhedron PolyThms Dynamics Symbolic Oracle PolyMore GeomThms DynThms ZohThms.
Local Open Scope list_scope.

(** ** Values *)
Lemma value_ext e : forall env env', (forall j, env j = env' j) -> value env e = value env' e.
Proof.
  induction e; intros env env' H; cbn [value]; try rewrite (IHe _ _ H); try rewrite (IHe1 _ _ H), (IHe2 _ _ H); try rewrite H; reflexivity.
Qed.
Lemma value_closed e : closed e -> forall env env', value env e = value env' e.
Proof.
  induction e; cbn [closed value]; intros H env env'; try contradiction; try reflexivity.
  all: try (destruct H as (H1 & H2); now rewrite (IHe1 H1 env env'), (IHe2 H2 env env')).
  all: now rewrite (IHe H env env').
Qed.
(** the value of a regular expression, as a total function *)
Fixpoint sv (env : nat -> R) (e : sx) : R :=
  match e with
  | SVar i => env i
  | SNum r => r
  | SAdd e f => sv env e + sv env f
  | SMul e f => sv env e * sv env f
  | SDiv e f => sv env e / sv env f
  | SPow e n => sv env e ^ n
  | SSqrt e => sqrt (sv env e)
  | SSin e => sin (sv env e)
  | SCos e => cos (sv env e)
  | SExp e => exp (sv env e)
  end.
Lemma value_regular e : regular e -> forall env, value env e = Some (sv env e).
Proof.
  induction e; cbn [regular value sv]; intros H env; try reflexivity.
  - destruct H as (H1 & H2). rewrite (IHe1 H1), (IHe2 H2). reflexivity.
  - destruct H as (H1 & H2). rewrite (IHe1 H1), (IHe2 H2). reflexivity.
  - destruct H as (H1 & H2 & H3). specialize (H3 env). rewrite (IHe1 H1), (IHe2 H2) in *. cbn [omap2]. destruct (Req_EM_T (sv env e2) 0) as [E|]; [rewrite E in H3; congruence|reflexivity].
  - rewrite (IHe H). reflexivity.
  - destruct H as (H & P). rewrite (IHe H). cbn [omap]. pose proof (P env _ (IHe H env)). destruct (Rlt_dec (sv env e) 0); [lra|reflexivity].
  - rewrite (IHe H). reflexivity.
  - rewrite (IHe H). reflexivity.
  - rewrite (IHe H). reflexivity.
Qed.
(** the value when symbol i is t *)
Definition upd (env : nat -> R) (i : nat) (t : R) : nat -> R := fun j => if Nat.eqb j i then t else env j.
Lemma sdiff_ok i e : regular e -> forall env,
  value env (sdiff i e) = Some (sv env (sdiff i e)) /\
  forall t, derivable_pt_lim (fun t => sv (upd env i t) e) t (sv (upd env i t) (sdiff i e)).
Proof.
  induction e; cbn [regular]; intros H env.
  - split; [reflexivity|]. intros t. cbn [sv sdiff]. unfold upd. rewrite (Nat.eqb_sym i0 i). destruct (Nat.eqb i i0); [apply derivable_pt_lim_id|apply derivable_pt_lim_const].
  - split; [reflexivity|]. intros t. cbn [sv sdiff]. apply derivable_pt_lim_const.
  - destruct H as (H1 & H2). destruct (IHe1 H1 env) as (V1 & D1). destruct (IHe2 H2 env) as (V2 & D2). split.
    + cbn [sdiff value sv]. rewrite V1, V2. reflexivity.
    + intros t. cbn [sv sdiff]. apply (derivable_pt_lim_plus (fun t => sv (upd env i t) e1) (fun t => sv (upd env i t) e2)); auto.
  - destruct H as (H1 & H2). destruct (IHe1 H1 env) as (V1 & D1). destruct (IHe2 H2 env) as (V2 & D2). split.
    + cbn [sdiff value sv]. rewrite V1, V2, (value_regular _ H1), (value_regular _ H2). reflexivity.
    + intros t. cbn [sv sdiff]. apply (derivable_pt_lim_mult (fun t => sv (upd env i t) e1) (fun t => sv (upd env i t) e2)); auto.
  - destruct H as (H1 & H2 & H3). destruct (IHe1 H1 env) as (V1 & D1). destruct (IHe2 H2 env) as (V2 & D2).
    assert (N : forall env, sv env e2 <> 0). { intros env' E. apply (H3 env'). rewrite (value_regular _ H2), E. reflexivity. }
    split.
    + cbn [sdiff value sv]. rewrite V1, V2, (value_regular _ H1), (value_regular _ H2). cbn [omap omap2]. destruct (Req_EM_T (sv env e2 ^ 2) 0) as [E|]; [|reflexivity].
      exfalso. apply (pow_nonzero _ 2 (N env)). exact E.
    + intros t. cbn [sv sdiff]. replace ((sv (upd env i t) (sdiff i e1) * sv (upd env i t) e2 + -1 * (sv (upd env i t) e1 * sv (upd env i t) (sdiff i e2))) / sv (upd env i t) e2 ^ 2)
        with ((sv (upd env i t) (sdiff i e1) * sv (upd env i t) e2 - sv (upd env i t) (sdiff i e2) * sv (upd env i t) e1) / Rsqr (sv (upd env i t) e2)).
      * apply (derivable_pt_lim_div (fun t => sv (upd env i t) e1) (fun t => sv (upd env i t) e2)); auto.
      * unfold Rsqr. field. apply N.
  - destruct (IHe H env) as (V & D). split.
    + cbn [sdiff value sv]. rewrite V, (value_regular _ H). reflexivity.
    + intros t. cbn [sv sdiff]. apply (derivable_pt_lim_comp (fun t => sv (upd env i t) e) (fun y => y ^ n)); [apply D|apply derivable_pt_lim_pow].
  - destruct H as (H & P). destruct (IHe H env) as (V & D). assert (N : forall env, 0 < sv env e) by (intros env'; apply (P env'), value_regular, H). split.
    + cbn [sdiff value sv]. rewrite V, (value_regular _ H). cbn [omap omap2]. pose proof (N env). destruct (Rlt_dec (sv env e) 0); [lra|]. cbn [omap2].
      destruct (Req_EM_T (2 * sqrt (sv env e)) 0) as [E|]; [|reflexivity]. pose proof (sqrt_lt_R0 _ H0). lra.
    + intros t. cbn [sv sdiff]. replace (sv (upd env i t) (sdiff i e) / (2 * sqrt (sv (upd env i t) e))) with (/ (2 * sqrt (sv (upd env i t) e)) * sv (upd env i t) (sdiff i e)) by (unfold Rdiv; ring).
      apply (derivable_pt_lim_comp (fun t => sv (upd env i t) e) sqrt); [apply D|apply derivable_pt_lim_sqrt, N].
  - destruct (IHe H env) as (V & D). split.
    + cbn [sdiff value sv]. rewrite V, (value_regular _ H). reflexivity.
    + intros t. cbn [sv sdiff]. apply (derivable_pt_lim_comp (fun t => sv (upd env i t) e) sin); [apply D|apply derivable_pt_lim_sin].
  - destruct (IHe H env) as (V & D). split.
    + cbn [sdiff value sv]. rewrite V, (value_regular _ H). reflexivity.
    + intros t. cbn [sv sdiff]. replace (-1 * (sin (sv (upd env i t) e) * sv (upd env i t) (sdiff i e))) with (- sin (sv (upd env i t) e) * sv (upd env i t) (sdiff i e)) by ring.
      apply (derivable_pt_lim_comp (fun t => sv (upd env i t) e) cos); [apply D|apply derivable_pt_lim_cos].
  - destruct (IHe H env) as (V & D). split.
    + cbn [sdiff value sv]. rewrite V, (value_regular _ H). reflexivity.
    + intros t. cbn [sv sdiff]. apply (derivable_pt_lim_comp (fun t => sv (upd env i t) e) exp); [apply D|apply derivable_pt_lim_exp].
Qed.
Lemma const_derivative f a t : (forall s, derivable_pt_lim f s a) -> f t = f 0 + a * t.
Proof.
  intros D. destruct (Rtotal_order t 0) as [L|[->|L]].
  - destruct (MVT_cor2 f (fun _ => a) t 0 L (fun c _ => D c)) as (c & E & _). lra.
  - lra.
  - destruct (MVT_cor2 f (fun _ => a) 0 t L (fun c _ => D c)) as (c & E & _). lra.
Qed.
(** symbols of xs set to zero *)
Definition at0 (xs : list nat) (env : nat -> R) : nat -> R := fun j => if existsb (Nat.eqb j) xs then 0 else env j.
Lemma value_ssubs0 xs e : forall env, value env (ssubs0 xs e) = value (at0 xs env) e.
Proof.
  induction e; intros env; cbn [ssubs0 value]; rewrite ?IHe, ?IHe1, ?IHe2; try reflexivity. unfold at0. destruct (existsb (Nat.eqb i) xs); reflexivity.
Qed.
Lemma sv_ext e env env' : regular e -> (forall j, env j = env' j) -> sv env e = sv env' e.
Proof. intros H E. pose proof (value_ext e env env' E) as Q. rewrite !value_regular in Q by exact H. congruence. Qed.
Lemma at0_in xs env j : In j xs -> at0 xs env j = 0.
Proof. intros H. unfold at0. destruct (existsb (Nat.eqb j) xs) eqn:E; [reflexivity|]. exfalso. apply Bool.not_true_iff_false in E. apply E. apply existsb_exists. exists j. split; [exact H|apply Nat.eqb_refl]. Qed.
Lemma at0_out xs env j : ~ In j xs -> at0 xs env j = env j.
Proof. intros H. unfold at0. destruct (existsb (Nat.eqb j) xs) eqn:E; [|reflexivity]. apply existsb_exists in E. destruct E as (k & Hk & Ek). apply Nat.eqb_eq in Ek. subst. contradiction. Qed.
(** constant partial derivatives: affine *)
Lemma affine_of_derivatives e : regular e -> forall xs a, NoDup xs -> Forall2 (fun i r => forall env v, value env (sdiff i e) = Some v -> v = r) xs a ->
  forall env, sv env e = dot a (map env xs) + sv (at0 xs env) e.
Proof.
  intros H xs a ND F. induction F as [|i r xs a Hr F IH]; intros env.
  - cbn [map dot]. rewrite Rplus_0_l. apply sv_ext; [exact H|reflexivity].
  - inversion ND as [|? ? Ni ND']; subst. specialize (IH ND').
    assert (D : forall t, derivable_pt_lim (fun t => sv (upd env i t) e) t r).
    { intros t. destruct (sdiff_ok i e H (upd env i t)) as (V & _). destruct (sdiff_ok i e H env) as (_ & D). specialize (D t). rewrite (Hr _ _ V) in D. exact D. }
    pose proof (const_derivative _ r (env i) D) as Q. cbn beta in Q.
    rewrite (sv_ext e (upd env i (env i)) env H) in Q by (intros j; unfold upd; destruct (Nat.eqb j i) eqn:E; [apply Nat.eqb_eq in E; subst|]; reflexivity).
    rewrite (IH (upd env i 0)) in Q. cbn [map dot]. rewrite Q.
    rewrite (sv_ext e (at0 xs (upd env i 0)) (at0 (i :: xs) env) H).
    + replace (map (upd env i 0) xs) with (map env xs); [lra|]. apply map_ext_in. intros j Hj. unfold upd. destruct (Nat.eqb j i) eqn:E; [|reflexivity]. apply Nat.eqb_eq in E. subst. contradiction.
    + intros j. unfold at0, upd. cbn [existsb]. destruct (Nat.eqb j i); destruct (existsb (Nat.eqb j) xs); reflexivity.
Qed.

(** ** Extraction of the matrices *)
Lemma mapM_F2 {A B} (f : A -> res B) l ys : mapM f l = Ok ys -> Forall2 (fun a y => f a = Ok y) l ys.
Proof.
  revert ys. induction l as [|a l IH]; intros ys E; cbn [mapM] in E; [injection E as <-; constructor|].
  destruct (f a) as [b|] eqn:Ea; [|discriminate]. cbn [bind] in E. destruct (mapM f l) as [bs|]; [|discriminate]. cbn [bind] in E. injection E as <-. auto.
Qed.
Lemma mapM_Type {A B} (f : A -> res B) l : (forall a, In a l -> (exists b, f a = Ok b) \/ f a = Err TypeError) -> (exists ys, mapM f l = Ok ys) \/ mapM f l = Err TypeError.
Proof.
  induction l as [|a l IH]; intros H; cbn [mapM]; [left; eauto|].
  destruct (H a (or_introl eq_refl)) as [(b & ->)| ->]; [|right; reflexivity]. cbn [bind].
  destruct IH as [(ys & ->)| ->]; [intros c Hc; apply H; right; exact Hc|left; cbn; eauto|right; reflexivity].
Qed.
Lemma Forall2_of_F2 {A B C} (P : A -> B -> Prop) (Q : A -> C -> Prop) (T : A -> B -> C -> Prop) l bs cs : Forall2 P l bs -> Forall2 Q l cs ->
  (forall a b c, In a l -> P a b -> Q a c -> T a b c) -> Forall2 (fun a bc => T a (fst bc) (snd bc)) l (combine bs cs).
Proof.
  intros HP. revert cs. induction HP as [|a b l bs Pa HP IH]; intros cs HQ HT; inversion HQ; subst; cbn [combine]; constructor.
  - cbn [fst snd]. apply HT; auto. left; reflexivity.
  - apply IH; [assumption|]. intros; apply HT; auto. right; assumption.
Qed.
Lemma jacobian_inv sfloat es xs A : jacobian sfloat es xs = Ok A ->
  shape A (length es) (length xs) /\ Forall2 (fun e r => Forall2 (fun i a => sfloat (sdiff i e) = Ok a) xs r) es (rows A).
Proof.
  unfold jacobian. destruct es as [|e es]; [discriminate|]. destruct xs as [|i xs]; [discriminate|]. intros E.
  destruct (mapM _ (e :: es)) as [rs|] eqn:M in E; [|discriminate]. cbn [bind] in E. injection E as <-. apply mapM_F2 in M.
  assert (F : Forall2 (fun e r => Forall2 (fun i a => sfloat (sdiff i e) = Ok a) (i :: xs) r) (e :: es) rs).
  { eapply PolyMore.Forall2_impl; [|exact M]. intros e' r Hr. apply mapM_F2 in Hr. exact Hr. }
  split; [|exact F]. unfold shape. cbn [rows ncols]. split; [symmetry; apply (Forall2_len _ _ _ M)|]. split; [reflexivity|].
  clear M. induction F as [|? ? ? ? H F IH]; constructor; [symmetry; apply (Forall2_len _ _ _ H)|exact IH].
Qed.
Lemma extract_row sfloat xs e r b : sfloat_ok sfloat -> NoDup xs -> regular e -> Forall2 (fun i a => sfloat (sdiff i e) = Ok a) xs r -> sfloat (ssubs0 xs e) = Ok b ->
  forall env, value env e = Some (dot r (map env xs) + b).
Proof.
  intros SF ND H F Eb env. rewrite (value_regular _ H). f_equal. rewrite (affine_of_derivatives e H xs r ND).
  - f_equal. destruct SF as (S1 & _). apply (S1 _ _ env _ Eb). rewrite value_ssubs0. apply value_regular, H.
  - eapply PolyMore.Forall2_impl; [|exact F]. intros i a Ha env' v. destruct SF as (S1 & _). apply S1. exact Ha.
Qed.
Lemma extract_rows sfloat xs es rs c : sfloat_ok sfloat -> NoDup xs -> Forall regular es ->
  Forall2 (fun e r => Forall2 (fun i a => sfloat (sdiff i e) = Ok a) xs r) es rs -> Forall2 (fun e b => sfloat (ssubs0 xs e) = Ok b) es c ->
  forall env, map (value env) es = map Some (vadd (map (fun r => dot r (map env xs)) rs) c).
Proof.
  intros SF ND HR F. revert c. induction F as [|e r es rs He F IH]; intros c G env; inversion G as [|? b ? c' Hb G']; subst; [reflexivity|].
  cbn [map]. unfold vadd. cbn [map2 map]. f_equal; [|apply (IH (Forall_inv_tail HR) c' G')]. apply (extract_row sfloat); auto. exact (Forall_inv HR).
Qed.
Lemma matrices_inv sfloat xs es A b : get_matrices_affine_expression sfloat xs es = Ok (A, b) ->
  exists c, jacobian sfloat es xs = Ok A /\ b = vneg c /\ Forall2 (fun e b => sfloat (ssubs0 xs e) = Ok b) es c.
Proof.
  unfold get_matrices_affine_expression. intros E. destruct (jacobian sfloat es xs) as [A'|]; [|discriminate]. cbn [bind] in E.
  destruct (mapM _ es) as [c|] eqn:M in E; [|discriminate]. cbn [bind] in E. injection E as <- <-. exists c. split; [reflexivity|]. split; [reflexivity|]. apply mapM_F2, M.
Qed.

(*@ Theorem C35_affine_expression : if get_matrices_affine_expression(x, expr) returns A, b, then expr = A x - b at every point (distinct symbols; expressions regular, e.g. built with sums, products, powers, sin, cos, exp); in particular expr depends on no other symbol *)
Lemma matrices_ok sfloat xs es A b : sfloat_ok sfloat -> NoDup xs -> Forall regular es ->
  get_matrices_affine_expression sfloat xs es = Ok (A, b) -> is_affine_map xs es A b.
Proof.
  intros SF ND HR E. destruct (matrices_inv _ _ _ _ _ E) as (c & EJ & -> & F). destruct (jacobian_inv _ _ _ _ EJ) as (SA & FA).
  assert (LA : length (rows A) = length es) by apply SA. assert (Lc : length c = length es) by (symmetry; apply (Forall2_len _ _ _ F)).
  split; [exact SA|]. split; [len|]. intros env. rewrite (extract_rows sfloat xs es (rows A) c SF ND HR FA F). f_equal. unfold mv. vring.
Qed.

(*@ Theorem C35_non_affine : on regular expressions that are not affine in the given symbols get_matrices_affine_expression raises TypeError *)
Lemma matrices_non_affine sfloat xs es : sfloat_ok sfloat -> NoDup xs -> Forall regular es ->
  ~ affine_in xs es -> get_matrices_affine_expression sfloat xs es = Err TypeError.
Proof.
  intros SF ND HR NA. destruct (get_matrices_affine_expression sfloat xs es) as [(A & b)|e] eqn:E.
  - exfalso. apply NA. exists A, b. eapply matrices_ok; eauto.
  - unfold get_matrices_affine_expression in E. destruct SF as (_ & _ & S3).
    assert (J : (exists A, jacobian sfloat es xs = Ok A) \/ jacobian sfloat es xs = Err TypeError).
    { unfold jacobian. destruct es as [|e0 es]; [auto|]. destruct xs as [|i xs]; [auto|].
      destruct (mapM_Type (fun e => mapM (fun i => sfloat (sdiff i e)) (i :: xs)) (e0 :: es)) as [(ys & ->)| ->]; [|left; cbn; eauto|right; reflexivity].
      intros e' _. apply mapM_Type. intros; apply S3. }
    destruct J as [(A & EA)|EA]; rewrite EA in E; cbn [bind] in E; [|congruence].
    destruct (mapM_Type (fun e => sfloat (ssubs0 xs e)) es) as [(ys & Ey)|Ey]; [intros; apply S3| |]; rewrite Ey in E; cbn [bind] in E; congruence.
Qed.

(** ** Affine expressions are accepted *)
Lemma auto_value e : forall env v, value env e = Some v -> value env (auto e) = Some v.
Proof.
  assert (O2 : forall f a b v, omap2 f a b = Some v -> exists x y, a = Some x /\ b = Some y /\ f x y = Some v). { intros f [x|] [y|] v Hv; try discriminate. eauto. }
  assert (O1 : forall f a v, omap f a = Some v -> exists x, a = Some x /\ f x = Some v). { intros f [x|] v Hv; try discriminate. eauto. }
  induction e; intros env v Hv; cbn [value] in Hv; cbn [auto]; try exact Hv.
  - apply O2 in Hv. destruct Hv as (x & y & E1 & E2 & E). apply IHe1 in E1. apply IHe2 in E2.
    assert (Q : value env (SAdd (auto e1) (auto e2)) = Some v) by (cbn [value]; rewrite E1, E2; exact E).
    destruct (auto e1); try exact Q. destruct (auto e2); try exact Q.
  - apply O2 in Hv. destruct Hv as (x & y & E1 & E2 & E). apply IHe1 in E1. apply IHe2 in E2.
    assert (Q : value env (SMul (auto e1) (auto e2)) = Some v) by (cbn [value]; rewrite E1, E2; exact E).
    assert (Q0 : auto e1 = SNum 0 \/ auto e2 = SNum 0 -> Some 0 = Some v). { intros [Z|Z]; rewrite Z in *; [cbn in E1; injection E1 as <-|cbn in E2; injection E2 as <-]; rewrite <- E; f_equal; ring. }
    destruct (auto e1) eqn:A1; destruct (auto e2) eqn:A2; try exact Q; try (destruct (Req_EM_T _ _) as [->|]; [cbn [value]; auto|exact Q]).
  - apply O2 in Hv. destruct Hv as (x & y & E1 & E2 & E). apply IHe1 in E1. apply IHe2 in E2.
    assert (Q : value env (SDiv (auto e1) (auto e2)) = Some v) by (cbn [value]; rewrite E1, E2; exact E).
    destruct (auto e1) eqn:A1; try exact Q. destruct (Req_EM_T r 0) as [->|]; [|exact Q]. cbn in E1. injection E1 as <-. destruct (Req_EM_T y 0); [discriminate|].
    cbn [value]. rewrite <- E. f_equal. field. assumption.
  - apply O1 in Hv. destruct Hv as (x & E1 & E). apply IHe in E1. cbn [value]. rewrite E1. exact E.
  - apply O1 in Hv. destruct Hv as (x & E1 & E). apply IHe in E1. cbn [value]. rewrite E1. exact E.
  - apply O1 in Hv. destruct Hv as (x & E1 & E). apply IHe in E1. cbn [value]. rewrite E1. exact E.
  - apply O1 in Hv. destruct Hv as (x & E1 & E). apply IHe in E1. cbn [value]. rewrite E1. exact E.
  - apply O1 in Hv. destruct Hv as (x & E1 & E). apply IHe in E1. cbn [value]. rewrite E1. exact E.
Qed.
Lemma auto_mul0 e f : auto e = SNum 0 \/ auto f = SNum 0 -> auto (SMul e f) = SNum 0.
Proof.
  cbn [auto]. destruct (Req_EM_T 0 0) as [Z|]; [|congruence]. intros [H|H]; rewrite H.
  - destruct (auto f); try (destruct (Req_EM_T 0 0); [reflexivity|congruence]). f_equal. ring.
  - destruct (auto e); try (destruct (Req_EM_T 0 0); [reflexivity|congruence]). f_equal. ring.
Qed.
Lemma auto_add0 e f : auto e = SNum 0 -> auto f = SNum 0 -> auto (SAdd e f) = SNum 0.
Proof. cbn [auto]. intros -> ->. f_equal. ring. Qed.
Lemma auto_div0 e f : auto e = SNum 0 -> auto (SDiv e f) = SNum 0.
Proof. cbn [auto]. intros ->. destruct (Req_EM_T 0 0); [reflexivity|congruence]. Qed.
Lemma sdiff_closed i e : closed e -> auto (sdiff i e) = SNum 0.
Proof.
  induction e; cbn [closed sdiff]; intros H; try contradiction; try reflexivity.
  - destruct H. apply auto_add0; auto.
  - destruct H. apply auto_add0; apply auto_mul0; auto.
  - destruct H. apply auto_div0, auto_add0; apply auto_mul0; auto. right. apply auto_mul0. auto.
  - apply auto_mul0. auto.
  - apply auto_div0. auto.
  - apply auto_mul0. auto.
  - apply auto_mul0. right. apply auto_mul0. auto.
  - apply auto_mul0. auto.
Qed.
Lemma auto_closed e : closed e -> closed (auto e).
Proof.
  induction e; cbn [closed]; intros H; try contradiction; try exact H.
  - destruct H as (H1 & H2). specialize (IHe1 H1). specialize (IHe2 H2). cbn [auto]. destruct (auto e1); destruct (auto e2); cbn [closed] in *; auto.
  - destruct H as (H1 & H2). specialize (IHe1 H1). specialize (IHe2 H2). cbn [auto]. destruct (auto e1); destruct (auto e2); try destruct (Req_EM_T _ _); cbn [closed] in *; auto.
  - destruct H as (H1 & H2). specialize (IHe1 H1). specialize (IHe2 H2). cbn [auto]. destruct (auto e1); try destruct (Req_EM_T _ _); cbn [closed] in *; auto.
  - cbn [auto closed]. auto.
  - cbn [auto closed]. auto.
  - cbn [auto closed]. auto.
  - cbn [auto closed]. auto.
  - cbn [auto closed]. auto.
Qed.
Lemma auto_add_closed e f : closed (auto e) -> closed (auto f) -> closed (auto (SAdd e f)).
Proof. cbn [auto]. intros H1 H2. destruct (auto e); destruct (auto f); cbn [closed] in *; auto. Qed.
Lemma auto_mul_closed e f : closed (auto e) -> closed (auto f) -> closed (auto (SMul e f)).
Proof. cbn [auto]. intros H1 H2. destruct (auto e); destruct (auto f); try destruct (Req_EM_T _ _); cbn [closed] in *; auto. Qed.
Lemma auto_div_closed e f : closed (auto e) -> closed (auto f) -> closed (auto (SDiv e f)).
Proof. cbn [auto]. intros H1 H2. destruct (auto e); try destruct (Req_EM_T _ _); cbn [closed] in *; auto. Qed.
Lemma affine_syntax_diff xs i e : affine_syntax xs e -> closed (auto (sdiff i e)).
Proof.
  induction 1 as [j Hj|e C _|e f _ IH1 _ IH2|e f C _ _ IH|e f _ IH C _|e f _ IH C _ _]; cbn [sdiff].
  - cbn. exact I.
  - rewrite sdiff_closed by exact C. exact I.
  - apply auto_add_closed; assumption.
  - apply auto_add_closed; [rewrite auto_mul0 by (left; apply sdiff_closed; exact C); exact I|]. apply auto_mul_closed; [apply auto_closed; exact C|exact IH].
  - apply auto_add_closed; [apply auto_mul_closed; [exact IH|apply auto_closed; exact C]|]. rewrite auto_mul0 by (right; apply sdiff_closed; exact C). exact I.
  - apply auto_div_closed; [|apply auto_closed; exact C]. apply auto_add_closed; [apply auto_mul_closed; [exact IH|apply auto_closed; exact C]|].
    rewrite auto_mul0; [exact I|]. right. apply auto_mul0. right. apply sdiff_closed. exact C.
Qed.
Lemma affine_syntax_subs xs e : affine_syntax xs e -> closed (ssubs0 xs e).
Proof.
  assert (Q : forall e, closed e -> closed (ssubs0 xs e)). { clear e. intros e. induction e; cbn [closed ssubs0]; intros; try contradiction; auto; tauto. }
  induction 1; cbn [ssubs0 closed]; auto.
  destruct (existsb (Nat.eqb i) xs) eqn:E; [exact I|]. exfalso. apply Bool.not_true_iff_false in E. apply E. apply existsb_exists. exists i. split; [assumption|apply Nat.eqb_refl].
Qed.
Lemma affine_syntax_regular xs e : affine_syntax xs e -> regular e.
Proof. induction 1; cbn [regular]; auto. Qed.
Lemma mapM_all {A B} (f : A -> res B) l : (forall a, In a l -> exists b, f a = Ok b) -> exists ys, mapM f l = Ok ys.
Proof.
  induction l as [|a l IH]; intros H; cbn [mapM]; [eauto|]. destruct (H a (or_introl eq_refl)) as (b & ->). cbn [bind].
  destruct IH as (ys & ->); [intros c Hc; apply H; right; exact Hc|]. cbn [bind]. eauto.
Qed.
Lemma jacobian_total sfloat xs ys es : sfloat_ok sfloat -> es <> [] -> ys <> [] -> Forall (affine_syntax xs) es -> exists A, jacobian sfloat es ys = Ok A.
Proof.
  intros SF Ne Nx H. destruct SF as (_ & S2 & _). unfold jacobian. destruct es as [|e0 es]; [congruence|]. destruct ys as [|i ys]; [congruence|].
  destruct (mapM_all (fun e => mapM (fun i => sfloat (sdiff i e)) (i :: ys)) (e0 :: es)) as (rs & ->); [|cbn; eauto].
  intros e He. apply mapM_all. intros j _. pose proof (proj1 (Forall_forall _ _) H e He) as HA. destruct (sdiff_ok j e (affine_syntax_regular _ _ HA) (fun _ => 0)) as (V & _).
  eexists. apply (S2 _ _ (fun _ => 0)); [|exact V]. apply (affine_syntax_diff xs). exact HA.
Qed.
Lemma subs_total sfloat xs es : sfloat_ok sfloat -> Forall (affine_syntax xs) es -> exists c, mapM (fun e => sfloat (ssubs0 xs e)) es = Ok c.
Proof.
  intros SF H. destruct SF as (_ & S2 & _). apply mapM_all. intros e He. pose proof (proj1 (Forall_forall _ _) H e He) as HA. eexists. apply (S2 _ _ (fun _ => 0)).
  - apply auto_closed, affine_syntax_subs, HA.
  - rewrite value_ssubs0. apply value_regular. eapply affine_syntax_regular; eauto.
Qed.
(*@ Theorem C35_affine_accepted : sums and multiples of the given symbols and of numbers are accepted *)
Lemma matrices_accepted sfloat xs es : sfloat_ok sfloat -> es <> [] -> xs <> [] -> Forall (affine_syntax xs) es ->
  exists A b, get_matrices_affine_expression sfloat xs es = Ok (A, b).
Proof.
  intros SF Ne Nx H. unfold get_matrices_affine_expression. destruct (jacobian_total sfloat xs xs es SF Ne Nx H) as (A & ->). cbn [bind].
  destruct (subs_total sfloat xs es SF H) as (c & ->). cbn [bind]. eauto.
Qed.

(** ** Polyhedra *)
Lemma nonpositive_rows env es : forall rs b x, map (value env) es = map Some (vsub (map (fun r => dot r x) rs) b) -> length rs = length b ->
  Forall2 (fun a bi => dot a x <= bi) rs b <-> Forall (nonpositive env) es.
Proof.
  induction es as [|e es IH]; intros rs b x E L.
  - destruct rs; destruct b; try discriminate; split; constructor.
  - destruct rs as [|r rs]; destruct b as [|b0 b]; try discriminate. unfold vsub in E. cbn [map map2] in E. injection E as E1 E2. injection L as L. specialize (IH rs b x E2 L). split; intros H.
    + inversion H; subst. constructor; [|apply IH; assumption]. eexists. split; [exact E1|]. lra.
    + constructor; [|apply IH, (Forall_inv_tail H)]. destruct (Forall_inv H) as (v & Ev & Hv). rewrite E1 in Ev. injection Ev as <-. lra.
Qed.
Lemma vanishes_rows env es : forall rs b x, map (value env) es = map Some (vsub (map (fun r => dot r x) rs) b) -> length rs = length b ->
  Forall2 (fun a bi => dot a x = bi) rs b <-> Forall (vanishes env) es.
Proof.
  induction es as [|e es IH]; intros rs b x E L.
  - destruct rs; destruct b; try discriminate; split; constructor.
  - destruct rs as [|r rs]; destruct b as [|b0 b]; try discriminate. unfold vsub in E. cbn [map map2] in E. injection E as E1 E2. injection L as L. specialize (IH rs b x E2 L). split; intros H.
    + inversion H; subst. constructor; [|apply IH; assumption]. unfold vanishes. rewrite E1. f_equal. lra.
    + constructor; [|apply IH, (Forall_inv_tail H)]. pose proof (Forall_inv H) as Ev. unfold vanishes in Ev. rewrite E1 in Ev. injection Ev as Ev. lra.
Qed.
Lemma affine_ineq xs es A b env : is_affine_map xs es A b -> ineq_holds A b (map env xs) <-> Forall (nonpositive env) es.
Proof. intros (SA & Lb & H). apply nonpositive_rows; [apply H|]. rewrite Lb. apply SA. Qed.
Lemma affine_eq xs es A b env : is_affine_map xs es A b -> eq_holds A b (map env xs) <-> Forall (vanishes env) es.
Proof. intros (SA & Lb & H). apply vanishes_rows; [apply H|]. rewrite Lb. apply SA. Qed.
Lemma affine_rect xs es A b : is_affine_map xs es A b -> rect A.
Proof. intros ((L & C & F) & _). unfold rect, shape, nrows. rewrite C. auto. Qed.

(*@ Theorem C35_add_symbolic_inequality : a successful add_symbolic_inequality(x, expr) adds exactly the constraints expr(x) <= 0 *)
Lemma add_symbolic_ineq_ok sfloat xs es p m me n p' : sfloat_ok sfloat -> NoDup xs -> Forall regular es -> wf p m me n ->
  add_symbolic_inequality sfloat xs es p = (Ok tt, p') ->
  forall env, in_poly p' (map env xs) <-> in_poly p (map env xs) /\ Forall (nonpositive env) es.
Proof.
  intros SF ND HR W E env. unfold add_symbolic_inequality, pbind, plift in E. destruct (get_matrices_affine_expression sfloat xs es) as [(A & b)|] eqn:EM; [|discriminate].
  cbn [fst snd] in E. pose proof (matrices_ok _ _ _ _ _ SF ND HR EM) as HM. destruct (add_inequality_step _ _ _ _ _ _ _ _ W (affine_rect _ _ _ _ HM) E) as (bv & Eb & _ & H).
  injection Eb as <-. rewrite H. cbn [coords]. rewrite (affine_ineq xs es A b env HM). reflexivity.
Qed.
(*@ Theorem C35_add_symbolic_equality : a successful add_symbolic_equality(x, expr) adds exactly the constraints expr(x) = 0 *)
Lemma add_symbolic_eq_ok sfloat xs es p m me n p' : sfloat_ok sfloat -> NoDup xs -> Forall regular es -> wf p m me n ->
  add_symbolic_equality sfloat xs es p = (Ok tt, p') ->
  forall env, in_poly p' (map env xs) <-> in_poly p (map env xs) /\ Forall (vanishes env) es.
Proof.
  intros SF ND HR W E env. unfold add_symbolic_equality, pbind, plift in E. destruct (get_matrices_affine_expression sfloat xs es) as [(A & b)|] eqn:EM; [|discriminate].
  cbn [fst snd] in E. pose proof (matrices_ok _ _ _ _ _ SF ND HR EM) as HM. destruct (add_equality_step _ _ _ _ _ _ _ _ W (affine_rect _ _ _ _ HM) E) as (bv & Eb & _ & H).
  injection Eb as <-. rewrite H. cbn [coords]. rewrite (affine_eq xs es A b env HM). reflexivity.
Qed.
(*@ Theorem C35_polyhedron : Polyhedron.from_symbolic(x, ineq, eq) returns the set of the points where ineq <= 0 and eq = 0 *)
Lemma poly_symbolic_ok sfloat xs ineq eq p : sfloat_ok sfloat -> NoDup xs -> Forall regular ineq -> (forall l, eq = Some l -> Forall regular l) ->
  poly_from_symbolic sfloat xs ineq eq = Ok p ->
  forall env, in_poly p (map env xs) <-> Forall (nonpositive env) ineq /\ forall l, eq = Some l -> Forall (vanishes env) l.
Proof.
  intros SF ND HR HE E env. unfold poly_from_symbolic in E. destruct (get_matrices_affine_expression sfloat xs ineq) as [(A & b)|] eqn:EM; [|discriminate]. cbn [bind fst snd] in E.
  pose proof (matrices_ok _ _ _ _ _ SF ND HR EM) as HM. destruct HM as (SA & Lb & HV) eqn:EHM. clear EHM HV.
  assert (LA : length (rows A) = length ineq) by apply SA. assert (CA : ncols A = length xs) by apply SA.
  set (p0 := Poly A b (zmat 0 (ncols A)) (zeros 0) None None None None None).
  assert (E0 : Polyhedron A (D1 b) None None = Ok p0). { unfold Polyhedron, same_number_rows, nrows, nd_size. rewrite LA, Lb, Nat.eqb_refl. reflexivity. }
  rewrite E0 in E. assert (W0 : wf p0 (length ineq) 0 (length xs)). { unfold wf, p0. cbn [pA pb pC pd]. rewrite CA. split; [exact SA|]. split; [exact Lb|]. split; [|reflexivity]. unfold shape. cbn. auto. }
  assert (I0 : in_poly p0 (map env xs) <-> Forall (nonpositive env) ineq).
  { unfold in_poly, in_set, p0. cbn [pA pb pC pd]. rewrite (affine_ineq xs ineq A b env HM), CA, map_length. split; [tauto|]. intros H. split; [reflexivity|]. split; [exact H|constructor]. }
  destruct eq as [eq|].
  - unfold run_on in E. cbn [bind] in E. destruct (add_symbolic_equality sfloat xs eq p0) as (r & p') eqn:EQ. destruct r as [[]|]; [|discriminate]. injection E as <-.
    rewrite (add_symbolic_eq_ok sfloat xs eq p0 _ _ _ p' SF ND (HE eq eq_refl) W0 EQ env), I0. split; intros (H1 & H2); split; auto. intros l El. injection El as <-. exact H2.
  - injection E as <-. rewrite I0. split; [|tauto]. intros H. split; [exact H|discriminate].
Qed.

(** ** Systems *)
Lemma transition_rows sfloat xs us es : sfloat_ok sfloat -> NoDup (xs ++ us) -> Forall regular es -> forall ra rb c,
  Forall2 (fun e r => Forall2 (fun i a => sfloat (sdiff i e) = Ok a) xs r) es ra -> Forall2 (fun e r => Forall2 (fun i a => sfloat (sdiff i e) = Ok a) us r) es rb ->
  Forall2 (fun e b => sfloat (ssubs0 (xs ++ us) e) = Ok b) es c ->
  forall env, map (value env) es = map Some (vadd (vadd (map (fun r => dot r (map env xs)) ra) (map (fun r => dot r (map env us)) rb)) c).
Proof.
  intros SF ND HR ra rb c FA. revert rb c. induction FA as [|e r es ra He FA IH]; intros rb c FB FC env; inversion FB as [|? r' ? rb' He' FB']; subst; inversion FC as [|? b ? c' Hb FC']; subst; [reflexivity|].
  unfold vadd. cbn [map map2]. f_equal; [|apply (IH (Forall_inv_tail HR) rb' c' FB' FC')].
  rewrite (extract_row sfloat (xs ++ us) e (r ++ r') b SF ND (Forall_inv HR)); [|apply Forall2_app; assumption|exact Hb].
  f_equal. rewrite map_app, dot_app by (rewrite map_length; symmetry; apply (Forall2_len _ _ _ He)). reflexivity.
Qed.
Lemma transition_ok sfloat xs us es A B c : sfloat_ok sfloat -> NoDup (xs ++ us) -> Forall regular es ->
  get_state_transition_matrices sfloat xs us es = Ok (A, B, c) ->
  shape A (length es) (length xs) /\ shape B (length es) (length us) /\ length c = length es /\
  forall env, map (value env) es = map Some (affine_step A B c (map env xs) (map env us)).
Proof.
  intros SF ND HR E. unfold get_state_transition_matrices in E. destruct (jacobian sfloat es xs) as [A'|] eqn:EA; [|discriminate]. cbn [bind] in E.
  destruct (jacobian sfloat es us) as [B'|] eqn:EB; [|discriminate]. cbn [bind] in E. destruct (mapM _ es) as [c'|] eqn:EC in E; [|discriminate]. cbn [bind] in E. injection E as <- <- <-.
  destruct (jacobian_inv _ _ _ _ EA) as (SA & FA). destruct (jacobian_inv _ _ _ _ EB) as (SB & FB). apply mapM_F2 in EC.
  split; [exact SA|]. split; [exact SB|]. split; [symmetry; apply (Forall2_len _ _ _ EC)|]. intros env. unfold affine_step, mv. apply (transition_rows sfloat xs us es SF ND HR); assumption.
Qed.
(*@ Theorem C35_affine_system : AffineSystem.from_symbolic(x, u, x_next) returns a system with A x + B u + c = x_next for all x and u *)
Lemma aff_symbolic_ok sfloat xs us es S : sfloat_ok sfloat -> NoDup (xs ++ us) -> Forall regular es ->
  aff_from_symbolic sfloat xs us es = Ok S ->
  length es = length xs /\ system_shape (aA S) (aB S) (length xs) (length us) /\
  forall env, map (value env) es = map Some (affine_step (aA S) (aB S) (ac S) (map env xs) (map env us)).
Proof.
  intros SF ND HR E. unfold aff_from_symbolic in E. destruct (get_state_transition_matrices sfloat xs us es) as [((A & B) & c)|] eqn:ET; [|discriminate]. cbn [bind] in E.
  destruct (transition_ok _ _ _ _ _ _ _ SF ND HR ET) as (SA & SB & Lc & HV).
  destruct (affine_constructor A B (D1 c)) as (H1 & H2). assert (LA : nrows A = length es) by apply SA. assert (CA : ncols A = length xs) by apply SA. assert (LB : nrows B = length es) by apply SB.
  destruct (Nat.eq_dec (length es) (length xs)) as [Q|Q].
  - rewrite (H1 c) in E by (congruence || reflexivity). injection E as <-. cbn [aA aB ac]. split; [exact Q|]. rewrite Q in SA, SB. split; [split; assumption|exact HV].
  - rewrite H2 in E; [discriminate|]. intros (Z & _). congruence.
Qed.
(*@ Theorem C35_affine_system_accepted : it accepts sums and multiples of the symbols, as many as the states *)
Lemma aff_symbolic_total sfloat xs us es : sfloat_ok sfloat -> NoDup (xs ++ us) -> xs <> [] -> us <> [] -> length es = length xs -> Forall (affine_syntax (xs ++ us)) es ->
  exists S, aff_from_symbolic sfloat xs us es = Ok S.
Proof.
  intros SF ND Nx Nu L HA. assert (Ne : es <> []) by (destruct es; [destruct xs; [congruence|discriminate]|discriminate]). assert (HR : Forall regular es) by (eapply Forall_impl; [|exact HA]; intros; eapply affine_syntax_regular; eauto).
  destruct (jacobian_total sfloat (xs ++ us) xs es SF Ne Nx HA) as (A & EA). destruct (jacobian_total sfloat (xs ++ us) us es SF Ne Nu HA) as (B & EB). destruct (subs_total sfloat (xs ++ us) es SF HA) as (c & EC).
  assert (ET : get_state_transition_matrices sfloat xs us es = Ok (A, B, c)) by (unfold get_state_transition_matrices; rewrite EA, EB, EC; reflexivity).
  destruct (transition_ok _ _ _ _ _ _ _ SF ND HR ET) as (SA & SB & Lc & HV). unfold aff_from_symbolic. rewrite ET. cbn [bind].
  destruct (affine_constructor A B (D1 c)) as (H1 & _). assert (LA : nrows A = length es) by apply SA. assert (CA : ncols A = length xs) by apply SA. assert (LB : nrows B = length es) by apply SB.
  rewrite (H1 c) by (congruence || reflexivity). eauto.
Qed.
(*@ Theorem C35_linear_system : LinearSystem.from_symbolic(x, u, x_next) returns a system with A x + B u = x_next up to 1e-8 in every component, for all x and u *)
Lemma lin_symbolic_ok sfloat xs us es S : sfloat_ok sfloat -> NoDup (xs ++ us) -> Forall regular es ->
  lin_from_symbolic sfloat xs us es = Ok S ->
  length es = length xs /\ system_shape (lA S) (lB S) (length xs) (length us) /\
  exists c, Forall (fun ci => Rabs ci <= / 100000000) c /\ length c = length xs /\
  forall env, map (value env) es = map Some (vadd (linear_step (lA S) (lB S) (map env xs) (map env us)) c).
Proof.
  intros SF ND HR E. unfold lin_from_symbolic in E. destruct (get_state_transition_matrices sfloat xs us es) as [((A & B) & c)|] eqn:ET; [|discriminate]. cbn [bind] in E.
  destruct (transition_ok _ _ _ _ _ _ _ SF ND HR ET) as (SA & SB & Lc & HV). destruct (allclose c (zeros (length xs))) eqn:EC; [|discriminate].
  destruct (linear_constructor A B) as (H1 & H2). assert (LA : nrows A = length es) by apply SA. assert (CA : ncols A = length xs) by apply SA. assert (LB : nrows B = length es) by apply SB.
  destruct (Nat.eq_dec (length es) (length xs)) as [Q|Q].
  - rewrite H1 in E by (split; congruence). injection E as <-. cbn [lA lB]. split; [exact Q|]. rewrite Q in SA, SB. split; [split; assumption|].
    exists c. split; [|split; [lia|exact HV]]. apply allclose_iff in EC; [|len]. unfold close in EC. replace (length xs) with (length c) in EC by lia. clear - EC.
    induction c as [|c0 c IH]; constructor; inversion EC as [|? ? ? ? H1 H2]; subst; [|apply IH; exact H2]. rewrite Rabs_R0, Rminus_0_r in H1. lra.
  - rewrite H2 in E; [discriminate|]. intros (Z & _). congruence.
Qed.
(*@ Theorem C35_sampled_system : AffineSystem.from_symbolic_continuous with zero_order_hold: every solution of dx/dt = x_dot(x, u), u constant, satisfies x(h) = A x(0) + B u + c for the returned system (h >= 0, exact matrix exponential) *)
Lemma aff_symbolic_sampled sfloat np xs us es h S : sfloat_ok sfloat -> NoDup (xs ++ us) -> Forall regular es ->
  (forall A B c, get_state_transition_matrices sfloat xs us es = Ok (A, B, c) ->
     is_expm (mscale h (zoh_matrix A B c)) (np_expm np (mscale h (zoh_matrix A B c))) (length xs + length us + 1)) ->
  aff_from_symbolic_continuous sfloat np xs us es h "zero_order_hold" = Ok S ->
  system_shape (aA S) (aB S) (length xs) (length us) /\
  forall (x : R -> vec) (env : R -> nat -> R) u,
    (forall t, map (env t) xs = x t) -> (forall t, map (env t) us = u) ->
    (forall t, 0 <= t <= h -> forall i v, (i < length xs)%nat -> value (env t) (nth i es (SNum 0)) = Some v -> derivable_pt_lim (fun s => nth i (x s) 0) t v) ->
    x h = affine_step (aA S) (aB S) (ac S) (x 0) u.
Proof.
  intros SF ND HR HX E. unfold aff_from_symbolic_continuous in E. destruct (get_state_transition_matrices sfloat xs us es) as [((A & B) & c)|] eqn:ET; [|discriminate]. cbn [bind] in E.
  destruct (transition_ok _ _ _ _ _ _ _ SF ND HR ET) as (SA & SB & Lc & HV). unfold aff_from_continuous in E.
  assert (LA : nrows A = length es) by apply SA. assert (CA : ncols A = length xs) by apply SA. assert (LB : nrows B = length es) by apply SB.
  unfold check_affine_system in E. rewrite LA, CA, LB, Nat.eqb_refl in E. destruct (Nat.eqb_spec (length es) (length xs)) as [Q|Q]; [|discriminate]. cbn [negb nd_ndim nd_size] in E. rewrite Lc, Nat.eqb_refl in E. cbn [negb bind] in E.
  change (1 <? 1)%nat with false in E. cbv beta iota in E. cbn [bind] in E. destruct (Rltb h 0) eqn:Hh; [discriminate|]. apply Rltb_false in Hh. cbn [bind] in E.
  rewrite Q in *. change (String.eqb "zero_order_hold" "zero_order_hold") with true in E. cbv iota in E.
  destruct (zoh_ok np A B c (length xs) (length us) h) as (A_d & B_d & c_d & E1 & SD & Ld & HZ); [split; assumption|exact Lc|lra|exact (HX _ _ _ eq_refl)|].
  rewrite E1 in E. cbn [bind] in E. destruct SD as (SDA & SDB). assert (LAd : nrows A_d = length xs) by apply SDA. assert (CAd : ncols A_d = length xs) by apply SDA. assert (LBd : nrows B_d = length xs) by apply SDB.
  destruct (affine_constructor A_d B_d (D1 c_d)) as (H1 & _). rewrite (H1 c_d) in E by (congruence || reflexivity).
  injection E as <-. cbn [aA aB ac]. split; [split; assumption|]. intros x env u Hx Hu HD. apply HZ; [rewrite <- (Hu 0); len|]. split; [intros t; rewrite <- Hx; len|].
  intros t Ht i Hi. apply HD; [exact Ht|exact Hi|]. specialize (HV (env t)). rewrite Hx, Hu in HV. apply (f_equal (fun l => nth i l None)) in HV.
  rewrite (nth_indep (map (value (env t)) es) None (value (env t) (SNum 0))) in HV by (rewrite map_length; lia). rewrite map_nth in HV. rewrite HV.
  assert (Lw : length (affine_step A B c (x t) u) = length xs). { unfold affine_step. assert (length (rows A) = length xs) by apply SA. assert (length (rows B) = length xs) by apply SB. len. }
  rewrite (nth_indep (map Some _) None (Some 0)) by (rewrite map_length; lia). rewrite map_nth. reflexivity.
Qed.

(** ** Examples and counterexamples *)
Fixpoint closedb (e : sx) : bool :=
  match e with
  | SVar _ => false
  | SNum _ => true
  | SAdd e f | SMul e f | SDiv e f => closedb e && closedb f
  | SPow e _ | SSqrt e | SSin e | SCos e | SExp e => closedb e
  end.
Lemma closedb_iff e : closedb e = true <-> closed e.
Proof. induction e; cbn [closedb closed]; rewrite ?Bool.andb_true_iff; intuition congruence. Qed.
(** a converter that only knows [auto] *)
Definition sf_auto (e : sx) : res R :=
  if closedb (auto e) then match value (fun _ => 0) (auto e) with Some r => Ok r | None => Err TypeError end else Err TypeError.
Lemma sf_auto_ok : sfloat_ok sf_auto.
Proof.
  split; [|split].
  - intros e r env v E V. unfold sf_auto in E. destruct (closedb (auto e)) eqn:C; [|discriminate]. apply closedb_iff in C. apply auto_value in V. rewrite (value_closed _ C _ (fun _ => 0)) in V. rewrite V in E. congruence.
  - intros e r env C V. unfold sf_auto. rewrite (proj2 (closedb_iff _) C). apply auto_value in V. rewrite (value_closed _ C _ (fun _ => 0)) in V. rewrite V. reflexivity.
  - intros e. unfold sf_auto. destruct (closedb (auto e)); [|auto]. destruct (value (fun _ => 0) (auto e)); eauto.
Qed.
Lemma sf_eq sfloat xs e i r : sfloat_ok sfloat -> affine_syntax xs e -> value (fun _ => 0) (sdiff i e) = Some r -> sfloat (sdiff i e) = Ok r.
Proof. intros SF HA V. apply (proj1 (proj2 SF)) with (env := fun _ => 0); [|exact V]. apply (affine_syntax_diff xs), HA. Qed.
Lemma sf_eq0 sfloat xs e r : sfloat_ok sfloat -> affine_syntax xs e -> value (fun _ => 0) (ssubs0 xs e) = Some r -> sfloat (ssubs0 xs e) = Ok r.
Proof. intros SF HA V. apply (proj1 (proj2 SF)) with (env := fun _ => 0); [|exact V]. apply auto_closed, affine_syntax_subs, HA. Qed.

(** 2 x + 3 y - 1 and x / sqrt(4) *)
Definition ex_es : list sx := [SAdd (SAdd (SMul (SNum 2) (SVar 0)) (SMul (SVar 1) (SNum 3))) (SNum (-1)); SDiv (SVar 0) (SSqrt (SNum 4))].
Lemma sqrt4 : sqrt 4 = 2. Proof. replace 4 with (2 * 2) by ring. apply sqrt_square. lra. Qed.
Lemma ex_es_affine : Forall (affine_syntax [0%nat; 1%nat]) ex_es.
Proof.
  assert (R4 : regular (SSqrt (SNum 4))) by (split; [exact I|]; cbn; intros env v Hv; injection Hv as <-; lra).
  constructor; [|constructor; [|constructor]].
  - apply as_add; [apply as_add|apply as_num; exact I]; [apply as_mul; [exact I|exact I|apply as_var; cbn; auto]|apply as_mul'; [apply as_var; cbn; auto|exact I|exact I]].
  - apply as_div; [apply as_var; cbn; auto|exact I|exact R4|]. intros env. cbn [value omap]. destruct (Rlt_dec 4 0); [lra|]. rewrite sqrt4. intros H. injection H as H. lra.
Qed.
(*@ Example C35_example : 2 x + 3 y - 1 and x / sqrt(4) are accepted, with the matrices (2 3; 1/2 0) and (1, 0), by every converter meeting the contract, and there is one *)
Lemma symbolic_example : sfloat_ok sf_auto /\ forall sfloat, sfloat_ok sfloat ->
  NoDup [0%nat; 1%nat] /\ Forall regular ex_es /\
  get_matrices_affine_expression sfloat [0%nat; 1%nat] ex_es = Ok (Mat 2 [[2; 3]; [/ 2; 0]], [1; 0]).
Proof.
  split; [exact sf_auto_ok|]. intros sfloat SF. split; [repeat constructor; cbn; intuition lia|]. split; [eapply Forall_impl; [|exact ex_es_affine]; intros; eapply affine_syntax_regular; eauto|].
  pose proof (Forall_inv ex_es_affine) as A1. pose proof (Forall_inv (Forall_inv_tail ex_es_affine)) as A2. unfold ex_es in *.
  unfold get_matrices_affine_expression, jacobian. cbn [mapM].
  rewrite (sf_eq sfloat _ _ 0 2 SF A1) by (cbn; f_equal; ring). rewrite (sf_eq sfloat _ _ 1 3 SF A1) by (cbn; f_equal; ring).
  rewrite (sf_eq sfloat _ _ 0 (/ 2) SF A2).
  2: { cbn. destruct (Rlt_dec 4 0); [lra|]. cbn. rewrite sqrt4. destruct (Req_EM_T (2 * 2) 0); [lra|]. cbn. destruct (Req_EM_T (2 * (2 * 1)) 0); [lra|]. f_equal. field. }
  rewrite (sf_eq sfloat _ _ 1 0 SF A2).
  2: { cbn. destruct (Rlt_dec 4 0); [lra|]. cbn. rewrite sqrt4. destruct (Req_EM_T (2 * 2) 0); [lra|]. cbn. destruct (Req_EM_T (2 * (2 * 1)) 0); [lra|]. f_equal. field. }
  cbn [bind]. rewrite (sf_eq0 sfloat _ _ (-1) SF A1) by (cbn; f_equal; ring).
  rewrite (sf_eq0 sfloat _ _ 0 SF A2).
  2: { cbn. destruct (Rlt_dec 4 0); [lra|]. cbn. rewrite sqrt4. destruct (Req_EM_T 2 0); [lra|]. f_equal. field. }
  cbn [bind length]. unfold vneg. cbn [map]. repeat f_equal; ring.
Qed.
(*@ Example C35_non_affine_example : x y and sin(x) meet the hypotheses of C35_non_affine *)
Lemma non_affine_example : Forall regular [SMul (SVar 0) (SVar 1)] /\ ~ affine_in [0%nat; 1%nat] [SMul (SVar 0) (SVar 1)] /\ ~ affine_in [0%nat] [SSin (SVar 0)].
Proof.
  split; [repeat constructor|]. split; intros (A & b & SA & Lb & H).
  - destruct A as [k rs]. destruct SA as (LA & _ & FA). cbn in LA, FA. destruct rs as [|r [|]]; try discriminate. pose proof (Forall_inv FA) as Lr. destruct r as [|r0 [|r1 [|]]]; try discriminate. destruct b as [|b0 [|]]; try discriminate.
    pose proof (H (fun _ => 0)) as H0. pose proof (H (fun _ => 1)) as H1. pose proof (H (fun _ => 2)) as H2. cbn in H0, H1, H2. injection H0 as H0. injection H1 as H1. injection H2 as H2. lra.
  - destruct A as [k rs]. destruct SA as (LA & _ & FA). cbn in LA, FA. destruct rs as [|r [|]]; try discriminate. pose proof (Forall_inv FA) as Lr. destruct r as [|r0 [|]]; try discriminate. destruct b as [|b0 [|]]; try discriminate.
    pose proof (H (fun _ => 0)) as H0. pose proof (H (fun _ => PI / 2)) as H1. pose proof (H (fun _ => PI)) as H2. cbn in H0, H1, H2. rewrite sin_0 in H0. rewrite sin_PI2 in H1. rewrite sin_PI in H2. injection H0 as H0. injection H1 as H1. injection H2 as H2. lra.
Qed.

(** sqrt((x-1)^2) / (x-1), the sign of x - 1 *)
Definition xm1 : sx := SAdd (SVar 0) (SNum (-1)).
Definition sign_x : sx := SDiv (SSqrt (SPow xm1 2)) xm1.
Definition sx_dec : forall e f : sx, {e = f} + {e <> f}.
Proof. decide equality; first [apply Nat.eq_dec|apply Req_EM_T]. Defined.
Definition sf_sign (e : sx) : res R := if sx_dec e (sdiff 0 sign_x) then Ok 0 else sf_auto e.
Lemma sf_sign_ok : sfloat_ok sf_sign.
Proof.
  destruct sf_auto_ok as (S1 & S2 & S3). assert (Z : forall env v, value env (sdiff 0 sign_x) = Some v -> v = 0).
  { intros env v. cbn [sign_x xm1 sdiff value Nat.eqb omap omap2 pred]. set (y := env 0%nat + -1). destruct (Rlt_dec (y ^ 2) 0) as [L|L]; [pose proof (pow2_ge_0 y); lra|]. cbn [omap omap2].
    destruct (Req_EM_T (2 * sqrt (y ^ 2)) 0) as [Q|Q]; [discriminate|]. cbn [omap2]. destruct (Req_EM_T (y ^ 2) 0) as [Q'|Q']; [discriminate|]. intros H. injection H as <-.
    assert (N : sqrt (y ^ 2) <> 0) by lra. pose proof (sqrt_sqrt (y ^ 2) (pow2_ge_0 y)) as SS. set (s := sqrt (y ^ 2)) in *. replace (INR 2) with 2 by reflexivity.
    assert (Y : y <> 0) by (intros E; apply Q'; rewrite E; ring).
    apply Rmult_eq_reg_r with (s * y ^ 2); [|apply Rmult_integral_contrapositive; auto].
    replace (y * (y * 1)) with (y ^ 2) by ring. fold s.
    transitivity (y ^ 2 - s * s); [field; auto|]. rewrite SS. ring. }
  split; [|split].
  - intros e r env v E V. unfold sf_sign in E. destruct (sx_dec e (sdiff 0 sign_x)) as [->|]; [|eapply S1; eauto]. injection E as <-. exact (Z _ _ V).
  - intros e r env C V. unfold sf_sign. destruct (sx_dec e (sdiff 0 sign_x)) as [->|]; [|eapply S2; eauto]. now rewrite (Z _ _ V).
  - intros e. unfold sf_sign. destruct (sx_dec e (sdiff 0 sign_x)); eauto.
Qed.
(*@ Theorem C35_irregular_refuted : without regularity a wrong affine map can be returned silently: for the sign of x - 1, written sqrt((x-1)^2)/(x-1), the derivative simplifies to 0 and the constant -1 is returned, although the value at 2 is 1 *)
Lemma irregular_refuted : exists sfloat e, sfloat_ok sfloat /\
  get_matrices_affine_expression sfloat [0%nat] [e] = Ok (Mat 1 [[0]], [1]) /\ value (fun _ => 2) e = Some 1.
Proof.
  exists sf_sign, sign_x. split; [exact sf_sign_ok|]. split.
  - unfold get_matrices_affine_expression, jacobian. cbn [mapM]. assert (E1 : sf_sign (sdiff 0 sign_x) = Ok 0) by (unfold sf_sign; destruct (sx_dec _ _); congruence).
    assert (E2 : sf_sign (ssubs0 [0%nat] sign_x) = Ok (-1)).
    { apply (proj1 (proj2 sf_sign_ok) _ _ (fun _ => 0)); [apply auto_closed; cbn; tauto|]. cbn [sign_x xm1 ssubs0 existsb Nat.eqb orb value omap omap2].
      destruct (Rlt_dec ((0 + -1) ^ 2) 0) as [L|L]; [pose proof (pow2_ge_0 (0 + -1)); lra|]. cbn [omap2]. destruct (Req_EM_T (0 + -1) 0); [lra|]. f_equal. replace ((0 + -1) ^ 2) with 1 by ring. rewrite sqrt_1. field. }
    rewrite E1. cbn [bind]. rewrite E2. cbn [bind length]. unfold vneg. cbn [map]. repeat f_equal; ring.
  - cbn [sign_x xm1 value omap omap2]. destruct (Rlt_dec ((2 + -1) ^ 2) 0) as [L|L]; [pose proof (pow2_ge_0 (2 + -1)); lra|]. cbn [omap2]. destruct (Req_EM_T (2 + -1) 0); [lra|]. f_equal. replace ((2 + -1) ^ 2) with 1 by ring. rewrite sqrt_1. field.
Qed.
(*@ Theorem C35_offset_refuted : LinearSystem.from_symbolic accepts x_next = x + u + 1e-9 as the linear system x + u, with every converter meeting the contract *)
Lemma offset_refuted sfloat : sfloat_ok sfloat -> exists e S, lin_from_symbolic sfloat [0%nat] [1%nat] [e] = Ok S /\
  forall env, map (value env) [e] <> map Some (linear_step (lA S) (lB S) (map env [0%nat]) (map env [1%nat])).
Proof.
  intros SF. set (e := SAdd (SAdd (SVar 0) (SVar 1)) (SNum (/ 1000000000))). assert (HA : affine_syntax [0%nat; 1%nat] e).
  { apply as_add; [|apply as_num; exact I]. apply as_add; apply as_var; cbn; auto. }
  exists e, (LSys (Mat 1 [[1]]) (Mat 1 [[1]]) None). split.
  - unfold lin_from_symbolic, get_state_transition_matrices, jacobian. cbn [mapM app]. rewrite (sf_eq sfloat _ _ 0 1 SF HA) by (cbn; f_equal; ring). rewrite (sf_eq sfloat _ _ 1 1 SF HA) by (cbn; f_equal; ring). cbn [bind].
    rewrite (sf_eq0 sfloat _ _ (/ 1000000000) SF HA) by (cbn; f_equal; ring). cbn [bind length]. 
    assert (C : allclose [/ 1000000000] (zeros 1) = true). { apply allclose_iff; [reflexivity|]. constructor; [|constructor]. rewrite Rminus_0_r, Rabs_R0, Rabs_pos_eq by lra. lra. }
    rewrite C. reflexivity.
  - intros env H. cbn in H. injection H as H. lra.
Qed.
(*@ Example C35_sampled_example : dx/dt = u + 1 with an exact matrix exponential meets the hypotheses of C35_sampled_system, and a system is returned *)
Lemma sampled_example h : 0 <= h -> let es := [SAdd (SVar 1) (SNum 1)] in
  Forall regular es /\ NoDup ([0%nat] ++ [1%nat]) /\
  (forall A B c, get_state_transition_matrices sf_auto [0%nat] [1%nat] es = Ok (A, B, c) ->
     is_expm (mscale h (zoh_matrix A B c)) (np_expm np_exp (mscale h (zoh_matrix A B c))) 3) /\
  exists S, aff_from_symbolic_continuous sf_auto np_exp [0%nat] [1%nat] es h "zero_order_hold" = Ok S.
Proof.
  intros Hh es. set (e := SAdd (SVar 1) (SNum 1)) in es. assert (HA : affine_syntax [0%nat; 1%nat] e) by (apply as_add; [apply as_var; cbn; auto|apply as_num; exact I]).
  assert (ET : get_state_transition_matrices sf_auto [0%nat] [1%nat] es = Ok (Mat 1 [[0]], Mat 1 [[1]], [1])).
  { unfold get_state_transition_matrices, jacobian, es. cbn [mapM app]. rewrite (sf_eq _ _ _ 0 0 sf_auto_ok HA) by (cbn; f_equal; ring). rewrite (sf_eq _ _ _ 1 1 sf_auto_ok HA) by (cbn; f_equal; ring). cbn [bind].
    rewrite (sf_eq0 _ _ _ 1 sf_auto_ok HA) by (cbn; f_equal; ring). reflexivity. }
  destruct (zoh_example h 0 0 Hh) as (SS & HX & _ & A_d & B_d & c_d & EZ & _).
  split; [repeat constructor|]. split; [repeat constructor; cbn; intuition lia|]. split.
  - intros A B c E. rewrite ET in E. injection E as <- <- <-. exact HX.
  - unfold aff_from_symbolic_continuous. rewrite ET. cbn [bind]. destruct (zoh_ok np_exp (Mat 1 [[0]]) (Mat 1 [[1]]) [1] 1 1 h SS eq_refl Hh HX) as (A1 & B1 & c1 & E1 & (S1 & S2) & L1 & _).
    unfold aff_from_continuous, check_affine_system. change (nrows (Mat 1 [[0]])) with 1%nat. change (ncols (Mat 1 [[0]])) with 1%nat. change (nrows (Mat 1 [[1]])) with 1%nat. cbn [Nat.eqb negb nd_ndim nd_size length bind].
    change (1 <? 1)%nat with false. cbv iota. cbn [bind]. assert (X : Rltb h 0 = false) by (apply Rltb_false; lra). rewrite X. cbn [bind]. change (String.eqb "zero_order_hold" "zero_order_hold") with true. cbv iota. rewrite E1. cbn [bind].
    destruct (affine_constructor A1 B1 (D1 c1)) as (H1 & _). rewrite (H1 c1); [eauto|..]; try reflexivity; destruct S1 as (R1 & R2 & _); destruct S2 as (R3 & _); unfold nrows; congruence.
Qed.
