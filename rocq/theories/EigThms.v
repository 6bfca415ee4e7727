(** * EigThms: eigenvalues, spectral radius and the stability test of mcais (C92), proofs *)
From Coq Require Import ZArith Classical.
From Verif Require Import Arr ArrFacts Spec SpecDyn SpecEig FtaThms Numpy Pnnls PnnlsFacts QpFacts GeomUtils Polyhedron PolyThms Oracle SolverThms NullFacts PolySolveThms GeomThms VertThms Dynamics DynThms McaisThms.
Local Open Scope list_scope.

(** ** Complex vectors as pairs of real ones *)
Definition cvec := (vec * vec)%type.
Definition wfc (n : nat) (u : cvec) : Prop := length (fst u) = n /\ length (snd u) = n.
Definition cva (u u' : cvec) : cvec := (vadd (fst u) (fst u'), vadd (snd u) (snd u')).
Definition cvs (z : cx) (u : cvec) : cvec := (vsub (vscale (re z) (fst u)) (vscale (im z) (snd u)), vadd (vscale (im z) (fst u)) (vscale (re z) (snd u))).
Definition cmv (A : mat) (u : cvec) : cvec := (mv A (fst u), mv A (snd u)).
Definition cn (i : nat) (u : cvec) : cx := Cx (nth i (fst u) 0) (nth i (snd u) 0).
Definition cz (n : nat) : cvec := (zeros n, zeros n).
Lemma wfc_cva n u u' : wfc n u -> wfc n u' -> wfc n (cva u u').
Proof. intros (H1 & H2) (H3 & H4). split; unfold cva; cbn [fst snd]; rewrite vadd_length, ?H1, ?H2, ?H3, ?H4; apply Nat.min_id. Qed.
Lemma wfc_cvs n z u : wfc n u -> wfc n (cvs z u).
Proof. intros (H1 & H2). split; unfold cvs; cbn [fst snd]; rewrite ?vadd_length, ?vsub_length, !vscale_length, H1, H2; apply Nat.min_id. Qed.
Lemma wfc_cmv n A u : shape A n n -> wfc n (cmv A u).
Proof. intros HA. split; unfold cmv; cbn [fst snd]; rewrite mv_length; apply HA. Qed.
Lemma wfc_cz n : wfc n (cz n).
Proof. split; apply zeros_length. Qed.
Lemma cv_ext n u u' : wfc n u -> wfc n u' -> (forall i, (i < n)%nat -> cn i u = cn i u') -> u = u'.
Proof.
  intros (H1 & H2) (H3 & H4) H. destruct u as [v w], u' as [v' w']. cbn in *. f_equal; apply vec_ext; try lia; intros i Hi; pose proof (H i ltac:(lia)) as E; unfold cn in E; cbn in E; congruence.
Qed.
Lemma cn_cva n i u u' : wfc n u -> wfc n u' -> cn i (cva u u') = cadd (cn i u) (cn i u').
Proof. intros (H1 & H2) (H3 & H4). unfold cn, cva. cbn [fst snd]. rewrite !nth_vadd by lia. reflexivity. Qed.
Lemma cn_cvs n i z u : wfc n u -> cn i (cvs z u) = cmul z (cn i u).
Proof. intros (H1 & H2). unfold cn, cvs. cbn [fst snd]. rewrite nth_vsub, nth_vadd by (rewrite !vscale_length; lia). rewrite !nth_vscale. apply cx_ext; cbn; ring. Qed.
Lemma cn_cz n i : cn i (cz n) = c0.
Proof. unfold cn, cz. cbn [fst snd]. rewrite nth_zeros. reflexivity. Qed.

Section Ops.
  Variables (A : mat) (n : nat).
  Hypothesis HA : shape A n n.
  Definition sh (z : cx) (u : cvec) : cvec := cva (cmv A u) (cvs (copp z) u).
  Lemma wfc_sh z u : wfc n u -> wfc n (sh z u).
  Proof. intros H. apply wfc_cva; [apply wfc_cmv, HA|apply wfc_cvs, H]. Qed.
  Hint Resolve wfc_cva wfc_cvs wfc_cmv wfc_cz wfc_sh HA : cw.
  Ltac ceq := apply (cv_ext n); [auto 12 with cw|auto 12 with cw|let i := fresh "i" in let Hi := fresh "Hi" in intros i Hi; unfold sh; repeat first [rewrite (cn_cva n) by auto 12 with cw|rewrite (cn_cvs n) by auto 12 with cw|rewrite cn_cz]; ring].
  Lemma cmv_cva u u' : wfc n u -> wfc n u' -> cmv A (cva u u') = cva (cmv A u) (cmv A u').
  Proof. intros (H1 & H2) (H3 & H4). unfold cmv, cva. cbn [fst snd]. rewrite !(mv_vadd A n n) by auto. reflexivity. Qed.
  Lemma cmv_cvs z u : wfc n u -> cmv A (cvs z u) = cvs z (cmv A u).
  Proof. intros (H1 & H2). unfold cmv, cvs. cbn [fst snd]. rewrite (mv_vadd A n n), (mv_vsub A n n) by (auto; rewrite vscale_length; auto). rewrite !mv_vscale. reflexivity. Qed.
  Lemma cmv_cz : cmv A (cz n) = cz n.
  Proof. unfold cmv, cz. cbn [fst snd]. rewrite mv_zeros, (proj1 HA). reflexivity. Qed.
  Lemma sh_cva z u u' : wfc n u -> wfc n u' -> sh z (cva u u') = cva (sh z u) (sh z u').
  Proof. intros H H'. unfold sh. rewrite cmv_cva by assumption. ceq. Qed.
  Lemma sh_cvs z w u : wfc n u -> sh z (cvs w u) = cvs w (sh z u).
  Proof. intros H. unfold sh. rewrite cmv_cvs by assumption. ceq. Qed.
  Lemma sh_cz z : sh z (cz n) = cz n.
  Proof. unfold sh. rewrite cmv_cz. ceq. Qed.
  Lemma sh_cmv z u : wfc n u -> sh z (cmv A u) = cmv A (sh z u).
  Proof. intros H. unfold sh. rewrite cmv_cva, cmv_cvs by auto with cw. reflexivity. Qed.
  Lemma sh_comm z w u : wfc n u -> sh z (sh w u) = sh w (sh z u).
  Proof. intros H. unfold sh at 2 4. rewrite !sh_cva, !sh_cvs, !sh_cmv by auto with cw. unfold sh. rewrite !cmv_cva, !cmv_cvs by auto with cw. ceq. Qed.

  Fixpoint shs (zs : list cx) (u : cvec) : cvec := match zs with [] => u | z :: zs => shs zs (sh z u) end.
  Lemma wfc_shs zs : forall u, wfc n u -> wfc n (shs zs u).
  Proof. induction zs as [|z zs IH]; cbn; auto with cw. Qed.
  Hint Resolve wfc_shs : cw.
  Lemma shs_app zs ws : forall u, shs (zs ++ ws) u = shs ws (shs zs u).
  Proof. induction zs as [|z zs IH]; cbn; auto. Qed.
  Lemma shs_cva zs : forall u u', wfc n u -> wfc n u' -> shs zs (cva u u') = cva (shs zs u) (shs zs u').
  Proof. induction zs as [|z zs IH]; cbn; intros; [reflexivity|]. rewrite sh_cva, IH by auto with cw. reflexivity. Qed.
  Lemma shs_cvs zs : forall w u, wfc n u -> shs zs (cvs w u) = cvs w (shs zs u).
  Proof. induction zs as [|z zs IH]; cbn; intros; [reflexivity|]. rewrite sh_cvs, IH by auto with cw. reflexivity. Qed.
  Lemma shs_cz zs : shs zs (cz n) = cz n.
  Proof. induction zs as [|z zs IH]; cbn; [reflexivity|]. rewrite sh_cz. exact IH. Qed.
  Lemma shs_sh zs : forall z u, wfc n u -> shs zs (sh z u) = sh z (shs zs u).
  Proof. induction zs as [|w zs IH]; cbn; intros; [reflexivity|]. rewrite sh_comm, IH by auto with cw. reflexivity. Qed.
  Lemma shs_comm zs ws : forall u, wfc n u -> shs zs (shs ws u) = shs ws (shs zs u).
  Proof. induction ws as [|w ws IH]; cbn; intros u Hu; [reflexivity|]. rewrite IH, shs_sh by auto with cw. reflexivity. Qed.

  (** ** Polynomials of A *)
  Fixpoint pA' (l : list cx) (u : cvec) : cvec := match l with [] => cz n | a :: l => cva (cvs a u) (pA' l (cmv A u)) end.
  Lemma wfc_pA l : forall u, wfc n u -> wfc n (pA' l u).
  Proof. induction l as [|a l IH]; cbn; intros; auto with cw. Qed.
  Hint Resolve wfc_pA : cw.
  Lemma pA_cva l : forall u u', wfc n u -> wfc n u' -> pA' l (cva u u') = cva (pA' l u) (pA' l u').
  Proof. induction l as [|a l IH]; cbn; intros; [ceq|]. rewrite cmv_cva, IH by auto with cw. ceq. Qed.
  Lemma pA_cvs l : forall z u, wfc n u -> pA' l (cvs z u) = cvs z (pA' l u).
  Proof. induction l as [|a l IH]; cbn; intros; [ceq|]. rewrite cmv_cvs, IH by auto with cw. ceq. Qed.
  Lemma pA_div k l a : monic (S k) l -> exists l', monic k l' /\ forall u, wfc n u -> pA' l u = cva (pA' l' (sh a u)) (cvs (pev l a) u).
  Proof.
    revert l. induction k as [|k IH]; intros l H; inversion H as [|k' b l1 Hm]; subst.
    - inversion Hm; subst. exists [c1]. split; [constructor|]. intros u Hu. cbn. ceq.
    - destruct (IH l1 Hm) as (q & Mq & Eq). exists (pev l1 a :: q). split; [constructor; exact Mq|]. intros u Hu. cbn. rewrite Eq, <- sh_cmv by auto with cw. ceq.
  Qed.
  Lemma factors k : forall l, monic k l -> exists zs, forall u, wfc n u -> pA' l u = shs zs u.
  Proof.
    induction k as [|k IH]; intros l H.
    - inversion H; subst. exists []. intros u Hu. cbn. ceq.
    - destruct (fundamental_theorem k l H) as (z & Hz). destruct (pA_div k l z H) as (q & Mq & Eq). destruct (IH q Mq) as (zs & Hs). exists (z :: zs). intros u Hu. rewrite Eq, Hz by assumption. cbn. rewrite <- Hs by auto with cw. ceq.
  Qed.
  Lemma make_monic x : x <> zeros (length x) -> exists k l c, monic k l /\ forall u, wfc n u -> pA' (map cre x) u = cvs (cre c) (pA' l u) /\ (c <> 0).
  Proof.
    induction x as [|a x IH]; intros NZ; [exfalso; apply NZ; reflexivity|]. destruct (classic (x = zeros (length x))) as [E|N].
    - exists 0%nat, [c1], a. split; [constructor|]. intros u Hu. split.
      + assert (Z : forall m u, wfc n u -> pA' (map cre (zeros m)) u = cz n). { induction m as [|m IHm]; intros u' Hu'; [reflexivity|]. cbn. fold (zeros m). rewrite IHm by auto with cw. replace (cre 0) with c0 by reflexivity. ceq. }
        cbn. rewrite E, Z by auto with cw. ceq.
      + intros ->. apply NZ. cbn. rewrite E at 1. reflexivity.
    - destruct (IH N) as (k & l & c & Hm & H). destruct (H (cz n) (wfc_cz n)) as (_ & C0). exists (S k), (cre (a / c) :: l), c. split; [constructor; exact Hm|]. intros u Hu. split; [|exact C0]. cbn. rewrite (proj1 (H (cmv A u) ltac:(auto with cw))).
      replace (cre a) with (cmul (cre c) (cre (a / c))) by (apply cx_ext; cbn; field; exact C0). ceq.
  Qed.
  Fixpoint krylov (k : nat) (v : vec) : list vec := match k with O => [] | S k => v :: krylov k (mv A v) end.
  Lemma krylov_length k : forall v, length (krylov k v) = k.
  Proof. induction k; cbn; auto. Qed.
  Lemma krylov_vecs k : forall v, length v = n -> vecs n (krylov k v).
  Proof. induction k as [|k IH]; cbn; intros v Lv; [constructor|]. constructor; [exact Lv|]. apply IH. rewrite mv_length. apply HA. Qed.
  Lemma pA_real x : forall v, length v = n -> pA' (map cre x) (v, zeros n) = (lincomb n x (krylov (length x) v), zeros n).
  Proof.
    induction x as [|a x IH]; intros v Lv; [reflexivity|]. cbn [map pA' length krylov lincomb]. unfold cmv. cbn [fst snd]. rewrite mv_zeros, (proj1 HA), IH by (rewrite mv_length; apply HA). unfold cva, cvs. cbn [fst snd re im cre]. f_equal.
    - apply f_equal2; [|reflexivity]. rewrite vscale_zeros, vsub_zeros_r; [reflexivity|]. rewrite vscale_length. exact Lv.
    - rewrite vscale_0, Lv, vscale_zeros. rewrite !vadd_zeros_l by apply zeros_length. reflexivity.
  Qed.
  Lemma kill_real v : length v = n -> exists zs, shs zs (v, zeros n) = cz n.
  Proof.
    intros Lv. destruct (dep n (krylov (S n) v)) as (x & Lx & Nx & Ex). { apply krylov_vecs, Lv. } { rewrite krylov_length. lia. }
    rewrite krylov_length in Lx, Nx. rewrite <- Lx in Nx. destruct (make_monic x Nx) as (k & l & c & Hm & H). destruct (factors k l Hm) as (zs & Hs). exists zs.
    assert (W : wfc n (v, zeros n)) by (split; [exact Lv|apply zeros_length]). destruct (H _ W) as (E & C0). rewrite (pA_real x v Lv), Lx, Ex, Hs in E by exact W.
    assert (W2 : wfc n (shs zs (v, zeros n))) by auto with cw. apply (cv_ext n); [exact W2|auto with cw|]. intros i Hi. pose proof (f_equal (cn i) E) as Ei. rewrite (cn_cvs n) in Ei by exact W2. change (cn i (zeros n, zeros n)) with (cn i (cz n)) in Ei. rewrite cn_cz in *. symmetry in Ei. apply cmul_zero in Ei. destruct Ei as [Ei|Ei]; [|exact Ei]. exfalso. apply C0. apply (f_equal re) in Ei. exact Ei.
  Qed.
  (** one list of numbers that annihilates every vector *)
  Lemma kill_first k : (k <= n)%nat -> exists zs, forall v, length v = n -> (forall i, (k <= i)%nat -> nth i v 0 = 0) -> shs zs (v, zeros n) = cz n.
  Proof.
    induction k as [|k IH]; intros Hk.
    - exists []. intros v Lv Hv. cbn. apply (cv_ext n); [split; [exact Lv|apply zeros_length]|auto with cw|]. intros i Hi. unfold cn, cz. cbn [fst snd]. rewrite Hv, nth_zeros by lia. reflexivity.
    - destruct IH as (zs & Hz); [lia|]. destruct (kill_real (unit n k)) as (ws & Hw); [apply unit_length|]. exists (zs ++ ws). intros v Lv Hv.
      set (a := nth k v 0). set (v' := vsub v (vscale a (unit n k))).
      assert (Lu : length (unit n k) = n) by apply unit_length. assert (Lv' : length v' = n) by (unfold v'; rewrite vsub_length, vscale_length, Lu, Lv; apply Nat.min_id).
      assert (W1 : wfc n (v', zeros n)) by (split; [exact Lv'|apply zeros_length]). assert (W2 : wfc n (unit n k, zeros n)) by (split; [exact Lu|apply zeros_length]).
      assert (E : (v, zeros n) = cva (v', zeros n) (cvs (cre a) (unit n k, zeros n))).
      { apply (cv_ext n); [split; [exact Lv|apply zeros_length]|auto with cw|]. intros i Hi. rewrite (cn_cva n), (cn_cvs n) by auto with cw. unfold cn. cbn [fst snd]. rewrite nth_zeros. unfold v'. rewrite nth_vsub, nth_vscale by (rewrite vscale_length; lia). apply cx_ext; cbn; ring. }
      rewrite E, shs_cva, shs_cvs by auto with cw. rewrite !shs_app, (shs_comm ws zs (unit n k, zeros n)) by auto with cw. rewrite Hw, shs_cz. rewrite (Hz v' Lv').
      + rewrite shs_cz. ceq.
      + intros i Hi. destruct (le_lt_dec n i) as [G|G]; [apply nth_overflow; lia|]. unfold v'. rewrite nth_vsub, nth_vscale, nth_unit by (try rewrite vscale_length; lia). destruct (Nat.eqb_spec i k) as [->|NE]; [unfold a; ring|]. rewrite Hv by lia. ring.
  Qed.
  Lemma kill_all : exists zs, forall u, wfc n u -> shs zs u = cz n.
  Proof.
    destruct (kill_first n (le_n n)) as (zs & H). exists zs. intros [v w] (Lv & Lw). cbn in Lv, Lw.
    assert (E : (v, w) = cva (v, zeros n) (cvs (Cx 0 1) (w, zeros n))).
    { assert (W1 : wfc n (v, zeros n)) by (split; [exact Lv|apply zeros_length]). assert (W2 : wfc n (w, zeros n)) by (split; [exact Lw|apply zeros_length]). apply (cv_ext n); [split; assumption|auto with cw|].
      intros i Hi. rewrite (cn_cva n), (cn_cvs n) by auto with cw. unfold cn. cbn [fst snd]. rewrite nth_zeros. apply cx_ext; cbn; ring. }
    assert (W1 : wfc n (v, zeros n)) by (split; [exact Lv|apply zeros_length]). assert (W2 : wfc n (w, zeros n)) by (split; [exact Lw|apply zeros_length]).
    rewrite E, shs_cva, shs_cvs, !H by (auto with cw; intros; apply nth_overflow; lia). ceq.
  Qed.

  (** ** Eigenvalues *)
  Definition eigc (z : cx) : Prop := exists u, wfc n u /\ u <> cz n /\ sh z u = cz n.
  Lemma sh_zero z u : wfc n u -> (sh z u = cz n <-> cmv A u = cvs z u).
  Proof.
    intros Hu. split; intros E.
    - apply (cv_ext n); [auto with cw..|]. intros i Hi. pose proof (f_equal (cn i) E) as Ei. unfold sh in Ei. rewrite (cn_cva n), (cn_cvs n), cn_cz in Ei by auto with cw. rewrite (cn_cvs n) by auto with cw.
      replace (cn i (cmv A u)) with (cadd (cadd (cn i (cmv A u)) (cmul (copp z) (cn i u))) (cmul z (cn i u))) by ring. rewrite Ei. ring.
    - unfold sh. rewrite E. ceq.
  Qed.
  Lemma eigc_eigenvalue z : eigc z <-> eigenvalue A n (re z) (im z).
  Proof.
    split.
    - intros ([v w] & (Lv & Lw) & NZ & E). apply sh_zero in E; [|split; assumption]. unfold cmv, cvs in E. cbn [fst snd] in *. injection E as E1 E2. exists v, w. split; [exact Lv|]. split; [exact Lw|]. split; [|split; assumption].
      destruct (classic (v = zeros n)) as [->|]; [|left; assumption]. right. intros ->. apply NZ. reflexivity.
    - intros (v & w & Lv & Lw & NZ & E1 & E2). exists (v, w). split; [split; assumption|]. split; [unfold cz; intros E; injection E as -> ->; destruct NZ as [NZ|NZ]; apply NZ; reflexivity|]. apply sh_zero; [split; assumption|]. unfold cmv, cvs. cbn [fst snd]. rewrite E1, E2. reflexivity.
  Qed.
  Lemma eig_from_kill zs : forall u, wfc n u -> u <> cz n -> shs zs u = cz n -> exists z, In z zs /\ eigc z.
  Proof.
    induction zs as [|z zs IH]; cbn; intros u Hu NZ E; [contradiction|]. destruct (classic (shs zs u = cz n)) as [E0|N0].
    - destruct (IH u Hu NZ E0) as (z' & I & Hz). eauto.
    - exists z. split; [auto|]. exists (shs zs u). split; [auto with cw|]. split; [exact N0|]. rewrite <- shs_sh by assumption. exact E.
  Qed.
  Lemma sh_eig z w u : wfc n u -> sh z u = cz n -> sh w u = cvs (csub z w) u.
  Proof. intros Hu E. apply sh_zero in E; [|assumption]. unfold sh. rewrite E. ceq. Qed.
  Lemma eig_in_kill zs z : (forall u, wfc n u -> shs zs u = cz n) -> eigc z -> In z zs.
  Proof.
    intros H (u & Hu & NZ & E). pose proof (H u Hu) as K. clear H.
    assert (G : forall zs c, c <> c0 -> shs zs (cvs c u) = cz n -> In z zs).
    { clear K zs. induction zs as [|w zs IH]; cbn; intros c Nc K.
      - exfalso. apply NZ. apply (cv_ext n); [exact Hu|auto with cw|]. intros i Hi. pose proof (f_equal (cn i) K) as Ki. rewrite (cn_cvs n), cn_cz in Ki by auto with cw. apply cmul_zero in Ki. rewrite cn_cz. destruct Ki; [contradiction|assumption].
      - destruct (classic (w = z)) as [->|NE]; [left; reflexivity|right]. rewrite sh_cvs, (sh_eig z w u Hu E) in K by assumption. apply (IH (cmul c (csub z w))).
        + intros Z. apply cmul_zero in Z. destruct Z as [Z|Z]; [contradiction|]. apply NE. replace w with (csub z (csub z w)) by ring. rewrite Z. ring.
        + rewrite <- K. f_equal. ceq. }
    apply (G zs c1); [intros Z; apply (f_equal re) in Z; cbn in Z; lra|]. rewrite <- K. f_equal. ceq.
  Qed.
  Lemma max_in (P : cx -> Prop) zs : (exists z, In z zs /\ P z) -> exists z, In z zs /\ P z /\ forall w, In w zs -> P w -> cmod w <= cmod z.
  Proof.
    induction zs as [|a zs IH]; intros (z & I & Hz); [destruct I|]. destruct (classic (exists z, In z zs /\ P z)) as [Y|N].
    - destruct (IH Y) as (m & Im & Pm & Hm). destruct (classic (P a)) as [Pa|Na].
      + destruct (Rle_lt_dec (cmod a) (cmod m)) as [L|L].
        * exists m. split; [right; exact Im|]. split; [exact Pm|]. intros w [<-|Iw] Pw; auto.
        * exists a. split; [left; reflexivity|]. split; [exact Pa|]. intros w [<-|Iw] Pw; [lra|]. pose proof (Hm w Iw Pw). lra.
      + exists m. split; [right; exact Im|]. split; [exact Pm|]. intros w [<-|Iw] Pw; [contradiction|auto].
    - exists a. destruct I as [<-|I]; [|exfalso; eauto]. split; [left; reflexivity|]. split; [exact Hz|]. intros w [<-|Iw] Pw; [lra|exfalso; eauto].
  Qed.
  Lemma spectral_exists : (0 < n)%nat -> exists r, spectral_radius A n r.
  Proof.
    intros Hn. destruct kill_all as (zs & K). assert (W : wfc n (unit n 0, zeros n)) by (split; [apply unit_length|apply zeros_length]).
    destruct (eig_from_kill zs _ W) as (z & I & Hz); [|apply K, W|].
    { intros E. apply (f_equal (fun u => nth 0 (fst u) 0)) in E. cbn [fst cz] in E. rewrite nth_unit, nth_zeros in E by exact Hn. cbn in E. lra. }
    destruct (max_in eigc zs (ex_intro _ z (conj I Hz))) as (m & _ & Pm & Hm). exists (cmod m). split.
    - exists (re m), (im m). split; [apply eigc_eigenvalue, Pm|reflexivity].
    - intros a b E. apply (eigc_eigenvalue (Cx a b)) in E. apply (Hm (Cx a b)); [apply (eig_in_kill zs); assumption|exact E].
  Qed.

  (** ** Trajectories *)
  Definition cnorm (u : cvec) : R := norm (fst u ++ snd u).
  Lemma cnorm_cva u u' : wfc n u -> wfc n u' -> cnorm (cva u u') <= cnorm u + cnorm u'.
  Proof. intros (H1 & H2) (H3 & H4). unfold cnorm, cva. cbn [fst snd]. rewrite <- vadd_app by lia. apply norm_triangle. rewrite !app_length. lia. Qed.
  Lemma cnorm_cvs z u : wfc n u -> cnorm (cvs z u) = cmod z * cnorm u.
  Proof.
    intros (H1 & H2). unfold cnorm, norm, cmod. rewrite <- sqrt_mult by (try apply sq_nn; apply dot_self_nonneg). f_equal. unfold cvs. cbn [fst snd]. destruct u as [v w]. cbn [fst snd] in *.
    rewrite !dot_app by reflexivity. rewrite !dot_vsub_l, !dot_vadd_l, !dot_vsub_r, !dot_vadd_r by (rewrite ?vsub_length, ?vadd_length, !vscale_length; lia). rewrite !dot_vscale_l, !dot_vscale_r. rewrite (dot_comm w v). ring.
  Qed.
  Fixpoint cflow (t : nat) (u : cvec) : cvec := match t with O => u | S t => cmv A (cflow t u) end.
  Lemma cflow_eq t u : cflow t u = (flow A t (fst u), flow A t (snd u)).
  Proof. induction t as [|t IH]; cbn; [destruct u; reflexivity|]. rewrite IH. reflexivity. Qed.
  Lemma wfc_cflow t u : wfc n u -> wfc n (cflow t u).
  Proof. intros Hu. induction t as [|t IH]; cbn; auto with cw. Qed.
  Hint Resolve wfc_cflow : cw.
  Definition vanishes (u : cvec) : Prop := forall eps, 0 < eps -> exists T, forall t, (T <= t)%nat -> cnorm (cflow t u) <= eps.
  Lemma recurrence (a e : nat -> R) r : 0 <= r < 1 -> (forall t, 0 <= a t) -> (forall t, a (S t) <= r * a t + e t) -> (forall eps, 0 < eps -> exists T, forall t, (T <= t)%nat -> e t <= eps) -> forall eps, 0 < eps -> exists T, forall t, (T <= t)%nat -> a t <= eps.
  Proof.
    intros Hr A0 H E eps He. destruct (E (eps / 2 * (1 - r))) as (T & HT). { apply Rmult_lt_0_compat; lra. }
    assert (G : forall k, a (T + k)%nat <= r ^ k * a T + eps / 2).
    { induction k as [|k IH]; [cbn; rewrite Nat.add_0_r; lra|]. rewrite Nat.add_succ_r. eapply Rle_trans; [apply H|]. pose proof (HT (T + k)%nat ltac:(lia)). cbn [pow]. assert (r * a (T + k)%nat <= r * (r ^ k * a T + eps / 2)) by (apply Rmult_le_compat_l; lra). nra. }
    destruct (pow_lt_1_zero r ltac:(rewrite Rabs_pos_eq; lra) (eps / 2 / (a T + 1))) as (K & HK). { pose proof (A0 T). apply Rdiv_lt_0_compat; lra. }
    exists (T + K)%nat. intros t Ht. replace t with (T + (t - T))%nat by lia. eapply Rle_trans; [apply G|]. pose proof (HK (t - T)%nat ltac:(lia)) as Q. rewrite Rabs_pos_eq in Q by (apply pow_le; lra). pose proof (A0 T).
    assert (r ^ (t - T) * a T <= eps / 2 / (a T + 1) * a T) by (apply Rmult_le_compat_r; lra). assert (eps / 2 / (a T + 1) * a T <= eps / 2). { replace (eps / 2 / (a T + 1) * a T) with (eps / 2 - eps / 2 / (a T + 1)) by (field; lra). pose proof (Rdiv_lt_0_compat (eps / 2) (a T + 1) ltac:(lra) ltac:(lra)). lra. } lra.
  Qed.
  Lemma cflow_step t z u : wfc n u -> cflow (S t) u = cva (cvs z (cflow t u)) (cflow t (sh z u)).
  Proof.
    intros Hu. revert u Hu. assert (C : forall t u, cmv A (cflow t u) = cflow t (cmv A u)) by (induction t0 as [|t0 IH]; intros u; cbn; [reflexivity|rewrite IH; reflexivity]).
    assert (AD : forall t u u', wfc n u -> wfc n u' -> cflow t (cva u u') = cva (cflow t u) (cflow t u')) by (induction t0 as [|t0 IH]; intros u u' H H'; cbn; [reflexivity|rewrite IH, cmv_cva by auto with cw; reflexivity]).
    assert (SC : forall t w u, wfc n u -> cflow t (cvs w u) = cvs w (cflow t u)) by (induction t0 as [|t0 IH]; intros w u H; cbn; [reflexivity|rewrite IH, cmv_cvs by auto with cw; reflexivity]).
    intros u Hu. cbn. rewrite C. unfold sh. rewrite AD, SC by auto with cw. ceq.
  Qed.
  Lemma kill_vanishes zs : (forall z, eigc z -> cmod z < 1) -> forall u, wfc n u -> shs zs u = cz n -> vanishes u.
  Proof.
    intros ST. induction zs as [|z zs IH]; cbn; intros u Hu E.
    - subst u. intros eps He. exists 0%nat. intros t _. rewrite cflow_eq. unfold cz. cbn [fst snd]. rewrite (flow_zeros A n t HA). unfold cnorm. cbn [fst snd]. unfold zeros. rewrite <- (repeat_app 0 n n). fold (zeros (n + n)). rewrite norm_zeros. lra.
    - destruct (classic (shs zs u = cz n)) as [E0|N0]; [apply IH; assumption|].
      assert (Z1 : cmod z < 1). { apply ST. exists (shs zs u). split; [auto with cw|]. split; [exact N0|]. rewrite <- shs_sh by assumption. exact E. }
      pose proof (IH (sh z u) ltac:(auto with cw) E) as V. intros eps He.
      apply (recurrence (fun t => cnorm (cflow t u)) (fun t => cnorm (cflow t (sh z u))) (cmod z)); [split; [apply cmod_pos|exact Z1]|intros; apply norm_nonneg| |exact V|exact He].
      intros t. cbn beta. rewrite (cflow_step t z u Hu). rewrite <- (cnorm_cvs z) by auto with cw. apply cnorm_cva; auto with cw.
  Qed.
  Lemma stable_attractive : (forall a b, eigenvalue A n a b -> sqrt (a * a + b * b) < 1) -> attractive A n.
  Proof.
    intros ST x Lx eps He. destruct kill_all as (zs & K). assert (W : wfc n (x, zeros n)) by (split; [exact Lx|apply zeros_length]).
    destruct (kill_vanishes zs (fun z Hz => ST _ _ (proj1 (eigc_eigenvalue z) Hz)) _ W (K _ W) eps He) as (T & HT). exists T. intros t Ht. eapply Rle_trans; [|apply (HT t Ht)]. rewrite cflow_eq. unfold cnorm. cbn [fst snd]. apply norm_app_l.
  Qed.
  Lemma eig_flow z u t : wfc n u -> sh z u = cz n -> cnorm (cflow t u) = cmod z ^ t * cnorm u.
  Proof.
    intros Hu E. assert (G : cflow t u = cvs (cpow z t) u).
    { induction t as [|t IH]; [cbn; ceq|]. cbn [cflow cpow]. rewrite IH, cmv_cvs by assumption. apply sh_zero in E; [|assumption]. rewrite E. ceq. }
    rewrite G, cnorm_cvs, cmod_pow by assumption. reflexivity.
  Qed.
  Lemma cnorm_le u : wfc n u -> cnorm u <= norm (fst u) + norm (snd u).
  Proof.
    intros (H1 & H2). unfold cnorm. replace (fst u ++ snd u) with (vadd (fst u ++ zeros n) (zeros n ++ snd u)).
    - eapply Rle_trans; [apply norm_triangle; rewrite !app_length, !zeros_length; lia|]. unfold norm. rewrite !dot_app by reflexivity. rewrite dot_zeros_l. rewrite Rplus_0_l, Rplus_0_r. lra.
    - rewrite vadd_app by (rewrite zeros_length; lia). rewrite vadd_zeros_r, vadd_zeros_l by assumption. reflexivity.
  Qed.
  Lemma cnorm_pos u : wfc n u -> u <> cz n -> 0 < cnorm u.
  Proof.
    intros (H1 & H2) NZ. destruct (norm_nonneg (fst u ++ snd u)) as [P|E]; [exact P|]. exfalso. apply NZ. symmetry in E. apply norm_zero in E. rewrite app_length, H1, H2 in E. unfold zeros in E. rewrite repeat_app in E. destruct u as [v w]. cbn [fst snd] in *. apply app_inj_iff in E; [|rewrite repeat_length; lia]. destruct E as (-> & ->). reflexivity.
  Qed.
End Ops.
