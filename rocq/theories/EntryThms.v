(** * EntryThms: the big-M constants of the hybrid controller of the examples (C57), the threshold of 1e-6 *)
From Coq Require Import Lra Lia.
From Verif Require Import Arr ArrFacts Spec SpecMpc Numpy Pnnls PnnlsFacts GeomUtils Polyhedron PolyThms SolverThms PolySolveThms PolyMore ExampleCtrl.
Local Open Scope list_scope.

(*@ Theorem C57_entry : the big-M constant of row k of one graph over another graph (non-empty, and the row bounded on it) is the greatest violation of the row there, replaced by 0 when its magnitude is below 1e-6 *)
Lemma entry_value np Pi Pj k m p n x0 M : exact_np np -> shape (pA Pi) p n -> (k < p)%nat -> shape (pA Pj) m n -> length (pb Pj) = m ->
  length x0 = n -> vle (mv (pA Pj) x0) (pb Pj) -> (forall x, length x = n -> vle (mv (pA Pj) x) (pb Pj) -> dot (row (pA Pi) k) x <= M) ->
  exists v, greatest (fun x => length x = n /\ vle (mv (pA Pj) x) (pb Pj)) (fun x => dot (row (pA Pi) k) x - nth k (pb Pi) 0) v /\
    (/ 1000000 <= Rabs v -> big_m_entry np Pi Pj k = Ok v) /\ (Rabs v < / 1000000 -> big_m_entry np Pi Pj k = Ok 0).
Proof.
  intros Hnp SPi Hk SPj LPj L0 V0 HM. pose proof (shape_row _ _ _ _ SPi Hk) as LR.
  destruct (lp_solved np (vneg (row (pA Pi) k)) (pA Pj) (pb Pj) m n x0 (- M) Hnp SPj LPj) as (sol & y & l & E & Em & _ & Ly & Vy & Opt & _); auto.
  - rewrite vneg_length. exact LR.
  - intros x Lx Vx. rewrite dot_vneg_l. pose proof (HM x Lx Vx). lra.
  - exists (dot (row (pA Pi) k) y - nth k (pb Pi) 0). split; [split|].
    + exists y. split; [split; assumption|reflexivity].
    + intros x (Lx & Vx). pose proof (Opt x Lx Vx) as Q. rewrite !dot_vneg_l in Q. lra.
    + unfold big_m_entry. rewrite E. cbn [bind]. rewrite Em, dot_vneg_l.
      replace (- - dot (row (pA Pi) k) y - nth k (pb Pi) 0) with (dot (row (pA Pi) k) y - nth k (pb Pi) 0) by lra. unfold tol6.
      split; intros H; unfold Rltb; destruct (Rlt_dec _ _) as [L|L]; try reflexivity; lra.
Qed.

Definition half_line (a : R) : poly := Poly (Mat 1 [[1]]) [a] (Mat 1 []) [] None None None None None.
(*@ Theorem C57_small_refuted : a big-M constant below 1e-6 does not relax its row: of the graphs x <= 1 and x <= 1 + 5e-7, the point 1 + 5e-7 of the second violates the first row relaxed by its constant, which is 0 *)
Lemma entry_small np : exact_np np -> exists Pi Pj v x, big_m_entry np Pi Pj 0 = Ok v /\ vle (mv (pA Pj) x) (pb Pj) /\ nth 0 (pb Pi) 0 + v < dot (row (pA Pi) 0) x.
Proof.
  intros Hnp. exists (half_line 1), (half_line (1 + / 2000000)), 0, [1 + / 2000000].
  assert (SH : forall a, shape (pA (half_line a)) 1 1) by (intros; repeat constructor).
  destruct (entry_value np (half_line 1) (half_line (1 + / 2000000)) 0 1 1 1 [1 + / 2000000] (1 + / 2000000) Hnp (SH _) ltac:(lia) (SH _) eq_refl eq_refl) as (v & ((x & (Lx & Vx) & Ev) & Hv) & _ & HS).
  - constructor; [cbn; lra|constructor].
  - intros [|x [|]] Lx V; try discriminate Lx. inversion V; subst. cbn in *. lra.
  - split; [apply HS|split; [constructor; [cbn; lra|constructor]|cbn; lra]].
    pose proof (Hv [1 + / 2000000] ltac:(split; [reflexivity|constructor; [cbn; lra|constructor]])) as Q. destruct x as [|x [|]]; try discriminate Lx. inversion Vx; subst. cbn in *. rewrite Rabs_pos_eq; lra.
Qed.
(*@ Example C57_kept_example : a big-M constant of 2e-6 is kept *)
Lemma entry_kept np : exact_np np -> big_m_entry np (half_line 1) (half_line (1 + / 500000)) 0 = Ok (/ 500000).
Proof.
  intros Hnp. assert (SH : forall a, shape (pA (half_line a)) 1 1) by (intros; repeat constructor).
  destruct (entry_value np (half_line 1) (half_line (1 + / 500000)) 0 1 1 1 [1 + / 500000] (1 + / 500000) Hnp (SH _) ltac:(lia) (SH _) eq_refl eq_refl) as (v & ((x & (Lx & Vx) & Ev) & Hv) & HS & _).
  - constructor; [cbn; lra|constructor].
  - intros [|x [|]] Lx V; try discriminate Lx. inversion V; subst. cbn in *. lra.
  - pose proof (Hv [1 + / 500000] ltac:(split; [reflexivity|constructor; [cbn; lra|constructor]])) as Q. destruct x as [|x [|]]; try discriminate Lx. assert (E : v = / 500000). { clear HS Hv. subst v. inversion Vx; subst. cbn in *. lra. }
    rewrite E in HS. apply HS. rewrite Rabs_pos_eq; lra.
Qed.
