(** * HybridThms: mixed-integer model predictive control of piecewise affine systems (C47-C49), proofs *)
From Coq Require Import ZArith String Classical.
From Verif Require Import Arr ArrFacts Spec SpecMpc SpecProg Numpy Pnnls PnnlsFacts QpFacts GeomUtils Polyhedron PolyThms Oracle SolverThms NullFacts PolySolveThms PolyMore SpecDyn Dynamics DynThms CondenseThms LqrThms McaisThms Mpqp MpqpThms Controllers CtrlThms Gurobi Programs ProgThms Hybrid.

(** ** One step of the encoding *)
Definition bigm_shape (W : pwa) (nx : nat) (alpha beta gamma : list (list vec)) : Prop :=
  let s := length (w_sys W) in
  length alpha = s /\ length beta = s /\ length gamma = s /\
  forall i j, (i < s)%nat -> (j < s)%nat ->
    length (nth j (nth i alpha []) []) = nx /\ length (nth j (nth i beta []) []) = nx /\
    length (nth j (nth i gamma []) []) = nrows (pA (nth i (w_dom W) poly0)).

Lemma flat_map_concat' {A B} (f : A -> list B) l : flat_map f l = List.concat (map f l).
Proof. apply flat_map_concat_map. Qed.
Lemma dot_map_unit f n k : (k < n)%nat -> dot (map f (seq 0 n)) (unit n k) = f k.
Proof. intros H. rewrite dot_comm, dot_unit by (auto; rewrite map_length, seq_length; reflexivity). apply nth_map_seq. exact H. Qed.
Lemma mv_bigM M s k (n : nat -> nat) : length M = s -> (forall i j, (i < s)%nat -> (j < s)%nat -> length (nth j (nth i M []) []) = n i) -> (k < s)%nat ->
  mv (bigM_matrices M) (unit s k) = List.concat (map (fun i => if Nat.eqb k i then zeros (n i) else nth k (nth i M []) []) (seq 0 s)).
Proof.
  intros L H Hk. unfold bigM_matrices, mv. rewrite L. cbn [rows]. rewrite flat_map_concat', concat_map, map_map. f_equal. apply map_ext_in. intros i Hi. apply in_seq in Hi.
  rewrite (H i 0%nat) by lia. rewrite map_map. rewrite (map_ext _ (fun r => if Nat.eqb k i then 0 else nth r (nth k (nth i M []) []) 0)) by (intros r; apply (dot_map_unit (fun j => if Nat.eqb j i then 0 else nth r (nth j (nth i M []) []) 0)); exact Hk).
  destruct (Nat.eqb k i).
  - apply (nth_ext _ _ 0 0); [rewrite map_length, seq_length, zeros_length; reflexivity|]. rewrite map_length, seq_length. intros r Hr. rewrite (nth_map_seq (fun _ => 0)) by exact Hr. rewrite nth_zeros. reflexivity.
  - rewrite <- (H i k) by lia. symmetry. apply (list_as_map (nth k (nth i M []) []) 0).
Qed.
Lemma sum_nat_map_seq {A} (f : A -> nat) l d : sum_nat (map f l) = sum_nat (map (fun i => f (nth i l d)) (seq 0 (length l))).
Proof. rewrite (list_as_map l d) at 1. rewrite map_map. reflexivity. Qed.
Lemma shape_bigM M s (n : nat -> nat) : length M = s -> (forall i j, (i < s)%nat -> (j < s)%nat -> length (nth j (nth i M []) []) = n i) ->
  shape (bigM_matrices M) (sum_nat (map n (seq 0 s))) s.
Proof.
  intros L H. unfold bigM_matrices. rewrite L. split; [|split; [reflexivity|]].
  - cbn [rows]. rewrite flat_map_concat'. assert (G : forall l, (forall i, In i l -> (i < s)%nat) -> length (List.concat (map (fun i => map (fun k => map (fun j => if Nat.eqb j i then 0 else nth k (nth j (nth i M []) []) 0) (seq 0 s)) (seq 0 (length (nth 0 (nth i M []) [])))) l)) = sum_nat (map n l)).
    { induction l as [|a l IH]; intros Hl; [reflexivity|]. cbn [map List.concat sum_nat]. rewrite app_length, IH by (intros; apply Hl; right; assumption). rewrite map_length, seq_length. rewrite (H a 0%nat); [reflexivity|apply Hl; left; reflexivity|].
      specialize (Hl a (or_introl eq_refl)). lia. }
    apply G. intros i Hi. apply in_seq in Hi. lia.
  - cbn [rows]. apply Forall_forall. intros r Hr. apply in_flat_map in Hr. destruct Hr as (i & _ & Hr). apply in_map_iff in Hr. destruct Hr as (k & <- & _). rewrite map_length, seq_length. reflexivity.
Qed.
Lemma sum_nat_const k (l : list nat) : sum_nat (map (fun _ => k) l) = (length l * k)%nat.
Proof. induction l as [|a l IH]; cbn; [reflexivity|rewrite IH; reflexivity]. Qed.
Lemma repeat_as_map {A} (a : A) n : repeat a n = map (fun _ => a) (seq 0 n).
Proof. rewrite (list_as_map (repeat a n) a), repeat_length. apply map_ext_in. intros i Hi. apply in_seq in Hi. apply nth_repeat_lt. lia. Qed.
Lemma zeros_blocks n s : zeros (n * s) = List.concat (map (fun _ => zeros n) (seq 0 s)).
Proof.
  assert (G : forall l : list nat, List.concat (map (fun _ => zeros n) l) = zeros (length l * n)).
  { induction l as [|a l IH]; [reflexivity|]. cbn [map List.concat length]. rewrite IH, <- zeros_app. reflexivity. }
  rewrite G, seq_length. f_equal. lia.
Qed.
Lemma colmat_mv v a : mv (colmat v) [a] = vscale a v.
Proof. unfold colmat, mv. cbn [rows]. rewrite map_map. apply map_ext. intros b. cbn. ring. Qed.
Lemma shape_colmat v : shape (colmat v) (length v) 1.
Proof. unfold colmat. split; [apply map_length|]. split; [reflexivity|]. cbn. apply Forall_forall. intros r Hr. apply in_map_iff in Hr. destruct Hr as (a & <- & _). reflexivity. Qed.
(** the diagonal blocks *)
Lemma diag_blocks (M : nat -> vec) s n k : (0 < s)%nat -> (forall i, (i < s)%nat -> length (M i) = n) -> 
  shape (block_diag (map (fun i => colmat (M i)) (seq 0 s))) (s * n) s /\
  ((k < s)%nat -> mv (block_diag (map (fun i => colmat (M i)) (seq 0 s))) (unit s k) = List.concat (map (fun i => if Nat.eqb i k then M i else zeros n) (seq 0 s))).
Proof.
  intros Hs L. destruct (mv_block_map (fun i => colmat (M i)) (fun i => [nth i (unit s k) 0]) (seq 0 s)) as (E & S1).
  - destruct s; [lia|discriminate].
  - intros i Hi. unfold nrows. rewrite (proj1 (shape_colmat _)). apply shape_colmat.
  - split.
    + rewrite (map_ext_in (fun i => nrows (colmat (M i))) (fun _ => n)) in S1 by (intros i Hi; apply in_seq in Hi; unfold nrows; rewrite (proj1 (shape_colmat _)); apply L; lia).
      cbn [length] in S1. rewrite !sum_nat_const, seq_length, Nat.mul_1_r in S1. exact S1.
    + intros Hk. assert (EU : List.concat (map (fun i => [nth i (unit s k) 0]) (seq 0 s)) = unit s k).
      { rewrite <- flat_map_concat'. transitivity (map (fun i => nth i (unit s k) 0) (seq 0 s)).
        - generalize (seq 0 s) as l. clear. induction l as [|a l IH]; [reflexivity|]. cbn [flat_map map app]. rewrite IH. reflexivity.
        - pose proof (list_as_map (unit s k) 0) as Q. rewrite unit_length in Q. symmetry. exact Q. }
      rewrite EU in E. rewrite E. f_equal. apply map_ext_in. intros i Hi. apply in_seq in Hi. rewrite colmat_mv, nth_unit by lia. destruct (Nat.eqb i k).
      * apply (nth_ext _ _ 0 0); [len|]. intros r Hr. rewrite nth_vscale. ring.
      * apply (nth_ext _ _ 0 0); [rewrite zeros_length, vscale_length; apply L; lia|]. intros r Hr. rewrite nth_vscale, nth_zeros. ring.
Qed.
(** repeated identities *)
Lemma eye_blocks (M : mat) s n (zs : list vec) : (0 < s)%nat -> shape M n n -> length zs = s -> Forall (fun z => length z = n) zs ->
  shape (block_diag (repeat M s)) (n * s) (n * s) /\ mv (block_diag (repeat M s)) (List.concat zs) = List.concat (map (fun i => mv M (nth i zs [])) (seq 0 s)).
Proof.
  intros Hs SM Lz Fz. rewrite repeat_as_map. destruct (mv_block_map (fun _ => M) (fun i => nth i zs []) (seq 0 s)) as (E & S1).
  - destruct s; [lia|discriminate].
  - intros i Hi. apply in_seq in Hi. rewrite (Forall_len_nth zs n) by (auto; lia). unfold nrows. rewrite (proj1 SM). exact SM.
  - rewrite <- Lz in E at 2. rewrite <- (list_as_map zs []) in E. split; [|exact E].
    rewrite sum_nat_const, seq_length in S1. rewrite (map_ext_in (fun i => length (nth i zs [])) (fun _ => n)) in S1 by (intros i Hi; apply in_seq in Hi; apply Forall_len_nth; auto; lia).
    rewrite sum_nat_const, seq_length in S1. unfold nrows in S1. rewrite (proj1 SM) in S1. rewrite Nat.mul_comm. exact S1.
Qed.

Definition sys_at (W : pwa) i := nth i (w_sys W) asys0.
Definition dom_at (W : pwa) i := nth i (w_dom W) poly0.
Definition hyb_data (W : pwa) (nx nu : nat) : Prop :=
  w_nx W = nx /\ w_nu W = nu /\ coherent_systems (w_sys W) nx nu /\ length (w_dom W) = length (w_sys W) /\
  forall D, In D (w_dom W) -> exists m me, wf D m me (nx + nu).
Lemma shape_vstack_any {A} (f : A -> mat) (n : A -> nat) l c : l <> [] -> (forall a, In a l -> shape (f a) (n a) c) -> shape (vstack_list (map f l)) (sum_nat (map n l)) c.
Proof.
  induction l as [|a l IH]; intros NE H; [congruence|]. destruct l as [|b l].
  - cbn. rewrite Nat.add_0_r. apply H. left. reflexivity.
  - change (vstack_list (map f (a :: b :: l))) with (vstack (f a) (vstack_list (map f (b :: l)))). change (sum_nat (map n (a :: b :: l))) with (n a + sum_nat (map n (b :: l)))%nat.
    apply shape_vstack; [apply H; left; reflexivity|]. apply IH; [discriminate|]. intros c' Hc. apply H. right. exact Hc.
Qed.

(** what the inequalities of one step say about a mode k *)
Definition step_ok (W : pwa) (nx : nat) (alpha beta gamma : list (list vec)) (k : nat) (x u : vec) (zs : list vec) : Prop :=
  let f i := affine_step (aA (sys_at W i)) (aB (sys_at W i)) (ac (sys_at W i)) x u in
  let bm M i := nth k (nth i M []) [] in
  nth k zs [] = f k /\ ineq_holds (pA (dom_at W k)) (pb (dom_at W k)) (x ++ u) /\
  vle (bm alpha k) (f k) /\ vle (f k) (bm beta k) /\
  forall i, (i < length (w_sys W))%nat -> i <> k -> nth i zs [] = zeros nx /\ vle (bm alpha i) (f i) /\ vle (f i) (bm beta i) /\
    vle (mv (pA (dom_at W i)) (x ++ u)) (vadd (pb (dom_at W i)) (bm gamma i)).
Definition step_ineq (E : eblocks) (x u z d : vec) : Prop :=
  vle (vadd (vadd (vadd (mv (e_x E) x) (mv (e_u E) u)) (mv (e_z E) z)) (mv (e_d E) d)) (e_0 E).

Lemma vle_split6 a1 a2 a3 a4 a5 a6 b1 b2 b3 b4 b5 b6 : length a1 = length b1 -> length a2 = length b2 -> length a3 = length b3 -> length a4 = length b4 -> length a5 = length b5 ->
  (vle (a1 ++ a2 ++ a3 ++ a4 ++ a5 ++ a6) (b1 ++ b2 ++ b3 ++ b4 ++ b5 ++ b6) <-> vle a1 b1 /\ vle a2 b2 /\ vle a3 b3 /\ vle a4 b4 /\ vle a5 b5 /\ vle a6 b6).
Proof. intros. rewrite !vle_app by assumption. tauto. Qed.
Lemma binary_sum d : Forall (fun a => a = 0 \/ a = 1) d -> dot (ones (length d)) d = 1 -> exists k, (k < length d)%nat /\ d = unit (length d) k.
Proof.
  intros F. assert (G : forall d, Forall (fun a => a = 0 \/ a = 1) d -> 0 <= dot (ones (length d)) d /\ (dot (ones (length d)) d = 0 -> d = zeros (length d))).
  { clear. induction d as [|a d IH]; intros F; [split; [cbn; lra|reflexivity]|]. inversion F as [|? ? Ha F']; subst. destruct (IH F') as (P & Z). change (ones (length (a :: d))) with (1 :: ones (length d)). cbn [dot map2 fold_right]. 
    change (dot (1 :: ones (length d)) (a :: d)) with (1 * a + dot (ones (length d)) d). split; [lra|]. intros E. change (zeros (length (a :: d))) with (0 :: zeros (length d)). rewrite <- Z by lra. f_equal. lra. }
  assert (US : forall n, unit (S n) 0 = 1 :: zeros n).
  { intros n. unfold unit. cbn [seq map Nat.eqb]. f_equal. apply (nth_ext _ _ 0 0); [rewrite map_length, seq_length, zeros_length; reflexivity|]. rewrite map_length, seq_length. intros i Hi. rewrite nth_zeros, <- seq_shift, map_map, nth_map_seq by exact Hi. reflexivity. }
  assert (UK : forall n k, unit (S n) (S k) = 0 :: unit n k).
  { intros n k. unfold unit. cbn [seq map Nat.eqb]. f_equal. rewrite <- seq_shift, map_map. reflexivity. }
  induction F as [|a d Ha F IH]; intros E; [cbn in E; lra|]. change (dot (ones (length (a :: d))) (a :: d)) with (1 * a + dot (ones (length d)) d) in E. destruct Ha as [-> | ->].
  - destruct IH as (k & Hk & Ed); [lra|]. exists (S k). split; [cbn; lia|]. cbn [length]. rewrite UK, <- Ed. reflexivity.
  - exists 0%nat. split; [cbn; lia|]. cbn [length]. rewrite US. f_equal. apply (proj2 (G d F)). lra.
Qed.
Lemma dot_ones_unit s k : (k < s)%nat -> dot (ones s) (unit s k) = 1.
Proof. intros H. rewrite dot_comm, dot_unit by (auto; unfold ones; rewrite repeat_length; reflexivity). apply nth_ones. exact H. Qed.
Lemma concat_const_length {A} (f : A -> vec) l n : (forall a, In a l -> length (f a) = n) -> length (List.concat (map f l)) = (length l * n)%nat.
Proof. intros H. rewrite (concat_lengths f l (fun _ => n)) by exact H. clear H. induction l as [|a l IH]; cbn; [reflexivity|]. rewrite IH. reflexivity. Qed.

Lemma step_encoding W nx nu alpha beta gamma : hyb_data W nx nu -> bigm_shape W nx alpha beta gamma ->
  let s := length (w_sys W) in
  exists E mE, build_inequalities W alpha beta gamma = Ok E /\
    shape (e_x E) mE nx /\ shape (e_u E) mE nu /\ shape (e_z E) mE (nx * s) /\ shape (e_d E) mE s /\ length (e_0 E) = mE /\
    forall x u zs d, length x = nx -> length u = nu -> length zs = s -> Forall (fun z => length z = nx) zs -> length d = s -> Forall (fun a => a = 0 \/ a = 1) d ->
      (step_ineq E x u (List.concat zs) d <-> exists k, (k < s)%nat /\ d = unit s k /\ step_ok W nx alpha beta gamma k x u zs).
Proof.
  intros (HW & HU & HS & LD & HD) (La & Lb & Lg & HB) s. pose proof HS as (NE & HSh).
  assert (Hs : (0 < s)%nat) by (unfold s; destruct (w_sys W); [congruence|cbn; lia]).
  assert (SA : forall i, (i < s)%nat -> shape (aA (sys_at W i)) nx nx /\ shape (aB (sys_at W i)) nx nu /\ length (ac (sys_at W i)) = nx).
  { intros i Hi. destruct (HSh (sys_at W i) (nth_In _ _ Hi)) as ((Q1 & Q2) & Q3). auto. }
  set (rD := fun i => nrows (pA (dom_at W i))).
  assert (SD : forall i, (i < s)%nat -> shape (pA (dom_at W i)) (rD i) (nx + nu) /\ length (pb (dom_at W i)) = rD i).
  { intros i Hi. destruct (HD (dom_at W i)) as (m & me & (WA & Wb & _)); [apply nth_In; rewrite LD; exact Hi|]. unfold rD, nrows. rewrite (proj1 WA). auto. }
  assert (ES : forall B (g : asys -> B), map g (w_sys W) = map (fun i => g (sys_at W i)) (seq 0 s)) by (intros B g; rewrite (list_as_map (w_sys W) asys0) at 1; rewrite map_map; reflexivity).
  assert (ED : forall B (g : poly -> B), map g (w_dom W) = map (fun i => g (dom_at W i)) (seq 0 s)) by (intros B g; rewrite (list_as_map (w_dom W) poly0) at 1; rewrite map_map, LD; reflexivity).
  assert (SN : forall B (g : nat -> B), map g (seq 0 s) <> []) by (intros B g; destruct s; [lia|discriminate]).
  unfold build_inequalities. rewrite HW, HU. fold s. rewrite !ES, !ED.
  assert (VL : forall l, l <> [] -> np_vstack_list l = Ok (vstack_list l)) by (intros [|]; [congruence|reflexivity]).
  repeat (rewrite VL by (apply SN || discriminate); cbn [bind]).
  set (nI := fold_right Nat.add 0%nat (map (fun i => nrows (pA (dom_at W i))) (seq 0 s))).
  assert (EnI : nI = sum_nat (map rD (seq 0 s))) by reflexivity.
  assert (S3 : forall (f : nat -> mat) n, (forall i, (i < s)%nat -> shape (f i) nx n) -> shape (vstack_list (map f (seq 0 s))) (nx * s) n).
  { intros f n H. replace (nx * s)%nat with (sum_nat (map (fun _ => nx) (seq 0 s))) by (rewrite sum_nat_const, seq_length; lia). apply shape_vstack_any; [intros E1; apply (SN _ (fun i => i)); rewrite E1; reflexivity|]. intros i Hi. apply in_seq in Hi. apply H. lia. }
  assert (S5 : forall (f : nat -> mat) n, (forall i, (i < s)%nat -> shape (f i) (rD i) n) -> shape (vstack_list (map f (seq 0 s))) nI n).
  { intros f n H. rewrite EnI. apply shape_vstack_any; [intros E1; apply (SN _ (fun i => i)); rewrite E1; reflexivity|]. intros i Hi. apply in_seq in Hi. apply H. lia. }
  assert (S6 : forall M1 M2 M3 M4 M5 M6 n, shape M1 (nx * s) n -> shape M2 (nx * s) n -> shape M3 (nx * s) n -> shape M4 (nx * s) n -> shape M5 nI n -> shape M6 2 n ->
    shape (vstack_list [M1; M2; M3; M4; M5; M6]) (nx * s + (nx * s + (nx * s + (nx * s + (nI + 2))))) n).
  { intros. cbn [vstack_list]. repeat (apply shape_vstack; [assumption|]). assumption. }
  assert (NEs : seq 0 s <> []) by (destruct s; [lia|discriminate]).
  assert (MV3 : forall (f : nat -> mat) x, mv (vstack_list (map f (seq 0 s))) x = List.concat (map (fun i => mv (f i) x) (seq 0 s))) by (intros f x; rewrite mv_vstack_list by apply SN; rewrite map_map; reflexivity).
  assert (X3 : shape (vstack_list (map (fun i => mneg (aA (sys_at W i))) (seq 0 s))) (nx * s) nx) by (apply S3; intros i Hi; apply shape_mneg; apply SA, Hi).
  assert (X4 : shape (vstack_list (map (fun i => aA (sys_at W i)) (seq 0 s))) (nx * s) nx) by (apply S3; intros i Hi; apply SA, Hi).
  assert (X5 : shape (vstack_list (map (fun i => cols_to (pA (dom_at W i)) nx) (seq 0 s))) nI nx) by (apply S5; intros i Hi; apply (shape_cols_to _ _ (nx + nu)); [apply SD, Hi|lia]).
  assert (U3 : shape (vstack_list (map (fun i => mneg (aB (sys_at W i))) (seq 0 s))) (nx * s) nu) by (apply S3; intros i Hi; apply shape_mneg; apply SA, Hi).
  assert (U4 : shape (vstack_list (map (fun i => aB (sys_at W i)) (seq 0 s))) (nx * s) nu) by (apply S3; intros i Hi; apply SA, Hi).
  assert (U5 : shape (vstack_list (map (fun i => cols_from (pA (dom_at W i)) nx) (seq 0 s))) nI nu).
  { apply S5. intros i Hi. replace nu with (nx + nu - nx)%nat by lia. apply shape_cols_from. apply SD, Hi. }
  assert (FZ : Forall (fun z : vec => length z = nx) (repeat (zeros nx) s)) by (apply Forall_forall; intros v Hv; apply repeat_spec in Hv; subst v; apply zeros_length).
  assert (ZE : forall M, shape M nx nx -> shape (block_diag (repeat M s)) (nx * s) (nx * s)) by (intros M SM; apply (eye_blocks M s nx (repeat (zeros nx) s)); auto using repeat_length).
  pose proof (shape_mneg _ _ _ (shape_eye nx)) as SNe.
  assert (HBa : forall i j, (i < s)%nat -> (j < s)%nat -> length (nth j (nth i alpha []) []) = nx) by (intros; apply HB; assumption).
  assert (HBb : forall i j, (i < s)%nat -> (j < s)%nat -> length (nth j (nth i beta []) []) = nx) by (intros; apply HB; assumption).
  assert (HBg : forall i j, (i < s)%nat -> (j < s)%nat -> length (nth j (nth i gamma []) []) = rD i) by (intros; apply HB; assumption).
  assert (Esn : sum_nat (map (fun _ => nx) (seq 0 s)) = (nx * s)%nat) by (rewrite sum_nat_const, seq_length; lia).
  pose proof (diag_blocks (fun i => nth i (nth i alpha []) []) s nx) as Da. pose proof (diag_blocks (fun i => nth i (nth i beta []) []) s nx) as Db.
  assert (Da' : forall k, shape (block_diag (map (fun i => colmat (nth i (nth i alpha []) [])) (seq 0 s))) (nx * s) s /\ _) by (intros k; rewrite Nat.mul_comm; exact (Da k Hs (fun i Hi => HBa i i Hi Hi))). clear Da.
  assert (Db' : forall k, shape (block_diag (map (fun i => colmat (nth i (nth i beta []) [])) (seq 0 s))) (nx * s) s /\ _) by (intros k; rewrite Nat.mul_comm; exact (Db k Hs (fun i Hi => HBb i i Hi Hi))). clear Db.
  pose proof (shape_bigM alpha s (fun _ => nx) La HBa) as Ba. rewrite Esn in Ba. pose proof (shape_bigM beta s (fun _ => nx) Lb HBb) as Bb. rewrite Esn in Bb.
  pose proof (shape_bigM gamma s rD Lg HBg) as Bg. rewrite <- EnI in Bg.
  assert (SO : shape (vstack (rowmat (ones s)) (rowmat (vneg (ones s)))) 2 s).
  { apply (shape_vstack _ _ 1 1); [rewrite <- (repeat_length 1 s) at 2; apply shape_rowmat|]. replace s with (length (vneg (ones s))) at 2 by (rewrite vneg_length; apply repeat_length). apply shape_rowmat. }
  eexists. exists (nx * s + (nx * s + (nx * s + (nx * s + (nI + 2)))))%nat. split; [reflexivity|]. cbn [e_x e_u e_z e_d e_0].
  split; [apply S6; auto using shape_zmat|]. split; [apply S6; auto using shape_zmat|]. split; [apply S6; auto using shape_zmat, shape_eye|].
  split; [apply S6; auto using shape_mneg; [apply (Da' 0%nat)|apply shape_mneg; apply (Db' 0%nat)]|].
  assert (Lc : length (List.concat (map (fun i => ac (sys_at W i)) (seq 0 s))) = (nx * s)%nat) by (rewrite (concat_const_length _ _ nx); [rewrite seq_length; lia|intros i Hi; apply in_seq in Hi; apply SA; lia]).
  assert (Lc' : length (List.concat (map (fun i => vneg (ac (sys_at W i))) (seq 0 s))) = (nx * s)%nat) by (rewrite (concat_const_length _ _ nx); [rewrite seq_length; lia|intros i Hi; apply in_seq in Hi; rewrite vneg_length; apply SA; lia]).
  assert (Lpb : length (List.concat (map (fun i => pb (dom_at W i)) (seq 0 s))) = nI) by (rewrite EnI; apply concat_lengths; intros i Hi; apply in_seq in Hi; apply SD; lia).
  split; [rewrite !app_length, !zeros_length, Lc, Lc', Lpb; reflexivity|].
  intros x u zs d Lx Lu Lz Fz Ld Fd. unfold step_ineq. cbn [e_x e_u e_z e_d e_0].
  cbn [vstack_list]. rewrite !mv_vstack, !mv_zmat.
  assert (Hz : forall i, (i < s)%nat -> length (nth i zs []) = nx) by (intros i Hi; apply Forall_len_nth; [exact Fz|lia]).
  rewrite (proj2 (eye_blocks (mneg (eye nx)) s nx zs Hs SNe Lz Fz)), (proj2 (eye_blocks (eye nx) s nx zs Hs (shape_eye nx) Lz Fz)).
  rewrite !mv_mneg, !MV3, !mv_rowmat.
  set (z1 := List.concat (map (fun i => mv (mneg (eye nx)) (nth i zs [])) (seq 0 s))). set (z2 := List.concat (map (fun i => mv (eye nx) (nth i zs [])) (seq 0 s))).
  set (x3 := List.concat (map (fun i => mv (mneg (aA (sys_at W i))) x) (seq 0 s))). set (x4 := List.concat (map (fun i => mv (aA (sys_at W i)) x) (seq 0 s))).
  set (x5 := List.concat (map (fun i => mv (cols_to (pA (dom_at W i)) nx) x) (seq 0 s))).
  set (u3 := List.concat (map (fun i => mv (mneg (aB (sys_at W i))) u) (seq 0 s))). set (u4 := List.concat (map (fun i => mv (aB (sys_at W i)) u) (seq 0 s))).
  set (u5 := List.concat (map (fun i => mv (cols_from (pA (dom_at W i)) nx) u) (seq 0 s))).
  assert (LL : forall (M : nat -> mat) (v : nat -> vec), (forall i, (i < s)%nat -> length (rows (M i)) = nx) -> length (List.concat (map (fun i => mv (M i) (v i)) (seq 0 s))) = (nx * s)%nat).
  { intros M v H. rewrite (concat_const_length _ _ nx); [rewrite seq_length; lia|]. intros i Hi. apply in_seq in Hi. rewrite mv_length. apply H. lia. }
  assert (LL5 : forall (M : nat -> mat) (v : nat -> vec), (forall i, (i < s)%nat -> length (rows (M i)) = rD i) -> length (List.concat (map (fun i => mv (M i) (v i)) (seq 0 s))) = nI).
  { intros M v H. rewrite EnI. apply concat_lengths. intros i Hi. apply in_seq in Hi. rewrite mv_length. apply H. lia. }
  assert (l1 : length z1 = (nx * s)%nat) by (apply (LL (fun _ => mneg (eye nx)) (fun i => nth i zs [])); intros; apply SNe).
  assert (l2 : length z2 = (nx * s)%nat) by (apply (LL (fun _ => eye nx) (fun i => nth i zs [])); intros; apply shape_eye).
  assert (l3 : length x3 = (nx * s)%nat) by (apply (LL (fun i => mneg (aA (sys_at W i))) (fun _ => x)); intros i Hi; apply (shape_mneg _ _ _ (proj1 (SA i Hi)))).
  assert (l4 : length x4 = (nx * s)%nat) by (apply (LL (fun i => aA (sys_at W i)) (fun _ => x)); intros i Hi; apply (SA i Hi)).
  assert (l5 : length x5 = nI) by (apply (LL5 (fun i => cols_to (pA (dom_at W i)) nx) (fun _ => x)); intros i Hi; apply (shape_cols_to _ _ _ nx (proj1 (SD i Hi))); lia).
  assert (l6 : length u3 = (nx * s)%nat) by (apply (LL (fun i => mneg (aB (sys_at W i))) (fun _ => u)); intros i Hi; apply (shape_mneg _ _ _ (proj1 (proj2 (SA i Hi))))).
  assert (l7 : length u4 = (nx * s)%nat) by (apply (LL (fun i => aB (sys_at W i)) (fun _ => u)); intros i Hi; apply (SA i Hi)).
  assert (l8 : length u5 = nI) by (apply (LL5 (fun i => cols_from (pA (dom_at W i)) nx) (fun _ => u)); intros i Hi; apply (shape_cols_from _ _ _ nx (proj1 (SD i Hi)))).
  set (d1 := mv (block_diag (map (fun i => colmat (nth i (nth i alpha []) [])) (seq 0 s))) d). set (d2 := mv (block_diag (map (fun i => colmat (nth i (nth i beta []) [])) (seq 0 s))) d).
  set (d3 := mv (bigM_matrices alpha) d). set (d4 := mv (bigM_matrices beta) d). set (d5 := mv (bigM_matrices gamma) d).
  assert (l9 : length d1 = (nx * s)%nat) by (unfold d1; rewrite mv_length; apply (Da' 0%nat)). assert (l10 : length d2 = (nx * s)%nat) by (unfold d2; rewrite mv_length; apply (Db' 0%nat)).
  assert (l11 : length d3 = (nx * s)%nat) by (unfold d3; rewrite mv_length; apply Ba). assert (l12 : length d4 = (nx * s)%nat) by (unfold d4; rewrite mv_length; apply Bb). assert (l13 : length d5 = nI) by (unfold d5; rewrite mv_length; apply Bg).
  assert (L0 : length (zeros (nx * s)) = (nx * s)%nat) by apply zeros_length. assert (L0' : length (zeros nI) = nI) by apply zeros_length. assert (L2 : length (zeros 2) = 2%nat) by apply zeros_length.
  assert (N4 : length (vneg z2) = (nx * s)%nat) by (rewrite vneg_length; exact l2).
  rewrite !vadd_app by (repeat rewrite vadd_length; rewrite ?vneg_length; lia).
  rewrite vle_split6 by (repeat rewrite vadd_length; rewrite ?vneg_length; lia).
  assert (G6 : vle (vadd (vadd (vadd (zeros 2) (zeros 2)) (zeros 2)) ([dot (ones s) d] ++ [dot (vneg (ones s)) d])) [1; -1] <-> dot (ones s) d = 1).
  { rewrite dot_vneg_l. rewrite vle_nth. cbn. split.
    - intros (_ & H). pose proof (H 0%nat ltac:(lia)) as H0. pose proof (H 1%nat ltac:(lia)) as H1. cbn in H0, H1. lra.
    - intros H. split; [reflexivity|]. intros [|[|i]] Hi; cbn; lra || lia. }
  rewrite G6.
  assert (GG : forall (n : nat -> nat) (a b c e h : nat -> vec), (forall i, (i < s)%nat -> length (a i) = n i /\ length (b i) = n i /\ length (c i) = n i /\ length (e i) = n i /\ length (h i) = n i) ->
    (vle (vadd (vadd (vadd (List.concat (map a (seq 0 s))) (List.concat (map b (seq 0 s)))) (List.concat (map c (seq 0 s)))) (List.concat (map e (seq 0 s)))) (List.concat (map h (seq 0 s))) <->
     forall i, (i < s)%nat -> forall r, (r < n i)%nat -> nth r (a i) 0 + nth r (b i) 0 + nth r (c i) 0 + nth r (e i) 0 <= nth r (h i) 0)).
  { intros n a b c e h H. assert (H' : forall i, In i (seq 0 s) -> length (a i) = n i /\ length (b i) = n i /\ length (c i) = n i /\ length (e i) = n i /\ length (h i) = n i) by (intros i Hi; apply in_seq in Hi; apply H; lia).
    rewrite !concat_vadd by (intros i Hi; destruct (H' i Hi) as (Q1 & Q2 & Q3 & Q4 & Q5); repeat rewrite vadd_length; lia).
    rewrite (vle_concat (fun i => vadd (vadd (vadd (a i) (b i)) (c i)) (e i)) h) by (intros i Hi; destruct (H' i Hi) as (Q1 & Q2 & Q3 & Q4 & Q5); repeat rewrite vadd_length; lia).
    split; intros HH i Hi.
    - intros r Hr. destruct (H i Hi) as (Q1 & Q2 & Q3 & Q4 & Q5). specialize (HH i ltac:(apply in_seq; lia)). apply vle_nth in HH. destruct HH as (_ & HH). specialize (HH r). repeat rewrite vadd_length in HH.
      rewrite !nth_vadd in HH by (repeat rewrite vadd_length; lia). apply HH. lia.
    - destruct (H' i Hi) as (Q1 & Q2 & Q3 & Q4 & Q5). apply in_seq in Hi. apply vle_nth. repeat rewrite vadd_length. split; [lia|]. intros r Hr. rewrite !nth_vadd by (repeat rewrite vadd_length; lia). apply HH; lia. }
  assert (KEY : forall k, (k < s)%nat -> d = unit s k ->
    (vle (vadd (vadd (vadd (zeros (nx * s)) (zeros (nx * s))) z1) d1) (zeros (nx * s)) /\
     vle (vadd (vadd (vadd (zeros (nx * s)) (zeros (nx * s))) z2) (vneg d2)) (zeros (nx * s)) /\
     vle (vadd (vadd (vadd x3 u3) z2) d3) (List.concat (map (fun i => ac (sys_at W i)) (seq 0 s))) /\
     vle (vadd (vadd (vadd x4 u4) z1) (vneg d4)) (List.concat (map (fun i => vneg (ac (sys_at W i))) (seq 0 s))) /\
     vle (vadd (vadd (vadd x5 u5) (zeros nI)) (vneg d5)) (List.concat (map (fun i => pb (dom_at W i)) (seq 0 s))) <-> step_ok W nx alpha beta gamma k x u zs)).
  { intros k Hk ->. unfold d1, d2, d3, d4, d5. rewrite (proj2 (Da' k) Hk), (proj2 (Db' k) Hk).
    rewrite (mv_bigM alpha s k (fun _ => nx) La HBa Hk), (mv_bigM beta s k (fun _ => nx) Lb HBb Hk), (mv_bigM gamma s k rD Lg HBg Hk).
    unfold z1, z2, x3, x4, x5, u3, u4, u5.
    assert (NC : forall f : nat -> vec, vneg (List.concat (map f (seq 0 s))) = List.concat (map (fun i => vneg (f i)) (seq 0 s))).
    { intros f. generalize (seq 0 s) as l. clear. induction l as [|a l IH]; [reflexivity|]. cbn [map List.concat]. rewrite vneg_app, IH. reflexivity. }
    assert (ZI : zeros nI = List.concat (map (fun i => zeros (rD i)) (seq 0 s))).
    { rewrite EnI. generalize (seq 0 s) as l. clear. induction l as [|a l IH]; [reflexivity|]. cbn [map List.concat sum_nat]. rewrite <- IH, zeros_app. reflexivity. }
    rewrite !NC, ZI, zeros_blocks.
    assert (LA : forall i, (i < s)%nat -> length (rows (aA (sys_at W i))) = nx) by (intros i Hi; apply (SA i Hi)). assert (LB : forall i, (i < s)%nat -> length (rows (aB (sys_at W i))) = nx) by (intros i Hi; apply (SA i Hi)).
    assert (LC : forall i, (i < s)%nat -> length (ac (sys_at W i)) = nx) by (intros i Hi; apply (SA i Hi)). assert (LE : length (rows (eye nx)) = nx) by apply shape_eye.
    assert (LDA : forall i, (i < s)%nat -> length (rows (pA (dom_at W i))) = rD i) by (intros i Hi; apply (SD i Hi)). assert (LDb : forall i, (i < s)%nat -> length (pb (dom_at W i)) = rD i) by (intros i Hi; apply (SD i Hi)).
    assert (LDT : forall i, (i < s)%nat -> length (rows (cols_to (pA (dom_at W i)) nx)) = rD i) by (intros i Hi; apply (shape_cols_to _ _ _ nx (proj1 (SD i Hi))); lia).
    assert (LDF : forall i, (i < s)%nat -> length (rows (cols_from (pA (dom_at W i)) nx)) = rD i) by (intros i Hi; apply (shape_cols_from _ _ _ nx (proj1 (SD i Hi)))).
    rewrite (GG (fun _ => nx) (fun _ => zeros nx) (fun _ => zeros nx) (fun i => mv (mneg (eye nx)) (nth i zs []))
      (fun i => if Nat.eqb i k then nth i (nth i alpha []) [] else zeros nx) (fun _ => zeros nx))
      by (intros i Hi; rewrite mv_mneg, vneg_length, mv_length; destruct (Nat.eqb i k); rewrite ?zeros_length, ?HBa by assumption; auto).
    rewrite (GG (fun _ => nx) (fun _ => zeros nx) (fun _ => zeros nx) (fun i => mv (eye nx) (nth i zs []))
      (fun i => vneg (if Nat.eqb i k then nth i (nth i beta []) [] else zeros nx)) (fun _ => zeros nx))
      by (intros i Hi; rewrite vneg_length, mv_length; destruct (Nat.eqb i k); rewrite ?zeros_length, ?HBb by assumption; auto).
    rewrite (GG (fun _ => nx) (fun i => mv (mneg (aA (sys_at W i))) x) (fun i => mv (mneg (aB (sys_at W i))) u) (fun i => mv (eye nx) (nth i zs []))
      (fun i => if Nat.eqb k i then zeros nx else nth k (nth i alpha []) []) (fun i => ac (sys_at W i)))
      by (intros i Hi; rewrite !mv_mneg, !vneg_length, !mv_length; rewrite LA, LB, LC by exact Hi; destruct (Nat.eqb k i); rewrite ?zeros_length, ?HBa by assumption; auto).
    rewrite (GG (fun _ => nx) (fun i => mv (aA (sys_at W i)) x) (fun i => mv (aB (sys_at W i)) u) (fun i => mv (mneg (eye nx)) (nth i zs []))
      (fun i => vneg (if Nat.eqb k i then zeros nx else nth k (nth i beta []) [])) (fun i => vneg (ac (sys_at W i))))
      by (intros i Hi; rewrite !mv_mneg, !vneg_length, !mv_length; rewrite LA, LB, LC by exact Hi; destruct (Nat.eqb k i); rewrite ?zeros_length, ?HBb by assumption; auto).
    rewrite (GG rD (fun i => mv (cols_to (pA (dom_at W i)) nx) x) (fun i => mv (cols_from (pA (dom_at W i)) nx) u) (fun i => zeros (rD i))
      (fun i => vneg (if Nat.eqb k i then zeros (rD i) else nth k (nth i gamma []) [])) (fun i => pb (dom_at W i)))
      by (intros i Hi; rewrite !vneg_length, !mv_length; rewrite LDT, LDF, LDb by exact Hi; destruct (Nat.eqb k i); rewrite ?zeros_length, ?HBg by assumption; auto).
    assert (NF : forall i r, (i < s)%nat -> (r < nx)%nat -> nth r (affine_step (aA (sys_at W i)) (aB (sys_at W i)) (ac (sys_at W i)) x u) 0 = nth r (mv (aA (sys_at W i)) x) 0 + nth r (mv (aB (sys_at W i)) u) 0 + nth r (ac (sys_at W i)) 0).
    { intros i r Hi Hr. unfold affine_step. rewrite !nth_vadd by (rewrite ?vadd_length, !mv_length, LA, LB by exact Hi; rewrite ?LC by exact Hi; lia). ring. }
    assert (LF : forall i, (i < s)%nat -> length (affine_step (aA (sys_at W i)) (aB (sys_at W i)) (ac (sys_at W i)) x u) = nx).
    { intros i Hi. unfold affine_step. rewrite !vadd_length, !mv_length, LA, LB, LC by exact Hi. lia. }
    assert (NP : forall i r, (i < s)%nat -> (r < rD i)%nat -> nth r (mv (pA (dom_at W i)) (x ++ u)) 0 = nth r (mv (cols_to (pA (dom_at W i)) nx) x) 0 + nth r (mv (cols_from (pA (dom_at W i)) nx) u) 0).
    { intros i r Hi Hr. rewrite (mv_cols_split (pA (dom_at W i)) (rD i) (nx + nu) nx) by (auto; try lia; apply SD; exact Hi). apply nth_vadd. rewrite !mv_length, LDT, LDF by exact Hi. reflexivity. }
    assert (VF : forall a b n, length a = n -> length b = n -> (vle a b <-> forall r, (r < n)%nat -> nth r a 0 <= nth r b 0)).
    { intros a b n L1 L3. rewrite vle_nth. split; [intros (_ & H) r Hr; apply H; lia|]. intros H. split; [lia|]. intros r Hr. apply H. lia. }
    split.
    - intros (H1 & H2 & H3 & H4 & H5).
      assert (NM : forall i r, (i < s)%nat -> nth r (mv (mneg (eye nx)) (nth i zs [])) 0 = - nth r (nth i zs []) 0) by (intros i r Hi; rewrite mv_mneg, nth_vneg, mv_eye by (apply Hz; exact Hi); reflexivity).
      assert (NY : forall i, (i < s)%nat -> mv (eye nx) (nth i zs []) = nth i zs []) by (intros i Hi; apply mv_eye, Hz, Hi).
      assert (Q0 : forall i, (i < s)%nat -> i <> k -> nth i zs [] = zeros nx).
      { intros i Hi Nk. apply (nth_ext _ _ 0 0); [rewrite zeros_length; apply Hz, Hi|]. rewrite (Hz i Hi). intros r Hr. specialize (H1 i Hi r Hr). specialize (H2 i Hi r Hr).
        rewrite (proj2 (Nat.eqb_neq i k) Nk) in H1, H2. rewrite NM in H1 by exact Hi. rewrite NY in H2 by exact Hi. rewrite !nth_zeros in H1. rewrite nth_vneg, !nth_zeros in H2. rewrite nth_zeros. lra. }
      assert (Qk : nth k zs [] = affine_step (aA (sys_at W k)) (aB (sys_at W k)) (ac (sys_at W k)) x u).
      { apply (nth_ext _ _ 0 0); [rewrite LF by exact Hk; apply Hz, Hk|]. rewrite (Hz k Hk). intros r Hr. specialize (H3 k Hk r Hr). specialize (H4 k Hk r Hr). rewrite Nat.eqb_refl in H3, H4.
        rewrite NM in H4 by exact Hk. rewrite NY in H3 by exact Hk. repeat rewrite ?mv_mneg, ?nth_vneg, ?nth_zeros in H3. repeat rewrite ?mv_mneg, ?nth_vneg, ?nth_zeros in H4. rewrite NF by assumption. lra. }
      unfold step_ok. repeat match goal with |- _ /\ _ => split end.
      + exact Qk.
      + apply ineq_holds_vle. apply (VF _ _ (rD k)); [rewrite mv_length; apply LDA, Hk|apply LDb, Hk|]. intros r Hr. rewrite NP by assumption. specialize (H5 k Hk r Hr). rewrite Nat.eqb_refl in H5. rewrite nth_vneg, !nth_zeros in H5. lra.
      + apply (VF _ _ nx); [apply HBa; assumption|apply LF, Hk|]. intros r Hr. rewrite <- Qk. specialize (H1 k Hk r Hr). rewrite Nat.eqb_refl in H1. rewrite NM, !nth_zeros in H1 by exact Hk. lra.
      + apply (VF _ _ nx); [apply LF, Hk|apply HBb; assumption|]. intros r Hr. rewrite <- Qk. specialize (H2 k Hk r Hr). rewrite Nat.eqb_refl in H2. rewrite NY, nth_vneg, !nth_zeros in H2 by exact Hk. lra.
      + intros i Hi Nk. assert (Nk' : Nat.eqb k i = false) by (apply Nat.eqb_neq; auto). split; [apply Q0; assumption|]. split; [|split].
        * apply (VF _ _ nx); [apply HBa; assumption|apply LF, Hi|]. intros r Hr. rewrite NF by assumption. specialize (H3 i Hi r Hr). rewrite Nk', NY, Q0, !mv_mneg, !nth_vneg, nth_zeros in H3 by assumption. lra.
        * apply (VF _ _ nx); [apply LF, Hi|apply HBb; assumption|]. intros r Hr. rewrite NF by assumption. specialize (H4 i Hi r Hr). rewrite Nk', NM, Q0, !nth_vneg, nth_zeros in H4 by assumption. lra.
        * apply (VF _ _ (rD i)); [rewrite mv_length; apply LDA, Hi|rewrite vadd_length, LDb, HBg by assumption; lia|]. intros r Hr. rewrite NP by assumption. rewrite nth_vadd by (rewrite LDb, HBg by assumption; reflexivity).
          specialize (H5 i Hi r Hr). rewrite Nk', nth_vneg, nth_zeros in H5. lra.
    - intros (Qk & Qd & Qa & Qb & Qi).
      assert (NM : forall i r, (i < s)%nat -> nth r (mv (mneg (eye nx)) (nth i zs [])) 0 = - nth r (nth i zs []) 0) by (intros i r Hi; rewrite mv_mneg, nth_vneg, mv_eye by (apply Hz; exact Hi); reflexivity).
      assert (NY : forall i, (i < s)%nat -> mv (eye nx) (nth i zs []) = nth i zs []) by (intros i Hi; apply mv_eye, Hz, Hi).
      apply ineq_holds_vle in Qd. rewrite (VF _ _ (rD k)) in Qd by (try rewrite mv_length; auto). rewrite (VF _ _ nx) in Qa by auto. rewrite (VF _ _ nx) in Qb by auto.
      assert (Qi1 : forall i r, (i < s)%nat -> (r < nx)%nat -> i <> k -> nth r (nth i zs []) 0 = 0) by (intros i r Hi Hr Nk; rewrite (proj1 (Qi i Hi Nk)); apply nth_zeros).
      assert (Qi2 : forall i r, (i < s)%nat -> (r < nx)%nat -> i <> k -> nth r (nth k (nth i alpha []) []) 0 <= nth r (affine_step (aA (sys_at W i)) (aB (sys_at W i)) (ac (sys_at W i)) x u) 0 <= nth r (nth k (nth i beta []) []) 0).
      { intros i r Hi Hr Nk. destruct (Qi i Hi Nk) as (_ & R1 & R2 & _). rewrite (VF _ _ nx) in R1 by auto. rewrite (VF _ _ nx) in R2 by auto. split; auto. }
      repeat match goal with |- _ /\ _ => split end; intros i Hi r Hr; destruct (Nat.eq_dec i k) as [->|Nk].
      + rewrite Nat.eqb_refl, NM, !nth_zeros by exact Hk. rewrite Qk. specialize (Qa r Hr). lra.
      + rewrite (proj2 (Nat.eqb_neq i k) Nk), NM, Qi1, !nth_zeros by assumption. lra.
      + rewrite Nat.eqb_refl, NY, nth_vneg, !nth_zeros by exact Hk. rewrite Qk. specialize (Qb r Hr). lra.
      + rewrite (proj2 (Nat.eqb_neq i k) Nk), NY, nth_vneg, Qi1, !nth_zeros by assumption. lra.
      + rewrite Nat.eqb_refl, NY, !mv_mneg, !nth_vneg, nth_zeros by exact Hk. rewrite Qk, NF by assumption. lra.
      + rewrite (proj2 (Nat.eqb_neq k i)) by auto. rewrite NY, !mv_mneg, !nth_vneg, Qi1 by assumption. specialize (Qi2 i r Hi Hr Nk). rewrite NF in Qi2 by assumption. lra.
      + rewrite Nat.eqb_refl, NM, !nth_vneg, nth_zeros by exact Hk. rewrite Qk, NF by assumption. lra.
      + rewrite (proj2 (Nat.eqb_neq k i)) by auto. rewrite NM, !nth_vneg, Qi1 by assumption. specialize (Qi2 i r Hi Hr Nk). rewrite NF in Qi2 by assumption. lra.
      + rewrite Nat.eqb_refl, nth_vneg, !nth_zeros. specialize (Qd r Hr). rewrite NP in Qd by assumption. lra.
      + rewrite (proj2 (Nat.eqb_neq k i)) by auto. rewrite nth_vneg, nth_zeros. destruct (Qi i Hi Nk) as (_ & _ & _ & R3). rewrite (VF _ _ (rD i)) in R3 by (rewrite ?mv_length, ?vadd_length, ?LDb, ?HBg by assumption; auto; lia).
        specialize (R3 r Hr). rewrite NP in R3 by assumption. rewrite nth_vadd in R3 by (rewrite LDb, HBg by assumption; reflexivity). lra. }
  split.
  - intros (H1 & H2 & H3 & H4 & H5 & H6). destruct (binary_sum d Fd) as (k & Hk & Ed); [rewrite Ld; exact H6|]. rewrite Ld in Hk, Ed. exists k. split; [exact Hk|]. split; [exact Ed|]. apply (KEY k Hk Ed). auto.
  - intros (k & Hk & Ed & Hok). apply (KEY k Hk Ed) in Hok. destruct Hok as (H1 & H2 & H3 & H4 & H5). repeat match goal with |- _ /\ _ => split end; try assumption. rewrite Ed. apply dot_ones_unit. exact Hk.
Qed.

(** ** The whole horizon *)
Lemma final_blocks (M X : mat) N m mX n (xs : list vec) : shape M m n -> shape X mX n -> length xs = S N -> Forall (fun z => length z = n) xs ->
  shape (block_diag (repeat M N ++ [X])) (N * m + mX) (S N * n) /\
  mv (block_diag (repeat M N ++ [X])) (List.concat xs) = List.concat (map (fun t => if (t <? N)%nat then mv M (nth t xs []) else mv X (nth N xs [])) (seq 0 (S N))).
Proof.
  intros SM SX Lx Fx. set (Fm := fun t => if (t <? N)%nat then M else X).
  assert (EF : repeat M N ++ [X] = map Fm (seq 0 (S N))).
  { rewrite (snoc_as_map _ X (Mat 0 []) N) by apply repeat_length. apply map_ext_in. intros t Ht. unfold Fm. destruct (Nat.ltb_spec t N) as [Q1|Q1]; [|reflexivity]. apply nth_repeat_lt. exact Q1. }
  assert (E : xs = map (fun t => nth t xs []) (seq 0 (S N))) by (rewrite <- Lx; apply list_as_map).
  destruct (mv_block_map Fm (fun t => nth t xs []) (seq 0 (S N))) as (E1 & S1); [discriminate| |].
  - intros t Ht. apply in_seq in Ht. rewrite (Forall_len_nth xs n) by (auto; lia). unfold Fm, nrows. destruct (t <? N)%nat; [rewrite (proj1 SM); exact SM|rewrite (proj1 SX); exact SX].
  - rewrite <- E in E1. rewrite EF. split.
    + replace (N * m + mX)%nat with (sum_nat (map (fun t => nrows (Fm t)) (seq 0 (S N)))); [replace (S N * n)%nat with (sum_nat (map (fun t => length (nth t xs [])) (seq 0 (S N)))); [exact S1|]|].
      * rewrite (map_ext_in _ (fun _ => n)); [rewrite sum_nat_const, seq_length; reflexivity|]. intros t Ht. apply in_seq in Ht. apply Forall_len_nth; [exact Fx|lia].
      * rewrite seq_snoc, map_app, sum_nat_app. cbn [map sum_nat]. unfold Fm at 2. rewrite Nat.ltb_irrefl. unfold nrows at 2. rewrite (proj1 SX). rewrite (map_ext_in _ (fun _ => m)); [rewrite sum_nat_const, seq_length; lia|].
        intros t Ht. apply in_seq in Ht. unfold Fm, nrows. rewrite (proj2 (Nat.ltb_lt t N)) by lia. apply SM.
    + rewrite E1. f_equal. apply map_ext_in. intros t Ht. apply in_seq in Ht. unfold Fm. destruct (Nat.ltb_spec t N) as [Q1|Q1]; [reflexivity|]. replace t with N by lia. reflexivity.
Qed.
Lemma repeat_blocks (M : mat) N m n (vs : list vec) : (0 < N)%nat -> shape M m n -> length vs = N -> Forall (fun z => length z = n) vs ->
  shape (block_diag (repeat M N)) (N * m) (N * n) /\ mv (block_diag (repeat M N)) (List.concat vs) = List.concat (map (fun t => mv M (nth t vs [])) (seq 0 N)).
Proof.
  intros HN SM Lv Fv. rewrite repeat_as_map. assert (E : vs = map (fun t => nth t vs []) (seq 0 N)) by (rewrite <- Lv; apply list_as_map).
  destruct (mv_block_map (fun _ => M) (fun t => nth t vs []) (seq 0 N)) as (E1 & S1); [destruct N; [lia|discriminate]| |].
  - intros t Ht. apply in_seq in Ht. rewrite (Forall_len_nth vs n) by (auto; lia). unfold nrows. rewrite (proj1 SM). exact SM.
  - rewrite <- E in E1. split; [|exact E1]. rewrite sum_nat_const, seq_length in S1. unfold nrows in S1. rewrite (proj1 SM) in S1.
    rewrite (map_ext_in (fun t => length (nth t vs [])) (fun _ => n)), sum_nat_const, seq_length in S1 by (intros t Ht; apply in_seq in Ht; apply Forall_len_nth; [exact Fv|lia]). exact S1.
Qed.
Lemma pad_blocks (M X : mat) N m mX n (vs : list vec) : (0 < N)%nat -> shape M m n -> nrows X = mX -> length vs = N -> Forall (fun z => length z = n) vs ->
  shape (pad (block_diag (repeat M N)) X) (N * m + mX) (N * n) /\
  mv (pad (block_diag (repeat M N)) X) (List.concat vs) = List.concat (map (fun t => if (t <? N)%nat then mv M (nth t vs []) else zeros mX) (seq 0 (S N))).
Proof.
  intros HN SM RX Lv Fv. destruct (repeat_blocks M N m n vs HN SM Lv Fv) as (S1 & E1). unfold pad. rewrite RX. split.
  - apply shape_vstack; [exact S1|]. rewrite (proj1 (proj2 S1)). apply shape_zmat.
  - rewrite mv_vstack, mv_zmat, E1. rewrite seq_snoc, map_app, concat_app. cbn [map List.concat]. rewrite Nat.ltb_irrefl, app_nil_r. f_equal. f_equal. apply map_ext_in. intros t Ht. apply in_seq in Ht.
    rewrite (proj2 (Nat.ltb_lt t N)) by lia. reflexivity.
Qed.
Lemma mv_sum nx s (zs : list vec) : (0 < s)%nat -> length zs = s -> Forall (fun z => length z = nx) zs ->
  shape (hstack_list (repeat (eye nx) s)) nx (nx * s) /\ mv (hstack_list (repeat (eye nx) s)) (List.concat zs) = vsums nx zs.
Proof.
  intros Hs Lz Fz. assert (NE : repeat (eye nx) s <> []) by (destruct s; [lia|discriminate]).
  assert (FE : Forall (fun M => shape M nx nx) (repeat (eye nx) s)) by (apply Forall_forall; intros M HM; apply repeat_spec in HM; subst M; apply shape_eye). split.
  - pose proof (shape_hstack_list _ _ _ NE FE) as Q. rewrite repeat_length in Q. rewrite Nat.mul_comm. exact Q.
  - rewrite (mv_hstack_list _ zs nx nx NE) by (auto; rewrite repeat_length; auto). f_equal. clear NE FE Hs. subst s. induction Fz as [|z zs Hz Fz IH]; [reflexivity|]. cbn [length repeat map2]. rewrite mv_eye by exact Hz. f_equal. exact IH.
Qed.
Definition quad (M : mat) (x : vec) : R := dot x (mv M x).
Lemma hybrid_program W N Q Rm P X_N alpha beta gamma nx nu mN meN : hyb_data W nx nu -> bigm_shape W nx alpha beta gamma -> (0 < N)%nat ->
  shape Q nx nx -> shape P nx nx -> shape Rm nu nu -> wf X_N mN meN nx ->
  let s := length (w_sys W) in
  exists q m, hybrid_condense_program W N Q Rm P X_N alpha beta gamma = Ok q /\
    shape (h_Huu q) (N * nu) (N * nu) /\ shape (h_Hzz q) (N * (nx * s)) (N * (nx * s)) /\ shape (h_Hzx q) (N * (nx * s)) nx /\ shape (h_Hxx q) nx nx /\
    shape (h_Au q) m (N * nu) /\ shape (h_Az q) m (N * (nx * s)) /\ shape (h_Ad q) m (N * s) /\ shape (h_Ax q) m nx /\ length (h_b q) = m /\
    forall x us zss ds, length x = nx -> length us = N -> Forall (fun u => length u = nu) us ->
      length zss = N -> Forall (fun zs => length zs = s /\ Forall (fun z => length z = nx) zs) zss ->
      length ds = N -> Forall (fun d => length d = s) ds ->
      let xs := x :: map (vsums nx) zss in
      let u := List.concat us in let z := List.concat (map (@List.concat R) zss) in let d := List.concat ds in
      / 2 * quad (h_Huu q) u + / 2 * quad (h_Hzz q) z + / 2 * quad (h_Hxx q) x = trajectory_cost Q Rm P us xs /\
      mv (h_Hzx q) x = zeros (N * (nx * s)) /\
      (Forall (fun d => Forall (fun a => a = 0 \/ a = 1) d) ds ->
       (vle (vadd (vadd (vadd (mv (h_Au q) u) (mv (h_Az q) z)) (mv (h_Ad q) d)) (mv (h_Ax q) x)) (h_b q) <->
       (forall t, (t < N)%nat -> exists k, (k < s)%nat /\ nth t ds [] = unit s k /\ step_ok W nx alpha beta gamma k (nth t xs []) (nth t us []) (nth t zss [])) /\
       ineq_holds (pA X_N) (pb X_N) (nth N xs []))).
Proof.
  intros HW HB HN SQ SP SR HX s. destruct (step_encoding W nx nu alpha beta gamma HW HB) as (E & mE & EE & SEx & SEu & SEz & SEd & LE0 & HE). fold s in SEz, SEd, HE.
  pose proof HW as (EW & _ & (NE & _) & _). assert (Hs : (0 < s)%nat) by (unfold s; destruct (w_sys W); [congruence|cbn; lia]).
  pose proof HX as (WXA & WXb & _).
  unfold hybrid_condense_program. rewrite EE. cbn [bind]. unfold condense_equalities. rewrite EW. fold s.
  assert (HL : forall l, l <> [] -> np_hstack_list l = Ok (hstack_list l)) by (intros [|]; [congruence|reflexivity]).
  rewrite HL by (destruct s; [lia|discriminate]). cbn [bind].
  set (Su := hstack_list (repeat (eye nx) s)). set (Bd := block_diag (repeat Su N)). set (Bz := vstack (zmat nx (ncols Bd)) Bd). set (Ab := vstack (eye nx) (zmat (nx * N) nx)).
  set (Qs := repeat Q N ++ [P]). set (Qb := block_diag Qs).
  assert (LQs : length Qs = S N) by (unfold Qs; rewrite app_length, repeat_length; cbn; lia).
  assert (nQ : forall i, (i < N)%nat -> nth i Qs (Mat 0 []) = Q) by (intros i Hi; unfold Qs; rewrite app_nth1 by (rewrite repeat_length; lia); apply nth_repeat_lt; exact Hi).
  assert (nP : nth N Qs (Mat 0 []) = P) by (unfold Qs; rewrite app_nth2 by (rewrite repeat_length; lia); rewrite repeat_length, Nat.sub_diag; reflexivity).
  assert (HQs : forall i, (i < length Qs)%nat -> shape (nth i Qs (Mat 0 [])) nx nx).
  { intros i Hi. rewrite LQs in Hi. destruct (Nat.eq_dec i N) as [->|]; [rewrite nP; exact SP|rewrite nQ by lia; exact SQ]. }
  assert (NQ : Qs <> []) by (intros E1; rewrite E1 in LQs; discriminate).
  assert (QB : forall zs ws, length zs = S N -> length ws = S N -> Forall (fun z => length z = nx) zs -> Forall (fun z => length z = nx) ws ->
    shape Qb (S N * nx) (S N * nx) /\
    dot (List.concat ws) (mv Qb (List.concat zs)) = sum_upto (fun i => dot (nth i ws []) (mv Q (nth i zs []))) N + dot (nth N ws []) (mv P (nth N zs []))).
  { intros zs ws Lz Lw Fz Fw. destruct (quad_block Qs zs nx NQ ltac:(lia) HQs Fz ws ltac:(lia) Fw) as (S1 & E1). rewrite LQs in S1. split; [exact S1|]. unfold Qb. rewrite E1, Lz. cbn [sum_upto]. rewrite nP. f_equal.
    apply sum_upto_ext. intros i Hi. rewrite nQ by exact Hi. reflexivity. }
  assert (FR : forall k n, Forall (fun z : vec => length z = n) (repeat (zeros n) k)).
  { intros k n. apply Forall_forall. intros v Hv. apply repeat_spec in Hv. subst v. apply zeros_length. }
  assert (SQb : shape Qb (S N * nx) (S N * nx)) by (apply (QB (repeat (zeros nx) (S N)) (repeat (zeros nx) (S N))); auto using repeat_length).
  assert (SSu : shape Su nx (nx * s)) by (apply (mv_sum nx s (repeat (zeros nx) s)); auto using repeat_length).
  assert (SBd : shape Bd (N * nx) (N * (nx * s))) by (apply (repeat_blocks Su N nx (nx * s) (repeat (zeros (nx * s)) N)); auto using repeat_length).
  assert (SBz : shape Bz (S N * nx) (N * (nx * s))) by (apply (shape_vstack _ _ nx (N * nx)); [rewrite (proj1 (proj2 SBd)); apply shape_zmat|exact SBd]).
  assert (SAb : shape Ab (S N * nx) nx) by (unfold Ab; replace (S N * nx)%nat with (nx + nx * N)%nat by lia; apply shape_vstack; [apply shape_eye|apply shape_zmat]).
  pose proof (shape_tr _ _ _ SBz) as TB. pose proof (shape_tr _ _ _ SAb) as TA.
  assert (SBQ : shape (mm (tr Bz) Qb) (N * (nx * s)) (S N * nx)) by eauto with shp. assert (SAQ : shape (mm (tr Ab) Qb) nx (S N * nx)) by eauto with shp.
  rewrite (np_dot_ok (tr Bz) Qb _ _ _ TB SQb). cbn [bind]. rewrite (np_dot_ok _ Bz _ _ _ SBQ SBz). cbn [bind]. rewrite (np_dot_ok _ Ab _ _ _ SBQ SAb). cbn [bind].
  rewrite (np_dot_ok (tr Ab) Qb _ _ _ TA SQb). cbn [bind]. rewrite (np_dot_ok _ Ab _ _ _ SAQ SAb). cbn [bind].
  unfold condense_inequalities. cbn [e_x e_u e_z e_d e_0].
  set (Exb := block_diag (repeat (e_x E) N ++ [pA X_N])). set (mt := (N * mE + mN)%nat).
  assert (SExb : shape Exb mt (S N * nx)) by (apply (final_blocks (e_x E) (pA X_N) N mE mN nx (repeat (zeros nx) (S N))); auto using repeat_length).
  assert (RX : nrows (pA X_N) = mN) by apply WXA.
  set (Eub := pad (block_diag (repeat (e_u E) N)) (pA X_N)). set (Ezb := pad (block_diag (repeat (e_z E) N)) (pA X_N)). set (Edb := pad (block_diag (repeat (e_d E) N)) (pA X_N)).
  assert (SEub : shape Eub mt (N * nu)) by (apply (pad_blocks (e_u E) (pA X_N) N mE mN nu (repeat (zeros nu) N)); auto using repeat_length).
  assert (SEzb : shape Ezb mt (N * (nx * s))) by (apply (pad_blocks (e_z E) (pA X_N) N mE mN (nx * s) (repeat (zeros (nx * s)) N)); auto using repeat_length).
  assert (SEdb : shape Edb mt (N * s)) by (apply (pad_blocks (e_d E) (pA X_N) N mE mN s (repeat (zeros s) N)); auto using repeat_length).
  assert (SExB : shape (mm Exb Bz) mt (N * (nx * s))) by eauto with shp. assert (SExA : shape (mm Exb Ab) mt nx) by eauto with shp.
  rewrite (np_dot_ok Exb Bz _ _ _ SExb SBz). cbn [bind]. rewrite (np_madd_ok Ezb _ _ _ SEzb SExB). cbn [bind]. rewrite (np_dot_ok Exb Ab _ _ _ SExb SAb). cbn [bind].
  set (hm := fun t => if (t <? N)%nat then e_0 E else pb X_N).
  assert (Eh : repeat (e_0 E) N ++ [pb X_N] = map hm (seq 0 (S N))).
  { rewrite (snoc_as_map _ (pb X_N) [] N) by apply repeat_length. apply map_ext_in. intros t Ht. unfold hm. destruct (Nat.ltb_spec t N) as [Q1|Q1]; [|reflexivity]. apply nth_repeat_lt. exact Q1. }
  rewrite Eh. eexists. exists mt. split; [reflexivity|]. cbn [h_Huu h_Hzz h_Hzx h_Hxx h_Au h_Az h_Ad h_Ax h_b].
  set (Rb := block_diag (repeat Rm N)).
  assert (SRb : shape Rb (N * nu) (N * nu)) by (apply (repeat_blocks Rm N nu nu (repeat (zeros nu) N)); auto using repeat_length).
  assert (Lhb : length (List.concat (map hm (seq 0 (S N)))) = mt).
  { rewrite (concat_lengths hm _ (fun t => if (t <? N)%nat then mE else mN)).
    - rewrite seq_snoc, map_app, sum_nat_app. cbn [map sum_nat]. rewrite Nat.ltb_irrefl. unfold mt. rewrite (map_ext_in _ (fun _ => mE)); [rewrite sum_nat_const, seq_length; lia|]. intros t Ht. apply in_seq in Ht. rewrite (proj2 (Nat.ltb_lt t N)) by lia. reflexivity.
    - intros t _. unfold hm. destruct (t <? N)%nat; [exact LE0|exact WXb]. }
  repeat match goal with |- _ /\ _ => split end; eauto with shp.
  intros x us zss ds Lx Lus Fus Lzs Fzs Lds Fds. set (xs := x :: map (vsums nx) zss). set (u := List.concat us). set (z := List.concat (map (@List.concat R) zss)). set (d := List.concat ds).
  assert (Lxs : length xs = S N) by (unfold xs; cbn [length]; rewrite map_length, Lzs; reflexivity).
  assert (Fvs : Forall (fun v => length v = nx) (map (vsums nx) zss)).
  { apply Forall_forall. intros v Hv. apply in_map_iff in Hv. destruct Hv as (zs & <- & Hv). apply vsums_length. rewrite Forall_forall in Fzs. apply Fzs, Hv. }
  assert (Fxs : Forall (fun v => length v = nx) xs) by (unfold xs; constructor; [exact Lx|exact Fvs]).
  assert (Fcz : Forall (fun v => length v = (nx * s)%nat) (map (@List.concat R) zss)).
  { apply Forall_forall. intros v Hv. apply in_map_iff in Hv. destruct Hv as (zs & <- & Hv). rewrite Forall_forall in Fzs. destruct (Fzs zs Hv) as (L1 & F1).
    rewrite (list_as_map zs []), L1. rewrite (concat_const_length (fun i => nth i zs []) _ nx); [rewrite seq_length; lia|]. intros i Hi. apply in_seq in Hi. apply Forall_len_nth; [exact F1|lia]. }
  assert (Lcz : length (map (@List.concat R) zss) = N) by (rewrite map_length; exact Lzs).
  set (zb := zeros nx :: map (vsums nx) zss). set (xb := x :: repeat (zeros nx) N).
  assert (EBz : mv Bz z = List.concat zb).
  { unfold Bz. rewrite mv_vstack, mv_zmat. unfold zb. cbn [List.concat]. f_equal. unfold Bd, z. rewrite (proj2 (repeat_blocks Su N nx (nx * s) (map (@List.concat R) zss) HN SSu Lcz Fcz)). f_equal.
    rewrite (list_as_map (map (vsums nx) zss) []), map_length, Lzs. apply map_ext_in. intros t Ht. apply in_seq in Ht.
    rewrite (nth_indep _ [] (List.concat [])) by (rewrite Lcz; lia). rewrite (map_nth (@List.concat R)).
    rewrite (nth_indep _ [] (vsums nx [])) by (rewrite map_length, Lzs; lia). rewrite (map_nth (vsums nx)).
    rewrite Forall_forall in Fzs. destruct (Fzs (nth t zss [])) as (L1 & F1); [apply nth_In; lia|]. apply mv_sum; assumption. }
  assert (EAb : mv Ab x = List.concat xb).
  { unfold Ab. rewrite mv_vstack, mv_zmat, mv_eye by exact Lx. unfold xb. cbn [List.concat]. f_equal. rewrite zeros_blocks. f_equal. symmetry. apply repeat_as_map. }
  assert (Lzb : length zb = S N) by (unfold zb; cbn [length]; rewrite map_length, Lzs; reflexivity). assert (Lxb : length xb = S N) by (unfold xb; cbn [length]; rewrite repeat_length; reflexivity).
  assert (Fzb : Forall (fun v => length v = nx) zb) by (unfold zb; constructor; [apply zeros_length|exact Fvs]). assert (Fxb : Forall (fun v => length v = nx) xb) by (unfold xb; constructor; [exact Lx|apply FR]).
  assert (Luu : forall (l : list vec) k n, length l = k -> Forall (fun v => length v = n) l -> length (List.concat l) = (k * n)%nat).
  { intros l k n L1 F1. rewrite (list_as_map l []), L1. rewrite (concat_const_length (fun i => nth i l []) _ n); [rewrite seq_length; reflexivity|]. intros i Hi. apply in_seq in Hi. apply Forall_len_nth; [exact F1|lia]. }
  assert (Lz : length z = (N * (nx * s))%nat) by (unfold z; apply Luu; assumption). assert (Lu : length u = (N * nu)%nat) by (unfold u; apply Luu; assumption). assert (Ld : length d = (N * s)%nat) by (unfold d; apply Luu; assumption).
  assert (LBz : length (mv Bz z) = (S N * nx)%nat) by (rewrite mv_length; apply SBz). assert (LAb : length (mv Ab x) = (S N * nx)%nat) by (rewrite mv_length; apply SAb).
  assert (EXS : vadd (mv Ab x) (mv Bz z) = List.concat xs).
  { rewrite EBz, EAb. unfold xb, zb, xs. cbn [List.concat]. rewrite vadd_app by (rewrite Lx, zeros_length; reflexivity). rewrite vadd_zeros_r by exact Lx. f_equal.
    rewrite repeat_as_map, <- zeros_blocks. apply vadd_zeros_l. rewrite (Luu _ N nx); [lia|rewrite map_length; exact Lzs|exact Fvs]. }
  assert (nz0 : nth 0 zb [] = zeros nx) by reflexivity. assert (nzS : forall t, nth (S t) zb [] = nth (S t) xs []) by reflexivity.
  assert (nx0 : nth 0 xb [] = x) by reflexivity. assert (nxS : forall t, (t < N)%nat -> nth (S t) xb [] = zeros nx) by (intros t Ht; unfold xb; cbn [nth]; apply nth_repeat_lt; exact Ht).
  assert (LQ : length (rows Q) = nx) by apply SQ. assert (LP : length (rows P) = nx) by apply SP.
  split; [|split].
  - unfold quad. destruct (repeat_blocks Rm N nu nu us HN SR Lus Fus) as (_ & ERb). fold Rb in ERb.
    assert (EU : dot u (mv Rb u) = sum_upto (fun t => dot (nth t us []) (mv Rm (nth t us []))) N).
    { assert (HRs : forall i, (i < length (repeat Rm N))%nat -> shape (nth i (repeat Rm N) (Mat 0 [])) nu nu) by (intros i Hi; rewrite repeat_length in Hi; rewrite nth_repeat_lt by exact Hi; exact SR).
      destruct (quad_block (repeat Rm N) us nu ltac:(destruct N; [lia|discriminate]) ltac:(rewrite repeat_length; lia) HRs Fus us eq_refl Fus) as (_ & Q1). fold Rb in Q1. unfold u. rewrite Q1, Lus. apply sum_upto_ext. intros i Hi. rewrite nth_repeat_lt by exact Hi. reflexivity. }
    rewrite (mv_mm _ Bz (S N * nx) (N * (nx * s))) by exact SBz. rewrite (mv_mm _ Qb (S N * nx) (S N * nx)) by exact SQb. rewrite (dot_mv_tr_r Bz (S N * nx) (N * (nx * s))) by (auto; rewrite mv_length; apply SQb).
    rewrite (mv_mm _ Ab (S N * nx) nx) by exact SAb. rewrite (mv_mm _ Qb (S N * nx) (S N * nx)) by exact SQb. rewrite (dot_mv_tr_r Ab (S N * nx) nx) by (auto; rewrite mv_length; apply SQb).
    rewrite EBz, EAb, (proj2 (QB zb zb Lzb Lzb Fzb Fzb)), (proj2 (QB xb xb Lxb Lxb Fxb Fxb)), EU. unfold trajectory_cost. rewrite Lus.
    destruct N as [|N']; [lia|]. rewrite !sum_upto_first. rewrite nz0, nx0, !nzS, !nxS by lia. rewrite !dot_zeros_l.
    rewrite (sum_upto_ext (fun i => dot (nth (S i) xb []) (mv Q (nth (S i) xb []))) (fun i => 0 * 0)) by (intros i Hi; rewrite nxS by lia; rewrite dot_zeros_l; ring). rewrite (sum_upto_scale 0 (fun _ => 0)).
    rewrite (sum_upto_ext (fun i => / 2 * (dot (nth (S i) xs []) (mv Q (nth (S i) xs [])) + dot (nth (S i) us []) (mv Rm (nth (S i) us []))))
      (fun i => / 2 * dot (nth (S i) xs []) (mv Q (nth (S i) xs [])) + / 2 * dot (nth (S i) us []) (mv Rm (nth (S i) us [])))) by (intros; ring).
    rewrite sum_upto_plus, !sum_upto_scale. rewrite (sum_upto_ext (fun i => dot (nth (S i) zb []) (mv Q (nth (S i) zb []))) (fun i => dot (nth (S i) xs []) (mv Q (nth (S i) xs [])))) by (intros; rewrite nzS; reflexivity).
    change (nth 0 xs []) with x. lra.
  - assert (LZ : length (mv (mm (mm (tr Bz) Qb) Ab) x) = (N * (nx * s))%nat).
    { rewrite mv_length. assert (SS : shape (mm (mm (tr Bz) Qb) Ab) (N * (nx * s)) nx) by eauto with shp. apply SS. }
    rewrite <- LZ. apply dot_all_zero. rewrite LZ. intros w Lw. rewrite dot_comm. rewrite (mv_mm _ Ab (S N * nx) nx) by exact SAb. rewrite (mv_mm _ Qb (S N * nx) (S N * nx)) by exact SQb. rewrite (dot_mv_tr_r Bz (S N * nx) (N * (nx * s))) by (auto; rewrite mv_length; apply SQb).
    rewrite EAb. unfold Bz. rewrite mv_vstack, mv_zmat.
    assert (LBw : length (mv Bd w) = (N * nx)%nat) by (rewrite mv_length; apply SBd). destruct (chunks nx N (mv Bd w) LBw) as (ws & Lws & Fws & Ews). rewrite <- Ews. change (zeros nx ++ List.concat ws) with (List.concat (zeros nx :: ws)).
    rewrite (proj2 (QB xb (zeros nx :: ws) Lxb ltac:(cbn; lia) Fxb ltac:(constructor; [apply zeros_length|exact Fws]))).
    destruct N as [|N']; [lia|]. rewrite sum_upto_first. change (nth 0 (zeros nx :: ws) []) with (zeros nx). rewrite dot_zeros_l, nxS by lia. rewrite mv_zeros, dot_zeros_r.
    rewrite (sum_upto_ext _ (fun i => 0 * 0)) by (intros i Hi; rewrite nxS by lia; rewrite mv_zeros, dot_zeros_r; ring). rewrite (sum_upto_scale 0 (fun _ => 0)). lra.
  - intros Bds.
    assert (LF : forall v, length (mv Exb v) = mt) by (intros; rewrite mv_length; apply SExb). assert (LU : length (mv Eub u) = mt) by (rewrite mv_length; apply SEub). assert (LZ : length (mv Ezb z) = mt) by (rewrite mv_length; apply SEzb). assert (LD : length (mv Edb d) = mt) by (rewrite mv_length; apply SEdb).
    assert (EL : vadd (vadd (vadd (mv Eub u) (mv (madd Ezb (mm Exb Bz)) z)) (mv Edb d)) (mv (mm Exb Ab) x) = vadd (vadd (vadd (mv Exb (List.concat xs)) (mv Eub u)) (mv Ezb z)) (mv Edb d)).
    { rewrite (mv_madd Ezb _ mt (N * (nx * s))) by (auto; eauto with shp). rewrite (mv_mm Exb Bz (S N * nx) (N * (nx * s))) by exact SBz. rewrite (mv_mm Exb Ab (S N * nx) nx) by exact SAb. rewrite <- EXS, (mv_vadd Exb mt (S N * nx)) by auto.
      apply (nth_ext _ _ 0 0); [repeat rewrite ?vadd_length, ?LF, ?LU, ?LZ, ?LD; lia|]. intros i Hi. rewrite !nth_vadd by (repeat rewrite ?vadd_length, ?LF, ?LU, ?LZ, ?LD; lia). ring. }
    rewrite EL. clear EL. unfold Exb. rewrite (proj2 (final_blocks (e_x E) (pA X_N) N mE mN nx xs SEx WXA Lxs Fxs)).
    unfold Eub, u. rewrite (proj2 (pad_blocks (e_u E) (pA X_N) N mE mN nu us HN SEu RX Lus Fus)). unfold Ezb, z. rewrite (proj2 (pad_blocks (e_z E) (pA X_N) N mE mN (nx * s) _ HN SEz RX Lcz Fcz)).
    unfold Edb, d. rewrite (proj2 (pad_blocks (e_d E) (pA X_N) N mE mN s ds HN SEd RX Lds Fds)).
    assert (Lm : forall M, shape M mE (ncols M) -> forall v, length (mv M v) = mE) by (intros M SM v; rewrite mv_length; apply SM).
    assert (L1 : forall v, length (mv (e_x E) v) = mE) by (intros; rewrite mv_length; apply SEx). assert (L2 : forall v, length (mv (e_u E) v) = mE) by (intros; rewrite mv_length; apply SEu). assert (L3 : forall v, length (mv (e_z E) v) = mE) by (intros; rewrite mv_length; apply SEz). assert (L4 : forall v, length (mv (e_d E) v) = mE) by (intros; rewrite mv_length; apply SEd).
    assert (L5 : forall v, length (mv (pA X_N) v) = mN) by (intros; rewrite mv_length; apply WXA).
    rewrite !concat_vadd by (intros t _; destruct (t <? N)%nat; repeat rewrite ?vadd_length, ?L1, ?L2, ?L3, ?L4, ?L5, ?zeros_length; lia).
    match goal with |- vle (List.concat (map ?F _)) _ <-> _ => rewrite (vle_concat F hm) by (intros t _; unfold hm; destruct (t <? N)%nat; repeat rewrite ?vadd_length, ?L1, ?L2, ?L3, ?L4, ?L5, ?zeros_length, ?LE0, ?WXb; lia) end.
    assert (STEP : forall t, (t < N)%nat -> (step_ineq E (nth t xs []) (nth t us []) (nth t (map (@List.concat R) zss) []) (nth t ds []) <-> exists k, (k < s)%nat /\ nth t ds [] = unit s k /\ step_ok W nx alpha beta gamma k (nth t xs []) (nth t us []) (nth t zss []))).
    { intros t Ht. rewrite (nth_indep (map (@List.concat R) zss) [] (List.concat [])) by (rewrite Lcz; lia). rewrite (map_nth (@List.concat R)). pose proof Fzs as Fzs'. rewrite Forall_forall in Fzs'. destruct (Fzs' (nth t zss [])) as (Q1 & Q2); [apply nth_In; lia|].
      apply HE; auto; try (apply Forall_len_nth; auto; lia). rewrite Forall_forall in Bds. apply Bds, nth_In. lia. }
    assert (TERM : forall v, length v = mN -> vadd (vadd (vadd v (zeros mN)) (zeros mN)) (zeros mN) = v) by (intros v Lv; assert (E1 : vadd v (zeros mN) = v) by (apply vadd_zeros_r; exact Lv); rewrite !E1; reflexivity).
    split.
    + intros H. split.
      * intros t Ht. apply STEP; [exact Ht|]. specialize (H t ltac:(apply in_seq; lia)). cbv beta in H. unfold hm in H. rewrite (proj2 (Nat.ltb_lt t N)) in H by exact Ht. exact H.
      * apply ineq_holds_vle. specialize (H N ltac:(apply in_seq; lia)). cbv beta in H. unfold hm in H. rewrite Nat.ltb_irrefl, TERM in H by apply L5. exact H.
    + intros (H1 & H2) t Ht. apply in_seq in Ht. cbv beta. unfold hm. destruct (Nat.ltb_spec t N) as [Q1|Q1].
      * specialize (H1 t Q1). apply STEP in H1; [exact H1|exact Q1].
      * rewrite TERM by apply L5. apply ineq_holds_vle. exact H2.
Qed.

(** ** C49: the big-M constants *)
Lemma mapM_inv {A B} (f : A -> res B) l ys : mapM f l = Ok ys -> Forall2 (fun a y => f a = Ok y) l ys.
Proof.
  revert ys. induction l as [|a l IH]; intros ys H; cbn in H; [injection H as <-; constructor|].
  destruct (f a) eqn:E; cbn [bind] in H; [|discriminate]. destruct (mapM f l) eqn:E2; cbn [bind] in H; [|discriminate]. injection H as <-. constructor; auto.
Qed.
Lemma mapM_nth {A B} (f : A -> res B) l ys da db : mapM f l = Ok ys -> length ys = length l /\ forall i, (i < length l)%nat -> f (nth i l da) = Ok (nth i ys db).
Proof.
  intros H. apply mapM_inv in H. split; [clear - H; induction H; cbn; congruence|]. induction H as [|a y l ys Ha H IH]; cbn; intros i Hi; [lia|]. destruct i; [exact Ha|]. apply IH. lia.
Qed.
Lemma mapM_err {A B} (f : A -> res B) l a e : In a l -> f a = Err e -> exists e', mapM f l = Err e'.
Proof.
  intros Ia Ha. induction l as [|b l IH]; [destruct Ia|]. cbn. destruct Ia as [<-|Ia].
  - rewrite Ha. cbn [bind]. eauto.
  - destruct (f b); cbn [bind]; [|eauto]. destruct (IH Ia) as (e' & ->). cbn [bind]. eauto.
Qed.
Lemma mapM_total {A B} (f : A -> res B) l : (forall a, In a l -> exists b, f a = Ok b) -> exists ys, mapM f l = Ok ys.
Proof.
  induction l as [|a l IH]; intros H; [exists []; reflexivity|]. cbn. destruct (H a (or_introl eq_refl)) as (b & ->). cbn [bind]. destruct IH as (ys & ->); [intros c Hc; apply H; right; exact Hc|]. cbn [bind]. eauto.
Qed.
Section BigM.
Variables (np : numpy) (n : nat).
Hypothesis ENP : exact_np np.
Lemma lp_min_exact f D m me : wf D m me n -> length f = n -> (exists x, in_poly D x) -> (exists M, forall x, in_poly D x -> M <= dot f x) ->
  exists v, lp_min np f D = Ok v /\ least (in_poly D) (dot f) v.
Proof.
  intros (WA & Wb & WC & Wd) Lf NEm BD. pose proof ENP as (Q1 & Q2 & _).
  destruct (lp_optimality np tol7 f (pA D) (pb D) (Some (pC D)) (Some (pd D)) (pC D) (pd D) m me n Q1 Q2 tol7_pos WA Wb WC Wd Lf) as (s & x & E & Ex & Em & (O1 & O2)).
  - left. auto.
  - split; assumption.
  - exists (dot f x). unfold lp_min, lp. rewrite E. cbn [bind]. rewrite Em. split; [reflexivity|]. split; [exists x; split; [exact O1|reflexivity]|]. exact O2.
Qed.
(** no point satisfies the constraints within tol7 *)
Definition far_from_feasible (D : poly) : Prop := forall x, length x = ncols (pA D) ->
  ~ ((forall i, (i < length (pb D))%nat -> dot (row (pA D) i) x < nth i (pb D) 0 + tol7) /\ forall i, (i < length (pd D))%nat -> Rabs (dot (row (pC D) i) x - nth i (pd D) 0) < tol7).
(** a direction of the recession cone along which f decreases at a rate above tol7 *)
Definition steep_ray (D : poly) (f z : vec) : Prop :=
  length z = ncols (pA D) /\ (forall i, (i < length (pb D))%nat -> dot (row (pA D) i) z <= 0) /\ (forall i, (i < length (pd D))%nat -> dot (row (pC D) i) z = 0) /\ dot f z < - tol7 * norm z.
Lemma lp_min_raises f D m me : wf D m me n -> length f = n -> far_from_feasible D \/ (exists z, steep_ray D f z) -> lp_min np f D = Err TypeError.
Proof.
  intros (WA & Wb & WC & Wd) Lf H. pose proof ENP as (Q1 & Q2 & _). assert (NC : ncols (pA D) = n) by apply WA.
  unfold lp_min, lp. destruct (Pnnls.linear_program np tol7 f (pA D) (pb D) (Some (pC D)) (Some (pd D))) as [s|e] eqn:E.
  2:{ discriminate E. }
  cbn [bind]. destruct (s_min s) as [v|] eqn:Em; [|reflexivity]. exfalso.
  destruct (lp_none np tol7 f (pA D) (pb D) (Some (pC D)) (Some (pd D)) (pC D) (pd D) m me n s Q1 Q2 tol7_pos WA Wb WC Wd Lf ltac:(left; auto) E) as (N1 & _ & N3).
  destruct (s_argmin s) as [x|] eqn:Ex.
  - destruct (N3 x eq_refl) as (_ & Lx & F1 & F2 & l & nu & Ll & Pl & Lnu & _ & DF). destruct H as [H|(z & Lz & Rz & Ez & Sz)].
    + apply (H x); [rewrite NC; exact Lx|]. rewrite Wb, Wd. auto.
    + rewrite NC in Lz. specialize (DF z Lz). assert (G1 : dot l (mv (pA D) z) <= 0).
      { rewrite <- (dot_zeros_r m l). apply dot_vle.
        - apply vle_zeros_Forall. exact Pl.
        - apply vle_nth. rewrite mv_length, (proj1 WA), zeros_length. split; [reflexivity|]. intros i Hi. rewrite nth_zeros, nth_mv. apply Rz. lia. }
      assert (G2 : mv (pC D) z = zeros me).
      { apply (nth_ext _ _ 0 0); [rewrite mv_length, zeros_length; apply WC|]. rewrite mv_length, (proj1 WC). intros i Hi. rewrite nth_zeros, nth_mv. apply Ez. lia. }
      rewrite G2, dot_zeros_r in DF. unfold Rabs in DF. destruct (Rcase_abs _) in DF; lra.
  - assert (SN : s_min s = None).
    { clear - E Ex. cbn [Pnnls.linear_program] in E. injection E as <-. unfold lp_core in *. destruct (stack_eq _ _ _ _) as (AC, bd). destruct (pnnls np _ _ _) as ((ys & x) & r). destruct (Rltb r tol7); [discriminate Ex|reflexivity]. }
    congruence.
Qed.
End BigM.
Lemma least_scale (S : vec -> Prop) g h v c : (forall x, S x -> h x = g x + c) -> least S g v -> least S h (v + c).
Proof. intros H ((x & Sx & E) & L). split; [exists x; split; [exact Sx|rewrite H by exact Sx; lra]|]. intros y Sy. rewrite H by exact Sy. specialize (L y Sy). lra. Qed.
Lemma least_neg (S : vec -> Prop) g h v c : (forall x, S x -> h x = - g x + c) -> least S g v -> greatest S h (- v + c).
Proof. intros H ((x & Sx & E) & L). split; [exists x; split; [exact Sx|rewrite H by exact Sx; lra]|]. intros y Sy. rewrite H by exact Sy. specialize (L y Sy). lra. Qed.
Definition dyn_row (W : pwa) i r : vec := row (hstack (aA (sys_at W i)) (aB (sys_at W i))) r.
Definition f_at (W : pwa) (nx : nat) i (xu : vec) : vec := affine_step (aA (sys_at W i)) (aB (sys_at W i)) (ac (sys_at W i)) (firstn nx xu) (skipn nx xu).
Lemma bigm_built np W nx nu alpha beta gamma : hyb_data W nx nu -> get_bigM_dynamics np W = Ok (alpha, beta) -> get_bigM_domains np W = Ok gamma ->
  bigm_shape W nx alpha beta gamma /\
  forall i j, (i < length (w_sys W))%nat -> (j < length (w_sys W))%nat ->
    (forall r, (r < nx)%nat -> exists m m', lp_min np (dyn_row W i r) (dom_at W j) = Ok m /\ nth r (nth j (nth i alpha []) []) 0 = m + nth r (ac (sys_at W i)) 0 /\
       lp_min np (vneg (dyn_row W i r)) (dom_at W j) = Ok m' /\ nth r (nth j (nth i beta []) []) 0 = - m' + nth r (ac (sys_at W i)) 0) /\
    (forall r, (r < nrows (pA (dom_at W i)))%nat -> exists m, lp_min np (vneg (row (pA (dom_at W i)) r)) (dom_at W j) = Ok m /\ nth r (nth j (nth i gamma []) []) 0 = - m - nth r (pb (dom_at W i)) 0).
Proof.
  intros (HW & HU & HS & LD & HD) Hd Hg. pose proof HS as (_ & HSh).
  unfold get_bigM_dynamics in Hd. match type of Hd with bind ?m _ = _ => destruct m as [ab|e] eqn:Eab; cbn [bind] in Hd; [|discriminate] end. injection Hd as <- <-.
  destruct (mapM_nth _ _ _ asys0 [] Eab) as (L1 & V1). clear Eab.
  assert (INN : forall i j, (i < length (w_sys W))%nat -> (j < length (w_sys W))%nat -> length (nth i ab []) = length (w_sys W) /\ bigM_dynamics_ij np (sys_at W i) (dom_at W j) = Ok (nth j (nth i ab []) ([], []))).
  { intros i j Hi Hj. specialize (V1 i Hi). destruct (mapM_nth _ _ _ 0%nat ([], []) V1) as (L2 & V2). rewrite seq_length in L2, V2. split; [exact L2|]. specialize (V2 j Hj). rewrite seq_nth in V2 by exact Hj. cbn [Nat.add] in V2.
    rewrite (nth_error_nth' _ poly0) in V2 by (rewrite LD; exact Hj). exact V2. }
  assert (NA : forall (g : vec * vec -> vec) i j, (i < length (w_sys W))%nat -> (j < length (w_sys W))%nat -> nth j (nth i (map (map g) ab) []) [] = g (nth j (nth i ab []) ([], []))).
  { intros g i j Hi Hj. rewrite (nth_indep _ [] (map g [])) by (rewrite map_length, L1; exact Hi). rewrite (map_nth (map g)). rewrite (nth_indep _ [] (g ([], []))) by (rewrite map_length, (proj1 (INN i j Hi Hj)); exact Hj). apply map_nth. }
  assert (DYN : forall i j, (i < length (w_sys W))%nat -> (j < length (w_sys W))%nat ->
     length (fst (nth j (nth i ab []) ([], []))) = nx /\ length (snd (nth j (nth i ab []) ([], []))) = nx /\
     forall r, (r < nx)%nat -> exists m m', lp_min np (dyn_row W i r) (dom_at W j) = Ok m /\ nth r (fst (nth j (nth i ab []) ([], []))) 0 = m + nth r (ac (sys_at W i)) 0 /\
       lp_min np (vneg (dyn_row W i r)) (dom_at W j) = Ok m' /\ nth r (snd (nth j (nth i ab []) ([], []))) 0 = - m' + nth r (ac (sys_at W i)) 0).
  { intros i j Hi Hj. destruct (INN i j Hi Hj) as (_ & E). unfold bigM_dynamics_ij in E. match type of E with bind ?m _ = _ => destruct m as [l|e] eqn:El; cbn [bind] in E; [|discriminate] end.
    assert (El' : anx (sys_at W i) = nx). { unfold anx. destruct (HSh (sys_at W i) (nth_In _ _ Hi)) as ((Q1 & Q2) & Q3). unfold nrows. apply Q2. }
    rewrite El' in El. destruct (mapM_nth _ _ _ 0%nat (0, 0) El) as (L2 & V2). rewrite seq_length in L2, V2. clear El.
    unfold column in E. destruct (map fst l) as [|a1 l1] eqn:E1; cbn [bind] in E; [discriminate|]. destruct (map snd l) as [|a2 l2] eqn:E2; cbn [bind] in E; [discriminate|]. injection E as E. rewrite <- E. cbn [fst snd]. rewrite <- E1, <- E2. rewrite !map_length. split; [exact L2|]. split; [exact L2|].
    intros r Hr. specialize (V2 r Hr). rewrite seq_nth in V2 by exact Hr. cbn [Nat.add] in V2. fold (dyn_row W i r) in V2.
    destruct (lp_min np (dyn_row W i r) (dom_at W j)) as [m|] eqn:M1; cbn [bind] in V2; [|discriminate]. destruct (lp_min np (vneg (dyn_row W i r)) (dom_at W j)) as [m'|] eqn:M2; cbn [bind] in V2; [|discriminate].
    injection V2 as V2. exists m, m'. change 0 with (fst (0, 0)) at 1. rewrite (map_nth fst). change 0 with (snd (0, 0)) at 4. rewrite (map_nth snd). rewrite <- V2. auto. }
  unfold get_bigM_domains in Hg. destruct (mapM_nth _ _ _ poly0 [] Hg) as (L3 & V3). clear Hg.
  assert (DOM : forall i j, (i < length (w_sys W))%nat -> (j < length (w_sys W))%nat -> length (nth j (nth i gamma []) []) = nrows (pA (dom_at W i)) /\
    forall r, (r < nrows (pA (dom_at W i)))%nat -> exists m, lp_min np (vneg (row (pA (dom_at W i)) r)) (dom_at W j) = Ok m /\ nth r (nth j (nth i gamma []) []) 0 = - m - nth r (pb (dom_at W i)) 0).
  { intros i j Hi Hj. specialize (V3 i ltac:(rewrite LD; exact Hi)). destruct (mapM_nth _ _ _ poly0 [] V3) as (L4 & V4). specialize (V4 j ltac:(rewrite LD; exact Hj)). fold (dom_at W i) (dom_at W j) in V4. unfold bigM_domains_ij in V4.
    match type of V4 with bind ?m _ = _ => destruct m as [l|e] eqn:El; cbn [bind] in V4; [|discriminate] end. destruct (mapM_nth _ _ _ 0%nat 0 El) as (L5 & V5). rewrite seq_length in L5, V5.
    assert (El2 : l = nth j (nth i gamma []) []) by (unfold column in V4; destruct l; [discriminate|]; injection V4 as V4; exact V4). rewrite <- El2. split; [exact L5|].
    intros r Hr. specialize (V5 r Hr). rewrite seq_nth in V5 by exact Hr. cbn [Nat.add] in V5. destruct (lp_min np (vneg (row (pA (dom_at W i)) r)) (dom_at W j)) as [m|] eqn:M1; cbn [bind] in V5; [|discriminate]. injection V5 as V5. exists m. auto. }
  split.
  - unfold bigm_shape. rewrite !map_length, L1, L3, LD. repeat match goal with |- _ /\ _ => split end; try reflexivity. intros i j Hi Hj. rewrite !NA by assumption. destruct (DYN i j Hi Hj) as (Q1 & Q2 & _). destruct (DOM i j Hi Hj) as (Q3 & _). auto.
  - intros i j Hi Hj. rewrite !NA by assumption. split; [apply (DYN i j Hi Hj)|apply (DOM i j Hi Hj)].
Qed.
Lemma dyn_row_ok W nx nu i r : hyb_data W nx nu -> (i < length (w_sys W))%nat -> (r < nx)%nat -> length (dyn_row W i r) = (nx + nu)%nat /\
  forall xu, length xu = (nx + nu)%nat -> nth r (f_at W nx i xu) 0 = dot (dyn_row W i r) xu + nth r (ac (sys_at W i)) 0.
Proof.
  intros (HW & HU & (_ & HSh) & LD & HD) Hi Hr. destruct (HSh (sys_at W i) (nth_In _ _ Hi)) as ((Q1 & Q2) & Q3). split.
  - apply (shape_row _ nx); [apply shape_hstack; assumption|exact Hr].
  - intros xu L. unfold f_at, affine_step. rewrite !nth_vadd by (rewrite ?vadd_length, !mv_length, (proj1 Q1), (proj1 Q2); lia). f_equal.
    transitivity (nth r (mv (hstack (aA (sys_at W i)) (aB (sys_at W i))) (firstn nx xu ++ skipn nx xu)) 0).
    + rewrite (mv_hstack _ _ nx nx nu) by (auto; rewrite firstn_length; lia). rewrite nth_vadd by (rewrite !mv_length, (proj1 Q1); symmetry; apply Q2). reflexivity.
    + rewrite firstn_skipn. apply nth_mv.
Qed.
(*@ Theorem C49_bigM_exact : If no domain is empty, none has an empty list of inequalities, and over every domain all components of all the affine dynamics and all left-hand sides of all the domains are bounded, the controller's big-M constants are computed, and alpha_ij, beta_ij, gamma_ij are the exact (attained) minima and maxima over the domain j of the dynamics i and of the inequalities i. *)
Lemma bigM_exact np W nx nu : exact_np np -> hyb_data W nx nu -> (0 < nx)%nat ->
  (forall D, In D (w_dom W) -> (exists xu, in_poly D xu) /\ pb D <> []) ->
  let s := length (w_sys W) in
  (forall i j, (i < s)%nat -> (j < s)%nat -> (forall r, (r < nx)%nat -> bounded_on (in_poly (dom_at W j)) (fun xu => nth r (f_at W nx i xu) 0)) /\
     forall r, (r < length (pb (dom_at W i)))%nat -> bounded_on (in_poly (dom_at W j)) (fun xu => dot (row (pA (dom_at W i)) r) xu)) ->
  exists alpha beta gamma, get_bigM_dynamics np W = Ok (alpha, beta) /\ get_bigM_domains np W = Ok gamma /\ bigm_shape W nx alpha beta gamma /\
  forall i j, (i < s)%nat -> (j < s)%nat ->
    (forall r, (r < nx)%nat -> least (in_poly (dom_at W j)) (fun xu => nth r (f_at W nx i xu) 0) (nth r (nth j (nth i alpha []) []) 0) /\
                               greatest (in_poly (dom_at W j)) (fun xu => nth r (f_at W nx i xu) 0) (nth r (nth j (nth i beta []) []) 0)) /\
    (forall r, (r < length (pb (dom_at W i)))%nat -> greatest (in_poly (dom_at W j)) (fun xu => dot (row (pA (dom_at W i)) r) xu - nth r (pb (dom_at W i)) 0) (nth r (nth j (nth i gamma []) []) 0)).
Proof.
  intros ENP HW Hnx HD s HB. pose proof HW as (EW & EU & (NE & HSh) & LD & HWf).
  assert (WD : forall j, (j < s)%nat -> In (dom_at W j) (w_dom W)) by (intros j Hj; apply nth_In; rewrite LD; exact Hj).
  assert (LEN : forall j xu, (j < s)%nat -> in_poly (dom_at W j) xu -> length xu = (nx + nu)%nat).
  { intros j xu Hj (L & _). destruct (HWf _ (WD j Hj)) as (m & me & (WA & _)). rewrite L. apply WA. }
  assert (LPb : forall i, (i < s)%nat -> nrows (pA (dom_at W i)) = length (pb (dom_at W i))).
  { intros i Hi. destruct (HWf _ (WD i Hi)) as (m & me & (WA & Wb & _)). rewrite Wb. apply WA. }
  assert (MIN : forall j f, (j < s)%nat -> length f = (nx + nu)%nat -> bounded_on (in_poly (dom_at W j)) (dot f) -> exists v, lp_min np f (dom_at W j) = Ok v /\ least (in_poly (dom_at W j)) (dot f) v).
  { intros j f Hj Lf (M & HM). destruct (HWf _ (WD j Hj)) as (m & me & WF). apply (lp_min_exact np (nx + nu) ENP f _ m me WF Lf); [apply HD, WD, Hj|]. exists (- M). intros x Hx. specialize (HM x Hx). unfold Rabs in HM. destruct (Rcase_abs _) in HM; lra. }
  assert (NEG : forall (S : vec -> Prop) f, bounded_on S (dot f) -> bounded_on S (dot (vneg f))) by (intros S f (M & HM); exists M; intros x Hx; rewrite dot_vneg_l, Rabs_Ropp; auto).
  assert (BR : forall i j r, (i < s)%nat -> (j < s)%nat -> (r < nx)%nat -> bounded_on (in_poly (dom_at W j)) (dot (dyn_row W i r))).
  { intros i j r Hi Hj Hr. destruct (proj1 (HB i j Hi Hj) r Hr) as (M & HM). exists (M + Rabs (nth r (ac (sys_at W i)) 0)). intros x Hx. specialize (HM x Hx). rewrite (proj2 (dyn_row_ok W nx nu i r HW Hi Hr)) in HM by (eapply LEN; eauto).
    replace (dot (dyn_row W i r) x) with (dot (dyn_row W i r) x + nth r (ac (sys_at W i)) 0 + - nth r (ac (sys_at W i)) 0) by ring. eapply Rle_trans; [apply Rabs_triang|]. rewrite Rabs_Ropp. lra. }
  assert (exists ab, get_bigM_dynamics np W = Ok ab) as ((alpha & beta) & Ed).
  { unfold get_bigM_dynamics. match goal with |- context [bind ?m _] => assert (exists l, m = Ok l) as (l & ->) end.
    - eapply mapM_total. intros S_i HS_i. apply (In_nth _ _ asys0) in HS_i. destruct HS_i as (i & Hi & <-). eapply mapM_total. intros j Hj. apply in_seq in Hj. rewrite (nth_error_nth' _ poly0) by (rewrite LD; lia).
      fold (sys_at W i) (dom_at W j). unfold bigM_dynamics_ij. assert (El' : anx (sys_at W i) = nx) by (unfold anx, nrows; apply (HSh (sys_at W i) (nth_In _ _ Hi))). rewrite El'.
      match goal with |- context [bind ?m _] => assert (exists l, m = Ok l) as (l & El) end.
      + eapply mapM_total. intros r Hr. apply in_seq in Hr. fold (dyn_row W i r). destruct (dyn_row_ok W nx nu i r HW Hi ltac:(lia)) as (Lr & _).
        destruct (MIN j (dyn_row W i r) ltac:(unfold s; lia) Lr (BR i j r Hi ltac:(unfold s; lia) ltac:(lia))) as (v & -> & _). cbn [bind].
        destruct (MIN j (vneg (dyn_row W i r)) ltac:(unfold s; lia) ltac:(rewrite vneg_length; exact Lr) (NEG _ _ (BR i j r Hi ltac:(unfold s; lia) ltac:(lia)))) as (v' & -> & _). cbn [bind]. eauto.
      + destruct (mapM_nth _ _ _ 0%nat (0, 0) El) as (L2 & _). rewrite seq_length in L2. rewrite El. cbn [bind]. destruct l as [|p l]; [cbn in L2; lia|]. cbn [map column bind]. eauto.
    - cbn [bind]. eauto. }
  assert (exists g, get_bigM_domains np W = Ok g) as (gamma & Eg).
  { eapply mapM_total. intros D_i HDi. apply (In_nth _ _ poly0) in HDi. destruct HDi as (i & Hi & <-). rewrite LD in Hi. eapply mapM_total. intros D_j HDj. apply (In_nth _ _ poly0) in HDj. destruct HDj as (j & Hj & <-). rewrite LD in Hj. fold (dom_at W i) (dom_at W j).
    unfold bigM_domains_ij. match goal with |- context [bind ?m _] => assert (exists l, m = Ok l) as (l & El) end.
    - eapply mapM_total. intros r Hr. apply in_seq in Hr. rewrite LPb in Hr by exact Hi. destruct (HWf _ (WD i Hi)) as (m & me & (WA & Wb & _)).
      destruct (MIN j (vneg (row (pA (dom_at W i)) r)) Hj) as (v & -> & _).
      + rewrite vneg_length. apply (shape_row _ m); [exact WA|lia].
      + apply NEG. apply (proj2 (HB i j Hi Hj)). lia.
      + cbn [bind]. eauto.
    - destruct (mapM_nth _ _ _ 0%nat 0 El) as (L2 & _). rewrite seq_length in L2. rewrite El. cbn [bind]. rewrite LPb in L2 by exact Hi. destruct (HD _ (WD i Hi)) as (_ & NB). destruct l as [|p l]; [exfalso; apply NB; destruct (pb (dom_at W i)); [reflexivity|cbn in L2; lia]|]. cbn [column]. eauto. }
  exists alpha, beta, gamma. split; [exact Ed|]. split; [exact Eg|]. destruct (bigm_built np W nx nu alpha beta gamma HW Ed Eg) as (SH & V). split; [exact SH|].
  intros i j Hi Hj. destruct (V i j Hi Hj) as (V1 & V2). split.
  - intros r Hr. destruct (V1 r Hr) as (m & m' & M1 & -> & M2 & ->). destruct (dyn_row_ok W nx nu i r HW Hi Hr) as (Lr & Er).
    destruct (MIN j _ Hj Lr (BR i j r Hi Hj Hr)) as (v & Q1 & Q2). rewrite Q1 in M1. injection M1 as <-.
    destruct (MIN j (vneg (dyn_row W i r)) Hj ltac:(rewrite vneg_length; exact Lr) (NEG _ _ (BR i j r Hi Hj Hr))) as (v' & Q3 & Q4). rewrite Q3 in M2. injection M2 as <-. split.
    + eapply least_scale; [|exact Q2]. intros x Hx. apply Er. eapply LEN; eauto.
    + eapply least_neg; [|exact Q4]. intros x Hx. rewrite dot_vneg_l, Er by (eapply LEN; eauto). ring.
  - intros r Hr. rewrite LPb in V2 by exact Hi. destruct (V2 r Hr) as (m & M1 & ->). destruct (HWf _ (WD i Hi)) as (mi & mei & (WA & Wb & _)).
    destruct (MIN j (vneg (row (pA (dom_at W i)) r)) Hj) as (v & Q1 & Q2).
    + rewrite vneg_length. apply (shape_row _ mi); [exact WA|lia].
    + apply NEG. apply (proj2 (HB i j Hi Hj)). exact Hr.
    + rewrite Q1 in M1. injection M1 as <-. eapply (least_neg _ _ _ _ (- nth r (pb (dom_at W i)) 0)); [|exact Q2]. intros x Hx. cbv beta. rewrite dot_vneg_l. ring.
Qed.
(*@ Theorem C49_raises_partial : The constructor of the hybrid controller raises if some domain is infeasible by more than the solver tolerance, or if over some domain a component of some dynamics, or some inequality, is unbounded along a ray with a slope above the tolerance.  (Unqualified, the claim is false: see C49_empty_refuted and C49_unbounded_refuted.) *)
Lemma bigM_raises np W nx nu N Q Rm P X_N : exact_np np -> hyb_data W nx nu -> (0 < nx)%nat ->
  let s := length (w_sys W) in
  (exists j, (j < s)%nat /\ far_from_feasible (dom_at W j)) \/
  (exists i j r z, (i < s)%nat /\ (j < s)%nat /\ (r < nx)%nat /\
     let f := row (aA (sys_at W i)) r ++ row (aB (sys_at W i)) r in steep_ray (dom_at W j) f z \/ steep_ray (dom_at W j) (vneg f) z) \/
  (exists i j r z, (i < s)%nat /\ (j < s)%nat /\ (r < length (pb (dom_at W i)))%nat /\ steep_ray (dom_at W j) (vneg (row (pA (dom_at W i)) r)) z) ->
  exists e, HybridModelPredictiveController np W N Q Rm P X_N = Err e.
Proof.
  intros ENP HW Hnx s H. destruct (HybridModelPredictiveController np W N Q Rm P X_N) as [C|e] eqn:E; [exfalso|eauto].
  unfold HybridModelPredictiveController in E. destruct (get_bigM_dynamics np W) as [(alpha & beta)|] eqn:Ed; cbn [bind] in E; [|discriminate]. destruct (get_bigM_domains np W) as [gamma|] eqn:Eg; cbn [bind] in E; [|discriminate]. clear E.
  destruct (bigm_built np W nx nu alpha beta gamma HW Ed Eg) as (_ & V). clear Ed Eg. pose proof HW as (EW & EU & (NE & HSh) & LD & HWf).
  assert (WD : forall j, (j < s)%nat -> exists m me, wf (dom_at W j) m me (nx + nu)) by (intros j Hj; apply HWf, nth_In; rewrite LD; exact Hj).
  assert (RW : forall i r, (i < s)%nat -> (r < nx)%nat -> dyn_row W i r = row (aA (sys_at W i)) r ++ row (aB (sys_at W i)) r).
  { intros i r Hi Hr. destruct (HSh (sys_at W i) (nth_In _ _ Hi)) as ((Q1 & Q2) & Q3). unfold dyn_row, row, hstack. cbn [rows]. rewrite (nth_map2 _ _ _ _ [] []) by (rewrite ?(proj1 Q1), ?(proj1 Q2); exact Hr). reflexivity. }
  destruct H as [(j & Hj & Hf)|[(i & j & r & z & Hi & Hj & Hr & Hz)|(i & j & r & z & Hi & Hj & Hr & Hz)]].
  - destruct (V j j Hj Hj) as (V1 & _). destruct (V1 0%nat Hnx) as (m & m' & M1 & _). destruct (WD j Hj) as (k & ke & WF). destruct (dyn_row_ok W nx nu j 0 HW Hj Hnx) as (L & _).
    rewrite (lp_min_raises np (nx + nu) ENP _ _ k ke WF L) in M1 by auto. discriminate.
  - cbv zeta in Hz. rewrite <- RW in Hz by assumption. destruct (V i j Hi Hj) as (V1 & _). destruct (V1 r Hr) as (m & m' & M1 & _ & M2 & _). destruct (WD j Hj) as (k & ke & WF). destruct (dyn_row_ok W nx nu i r HW Hi Hr) as (L & _). destruct Hz as [Hz|Hz].
    + rewrite (lp_min_raises np (nx + nu) ENP _ _ k ke WF L) in M1 by eauto. discriminate.
    + rewrite (lp_min_raises np (nx + nu) ENP (vneg (dyn_row W i r)) _ k ke WF) in M2 by (rewrite ?vneg_length; eauto). discriminate.
  - destruct (V i j Hi Hj) as (_ & V2). destruct (WD i Hi) as (ki & kei & (WA & Wb & _)). destruct (V2 r) as (m & M1 & _); [unfold nrows; rewrite (proj1 WA), <- Wb; exact Hr|]. destruct (WD j Hj) as (k & ke & WF).
    assert (LR : length (vneg (row (pA (dom_at W i)) r)) = (nx + nu)%nat) by (rewrite vneg_length; apply (shape_row _ ki); [exact WA|lia]).
    rewrite (lp_min_raises np (nx + nu) ENP _ _ k ke WF LR) in M1 by eauto. discriminate.
Qed.

Lemma lp_min_small np f A b m n x y sl e bd r c v : exact_np np -> shape A m n -> length b = m -> length f = n ->
  length x = n -> length y = m -> length sl = m -> nonneg y -> nonneg sl ->
  norm (vsub (0 :: b ++ vneg f) ((dot b y + dot f x) :: vadd sl (mv A x) ++ mv (tr A) y)) < tol7 ->
  exists w, lp_min np f (Poly A b (Mat n []) [] e bd r c v) = Ok w.
Proof.
  intros (Q1 & Q2 & _) HA Hb Hf Lx Ly Ls Ny Ns H. destruct (lp_small_residual np tol7 f A b m n x y sl Q1 Q2 HA Hb Hf Lx Ly Ls Ny Ns H) as (s & x' & E & Ex).
  rewrite (linear_program_core np tol7 f A b None None (Mat n []) [] m n HA) in E by (right; auto). injection E as E.
  unfold lp_min, lp. cbn [pA pb pC pd]. rewrite (linear_program_core np tol7 f A b (Some (Mat n [])) (Some []) (Mat n []) [] m n HA) by (left; auto). cbn [bind]. rewrite E. clear - E Ex.
  unfold lp_core in E. destruct (stack_eq A b (Mat n []) []) as (AC & bd). destruct (pnnls _ _ _ _) as ((ys, x0), r). destruct (Rltb r tol7); subst s; [cbn; eauto|discriminate].
Qed.
Definition eps8 : R := / 100000000.
Lemma norm_tol v : dot v v <= tol7 / 2 * (tol7 / 2) -> norm v < tol7.
Proof. intros H. pose proof tol7_pos. unfold norm. apply Rle_lt_trans with (sqrt (tol7 / 2 * (tol7 / 2))); [apply sqrt_le_1_alt, H|]. rewrite sqrt_square by lra. lra. Qed.
Definition Sys1 (a : R) : asys := ASys (Mat 1 [[a]]) (Mat 1 [[1]]) [0].
Definition D_strip : poly := Poly (Mat 2 [[0; 1]; [0; -1]]) [1; 1] (Mat 2 []) [] None None None None None.
Definition D_none : poly := Poly (Mat 2 [[1; 0]; [-1; 0]; [0; 1]; [0; -1]]) [0; - eps8; 1; 1] (Mat 2 []) [] None None None None None.
Definition W1 (a : R) (D : poly) : pwa := PWA 1 1 [Sys1 a] [D].
Lemma hyb_W1 a D m me : wf D m me 2 -> hyb_data (W1 a D) 1 1.
Proof.
  intros WF. unfold hyb_data. cbn [w_nx w_nu w_sys w_dom W1]. repeat match goal with |- _ /\ _ => split end; try reflexivity.
  - split; [discriminate|]. intros s [<-|[]]. unfold system_shape, shape. cbn. repeat split; repeat constructor.
  - intros E [<-|[]]. exists m, me. exact WF.
Qed.
Lemma W1_built np N a D m me ms : wf D m me 2 -> (0 < N)%nat ->
  (exists v, lp_min np [a; 1] D = Ok v) -> (exists v, lp_min np (vneg [a; 1]) D = Ok v) -> ms <> [] -> rows (pA D) = ms -> (forall r, In r ms -> exists v, lp_min np (vneg r) D = Ok v) ->
  exists C, HybridModelPredictiveController np (W1 a D) N I_1 I_1 I_1 X_int = Ok C.
Proof.
  intros WF HN (v1 & E1) (v2 & E2) NE EA HR.
  assert (exists ab, get_bigM_dynamics np (W1 a D) = Ok ab) as ((alpha & beta) & Ed).
  { unfold get_bigM_dynamics. cbn -[lp_min]. unfold bigM_dynamics_ij. cbn -[lp_min]. unfold row. cbn -[lp_min]. rewrite E1. cbn -[lp_min]. change [- a; -(1)] with (vneg [a; 1]). rewrite E2. cbn. eauto. }
  assert (exists g, get_bigM_domains np (W1 a D) = Ok g) as (gamma & Eg).
  { unfold get_bigM_domains. cbn -[bigM_domains_ij]. assert (exists g, bigM_domains_ij np D D = Ok g) as (g & ->); [|cbn; eauto]. unfold bigM_domains_ij.
    match goal with |- context [bind ?m _] => assert (exists l, m = Ok l) as (l & El) end.
    - apply mapM_total. intros r Hr. apply in_seq in Hr. destruct (HR (row (pA D) r)) as (v & ->); [rewrite <- EA; apply nth_In; unfold nrows in Hr; lia|]. cbn [bind]. eauto.
    - destruct (mapM_nth _ _ _ 0%nat 0 El) as (L2 & _). rewrite seq_length in L2. rewrite El. cbn [bind]. unfold nrows in L2. rewrite EA in L2. destruct ms; [congruence|]. destruct l; [discriminate|]. cbn. eauto. }
  unfold HybridModelPredictiveController. rewrite Ed. cbn [bind]. rewrite Eg. cbn [bind].
  pose proof (hyb_W1 a D m me WF) as HW. destruct (bigm_built np _ 1 1 alpha beta gamma HW Ed Eg) as (SH & _).
  assert (S1 : shape I_1 1 1) by (unfold shape; cbn; repeat split; repeat constructor).
  destruct (hybrid_program _ N I_1 I_1 I_1 X_int alpha beta gamma 1 1 2 0 HW SH HN S1 S1 S1 wf_X_int) as (q & k & Eq & _). rewrite Eq. cbn [bind]. eauto.
Qed.
Ltac small_lp x0 y0 s0 := eapply (lp_min_small _ _ _ _ _ 2 x0 y0 s0);
  [assumption|unfold shape; cbn; repeat split; repeat constructor|reflexivity|reflexivity|reflexivity|reflexivity|reflexivity| | |];
  [unfold nonneg; repeat (apply Forall_cons; [lra|]); constructor|unfold nonneg; repeat (apply Forall_cons; [lra|]); constructor|
   apply norm_tol; unfold tol7, eps8; cbn; lra].
(*@ Theorem C49_unbounded_refuted : The construction does not always raise for an unbounded domain: with the dynamics 1e-8 x + u on the domain |u| <= 1 (x free) the controller is built although the next state is unbounded on the domain. *)
Lemma bigM_unbounded : exists W N Q Rm P X_N, hyb_data W 1 1 /\ (forall M, exists xu, in_poly (dom_at W 0) xu /\ M < nth 0 (f_at W 1 0 xu) 0) /\
  forall np, exact_np np -> exists C, HybridModelPredictiveController np W N Q Rm P X_N = Ok C.
Proof.
  exists (W1 eps8 D_strip), 1%nat, I_1, I_1, I_1, X_int. assert (WF : wf D_strip 2 0 2) by (unfold wf; simpl; repeat split; repeat constructor). split; [|split].
  - exact (hyb_W1 _ _ _ _ WF).
  - intros M. exists [(M + 1) / eps8; 0]. split.
    + split; [reflexivity|]. split; [|constructor]. unfold ineq_holds. cbn [pA pb dom_at W1 w_dom nth D_strip rows]. rows_ok.
    + unfold f_at, affine_step. cbn. unfold eps8. field_simplify. lra.
  - intros np Hnp. apply (W1_built np 1 eps8 D_strip 2 0 [[0; 1]; [0; -1]] WF); [lia| | |discriminate|reflexivity|].
    + small_lp [0; -1] [0; 1] [2; 0].
    + small_lp [0; 1] [1; 0] [0; 2].
    + intros r [<-|[<-|[]]].
      * small_lp [0; 1] [1; 0] [0; 2].
      * small_lp [0; -1] [0; 1] [2; 0].
Qed.
(*@ Theorem C49_empty_refuted : The construction does not always raise for an empty domain: for the domain x <= 0, x >= 1e-8, |u| <= 1 the controller is built. *)
Lemma bigM_empty : exists W N Q Rm P X_N, hyb_data W 1 1 /\ (forall xu, ~ in_poly (dom_at W 0) xu) /\
  forall np, exact_np np -> exists C, HybridModelPredictiveController np W N Q Rm P X_N = Ok C.
Proof.
  exists (W1 1 D_none), 1%nat, I_1, I_1, I_1, X_int. assert (WF : wf D_none 4 0 2) by (unfold wf; simpl; repeat split; repeat constructor). split; [|split].
  - exact (hyb_W1 _ _ _ _ WF).
  - intros xu (L & H & _). cbn in L. destruct xu as [|x [|u [|]]]; try discriminate. unfold ineq_holds in H. cbn in H. inv2 H. unfold eps8 in *. lra.
  - intros np Hnp. apply (W1_built np 1 1 D_none 4 0 [[1; 0]; [-1; 0]; [0; 1]; [0; -1]] WF); [lia| | |discriminate|reflexivity|].
    + small_lp [0; -1] [0; 1; 0; 1] [0; 0; 2; 0].
    + small_lp [0; 1] [1; 0; 1; 0] [0; 0; 0; 2].
    + intros r [<-|[<-|[<-|[<-|[]]]]].
      * small_lp [0; 0] [1; 0; 0; 0] [0; 0; 1; 1].
      * small_lp [0; 0] [0; 1; 0; 0] [0; 0; 1; 1].
      * small_lp [0; 1] [0; 0; 1; 0] [0; 0; 0; 2].
      * small_lp [0; -1] [0; 0; 0; 1] [0; 0; 2; 0].
Qed.

(** ** C47: the mixed-integer encoding *)
Definition mode_of (d : vec) : nat := match where_ (fun a => Rltb (/ 2) a) d with m :: _ => m | [] => 0%nat end.
Lemma filter_seq k a n : filter (fun i => Nat.eqb i k) (seq a n) = if andb (Nat.leb a k) (Nat.ltb k (a + n)) then [k] else [].
Proof.
  revert a. induction n as [|n IH]; intros a.
  - cbn [seq filter]. destruct (Nat.leb_spec a k), (Nat.ltb_spec k (a + 0)); cbn; auto; lia.
  - cbn [seq filter]. rewrite IH. destruct (Nat.eqb_spec a k) as [->|Hn].
    + destruct (Nat.leb_spec (S k) k); [lia|]. destruct (Nat.leb_spec k k); [|lia]. destruct (Nat.ltb_spec k (k + S n)); [|lia]. reflexivity.
    + destruct (Nat.leb_spec (S a) k), (Nat.leb_spec a k), (Nat.ltb_spec k (S a + n)), (Nat.ltb_spec k (a + S n)); cbn; auto; lia.
Qed.
Lemma where_unit s k : (k < s)%nat -> where_ (fun a => Rltb (/ 2) a) (unit s k) = [k].
Proof.
  intros Hk. unfold where_. rewrite unit_length. unfold unit.
  assert (G : forall l, map fst (filter (fun iv : nat * R => Rltb (/ 2) (snd iv)) (combine l (map (fun j => if Nat.eqb j k then 1 else 0) l))) = filter (fun i => Nat.eqb i k) l).
  { induction l as [|a l IH]; [reflexivity|]. cbn [map combine filter fst snd]. rewrite <- IH. destruct (Nat.eqb a k).
    - replace (Rltb (/ 2) 1) with true by (symmetry; apply Rltb_true; lra). reflexivity.
    - replace (Rltb (/ 2) 0) with false by (symmetry; apply Rltb_false; lra). reflexivity. }
  rewrite G, filter_seq. destruct (Nat.ltb_spec k (0 + s)); [|lia]. reflexivity.
Qed.
Lemma mode_of_unit s k : (k < s)%nat -> mode_of (unit s k) = k.
Proof. intros Hk. unfold mode_of. rewrite where_unit by exact Hk. reflexivity. Qed.
Lemma vsums_single n s k v : (k < s)%nat -> length v = n -> vsums n (map (fun i => if Nat.eqb i k then v else zeros n) (seq 0 s)) = v.
Proof.
  intros Hk L. enough (G : forall m a, vsums n (map (fun i => if Nat.eqb i k then v else zeros n) (seq a m)) = if andb (Nat.leb a k) (Nat.ltb k (a + m)) then v else zeros n).
  { rewrite G. destruct (Nat.ltb_spec k (0 + s)); [reflexivity|lia]. }
  induction m as [|m IH]; intros a.
  - unfold vsums. cbn [seq map fold_right]. destruct (Nat.leb_spec a k), (Nat.ltb_spec k (a + 0)); cbn; auto; lia.
  - cbn [seq map]. unfold vsums in *. cbn [fold_right]. rewrite IH. destruct (Nat.eqb_spec a k) as [->|Hn].
    + destruct (Nat.leb_spec (S k) k); [lia|]. destruct (Nat.leb_spec k k); [|lia]. destruct (Nat.ltb_spec k (k + S m)); [|lia]. cbn [andb]. apply vadd_zeros_r. exact L.
    + replace (andb (Nat.leb (S a) k) (Nat.ltb k (S a + m))) with (andb (Nat.leb a k) (Nat.ltb k (a + S m))) by (destruct (Nat.leb_spec (S a) k), (Nat.leb_spec a k), (Nat.ltb_spec k (S a + m)), (Nat.ltb_spec k (a + S m)); cbn; auto; lia).
      destruct (andb _ _); apply vadd_zeros_l; [exact L|apply zeros_length].
Qed.
(** the runs of W, and those that respect the inequalities of the domains and of the terminal set only *)
Definition admissible (W : pwa) (X_N : poly) (N : nat) (x : vec) (us : list vec) (modes : list nat) (xs : list vec) : Prop :=
  pwa_admissible (map aA (w_sys W)) (map aB (w_sys W)) (map ac (w_sys W)) (map in_poly (w_dom W)) (in_poly X_N) (w_nu W) N x us modes xs.
Definition relaxed (W : pwa) : pwa := PWA (w_nx W) (w_nu W) (w_sys W) (map without_equalities (w_dom W)).
Definition mi_feasible_q (q : mpmiqp) := mi_feasible (h_Au q) (h_Az q) (h_Ad q) (h_Ax q) (h_b q).
Lemma in_without p x : in_poly (without_equalities p) x <-> length x = ncols (pA p) /\ ineq_holds (pA p) (pb p) x.
Proof. unfold in_poly, in_set, without_equalities. cbn [pA pb pC pd]. split; [intros (H1 & H2 & _); auto|intros (H1 & H2); split; [exact H1|split; [exact H2|constructor]]]. Qed.
Lemma in_relax p x : in_poly p x -> in_poly (without_equalities p) x.
Proof. intros (H1 & H2 & _). apply in_without. auto. Qed.
Lemma nth_doms (ds : list poly) m : (m < length ds)%nat -> nth m (map in_poly ds) (fun _ => False) = in_poly (nth m ds poly0).
Proof. intros H. rewrite (nth_indep _ _ (in_poly poly0)) by (rewrite map_length; exact H). apply map_nth. Qed.
(** the stacked vectors of a run *)
Definition zblock (s nx k : nat) (y : vec) : list vec := map (fun i => if Nat.eqb i k then y else zeros nx) (seq 0 s).
Lemma zblock_ok s nx k y : length y = nx -> length (zblock s nx k y) = s /\ Forall (fun z => length z = nx) (zblock s nx k y).
Proof.
  intros L. unfold zblock. rewrite map_length, seq_length. split; [reflexivity|]. apply Forall_forall. intros z Hz. apply in_map_iff in Hz. destruct Hz as (i & <- & _). destruct (Nat.eqb i k); [exact L|apply zeros_length].
Qed.
Lemma nth_zblock s nx k y i : (i < s)%nat -> nth i (zblock s nx k y) [] = if Nat.eqb i k then y else zeros nx.
Proof. intros H. unfold zblock. rewrite (nth_map_0 (fun i => if Nat.eqb i k then y else zeros nx) (seq 0 s) i []) by (rewrite seq_length; exact H). rewrite seq_nth by exact H. reflexivity. Qed.
Lemma encodes_iff s nx us modes xs u z d : encodes s nx us modes xs u z d <->
  u = List.concat us /\ z = List.concat (map (@List.concat R) (map (fun t => zblock s nx (nth t modes 0%nat) (nth (S t) xs [])) (seq 0 (length modes)))) /\ d = List.concat (map (unit s) modes).
Proof. unfold encodes. rewrite map_map. reflexivity. Qed.
Lemma step_len W nx nu i x u : hyb_data W nx nu -> (i < length (w_sys W))%nat -> length (affine_step (aA (sys_at W i)) (aB (sys_at W i)) (ac (sys_at W i)) x u) = nx.
Proof.
  intros (_ & _ & (_ & HSh) & _) Hi. destruct (HSh (sys_at W i) (nth_In _ _ Hi)) as ((Q1 & Q2) & Q3). unfold affine_step. rewrite !vadd_length, !mv_length, (proj1 Q1), (proj1 Q2), Q3. lia.
Qed.
(** from the program to the run: no property of the big-M constants is needed *)
Lemma program_to_run W X_N N nx nu mN meN alpha beta gamma x us zss ds : hyb_data W nx nu -> wf X_N mN meN nx -> length x = nx ->
  let s := length (w_sys W) in
  length us = N -> Forall (fun u => length u = nu) us -> length zss = N -> Forall (fun zs => length zs = s /\ Forall (fun z => length z = nx) zs) zss -> length ds = N ->
  let xs := x :: map (vsums nx) zss in
  (forall t, (t < N)%nat -> exists k, (k < s)%nat /\ nth t ds [] = unit s k /\ step_ok W nx alpha beta gamma k (nth t xs []) (nth t us []) (nth t zss [])) ->
  ineq_holds (pA X_N) (pb X_N) (nth N xs []) ->
  let modes := map mode_of ds in
  admissible (relaxed W) (without_equalities X_N) N x us modes xs /\
  encodes s nx us modes xs (List.concat us) (List.concat (map (@List.concat R) zss)) (List.concat ds) /\ ds = map (unit s) modes.
Proof.
  intros HW HX Lx s Lus Fus Lz Fz Lds xs HS HT modes. pose proof HW as (EW & EU & (NE & HSh) & LD & HWf).
  assert (Lm : length modes = N) by (unfold modes; rewrite map_length; exact Lds).
  assert (MT : forall t, (t < N)%nat -> let k := nth t modes 0%nat in (k < s)%nat /\ nth t ds [] = unit s k /\ step_ok W nx alpha beta gamma k (nth t xs []) (nth t us []) (nth t zss [])).
  { intros t Ht. destruct (HS t Ht) as (k & Hk & E1 & E2). unfold modes. rewrite (nth_indep _ _ (mode_of [])) by (rewrite map_length; lia). rewrite map_nth, E1, mode_of_unit by exact Hk. auto. }
  assert (DSE : ds = map (unit s) modes).
  { apply (nth_ext _ _ [] []); [rewrite map_length; lia|]. intros t Ht. rewrite (nth_map_0 (unit s) modes t []) by lia. apply MT. lia. }
  assert (ZT : forall t, (t < N)%nat -> let k := nth t modes 0%nat in let f := affine_step (aA (sys_at W k)) (aB (sys_at W k)) (ac (sys_at W k)) (nth t xs []) (nth t us []) in nth t zss [] = zblock s nx k f /\ nth (S t) xs [] = f).
  { intros t Ht k f. destruct (MT t Ht) as (Hk & _ & (S1 & _ & _ & _ & S2)). fold k in Hk, S1, S2. fold f in S1.
    assert (Lf : length f = nx) by (apply (step_len W nx nu k); assumption).
    assert (FZ : length (nth t zss []) = s) by (apply (proj1 (Forall_forall _ _) Fz), nth_In; lia).
    assert (EZ : nth t zss [] = zblock s nx k f).
    { apply (nth_ext _ _ [] []); [rewrite (proj1 (zblock_ok s nx k f Lf)); exact FZ|]. intros i Hi. rewrite FZ in Hi. rewrite nth_zblock by exact Hi. destruct (Nat.eqb_spec i k) as [->|Hn]; [exact S1|]. apply S2; assumption. }
    split; [exact EZ|]. unfold xs. cbn [nth]. rewrite (nth_indep _ [] (vsums nx [])) by (rewrite map_length; lia). rewrite map_nth, EZ. apply vsums_single; assumption. }
  assert (LXS : forall t, (t <= N)%nat -> length (nth t xs []) = nx).
  { intros [|t] Ht; [exact Lx|]. destruct (ZT t ltac:(lia)) as (_ & ->). apply (step_len W nx nu); [exact HW|apply MT; lia]. }
  split; [|split].
  - unfold admissible, relaxed, pwa_admissible, is_switched_trajectory, stage_constraints. cbn [w_sys w_dom w_nu]. rewrite EU. repeat match goal with |- _ /\ _ => split end; try assumption.
    + intros m Hm. rewrite map_length. apply (In_nth _ _ 0%nat) in Hm. destruct Hm as (t & Ht & <-). apply MT. lia.
    + unfold xs. cbn [length]. rewrite map_length. lia.
    + reflexivity.
    + intros t Ht. rewrite nth_aA, nth_aB, nth_ac. apply ZT. lia.
    + intros t Ht. destruct (MT t ltac:(lia)) as (Hk & _ & (_ & S1 & _)). rewrite nth_doms by (rewrite map_length, LD; exact Hk). change poly0 with (without_equalities poly0). rewrite map_nth. apply in_without. fold (dom_at W (nth t modes 0%nat)).
      split; [|exact S1]. destruct (HWf (dom_at W (nth t modes 0%nat))) as (a & b & (WA & _)); [apply nth_In; rewrite LD; exact Hk|]. rewrite app_length, LXS by lia. rewrite (Forall_len_nth us nu) by (auto; lia). symmetry. apply WA.
    + rewrite Lus. apply in_without. split; [|exact HT]. rewrite LXS by lia. symmetry. apply HX.
  - apply encodes_iff. split; [reflexivity|]. split.
    + f_equal. f_equal. rewrite Lm, <- Lz. rewrite (list_as_map zss []) at 1. apply map_ext_in. intros t Ht. apply in_seq in Ht. destruct (ZT t ltac:(lia)) as (E1 & E2). rewrite E2. exact E1.
    + rewrite <- DSE. reflexivity.
  - exact DSE.
Qed.
(** the constants bound what they should bound *)
Definition bigm_valid (W : pwa) (nx : nat) (alpha beta gamma : list (list vec)) : Prop :=
  forall i j, (i < length (w_sys W))%nat -> (j < length (w_sys W))%nat -> forall xu, in_poly (dom_at W j) xu ->
    vle (nth j (nth i alpha []) []) (f_at W nx i xu) /\ vle (f_at W nx i xu) (nth j (nth i beta []) []) /\
    vle (mv (pA (dom_at W i)) xu) (vadd (pb (dom_at W i)) (nth j (nth i gamma []) [])).
Lemma admissible_relax W X_N N x us modes xs : length (w_dom W) = length (w_sys W) -> admissible W X_N N x us modes xs -> admissible (relaxed W) (without_equalities X_N) N x us modes xs.
Proof.
  intros LD (H1 & H2 & H3 & H4 & H5 & (H6 & H7)). split; [exact H1|]. split; [exact H2|]. split; [exact H3|]. split; [exact H4|]. split; [exact H5|]. rewrite map_length in H4. split.
  - intros t Ht. specialize (H6 t Ht). assert (Hm : (nth t modes 0%nat < length (w_sys W))%nat) by (apply H4, nth_In; lia). rewrite nth_doms in H6 by (rewrite LD; exact Hm). cbn [w_dom relaxed]. rewrite nth_doms by (rewrite map_length, LD; exact Hm). change poly0 with (without_equalities poly0). rewrite map_nth. apply in_relax. exact H6.
  - apply in_relax. exact H7.
Qed.
Lemma run_facts W X_N N nx nu x us modes xs : hyb_data W nx nu -> length x = nx -> admissible W X_N N x us modes xs ->
  let s := length (w_sys W) in let zss := map (fun t => zblock s nx (nth t modes 0%nat) (nth (S t) xs [])) (seq 0 N) in
  length us = N /\ Forall (fun u => length u = nu) us /\ length modes = N /\ length zss = N /\ Forall (fun zs => length zs = s /\ Forall (fun z => length z = nx) zs) zss /\
  xs = x :: map (vsums nx) zss /\ (forall t, (t <= N)%nat -> length (nth t xs []) = nx) /\
  (forall t, (t < N)%nat -> (nth t modes 0%nat < s)%nat) /\ Forall (fun d => length d = s) (map (unit s) modes) /\ Forall (fun d => Forall (fun a => a = 0 \/ a = 1) d) (map (unit s) modes).
Proof.
  intros HW Lx (H1 & H2 & H3 & H4 & (H5 & H5' & H6) & _) s zss. pose proof HW as (EW & EU & (NE & HSh) & LD & HWf). rewrite EU in H2. rewrite map_length in H4. fold s in H4.
  assert (HM : forall t, (t < N)%nat -> (nth t modes 0%nat < s)%nat) by (intros t Ht; apply H4, nth_In; lia).
  assert (LX : forall t, (t <= N)%nat -> length (nth t xs []) = nx).
  { intros [|t] Ht; [rewrite H5'; exact Lx|]. rewrite H6 by lia. rewrite nth_aA, nth_aB, nth_ac. apply (step_len W nx nu); [exact HW|apply HM; lia]. }
  split; [exact H1|]. split; [exact H2|]. split; [exact H3|]. split; [unfold zss; rewrite map_length, seq_length; reflexivity|]. split.
  { apply Forall_forall. intros zs Hz. apply in_map_iff in Hz. destruct Hz as (t & <- & Ht). apply in_seq in Ht. apply zblock_ok, LX. lia. }
  split.
  { apply (nth_ext _ _ [] []); [cbn [length]; unfold zss; rewrite !map_length, seq_length, H5; lia|]. intros [|t] Ht; [exact H5'|]. cbn [nth]. unfold zss. rewrite map_map. rewrite nth_map_0 by (rewrite seq_length; lia). rewrite seq_nth by lia. cbn [Nat.add].
    symmetry. apply vsums_single; [apply HM; lia|apply LX; lia]. }
  split; [exact LX|]. split; [exact HM|]. split.
  - apply Forall_forall. intros d Hd. apply in_map_iff in Hd. destruct Hd as (k & <- & _). apply unit_length.
  - apply Forall_forall. intros d Hd. apply in_map_iff in Hd. destruct Hd as (k & <- & _). apply Forall_forall. intros a Ha. apply in_map_iff in Ha. destruct Ha as (i & <- & _). destruct (Nat.eqb i k); auto.
Qed.
Lemma run_to_program W X_N N nx nu alpha beta gamma x us modes xs : hyb_data W nx nu -> length x = nx -> bigm_valid W nx alpha beta gamma -> admissible W X_N N x us modes xs ->
  let s := length (w_sys W) in let zss := map (fun t => zblock s nx (nth t modes 0%nat) (nth (S t) xs [])) (seq 0 N) in let ds := map (unit s) modes in
  (forall t, (t < N)%nat -> exists k, (k < s)%nat /\ nth t ds [] = unit s k /\ step_ok W nx alpha beta gamma k (nth t xs []) (nth t us []) (nth t zss [])) /\
  ineq_holds (pA X_N) (pb X_N) (nth N xs []).
Proof.
  intros HW Lx HV HA s zss ds. pose proof HA as (H1 & H2 & H3 & H4 & (H5 & H5' & H6) & (H7 & H8)). destruct (run_facts W X_N N nx nu x us modes xs HW Lx HA) as (_ & _ & _ & _ & _ & _ & LX & HM & _). fold s in HM.
  pose proof HW as (EW & EU & (NE & HSh) & LD & HWf). rewrite H1 in *. split; [|apply H8].
  intros t Ht. set (k := nth t modes 0%nat). exists k. specialize (HM t Ht). fold k in HM. split; [exact HM|]. split; [unfold ds; rewrite nth_map_0 by lia; reflexivity|].
  assert (LXt : length (nth t xs []) = nx) by (apply LX; lia).
  assert (EX : nth (S t) xs [] = affine_step (aA (sys_at W k)) (aB (sys_at W k)) (ac (sys_at W k)) (nth t xs []) (nth t us [])) by (rewrite H6 by lia; rewrite nth_aA, nth_aB, nth_ac; reflexivity).
  specialize (H7 t Ht). fold k in H7. rewrite nth_doms in H7 by (rewrite LD; exact HM). fold (dom_at W k) in H7.
  assert (EZ : nth t zss [] = zblock s nx k (nth (S t) xs [])) by (unfold zss; rewrite nth_map_0 by (rewrite seq_length; lia); rewrite seq_nth by lia; reflexivity).
  assert (FA : forall i, f_at W nx i (nth t xs [] ++ nth t us []) = affine_step (aA (sys_at W i)) (aB (sys_at W i)) (ac (sys_at W i)) (nth t xs []) (nth t us [])).
  { intros i. unfold f_at. rewrite firstn_app, skipn_app, LXt, Nat.sub_diag. cbn [firstn skipn]. rewrite <- LXt, firstn_all, skipn_all, app_nil_r. reflexivity. }
  unfold step_ok. rewrite EZ. cbv zeta. repeat match goal with |- _ /\ _ => split end.
  - rewrite nth_zblock, Nat.eqb_refl by exact HM. exact EX.
  - apply H7.
  - destruct (HV k k HM HM _ H7) as (Q & _). rewrite FA in Q. exact Q.
  - destruct (HV k k HM HM _ H7) as (_ & Q & _). rewrite FA in Q. exact Q.
  - intros i Hi Hn. destruct (HV i k Hi HM _ H7) as (Q1 & Q2 & Q3). rewrite FA in Q1, Q2. split; [|auto]. rewrite nth_zblock by exact Hi. destruct (Nat.eqb_spec i k); [congruence|reflexivity].
Qed.
Lemma mi_feasible_vle Au Az Ad Ax b m n1 n2 n3 n x u z d : shape Au m n1 -> shape Az m n2 -> shape Ad m n3 -> shape Ax m n -> length b = m ->
  (mi_feasible Au Az Ad Ax b x u z d <-> length u = n1 /\ length z = n2 /\ length d = n3 /\ Forall (fun a => a = 0 \/ a = 1) d /\
     vle (vadd (vadd (vadd (mv Au u) (mv Az z)) (mv Ad d)) (mv Ax x)) b).
Proof.
  intros S1 S2 S3 S4 Lb. unfold mi_feasible. rewrite (proj1 (proj2 S1)), (proj1 (proj2 S2)), (proj1 (proj2 S3)).
  assert (L1 : length (mv Au u) = m) by (rewrite mv_length; apply S1). assert (L2 : length (mv Az z) = m) by (rewrite mv_length; apply S2). assert (L3 : length (mv Ad d) = m) by (rewrite mv_length; apply S3). assert (L4 : length (mv Ax x) = m) by (rewrite mv_length; apply S4).
  assert (G : vle (vadd (vadd (vadd (mv Au u) (mv Az z)) (mv Ad d)) (mv Ax x)) b <-> forall i, (i < length b)%nat -> dot (row Au i) u + dot (row Az i) z + dot (row Ad i) d + dot (row Ax i) x <= nth i b 0).
  { assert (E : forall i, nth i (vadd (vadd (vadd (mv Au u) (mv Az z)) (mv Ad d)) (mv Ax x)) 0 = dot (row Au i) u + dot (row Az i) z + dot (row Ad i) d + dot (row Ax i) x).
    { intros i. rewrite !nth_vadd, !nth_mv by (rewrite ?vadd_length; lia). reflexivity. }
    split.
    - intros H i Hi. rewrite <- E. apply vle_nth; [exact H|rewrite !vadd_length; lia].
    - intros H. apply (Forall2_nth' _ _ _ 0 0); [rewrite !vadd_length; lia|]. intros i Hi. rewrite E. apply H. rewrite !vadd_length in Hi. lia. }
  rewrite G. tauto.
Qed.
Lemma Forall_concat {A} (P : A -> Prop) l : Forall P (List.concat l) <-> Forall (Forall P) l.
Proof. induction l as [|a l IH]; cbn; [split; constructor|]. rewrite Forall_app, IH. split; [intros (H1 & H2); constructor; auto|intros H; inversion H; auto]. Qed.
Lemma concat_len (l : list vec) n : Forall (fun v => length v = n) l -> length (List.concat l) = (length l * n)%nat.
Proof. induction 1 as [|a l H _ IH]; [reflexivity|]. cbn. rewrite app_length, IH, H. reflexivity. Qed.
(** the program of the controller and the runs of the system *)
Lemma program_encodes W N Q Rm P X_N alpha beta gamma nx nu mN meN : hyb_data W nx nu -> bigm_shape W nx alpha beta gamma -> (0 < N)%nat ->
  shape Q nx nx -> shape P nx nx -> shape Rm nu nu -> wf X_N mN meN nx ->
  let s := length (w_sys W) in
  exists q m, hybrid_condense_program W N Q Rm P X_N alpha beta gamma = Ok q /\
    shape (h_Huu q) (N * nu) (N * nu) /\ shape (h_Hzz q) (N * (nx * s)) (N * (nx * s)) /\ shape (h_Hzx q) (N * (nx * s)) nx /\ shape (h_Hxx q) nx nx /\
    shape (h_Au q) m (N * nu) /\ shape (h_Az q) m (N * (nx * s)) /\ shape (h_Ad q) m (N * s) /\ shape (h_Ax q) m nx /\ length (h_b q) = m /\
    (forall x, length x = nx -> mv (h_Hzx q) x = zeros (N * (nx * s))) /\
    (forall x u z d, length x = nx -> mi_feasible_q q x u z d -> exists us modes xs, admissible (relaxed W) (without_equalities X_N) N x us modes xs /\ encodes s nx us modes xs u z d) /\
    (forall x us modes xs u z d, length x = nx -> bigm_valid W nx alpha beta gamma -> admissible W X_N N x us modes xs -> encodes s nx us modes xs u z d -> mi_feasible_q q x u z d) /\
    (forall x us modes xs u z d, length x = nx -> admissible (relaxed W) (without_equalities X_N) N x us modes xs -> encodes s nx us modes xs u z d ->
       / 2 * quad (h_Huu q) u + / 2 * quad (h_Hzz q) z + / 2 * quad (h_Hxx q) x = trajectory_cost Q Rm P us xs).
Proof.
  intros HW HB HN SQ SP SR HX s. destruct (hybrid_program W N Q Rm P X_N alpha beta gamma nx nu mN meN HW HB HN SQ SP SR HX) as (q & m & Eq & T1 & T2 & T3 & T4 & T5 & T6 & T7 & T8 & T9 & HQ). fold s in T2, T3, T6, T7, HQ.
  exists q, m. split; [exact Eq|]. split; [exact T1|]. split; [exact T2|]. split; [exact T3|]. split; [exact T4|]. split; [exact T5|]. split; [exact T6|]. split; [exact T7|]. split; [exact T8|]. split; [exact T9|].
  split; [|split; [|split]].
  - intros x Lx. destruct (HQ x (repeat (zeros nu) N) (repeat (repeat (zeros nx) s) N) (repeat (zeros s) N) Lx) as (_ & E & _); [apply repeat_length| |apply repeat_length| |apply repeat_length| |exact E].
    + apply Forall_forall. intros v Hv. apply repeat_spec in Hv. subst v. apply zeros_length.
    + apply Forall_forall. intros v Hv. apply repeat_spec in Hv. subst v. split; [apply repeat_length|]. apply Forall_forall. intros v Hv. apply repeat_spec in Hv. subst v. apply zeros_length.
    + apply Forall_forall. intros v Hv. apply repeat_spec in Hv. subst v. apply zeros_length.
  - intros x u z d Lx HF. apply (mi_feasible_vle _ _ _ _ _ m (N * nu) (N * (nx * s)) (N * s) nx) in HF; try assumption. destruct HF as (Lu & Lz & Ld & Fd & HV).
    destruct (chunks nu N u Lu) as (us & Lus & Fus & Eu). destruct (chunks (nx * s) N z Lz) as (zs & Lzs & Fzs & Ez). destruct (chunks s N d Ld) as (ds & Lds & Fds & Ed).
    assert (exists zss : list (list vec), length zss = N /\ Forall (fun zs => length zs = s /\ Forall (fun z => length z = nx) zs) zss /\ map (@List.concat R) zss = zs) as (zss & Lzss & Fzss & Ezss).
    { clear - Fzs Lzs. revert N Lzs. induction zs as [|z zs IH]; intros N L.
      - exists []. split; [exact L|]. split; [constructor|reflexivity].
      - pose proof (Forall_inv Fzs) as F1. pose proof (Forall_inv_tail Fzs) as F2. cbv beta in F1. destruct N as [|N]; [discriminate|]. destruct (IH F2 N ltac:(cbn in L; lia)) as (zss & Q1 & Q2 & Q3). destruct (chunks nx s z ltac:(lia)) as (l & G1 & G2 & G3). exists (l :: zss). cbn. split; [lia|]. split; [constructor; auto|]. rewrite G3, Q3. reflexivity. }
    subst u z d zs. destruct (HQ x us zss ds Lx Lus Fus Lzss Fzss Lds Fds) as (_ & _ & HI). apply Forall_concat in Fd. apply (HI Fd) in HV. destruct HV as (V1 & V2).
    destruct (program_to_run W X_N N nx nu mN meN alpha beta gamma x us zss ds HW HX Lx Lus Fus Lzss Fzss Lds V1 V2) as (G1 & G2 & _). eauto.
  - intros x us modes xs u z d Lx BV HA HE. destruct (run_to_program W X_N N nx nu alpha beta gamma x us modes xs HW Lx BV HA) as (V1 & V2). destruct (run_facts W X_N N nx nu x us modes xs HW Lx HA) as (F1 & F2 & F3 & F4 & F5 & F6 & F7 & F8 & F9 & F10). fold s in V1, F4, F5, F6, F8, F9, F10.
    apply encodes_iff in HE. rewrite F3 in HE. destruct HE as (-> & -> & ->). set (zss := map (fun t => zblock s nx (nth t modes 0%nat) (nth (S t) xs [])) (seq 0 N)) in *.
    apply (mi_feasible_vle _ _ _ _ _ m (N * nu) (N * (nx * s)) (N * s) nx); try assumption.
    destruct (HQ x us zss (map (unit s) modes) Lx F1 F2 F4 F5 ltac:(rewrite map_length; exact F3) F9) as (_ & _ & HI). split; [|split; [|split; [|split]]].
    + rewrite (concat_len us nu) by exact F2. lia.
    + rewrite (concat_len _ (nx * s)); [rewrite map_length; lia|]. apply Forall_forall. intros v Hv. apply in_map_iff in Hv. destruct Hv as (zs & <- & Hzs). destruct (proj1 (Forall_forall _ _) F5 zs Hzs) as (Q1 & Q2). rewrite (concat_len zs nx) by exact Q2. lia.
    + rewrite (concat_len _ s) by exact F9. rewrite map_length. lia.
    + apply Forall_concat. exact F10.
    + apply (HI F10). rewrite <- F6. auto.
  - intros x us modes xs u z d Lx HA HE. assert (HW' : hyb_data (relaxed W) nx nu).
    { destruct HW as (EW & EU & HS & LD & HWf). unfold hyb_data. cbn [w_nx w_nu w_sys w_dom relaxed]. rewrite map_length. repeat match goal with |- _ /\ _ => split end; try assumption. intros D HD. apply in_map_iff in HD. destruct HD as (D' & <- & HD). destruct (HWf D' HD) as (a & b & WF). exists a, 0%nat. eapply wf_without; eauto. }
    destruct (run_facts (relaxed W) (without_equalities X_N) N nx nu x us modes xs HW' Lx HA) as (F1 & F2 & F3 & F4 & F5 & F6 & F7 & F8 & F9 & F10). cbn [w_sys relaxed] in *. fold s in F4, F5, F6, F8, F9, F10.
    apply encodes_iff in HE. rewrite F3 in HE. destruct HE as (-> & -> & ->). set (zss := map (fun t => zblock s nx (nth t modes 0%nat) (nth (S t) xs [])) (seq 0 N)) in *.
    destruct (HQ x us zss (map (unit s) modes) Lx F1 F2 F4 F5 ltac:(rewrite map_length; exact F3) F9) as (E & _). rewrite <- F6 in E. exact E.
Qed.
(** domains the big-M method is meant for *)
Definition hyb_domains (W : pwa) : Prop := forall D, In D (w_dom W) -> (exists xu, in_poly D xu) /\ bounded_set (in_poly D) /\ pb D <> [].
Lemma bounded_dot (S : vec -> Prop) f : bounded_set S -> bounded_on S (dot f).
Proof.
  intros (M & HM). exists (norm f * M). intros x Hx. pose proof (dot_le_norm f x) as Q1. pose proof (dot_le_norm (vneg f) x) as Q2. rewrite dot_vneg_l, norm_vneg in Q2. pose proof (norm_nonneg f). specialize (HM x Hx).
  assert (norm f * norm x <= norm f * M) by (apply Rmult_le_compat_l; assumption). apply Rabs_le. lra.
Qed.
Lemma domains_bounded W nx nu : hyb_data W nx nu -> hyb_domains W -> forall i j, (i < length (w_sys W))%nat -> (j < length (w_sys W))%nat ->
  (forall r, (r < nx)%nat -> bounded_on (in_poly (dom_at W j)) (fun xu => nth r (f_at W nx i xu) 0)) /\
  forall r, (r < length (pb (dom_at W i)))%nat -> bounded_on (in_poly (dom_at W j)) (fun xu => dot (row (pA (dom_at W i)) r) xu).
Proof.
  intros HW HD i j Hi Hj. pose proof HW as (EW & EU & (NE & HSh) & LD & HWf). assert (IJ : In (dom_at W j) (w_dom W)) by (apply nth_In; rewrite LD; exact Hj). destruct (HD _ IJ) as (_ & BD & _). split.
  - intros r Hr. destruct (bounded_dot _ (dyn_row W i r) BD) as (M & HM). exists (M + Rabs (nth r (ac (sys_at W i)) 0)). intros xu Hx. rewrite (proj2 (dyn_row_ok W nx nu i r HW Hi Hr)).
    + eapply Rle_trans; [apply Rabs_triang|]. specialize (HM xu Hx). lra.
    + destruct Hx as (L & _). destruct (HWf _ IJ) as (m & me & (WA & _)). rewrite L. apply WA.
  - intros r Hr. apply bounded_dot. exact BD.
Qed.
Lemma bigM_valid np W nx nu : exact_np np -> hyb_data W nx nu -> (0 < nx)%nat -> hyb_domains W ->
  exists alpha beta gamma, get_bigM_dynamics np W = Ok (alpha, beta) /\ get_bigM_domains np W = Ok gamma /\ bigm_shape W nx alpha beta gamma /\ bigm_valid W nx alpha beta gamma.
Proof.
  intros ENP HW Hnx HD. destruct (bigM_exact np W nx nu ENP HW Hnx) as (alpha & beta & gamma & E1 & E2 & SH & V).
  - intros D ID. destruct (HD D ID) as (Q1 & _ & Q2). auto.
  - apply (domains_bounded W nx nu HW HD).
  - exists alpha, beta, gamma. split; [exact E1|]. split; [exact E2|]. split; [exact SH|]. intros i j Hi Hj xu Hx. destruct (V i j Hi Hj) as (V1 & V2). destruct SH as (_ & _ & _ & SH). destruct (SH i j Hi Hj) as (L1 & L2 & L3).
    assert (LF : length (f_at W nx i xu) = nx) by (apply (step_len W nx nu i _ _ HW Hi)). pose proof HW as (_ & _ & _ & LD & HWf). destruct (HWf (dom_at W i)) as (m & me & (WA & Wb & _)); [apply nth_In; rewrite LD; exact Hi|].
    assert (LA : length (rows (pA (dom_at W i))) = m) by apply WA. unfold nrows in L3. fold (dom_at W i) in L3.
    repeat match goal with |- _ /\ _ => split end; apply vle_nth; (split; [rewrite ?vadd_length, ?mv_length; lia|]); intros r Hr.
    + apply (V1 r); [lia|exact Hx].
    + apply (V1 r); [lia|exact Hx].
    + rewrite mv_length in Hr. rewrite nth_vadd by lia. rewrite nth_mv. destruct (V2 r ltac:(lia)) as (_ & Q). specialize (Q xu Hx). cbv beta in Q. unfold row in *. lra.
Qed.
(*@ Theorem C47_encoding_partial : For non-empty bounded domains (each with at least one inequality) the controller is built; a point (u, z, delta) with binary delta that is feasible for its program stacks a run of the system that respects the inequalities of the domains and of the terminal set, and every admissible run is feasible.
   Missing: the equalities of domains and terminal set are not enforced (C47_equalities_refuted); without equalities see C47_encoding. *)
Lemma hybrid_encoding np W N Q Rm P X_N nx nu mN meN : exact_np np -> hyb_data W nx nu -> (0 < nx)%nat -> (0 < N)%nat -> hyb_domains W ->
  shape Q nx nx -> shape P nx nx -> shape Rm nu nu -> wf X_N mN meN nx ->
  exists C, HybridModelPredictiveController np W N Q Rm P X_N = Ok C /\ forall x u z d, length x = nx ->
    let q := k_mpmiqp C in let s := length (w_sys W) in
    (mi_feasible (h_Au q) (h_Az q) (h_Ad q) (h_Ax q) (h_b q) x u z d ->
       exists us modes xs, admissible (relaxed W) (without_equalities X_N) N x us modes xs /\ encodes s nx us modes xs u z d) /\
    ((exists us modes xs, admissible W X_N N x us modes xs /\ encodes s nx us modes xs u z d) -> mi_feasible (h_Au q) (h_Az q) (h_Ad q) (h_Ax q) (h_b q) x u z d).
Proof.
  intros ENP HW Hnx HN HD SQ SP SR HX. destruct (bigM_valid np W nx nu ENP HW Hnx HD) as (alpha & beta & gamma & E1 & E2 & SH & BV).
  destruct (program_encodes W N Q Rm P X_N alpha beta gamma nx nu mN meN HW SH HN SQ SP SR HX) as (q & m & Eq & _ & _ & _ & _ & _ & _ & _ & _ & _ & _ & G1 & G2 & _).
  unfold HybridModelPredictiveController. rewrite E1. cbn [bind]. rewrite E2. cbn [bind]. rewrite Eq. cbn [bind]. eexists. split; [reflexivity|]. cbn [k_mpmiqp]. intros x u z d Lx. split.
  - apply G1. exact Lx.
  - intros (us & modes & xs & A1 & A2). exact (G2 x us modes xs u z d Lx BV A1 A2).
Qed.
Lemma no_equalities p m me n : wf p m me n -> pd p = [] -> forall x, in_poly (without_equalities p) x -> in_poly p x.
Proof.
  intros (_ & _ & WC & Wd) E x Hx. apply in_without in Hx. destruct Hx as (H1 & H2). split; [exact H1|]. split; [exact H2|]. unfold eq_holds. rewrite E in *. cbn in Wd. destruct WC as (LC & _). destruct (rows (pC p)); [constructor|]. cbn in LC. congruence.
Qed.
Lemma admissible_full W X_N N nx nu mN meN x us modes xs : hyb_data W nx nu -> wf X_N mN meN nx -> (forall D, In D (w_dom W) -> pd D = []) -> pd X_N = [] ->
  admissible (relaxed W) (without_equalities X_N) N x us modes xs -> admissible W X_N N x us modes xs.
Proof.
  intros (_ & _ & _ & LD & HWf) HX ED EX (H1 & H2 & H3 & H4 & H5 & (H6 & H7)). split; [exact H1|]. split; [exact H2|]. split; [exact H3|]. split; [exact H4|]. split; [exact H5|]. cbn [w_sys relaxed] in H4. rewrite map_length in H4. split.
  - intros t Ht. specialize (H6 t Ht). assert (Hm : (nth t modes 0%nat < length (w_sys W))%nat) by (apply H4, nth_In; lia). rewrite nth_doms by (rewrite LD; exact Hm). cbn [w_dom relaxed] in H6. rewrite nth_doms in H6 by (rewrite map_length, LD; exact Hm). change poly0 with (without_equalities poly0) in H6. rewrite map_nth in H6.
    assert (ID : In (nth (nth t modes 0%nat) (w_dom W) poly0) (w_dom W)) by (apply nth_In; rewrite LD; exact Hm). destruct (HWf _ ID) as (m & me & WF). exact (no_equalities _ m me _ WF (ED _ ID) _ H6).
  - exact (no_equalities _ _ _ _ HX EX _ H7).
Qed.
(*@ Theorem C47_encoding : Without equalities in the domains and in the terminal set: (u, z, delta) with binary delta is feasible for the program iff it stacks the inputs, states and modes of an admissible run of the system. *)
Lemma hybrid_encoding_iff np W N Q Rm P X_N nx nu mN meN : exact_np np -> hyb_data W nx nu -> (0 < nx)%nat -> (0 < N)%nat -> hyb_domains W ->
  shape Q nx nx -> shape P nx nx -> shape Rm nu nu -> wf X_N mN meN nx -> (forall D, In D (w_dom W) -> pd D = []) -> pd X_N = [] ->
  exists C, HybridModelPredictiveController np W N Q Rm P X_N = Ok C /\ forall x u z d, length x = nx ->
    let q := k_mpmiqp C in
    (mi_feasible (h_Au q) (h_Az q) (h_Ad q) (h_Ax q) (h_b q) x u z d <->
     exists us modes xs, pwa_admissible (map aA (w_sys W)) (map aB (w_sys W)) (map ac (w_sys W)) (map in_poly (w_dom W)) (in_poly X_N) nu N x us modes xs /\
       encodes (length (w_sys W)) nx us modes xs u z d).
Proof.
  intros ENP HW Hnx HN HD SQ SP SR HX ED EX. destruct (hybrid_encoding np W N Q Rm P X_N nx nu mN meN ENP HW Hnx HN HD SQ SP SR HX) as (C & EC & H). exists C. split; [exact EC|]. intros x u z d Lx q. destruct (H x u z d Lx) as (G1 & G2). fold q in G1, G2. pose proof HW as (_ & EU & _). split.
  - intros F. destruct (G1 F) as (us & modes & xs & A1 & A2). exists us, modes, xs. split; [|exact A2]. rewrite <- EU. exact (admissible_full W X_N N nx nu mN meN x us modes xs HW HX ED EX A1).
  - intros (us & modes & xs & A1 & A2). apply G2. exists us, modes, xs. split; [|exact A2]. unfold admissible. rewrite EU. exact A1.
Qed.
(** *** a system with two modes: x+ = x + u for -1 <= x <= 0, x+ = -x + u for 0 <= x <= 1; |u| <= 1 *)
Definition D_L : poly := Poly (Mat 2 [[1; 0]; [-1; 0]; [0; 1]; [0; -1]]) [0; 1; 1; 1] (Mat 2 []) [] None None None None None.
Definition D_R : poly := Poly (Mat 2 [[1; 0]; [-1; 0]; [0; 1]; [0; -1]]) [1; 0; 1; 1] (Mat 2 []) [] None None None None None.
Definition W2 : pwa := PWA 1 1 [Sys1 1; Sys1 (-1)] [D_L; D_R].
Lemma wf_D_L : wf D_L 4 0 2. Proof. unfold wf; simpl; repeat split; repeat constructor. Qed.
Lemma wf_D_R : wf D_R 4 0 2. Proof. unfold wf; simpl; repeat split; repeat constructor. Qed.
Lemma in_D_L xu : in_poly D_L xu <-> exists x u, xu = [x; u] /\ -1 <= x <= 0 /\ -1 <= u <= 1.
Proof.
  split.
  - intros (L & H & _). cbn in L. destruct xu as [|x [|u [|]]]; try discriminate. unfold ineq_holds in H. cbn in H. inv2 H. exists x, u. split; [reflexivity|]. lra.
  - intros (x & u & -> & H). split; [reflexivity|]. split; [|constructor]. unfold ineq_holds. cbn [pA pb D_L rows]. rows_ok.
Qed.
Lemma in_D_R xu : in_poly D_R xu <-> exists x u, xu = [x; u] /\ 0 <= x <= 1 /\ -1 <= u <= 1.
Proof.
  split.
  - intros (L & H & _). cbn in L. destruct xu as [|x [|u [|]]]; try discriminate. unfold ineq_holds in H. cbn in H. inv2 H. exists x, u. split; [reflexivity|]. lra.
  - intros (x & u & -> & H). split; [reflexivity|]. split; [|constructor]. unfold ineq_holds. cbn [pA pb D_R rows]. rows_ok.
Qed.
Lemma norm2_le x u : -1 <= x <= 1 -> -1 <= u <= 1 -> norm [x; u] <= 2.
Proof. intros H1 H2. unfold norm. replace 2 with (sqrt (2 * 2)) by (apply sqrt_square; lra). apply sqrt_le_1_alt. cbn. nra. Qed.
Lemma W2_data : hyb_data W2 1 1 /\ hyb_domains W2.
Proof.
  split.
  - unfold hyb_data. cbn [w_nx w_nu w_sys w_dom W2]. repeat match goal with |- _ /\ _ => split end; try reflexivity.
    + split; [discriminate|]. intros s [<-|[<-|[]]]; unfold system_shape, shape; cbn; repeat split; repeat constructor.
    + intros D [<-|[<-|[]]]; exists 4%nat, 0%nat; [exact wf_D_L|exact wf_D_R].
  - intros D [<-|[<-|[]]].
    + split; [exists [0; 0]; apply in_D_L; exists 0, 0; split; [reflexivity|lra]|]. split; [|discriminate]. exists 2. intros xu H. apply in_D_L in H. destruct H as (x & u & -> & H). apply norm2_le; lra.
    + split; [exists [0; 0]; apply in_D_R; exists 0, 0; split; [reflexivity|lra]|]. split; [|discriminate]. exists 2. intros xu H. apply in_D_R in H. destruct H as (x & u & -> & H). apply norm2_le; lra.
Qed.
Lemma shape_I_1 : shape I_1 1 1. Proof. unfold shape; cbn; repeat split; repeat constructor. Qed.
(*@ Example C49_example : A system with two modes meets the hypotheses of C49_bigM_exact; the maximum over the domain of mode 1 (0 <= x <= 1) of the dynamics x + u of mode 0 is 2, its minimum -1. *)
Lemma bigM_example : hyb_data W2 1 1 /\ (forall D, In D (w_dom W2) -> (exists xu, in_poly D xu) /\ pb D <> []) /\
  (forall i j, (i < 2)%nat -> (j < 2)%nat -> (forall r, (r < 1)%nat -> bounded_on (in_poly (dom_at W2 j)) (fun xu => nth r (f_at W2 1 i xu) 0)) /\
     forall r, (r < length (pb (dom_at W2 i)))%nat -> bounded_on (in_poly (dom_at W2 j)) (fun xu => dot (row (pA (dom_at W2 i)) r) xu)) /\
  forall np, exact_np np -> exists alpha beta, get_bigM_dynamics np W2 = Ok (alpha, beta) /\ nth 0 (nth 1 (nth 0 alpha []) []) 0 = -1 /\ nth 0 (nth 1 (nth 0 beta []) []) 0 = 2.
Proof.
  destruct W2_data as (HW & HD). assert (HD' : forall D, In D (w_dom W2) -> (exists xu, in_poly D xu) /\ pb D <> []) by (intros D ID; destruct (HD D ID) as (Q1 & _ & Q2); auto).
  split; [exact HW|]. split; [exact HD'|]. split; [exact (domains_bounded W2 1 1 HW HD)|].
  intros np Hnp. destruct (bigM_exact np W2 1 1 Hnp HW ltac:(lia) HD' (domains_bounded W2 1 1 HW HD)) as (alpha & beta & gamma & E1 & _ & _ & V). exists alpha, beta. split; [exact E1|].
  destruct (V 0%nat 1%nat ltac:(cbn; lia) ltac:(cbn; lia)) as (V1 & _). destruct (V1 0%nat ltac:(lia)) as (((p1 & I1 & G1) & M1) & ((p2 & I2 & G2) & M2)).
  change (dom_at W2 1) with D_R in *.
  assert (J1 : in_poly D_R [0; -1]) by (apply in_D_R; eexists _, _; split; [reflexivity|lra]). assert (J2 : in_poly D_R [1; 1]) by (apply in_D_R; eexists _, _; split; [reflexivity|lra]).
  pose proof (M1 _ J1) as B1. pose proof (M2 _ J2) as B2. clear J1 J2.
  apply in_D_R in I1, I2. destruct I1 as (x1 & u1 & -> & J1), I2 as (x2 & u2 & -> & J2). cbn in G1, G2, B1, B2. split; lra.
Qed.
(*@ Example C47_example : The system with two modes and horizon 2: the run -1/2, 1/2, -1/2 with inputs 1, 0 and modes 0, 1 is admissible and its encoding is feasible for the program of the controller. *)
Lemma encoding_example : hyb_data W2 1 1 /\ hyb_domains W2 /\ wf X_int 2 0 1 /\ (forall D, In D (w_dom W2) -> pd D = []) /\ pd X_int = [] /\
  forall np, exact_np np -> exists C, HybridModelPredictiveController np W2 2 I_1 I_1 I_1 X_int = Ok C /\
    let q := k_mpmiqp C in mi_feasible (h_Au q) (h_Az q) (h_Ad q) (h_Ax q) (h_b q) [- / 2] [1; 0] [/ 2; 0; 0; - / 2] [1; 0; 0; 1].
Proof.
  destruct W2_data as (HW & HD). split; [exact HW|]. split; [exact HD|]. split; [exact wf_X_int|]. assert (ED : forall D, In D (w_dom W2) -> pd D = []) by (intros D [<-|[<-|[]]]; reflexivity). split; [exact ED|]. split; [reflexivity|].
  intros np Hnp. destruct (hybrid_encoding_iff np W2 2 I_1 I_1 I_1 X_int 1 1 2 0 Hnp HW ltac:(lia) ltac:(lia) HD shape_I_1 shape_I_1 shape_I_1 wf_X_int ED eq_refl) as (C & EC & H). exists C. split; [exact EC|]. cbv zeta. apply H; [reflexivity|].
  exists [[1]; [0]], [0%nat; 1%nat], [[- / 2]; [/ 2]; [- / 2]]. split.
  - unfold pwa_admissible. split; [reflexivity|]. split; [repeat constructor|]. split; [reflexivity|]. split; [intros m [<-|[<-|[]]]; cbn; lia|]. split.
    + split; [reflexivity|]. split; [reflexivity|]. intros [|[|t]] Ht; [| |cbn in Ht; lia]; unfold affine_step; cbn; f_equal; lra.
    + split.
      * intros [|[|t]] Ht; [| |cbn in Ht; lia]; cbn [nth map w_dom W2].
        -- apply in_D_L. eexists _, _. split; [reflexivity|]. lra.
        -- apply in_D_R. eexists _, _. split; [reflexivity|]. lra.
      * cbn [length nth]. apply in_X_int. lra.
  - unfold encodes. cbn. auto.
Qed.
Definition D_eqbox : poly := Poly (Mat 2 [[1; 0]; [-1; 0]; [0; 1]; [0; -1]]) [1; 1; 1; 1] (Mat 2 [[0; 1]]) [0] None None None None None.
Lemma in_D_eqbox xu : in_poly D_eqbox xu <-> exists x, xu = [x; 0] /\ -1 <= x <= 1.
Proof.
  split.
  - intros (L & H & E). cbn in L. destruct xu as [|x [|u [|]]]; try discriminate. unfold ineq_holds in H. unfold eq_holds in E. cbn in H, E. inv2 H. inv2 E. assert (u = 0) by lra. subst u. exists x. split; [reflexivity|]. lra.
  - intros (x & -> & H). split; [reflexivity|]. split; [unfold ineq_holds; cbn [pA pb D_eqbox rows]; rows_ok|]. unfold eq_holds. cbn [pC pd D_eqbox rows]. rows_ok.
Qed.
(*@ Theorem C47_equalities_refuted : The equalities of a domain are ignored by the program: with the equality u = 0 in the (only) domain, the point u = 1/2 is feasible for the program although it stacks no admissible run. *)
Lemma encoding_equalities : exists W N Q Rm P X_N x u z d, hyb_data W 1 1 /\ hyb_domains W /\ wf X_N 2 0 1 /\
  (forall us modes xs, admissible W X_N N x us modes xs -> ~ encodes 1 1 us modes xs u z d) /\
  forall np, exact_np np -> exists C, HybridModelPredictiveController np W N Q Rm P X_N = Ok C /\
    let q := k_mpmiqp C in mi_feasible (h_Au q) (h_Az q) (h_Ad q) (h_Ax q) (h_b q) x u z d.
Proof.
  exists (W1 1 D_eqbox), 1%nat, I_1, I_1, I_1, X_int, [0], [/ 2], [/ 2], [1]. assert (WF : wf D_eqbox 4 1 2) by (unfold wf; simpl; repeat split; repeat constructor). pose proof (hyb_W1 1 D_eqbox _ _ WF) as HW.
  assert (HD : hyb_domains (W1 1 D_eqbox)).
  { intros D [<-|[]]. split; [exists [0; 0]; apply in_D_eqbox; exists 0; split; [reflexivity|lra]|]. split; [|discriminate]. exists 2. intros xu H. apply in_D_eqbox in H. destruct H as (x & -> & H). apply norm2_le; lra. }
  split; [exact HW|]. split; [exact HD|]. split; [exact wf_X_int|]. split.
  - intros us modes xs (H1 & H2 & H3 & H4 & (H5 & H5' & H6) & (H7 & _)) (E & _). cbn in H2. destruct us as [|u [|]]; try discriminate. cbn in E. rewrite app_nil_r in E. subst u. specialize (H7 0%nat ltac:(cbn; lia)).
    destruct modes as [|k [|]]; try discriminate. assert (k = 0%nat) by (specialize (H4 k (or_introl eq_refl)); cbn in H4; lia). subst k. cbn [nth map w_dom W1] in H7. apply in_D_eqbox in H7. destruct H7 as (x & E & _). cbn [nth] in H5'. rewrite H5' in E. injection E as _ E. lra.
  - intros np Hnp. destruct (bigM_exact np _ 1 1 Hnp HW ltac:(lia)) as (alpha & beta & gamma & E1 & E2 & SH & V).
    { intros D ID. destruct (HD D ID) as (Q1 & _ & Q2). auto. }
    { exact (domains_bounded _ 1 1 HW HD). }
    destruct (hybrid_program (W1 1 D_eqbox) 1 I_1 I_1 I_1 X_int alpha beta gamma 1 1 2 0 HW SH ltac:(lia) shape_I_1 shape_I_1 shape_I_1 wf_X_int) as (q & m & Eq & _ & _ & _ & _ & T5 & T6 & T7 & T8 & T9 & HQ).
    unfold HybridModelPredictiveController. rewrite E1. cbn [bind]. rewrite E2. cbn [bind]. rewrite Eq. cbn [bind]. eexists. split; [reflexivity|]. cbv zeta. cbn [k_mpmiqp].
    apply (mi_feasible_vle _ _ _ _ _ m _ _ _ 1 _ _ _ _ T5 T6 T7 T8 T9). repeat match goal with |- _ /\ _ => split end; try reflexivity; [apply Forall_cons; [right; reflexivity|constructor]|].
    destruct (HQ [0] [[/ 2]] [[[/ 2]]] [[1]] eq_refl eq_refl ltac:(repeat constructor) eq_refl ltac:(repeat constructor) eq_refl ltac:(repeat constructor)) as (_ & _ & HI). apply HI; [repeat (apply Forall_cons; [|constructor]); right; reflexivity|].
    destruct (V 0%nat 0%nat ltac:(cbn; lia) ltac:(cbn; lia)) as (V1 & _). destruct (V1 0%nat ltac:(lia)) as ((_ & M1) & (_ & M2)). change (dom_at (W1 1 D_eqbox) 0) with D_eqbox in *.
    assert (J1 : in_poly D_eqbox [-1; 0]) by (apply in_D_eqbox; eexists; split; [reflexivity|lra]). assert (J2 : in_poly D_eqbox [1; 0]) by (apply in_D_eqbox; eexists; split; [reflexivity|lra]).
    pose proof (M1 _ J1) as B1. pose proof (M2 _ J2) as B2. destruct SH as (_ & _ & _ & SH). destruct (SH 0%nat 0%nat ltac:(cbn; lia) ltac:(cbn; lia)) as (L1 & L2 & _). clear - B1 B2 L1 L2.
    destruct (nth 0 (nth 0 alpha []) []) as [|a [|]] eqn:EA; try discriminate. destruct (nth 0 (nth 0 beta []) []) as [|b [|]] eqn:EB; try discriminate. cbn in B1, B2. split.
    + intros [|t] Ht; [|lia]. exists 0%nat. split; [cbn; lia|]. split; [reflexivity|]. unfold step_ok. cbn [nth]. rewrite EA, EB. unfold affine_step. cbn. repeat match goal with |- _ /\ _ => split end.
      * f_equal. lra.
      * unfold ineq_holds. cbn. rows_ok.
      * unfold vle. rows_ok.
      * unfold vle. rows_ok.
      * intros i Hi Hn. lia.
    + unfold ineq_holds. cbn. rows_ok.
Qed.
