(** * ProjIndexThms: negative and repeated residual dimensions (C17) *)
From Coq Require Import ZArith Classical.
From Verif Require Import Arr ArrFacts Spec SpecGeom Numpy Pnnls PnnlsFacts QpFacts GeomUtils Polyhedron PolyThms Oracle SolverThms NullFacts PolySolveThms PolySetThms PolyBoundThms PolyCacheThms Mpqp MpqpThms GeomThms HullOracle Projection ProjThms ProjIndex.

Lemma nth_map_in {A B} (f : A -> B) l t d d' : (t < length l)%nat -> nth t (map f l) d' = f (nth t l d).
Proof. intros H. rewrite (nth_indep _ d' (f d)) by (rewrite map_length; exact H). apply map_nth. Qed.
Lemma dropped_nat N ds : dropped_z N (map Z.of_nat ds) = dropped_dimensions N ds.
Proof.
  unfold dropped_z, dropped_dimensions. apply filter_ext. intros i. f_equal. induction ds as [|d ds IH]; [reflexivity|]. cbn. rewrite IH. f_equal.
  destruct (Nat.eqb_spec i d) as [->|H]; [apply Z.eqb_refl|]. apply Z.eqb_neq. lia.
Qed.
Lemma column_nat N d : column N (Z.of_nat d) = if (d <? N)%nat then Ok d else Err IndexError.
Proof.
  unfold column. destruct (Z.ltb_spec (Z.of_nat d) 0); [lia|]. destruct (Z.ltb_spec (Z.of_nat d) (Z.of_nat N)), (Nat.ltb_spec d N); try lia; [|reflexivity]. now rewrite Nat2Z.id.
Qed.
Lemma columns_nat N ds : mapM (column N) (map Z.of_nat ds) = if forallb (fun i => Nat.ltb i N) ds then Ok ds else Err IndexError.
Proof.
  induction ds as [|d ds IH]; [reflexivity|]. cbn [map mapM forallb]. rewrite column_nat. destruct (d <? N)%nat; [|reflexivity]. cbn [bind andb]. rewrite IH. destruct (forallb _ ds); reflexivity.
Qed.
Lemma hull_method_z np fuel A b ds : convex_hull_method_z np fuel A b (map Z.of_nat ds) = convex_hull_method np fuel A b ds.
Proof.
  unfold convex_hull_method_z, convex_hull_method. rewrite columns_nat. destruct (forallb _ ds); cbn [negb bind]; [|reflexivity]. rewrite dropped_nat, map_length. reflexivity.
Qed.
(*@ Theorem C17_indices : For nonnegative dimensions the model with integers is the one of the other theorems *)
Lemma project_to_nat np fuel ds p : project_to_z np fuel (map Z.of_nat ds) p = project_to np fuel ds p.
Proof. unfold project_to_z, project_to. unfold pbind. destruct (get_empty np p) as ([e|] & p1); [|reflexivity]. destruct e; [reflexivity|]. destruct (get_bounded np p1) as ([bd|] & p2); [|reflexivity]. destruct (negb bd); [reflexivity|]. unfold pget. destruct (0 <? nrows (pC p2))%nat; [reflexivity|]. rewrite hull_method_z. reflexivity. Qed.

Lemma method_z np fuel p m N dims : exact_np np -> wf p m 0 N -> cache_ok np p -> (exists x, in_poly p x /\ near x) -> bounded_set (in_poly p) ->
  fst (project_to_z np fuel dims p) = (r <- convex_hull_method_z np fuel (pA p) (pb p) dims ;; let '(E, f, vs) := r in q <- Polyhedron E (D1 f) None None ;; Ok (set_vertices q (Some vs))).
Proof.
  intros Hnp W HC Hx HB. assert (Wf : wf (fresh p) m 0 N) by exact W.
  destruct (get_empty_ok np (fresh p) m 0 N Hnp Wf eq_refl) as (e & Ee & Hiff). destruct e; [exfalso; apply Hiff; [reflexivity|exact Hx]|].
  destruct (polytope_is_bounded np (fresh p) m 0 N Hnp Wf eq_refl eq_refl HB) as (pb' & Eb).
  destruct (empty_coh np p HC) as (C1 & C2 & C3). unfold project_to_z, pbind at 1. destruct (get_empty np p) as (r1 & p1). cbn [fst snd] in *. rewrite Ee in C1. cbn [fst] in C1. subst r1.
  destruct (bounded_coh np p1 C3) as (D1' & D2' & D3). unfold pbind at 1. destruct (get_bounded np p1) as (r2 & p2). cbn [fst snd] in *. rewrite C2, Eb in D1'. cbn [fst] in D1'. subst r2.
  cbn [negb]. unfold pbind at 1. unfold pget. rewrite C2 in D2'. assert (EA : pA p2 = pA p) by (change (pA (fresh p2) = pA (fresh p)); congruence).
  assert (EB : pb p2 = pb p) by (change (pb (fresh p2) = pb (fresh p)); congruence). assert (EC : pC p2 = pC p) by (change (pC (fresh p2) = pC (fresh p)); congruence).
  rewrite EC. assert (LC : nrows (pC p) = 0%nat) by (destruct W as (_ & _ & Q & _); apply Q). rewrite LC. cbn [Nat.ltb Nat.leb]. rewrite EA, EB. unfold pbind at 1, plift at 1.
  destruct (convex_hull_method_z np fuel (pA p) (pb p) dims) as [((E & f) & vs)|e]; [|reflexivity]. cbn [bind]. unfold pbind, plift. destruct (Polyhedron E (D1 f) None None); reflexivity.
Qed.
(** the direction in which the first coordinate decreases and coordinate k + 1 increases *)
Definition swap_dir (n k : nat) : vec := -1 :: unit n k.
Lemma norm_swap n k : (k < n)%nat -> norm (swap_dir n k) <= 2.
Proof.
  intros Hk. unfold norm, swap_dir. change (dot (-1 :: unit n k) (-1 :: unit n k)) with (-1 * -1 + dot (unit n k) (unit n k)). rewrite dot_unit_r by (try exact Hk; len). rewrite nth_unit, Nat.eqb_refl by exact Hk.
  replace 2 with (sqrt (2 * 2)) by (apply sqrt_square; lra). apply sqrt_le_1_alt. lra.
Qed.
(** minimizing the first coordinate when the first column of A occurs again *)
Lemma first_twice np A b m n k : exact_np np -> shape A m (Datatypes.S n) -> length b = m -> (k < n)%nat -> (forall i, (i < m)%nat -> nth 0 (row A i) 0 = nth (Datatypes.S k) (row A i) 0) ->
  lp np (1 :: zeros n) A b None None = Ok sol_none.
Proof.
  intros Hnp HA Hb Hk HC.
  destruct (lp_any np (1 :: zeros n) A b m (Datatypes.S n) Hnp HA Hb ltac:(cbn; now rewrite zeros_length)) as (s & -> & [(-> & _)|(x & l & _ & _ & Lx & Hx & Ll & Nl & _ & Hz)]); [reflexivity|exfalso].
  specialize (Hz (swap_dir n k) ltac:(unfold swap_dir; cbn; len)).
  assert (MZ : mv A (swap_dir n k) = zeros m).
  { apply vec_ext; [rewrite mv_length, zeros_length; apply HA|]. rewrite mv_length, (proj1 HA). intros i Hi. rewrite nth_zeros, nth_mv. specialize (HC i Hi). unfold row in HC.
    assert (LR : length (nth i (rows A) []) = Datatypes.S n) by (apply (shape_row A m (Datatypes.S n) i HA Hi)). destruct (nth i (rows A) []) as [|a r]; [discriminate LR|]. unfold swap_dir. change (dot (a :: r) (-1 :: unit n k)) with (a * -1 + dot r (unit n k)). cbn in LR. injection LR as LR. rewrite dot_unit_r by (try exact Hk; len). cbn in HC. rewrite HC. lra. }
  rewrite MZ, dot_zeros_r in Hz. unfold swap_dir in Hz at 1. change (dot (1 :: zeros n) (-1 :: unit n k)) with (1 * -1 + dot (zeros n) (unit n k)) in Hz. rewrite dot_zeros_l in Hz. pose proof (norm_swap n k Hk) as NS. replace (1 * -1 + 0 + 0) with (-1) in Hz by ring. rewrite Rabs_left in Hz by lra. unfold tol7 in Hz. lra.
Qed.
(*@ Theorem C17_index_errors : project_to on a polytope with dimensions of which one is out of range raises IndexError; if the first dimension is negative (a valid Python index), or its column is selected again, it raises TypeError *)
Lemma index_errors np fuel p m N dims : exact_np np -> wf p m 0 N -> cache_ok np p -> (exists x, in_poly p x /\ near x) -> bounded_set (in_poly p) ->
  ((exists z, In z dims /\ ~ (- Z.of_nat N <= z < Z.of_nat N)%Z) -> fst (project_to_z np fuel dims p) = Err IndexError) /\
  (forall z0 zs, dims = z0 :: zs -> (forall z, In z dims -> (- Z.of_nat N <= z < Z.of_nat N)%Z) -> (z0 < 0)%Z \/ In z0 zs \/ In (z0 - Z.of_nat N)%Z zs -> fst (project_to_z np fuel dims p) = Err TypeError).
Proof.
  intros Hnp W HC Hx HB. rewrite (method_z np fuel p m N dims Hnp W HC Hx HB). pose proof W as (WA & Wb & _). assert (NC : ncols (pA p) = N) by apply WA. unfold convex_hull_method_z. rewrite NC.
  assert (CO : forall z, (- Z.of_nat N <= z < Z.of_nat N)%Z -> column N z = Ok (Z.to_nat (if (z <? 0)%Z then z + Z.of_nat N else z))%Z).
  { intros z Hz. unfold column. destruct (Z.ltb_spec z 0).
    - destruct (Z.ltb_spec (z + Z.of_nat N) 0); [lia|reflexivity].
    - destruct (Z.ltb_spec z (Z.of_nat N)); [reflexivity|lia]. }
  split.
  - intros (z & Iz & Hz). assert (E : mapM (column N) dims = Err IndexError); [|rewrite E; reflexivity].
    assert (CE : forall y, (exists c, column N y = Ok c) \/ column N y = Err IndexError) by (intros y; unfold column; destruct (y <? 0)%Z; [destruct (y + Z.of_nat N <? 0)%Z|destruct (y <? Z.of_nat N)%Z]; eauto).
    assert (Ez : column N z = Err IndexError). { unfold column. destruct (Z.ltb_spec z 0); [destruct (Z.ltb_spec (z + Z.of_nat N) 0); [reflexivity|lia]|destruct (Z.ltb_spec z (Z.of_nat N)); [lia|reflexivity]]. }
    clear Hz. induction dims as [|y dims IH]; [destruct Iz|]. cbn [mapM]. destruct Iz as [->|Iz]; [rewrite Ez; reflexivity|]. destruct (CE y) as [(c & ->)| ->]; [|reflexivity]. cbn [bind]. rewrite (IH Iz). reflexivity.
  - intros z0 zs -> HR H. set (co := fun z : Z => Z.to_nat (if (z <? 0)%Z then z + Z.of_nat N else z)%Z).
    assert (E : forall l, (forall z, In z l -> (- Z.of_nat N <= z < Z.of_nat N)%Z) -> mapM (column N) l = Ok (map co l)).
    { induction l as [|y l IH]; intros Hl; [reflexivity|]. cbn [mapM map]. rewrite (CO y) by (apply Hl; left; reflexivity). cbn [bind]. rewrite IH by (intros; apply Hl; right; assumption). reflexivity. }
    rewrite (E _ HR). cbn [bind]. set (dr := dropped_z N (z0 :: zs)). set (L := map co zs ++ dr).
    assert (IN : In (co z0) L).
    { unfold L. apply in_or_app. pose proof (HR z0 (or_introl eq_refl)) as H0.
      destruct (Z_lt_dec z0 0) as [Neg|Pos].
      - destruct (in_dec Z.eq_dec (z0 + Z.of_nat N)%Z zs) as [Iz|NI].
        + left. apply in_map_iff. exists (z0 + Z.of_nat N)%Z. split; [|exact Iz]. unfold co. destruct (Z.ltb_spec (z0 + Z.of_nat N) 0), (Z.ltb_spec z0 0); try lia.
        + right. unfold dr, dropped_z. apply filter_In. assert (EC : co z0 = Z.to_nat (z0 + Z.of_nat N)) by (unfold co; destruct (Z.ltb_spec z0 0); [reflexivity|lia]). rewrite EC. split; [apply in_seq; lia|]. rewrite Z2Nat.id by lia. apply Bool.negb_true_iff. cbn [existsb]. apply Bool.orb_false_iff. split; [apply Z.eqb_neq; lia|].
          apply Bool.not_true_iff_false. intros Q. apply existsb_exists in Q. destruct Q as (y & Iy & Ey). apply Z.eqb_eq in Ey. subst y. contradiction.
      - destruct H as [H|[H|H]]; [lia| |]; left; apply in_map_iff.
        + exists z0. split; [reflexivity|exact H].
        + exists (z0 - Z.of_nat N)%Z. split; [|exact H]. unfold co. destruct (Z.ltb_spec (z0 - Z.of_nat N) 0), (Z.ltb_spec z0 0); try lia. }
    destruct (In_nth L (co z0) 0%nat IN) as (k & Hk & Ek).
    cbn [map]. set (A' := hstack (ctake (pA p) (co z0 :: map co zs)) (ctake (pA p) dr)).
    assert (SA : shape A' m (Datatypes.S (length L))). { unfold A', L. rewrite app_length. apply (shape_hstack _ _ m (length (co z0 :: map co zs)) (length dr)); apply (shape_ctake _ m N); exact WA. }
    assert (RA : forall i, (i < m)%nat -> row A' i = vtake (row (pA p) i) (co z0 :: L)).
    { intros i Hi. unfold A', L, row, hstack, ctake. cbn [rows]. assert (LR : length (rows (pA p)) = m) by apply WA. rewrite (nth_map2 _ _ _ _ [] [] []) by (rewrite map_length; lia). rewrite !(nth_map_in _ _ _ []) by lia. unfold vtake. rewrite <- map_app. reflexivity. }
    unfold get_two_vertices. rewrite (shape_cols _ _ _ SA). cbn [Nat.eqb]. replace (Datatypes.S (length L) - 1)%nat with (length L) by lia. cbn [mapM].
    rewrite (first_twice np A' (pb p) m (length L) k Hnp SA Wb Hk).
    + reflexivity.
    + intros i Hi. rewrite (RA i Hi). rewrite !nth_vtake by (cbn; lia). cbn [nth]. rewrite Ek. reflexivity.
Qed.
(*@ Theorem C17_negative_refuted : "every choice of residual dimensions" is false for Python's negative indices: for the box [-1,1] x [3,5] x [0,1] and the last dimension, written -1, every exact library raises TypeError; written 2, the interval [0,1] is returned. Twice the same dimension raises TypeError as well. *)
Lemma negative_refuted : exists p, wf p 6 0 3 /\ (exists x, in_poly p x /\ near x) /\ bounded_set (in_poly p) /\ forall np fuel, exact_np np ->
  fst (project_to_z np fuel [-1]%Z p) = Err TypeError /\ fst (project_to_z np fuel [0; 0]%Z p) = Err TypeError /\ fst (project_to_z np fuel [3]%Z p) = Err IndexError /\
  exists q, fst (project_to_z np fuel [2]%Z p) = Ok q /\ forall y, in_poly q y <-> exists a, y = [a] /\ 0 <= a <= 1.
Proof.
  destruct project_example as (_ & W & _ & HN & HB & _). exists box3. split; [exact W|]. split; [exact HN|]. split; [exact HB|]. intros np fuel Hnp. assert (HC : cache_ok np box3) by (repeat split; intros ? Q; discriminate Q).
  split; [|split; [|split]].
  - apply (proj2 (index_errors np fuel box3 6 3 [-1]%Z Hnp W HC HN HB) (-1)%Z [] eq_refl); [intros z [<-|[]]; lia|left; lia].
  - apply (proj2 (index_errors np fuel box3 6 3 [0; 0]%Z Hnp W HC HN HB) 0%Z [0%Z] eq_refl); [intros z [<-|[<-|[]]]; lia|right; left; left; reflexivity].
  - apply (proj1 (index_errors np fuel box3 6 3 [3]%Z Hnp W HC HN HB)). exists 3%Z. split; [left; reflexivity|lia].
  - change [2]%Z with (map Z.of_nat [2%nat]). rewrite project_to_nat. destruct (project_to_interval np fuel box3 6 3 2 Hnp W HC HN HB ltac:(lia)) as (q & vs & E & _ & _ & _ & Hq). exists q. split; [exact E|]. intros y. rewrite (proj1 (Hq y)). unfold projection. split.
    + intros (x & Ix & <-). assert (Lx : length x = 3%nat) by (apply Ix). destruct x as [|x1 [|x2 [|x3 [|]]]]; try discriminate Lx. apply box3_in in Ix. exists x3. split; [reflexivity|lra].
    + intros (a & -> & Ha). exists [0; 3; a]. split; [apply box3_in; lra|reflexivity].
Qed.
