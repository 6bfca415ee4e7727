(** * ProgThms: Gurobi models and solver dispatch (C24, C25, C60, C61), proofs *)
From Coq Require Import ZArith String Classical.
From Verif Require Import Arr ArrFacts Spec SpecProg Numpy Pnnls PnnlsFacts QpFacts Oracle SolverThms Gurobi Programs.

(** ** Linear expressions *)
Lemma cut_eq a : (if Rltb tol9 (Rabs a) then a else 0) = cut a.
Proof.
  unfold cut, tol9. replace (10 ^ 9) with 1000000000 by ring.
  destruct (Rltb _ _) eqn:E; [apply Rltb_true in E|apply Rltb_false in E]; destruct (Rle_dec _ _); lra.
Qed.
Lemma cut_sharp v : sharp v -> vcut v = v.
Proof.
  unfold vcut, sharp. induction v as [|a v IH]; intros H; [reflexivity|]. cbn [map]. rewrite IH by (intros; apply H; right; assumption). f_equal.
  unfold cut. destruct (Rle_dec _ _) as [L|]; [|reflexivity]. destruct (H a (or_introl eq_refl)) as [->|G]; [reflexivity|lra].
Qed.
Lemma mcut_sharp M : msharp M -> mcut M = M.
Proof.
  destruct M as [n rs]. unfold mcut, msharp. cbn. intros H. f_equal. induction rs as [|r rs IH]; [reflexivity|]. cbn.
  rewrite cut_sharp by (apply H; left; reflexivity). f_equal. apply IH. intros; apply H; right; assumption.
Qed.
Lemma shape_mcut M m n : shape M m n -> shape (mcut M) m n.
Proof. intros H. assert (N : ncols M = n) by apply H. unfold mcut. rewrite N. apply (shape_map vcut M m n n H). intros r L. unfold vcut. len. Qed.
Lemma vcut_length v : length (vcut v) = length v. Proof. apply map_length. Qed.

Lemma nth_skipn_cons {A} (x : list A) k d : (k < length x)%nat -> skipn k x = nth k x d :: skipn (S k) x.
Proof. revert k. induction x as [|a x IH]; intros [|k] H; cbn in *; try lia; [reflexivity|]. apply IH. lia. Qed.
Lemma skipn_le_nil {A} (x : list A) k : (length x <= k)%nat -> skipn k x = [].
Proof. revert k. induction x as [|a x IH]; intros [|k] H; cbn in *; try lia; try reflexivity. apply IH. lia. Qed.

Lemma terms_val r k x c :
  fold_right (fun (t : R * nat) acc => fst t * nth (snd t) x 0 + acc) c (filter (fun t => Rltb tol9 (Rabs (fst t))) (combine r (seq k (length r)))) = dot (vcut r) (skipn k x) + c.
Proof.
  revert k. induction r as [|a r IH]; intros k; [cbn; ring|].
  cbn [length seq combine filter fst snd]. change (vcut (a :: r)) with (cut a :: vcut r). rewrite <- (cut_eq a).
  destruct (Nat.lt_ge_cases k (length x)) as [L|L].
  - rewrite (nth_skipn_cons x k 0 L). cbn [dot]. destruct (Rltb tol9 (Rabs a)); cbn [fold_right fst snd]; rewrite IH; ring.
  - rewrite (skipn_le_nil x k L), dot_nil_r. assert (E : skipn (S k) x = []) by (apply skipn_le_nil; lia).
    destruct (Rltb tol9 (Rabs a)); cbn [fold_right fst snd]; rewrite IH, E, dot_nil_r; rewrite ?(nth_overflow x 0 L); ring.
Qed.
Lemma expr_val r c x : le_val (LinExpr (row_terms tol9 r) c) x = dot (vcut r) x + c.
Proof. unfold le_val, row_terms. cbn [le_terms le_const]. rewrite terms_val. reflexivity. Qed.

Lemma terms_bound r k n : (k + length r <= n)%nat -> forallb (fun t : R * nat => (snd t <? n)%nat) (filter (fun t => Rltb tol9 (Rabs (fst t))) (combine r (seq k (length r)))) = true.
Proof.
  intros H. apply forallb_forall. intros [a j] I. apply filter_In in I. destruct I as [I _]. apply in_combine_r in I. apply in_seq in I. apply Nat.ltb_lt. cbn. lia.
Qed.
Lemma mapM_ok {A B} (f : A -> res B) (g : A -> B) l : (forall a, In a l -> f a = Ok (g a)) -> mapM f l = Ok (map g l).
Proof.
  induction l as [|a l IH]; intros H; [reflexivity|]. cbn [mapM map]. rewrite (H a (or_introl eq_refl)). cbn [bind].
  rewrite IH by (intros; apply H; right; assumption). reflexivity.
Qed.
Lemma offsets (lin : list (list (R * nat))) b k : length lin = length b ->
  forall B, firstn k B ++ b = B -> length (firstn k B) = k ->
  mapM (fun it => match nth_error B (fst it) with None => Err IndexError | Some bi => Ok (LinExpr (snd it) (if Rltb tol9 (Rabs bi) then bi else 0)) end)
    (combine (seq k (length lin)) lin) = Ok (map2 (fun ts bi => LinExpr ts (cut bi)) lin b).
Proof.
  revert b k. induction lin as [|ts lin IH]; intros [|bi b] k L B HB HL; try discriminate L; [reflexivity|].
  cbn [length seq combine mapM map2 fst snd].
  assert (E : nth_error B k = Some bi). { rewrite <- HB. rewrite nth_error_app2 by lia. rewrite HL, Nat.sub_diag. reflexivity. }
  assert (E2 : firstn (S k) B = firstn k B ++ [bi]).
  { rewrite <- HB at 1. rewrite firstn_app, HL. rewrite firstn_all2 by lia. replace (S k - k)%nat with 1%nat by lia. reflexivity. }
  rewrite E. cbn [bind]. rewrite (IH b (S k)); [cbn [bind]; rewrite cut_eq; reflexivity|cbn in L; lia| |].
  - rewrite E2, <- app_assoc. exact HB.
  - rewrite E2, app_length, HL. cbn. lia.
Qed.
Lemma linear_expression_ok A b m n nx : shape A m n -> length b = m -> (n <= nx)%nat ->
  linear_expression tol9 A b nx = Ok (map2 (fun r bi => LinExpr (row_terms tol9 r) (cut bi)) (rows A) b).
Proof.
  intros HA Lb Hn. assert (LA : length (rows A) = m) by apply HA. unfold linear_expression.
  rewrite (mapM_ok _ (row_terms tol9)).
  - cbn [bind]. rewrite (offsets (map (row_terms tol9) (rows A)) b 0); [|len|reflexivity|reflexivity].
    rewrite map2_map_l. reflexivity.
  - intros r Hr. cbv zeta. unfold row_terms. rewrite terms_bound; [reflexivity|]. rewrite (shape_In A m n r HA Hr). lia.
Qed.

(** ** Quadratic expressions *)
Lemma filter_flat_map {A B} (p : B -> bool) (f : A -> list B) l : filter p (flat_map f l) = flat_map (fun a => filter p (f a)) l.
Proof. induction l as [|a l IH]; [reflexivity|]. cbn. rewrite filter_app, IH. reflexivity. Qed.
Lemma qe_val_app q1 q2 x : qe_val (q1 ++ q2) x = qe_val q1 x + qe_val q2 x.
Proof. unfold qe_val. induction q1 as [|[[i c] j] q1 IH]; cbn; [ring|]. rewrite IH. ring. Qed.
Lemma row_quad i r k x : qe_val (filter (fun t : nat * R * nat => let '(_, c, _) := t in Rltb tol9 (Rabs c)) (map (fun cj : R * nat => (i, fst cj, snd cj)) (combine r (seq k (length r))))) x
  = nth i x 0 * dot (vcut r) (skipn k x).
Proof.
  revert k. induction r as [|a r IH]; intros k; [cbn; ring|].
  cbn [length seq combine map filter fst snd]. change (vcut (a :: r)) with (cut a :: vcut r). rewrite <- (cut_eq a).
  destruct (Nat.lt_ge_cases k (length x)) as [L|L].
  - rewrite (nth_skipn_cons x k 0 L). cbn [dot]. destruct (Rltb tol9 (Rabs a)); unfold qe_val in *; cbn [fold_right fst snd]; rewrite IH; ring.
  - rewrite (skipn_le_nil x k L), dot_nil_r. assert (E : skipn (S k) x = []) by (apply skipn_le_nil; lia).
    destruct (Rltb tol9 (Rabs a)); unfold qe_val in *; cbn [fold_right fst snd]; rewrite IH, E, dot_nil_r; rewrite ?(nth_overflow x 0 L); ring.
Qed.
Lemma rows_quad rs k x : (k + length rs <= length x)%nat ->
  qe_val (filter (fun t : nat * R * nat => let '(_, c, _) := t in Rltb tol9 (Rabs c))
     (flat_map (fun ir => map (fun cj => (fst ir, fst cj, snd cj)) (combine (snd ir) (seq 0 (length (snd ir))))) (combine (seq k (length rs)) rs))) x
  = dot (skipn k x) (map (fun r => dot r x) (map vcut rs)).
Proof.
  revert k. induction rs as [|r rs IH]; intros k H; [cbn; rewrite dot_nil_r; reflexivity|].
  cbn [length seq combine flat_map map fst snd]. rewrite filter_app, qe_val_app, row_quad. cbn [skipn].
  cbn [length] in H. rewrite (nth_skipn_cons x k 0) by lia. cbn [dot]. rewrite IH by lia. cbn [skipn]. ring.
Qed.
Lemma quadratic_expression_ok H n : shape H n n ->
  exists q, quadratic_expression tol9 H n = Ok q /\ forall x, length x = n -> qe_val q x = dot x (mv (mcut H) x).
Proof.
  intros HH. assert (LH : length (rows H) = n) by apply HH. unfold quadratic_expression.
  set (ts := filter _ _). assert (Bd : forallb (fun t : nat * R * nat => let '(i, _, j) := t in ((i <? n) && (j <? n))%nat%bool) ts = true).
  { apply forallb_forall. intros [[i c] j] I. apply filter_In in I. destruct I as [I _]. apply in_flat_map in I. destruct I as ([i' r] & I1 & I2).
    apply in_map_iff in I2. destruct I2 as ([c' j'] & E & I2). cbn in E, I2. inversion E; subst.
    pose proof (in_combine_l _ _ _ _ I1) as I3. pose proof (in_combine_r _ _ _ _ I1) as I4. apply in_combine_r in I2. apply in_seq in I2, I3.
    rewrite (shape_In H _ _ r HH I4) in I2. unfold nrows in I3. apply andb_true_intro. split; apply Nat.ltb_lt; lia. }
  rewrite Bd. exists ts. split; [reflexivity|]. intros x Lx. unfold ts, nrows. rewrite rows_quad by (cbn; lia). reflexivity.
Qed.

(** ** The model *)
Definition the_model (q : list (nat * R * nat)) (f : vec) (A : mat) (b : vec) (C : mat) (d : vec) (bin : list bool) : gmodel :=
  let ex A b := map2 (fun r bi => LinExpr (row_terms tol9 r) (cut bi)) (rows A) b in
  GModel (repeat None (length f)) bin (ex A (vneg b)) (ex C (vneg d)) q (LinExpr (row_terms tol9 f) (cut 0)).
Lemma cut_0 : cut 0 = 0. Proof. unfold cut. destruct (Rle_dec _ _); reflexivity. Qed.
Lemma cut_opp a : cut (- a) = - cut a.
Proof. unfold cut. rewrite Rabs_Ropp. destruct (Rle_dec _ _); ring. Qed.

Lemma build_ok H f A b Co d_o C d m me n : prog_data H f A b C d m me n -> eq_args n Co d_o C d ->
  exists q, build_model H f A b Co d_o = Ok (the_model q f A b C d (repeat false n)) /\
    forall x, length x = n -> qe_val q x = match H with Some H => dot x (mv (mcut H) x) | None => 0 end.
Proof.
  intros (HA & Lb & HC & Ld & Lf & HH) HE. unfold build_model. rewrite Lf.
  rewrite (linear_expression_ok A (vneg b) m n n) by (auto; len). cbn [bind].
  assert (E : match Co, d_o with Some C, Some d => linear_expression tol9 C (vneg d) n | _, _ => Ok [] end =
    Ok (map2 (fun r bi => LinExpr (row_terms tol9 r) (cut bi)) (rows C) (vneg d))).
  { destruct HE as [(-> & ->)|(-> & -> & -> & ->)]; [|reflexivity]. apply (linear_expression_ok C (vneg d) me n n); auto; len. }
  rewrite E. cbn [bind].
  assert (Q : exists q, match H with Some H => quadratic_expression tol9 H n | None => Ok [] end = Ok q /\
     forall x, length x = n -> qe_val q x = match H with Some H => dot x (mv (mcut H) x) | None => 0 end).
  { destruct H as [H|]; [apply quadratic_expression_ok; exact HH|]. exists []. split; reflexivity. }
  destruct Q as (q & EQ & Q). exists q. rewrite EQ. cbn [bind].
  rewrite (linear_expression_ok (rowmat f) (zeros 1) 1 n n) by (auto; rewrite <- Lf; apply shape_rowmat). cbn [bind rows rowmat map2 zeros repeat].
  split; [|exact Q]. unfold the_model. rewrite Lf. reflexivity.
Qed.
Lemma exprs_hold (P : R -> Prop) (Q : R -> R -> Prop) A b x : length (rows A) = length b -> (forall a b, P (a - b) <-> Q a b) ->
  (Forall (fun e => P (le_val e x)) (map2 (fun r bi => LinExpr (row_terms tol9 r) (cut bi)) (rows A) (vneg b)) <->
   Forall2 (fun a bi => Q (dot a x) bi) (rows (mcut A)) (vcut b)).
Proof.
  intros L HP. destruct A as [n rs]. cbn [rows mcut] in *. revert b L. induction rs as [|r rs IH]; intros [|bi b] L; try discriminate L.
  - split; intros _; constructor.
  - cbn [vneg map map2]. change (vcut (bi :: b)) with (cut bi :: vcut b). specialize (IH b ltac:(cbn in L; lia)). split; intros F.
    + inversion F as [|? ? F1 F2]; subst. constructor; [|apply IH; exact F2]. rewrite expr_val, cut_opp in F1. apply HP. exact F1.
    + inversion F as [|? ? ? ? F1 F2]; subst. constructor; [|apply IH; exact F2]. rewrite expr_val, cut_opp. apply HP. exact F1.
Qed.
Lemma nth_error_repeat_in {A} (a b : A) n i : nth_error (repeat a n) i = Some b -> b = a.
Proof. intros H. apply nth_error_In in H. exact (repeat_spec _ _ _ H). Qed.
Lemma model_feasible q f A b C d m me n bin x : prog_data None f A b C d m me n ->
  (g_feasible (the_model q f A b C d bin) x <->
   in_set (mcut A) (vcut b) (mcut C) (vcut d) x /\ forall i, nth_error bin i = Some true -> nth i x 0 = 0 \/ nth i x 0 = 1).
Proof.
  intros (HA & Lb & HC & Ld & Lf & _). assert (LA : length (rows A) = m) by apply HA. assert (LC : length (rows C) = me) by apply HC.
  unfold g_feasible, in_set, the_model. cbn [g_lb g_binary g_ineq g_eq]. rewrite repeat_length, Lf.
  rewrite (exprs_hold (fun a => a <= 0) Rle) by (try lia; intros; lra). rewrite (exprs_hold (fun a => a = 0) eq) by (try lia; intros; lra).
  assert (NA : ncols (mcut A) = n) by apply HA. rewrite NA. fold (ineq_holds (mcut A) (vcut b) x). fold (eq_holds (mcut C) (vcut d) x). split.
  - intros (H1 & _ & H2 & H3 & H4). tauto.
  - intros ((H1 & H2 & H3) & H4). split; [exact H1|]. split; [|tauto]. intros i l E. apply nth_error_repeat_in in E. discriminate E.
Qed.
Lemma model_objective q f A b C d bin n x H : length x = n -> (qe_val q x = match H with Some H => dot x (mv (mcut H) x) | None => 0 end) ->
  g_objective (the_model q f A b C d bin) x = match H with Some H => qp_cost (mcut H) (vcut f) x | None => dot (vcut f) x end.
Proof.
  intros Lx E. unfold g_objective, the_model. cbn [g_quad g_lin]. rewrite E, expr_val, cut_0. destruct H; unfold qp_cost; ring.
Qed.
Lemma no_binary n x : forall i, nth_error (repeat false n) i = Some true -> nth i x 0 = 0 \/ nth i x 0 = 1.
Proof. intros i E. apply nth_error_repeat_in in E. discriminate E. Qed.

(** ** C24 *)
(*@ Theorem C24_model_cut : The Gurobi model has the constraints and the objective of the given program in which all entries of H, f, A, b, C, d of absolute value at most 1e-9 are replaced by zero. *)
Lemma model_cut H f A b Co d_o C d m me n : prog_data H f A b C d m me n -> eq_args n Co d_o C d ->
  exists M, build_model H f A b Co d_o = Ok M /\
    (forall x, g_feasible M x <-> in_set (mcut A) (vcut b) (mcut C) (vcut d) x) /\
    (forall x, length x = n -> g_objective M x = match H with Some H => qp_cost (mcut H) (vcut f) x | None => dot (vcut f) x end).
Proof.
  intros HD HE. destruct (build_ok H f A b Co d_o C d m me n HD HE) as (q & E & Q). exists (the_model q f A b C d (repeat false n)).
  split; [exact E|]. split.
  - intros x. rewrite (model_feasible q f A b C d m me n) by (unfold prog_data in *; tauto). split; [tauto|]. intros I. split; [exact I|apply no_binary].
  - intros x Lx. apply (model_objective q f A b C d _ n x H Lx). apply Q, Lx.
Qed.
(*@ Theorem C24_model_partial : If no entry is nonzero and at most 1e-9 in absolute value, and C and d are both given or both omitted, the Gurobi model has exactly the feasible set and the objective of the given linear or quadratic program.
   Missing: tiny nonzero entries and a lone C or d, for which the claim is false (see the refutations). *)
Lemma model_exact H f A b Co d_o C d m me n : prog_data H f A b C d m me n -> eq_args n Co d_o C d -> sharp_data H f A b C d ->
  exists M, build_model H f A b Co d_o = Ok M /\ (forall x, g_feasible M x <-> in_set A b C d x) /\
    (forall x, length x = n -> g_objective M x = match H with Some H => qp_cost H f x | None => dot f x end).
Proof.
  intros HD HE (SH & Sf & SA & Sb & SC & Sd). destruct (model_cut H f A b Co d_o C d m me n HD HE) as (M & E & F & O).
  rewrite (mcut_sharp A SA), (mcut_sharp C SC), (cut_sharp b Sb), (cut_sharp d Sd) in F. rewrite (cut_sharp f Sf) in O.
  exists M. split; [exact E|]. split; [exact F|]. intros x Lx. rewrite (O x Lx). destruct H as [H|]; [rewrite (mcut_sharp H SH)|]; reflexivity.
Qed.

(*@ Theorem C24_tiny_refuted : For the constraint 1e-9 x <= -1 the Gurobi model has no feasible point, although x = -1e9 satisfies it. *)
Lemma tiny_refuted : exists f A b x M, prog_data None f A b (Mat 1 []) [] 1 0 1 /\ in_set A b (Mat 1 []) [] x /\
  build_model None f A b None None = Ok M /\ forall y, ~ g_feasible M y.
Proof.
  set (A := Mat 1 [[/ 10 ^ 9]]). assert (HD : prog_data None [1] A [-1] (Mat 1 []) [] 1 0 1) by (unfold prog_data, shape; simpl; repeat split; repeat constructor).
  destruct (model_cut None [1] A [-1] None None (Mat 1 []) [] 1 0 1 HD) as (M & E & F & _); [right; repeat split|].
  exists [1], A, [-1], [- 10 ^ 9], M. split; [exact HD|]. split.
  - split; [reflexivity|]. split; [|constructor]. constructor; [|constructor]. simpl. field_simplify; lra.
  - split; [exact E|]. intros y Hy. apply F in Hy. destruct Hy as (_ & I & _). unfold ineq_holds, A in I. cbn in I. inv2 I.
    unfold cut in I0. destruct (Rle_dec (Rabs (/ (10 * (10 * (10 * (10 * (10 * (10 * (10 * (10 * (10 * 1)))))))))))  _) as [_|N].
    + destruct (Rle_dec (Rabs (-1)) _) as [L|_].
      * rewrite Rabs_left in L by lra. revert L. apply Rlt_not_le. replace (- (-1)) with (/ 1) by field. apply Rinv_lt_contravar; lra.
      * destruct y; cbn in I0; lra.
    + apply N. rewrite Rabs_right; [apply Rle_refl|]. apply Rle_ge, Rlt_le, Rinv_0_lt_compat. lra.
Qed.
(*@ Theorem C24_lone_equalities : With C but without d the equalities are dropped silently from the model, and reading the solution raises AttributeError if there is an optimum; with d but without C they are dropped and the solution of the program without equalities is returned. *)
Lemma lone_equalities grb H f A b C d m n : shape A m n -> length b = m -> length f = n -> shape H n n ->
  Gurobi.linear_program grb f A b None (Some d) = Gurobi.linear_program grb f A b None None /\
  Gurobi.quadratic_program grb tol5 H f A b None (Some d) = Gurobi.quadratic_program grb tol5 H f A b None None /\
  build_model None f A b (Some C) None = build_model None f A b None None /\
  ((0 < nrows C)%nat -> forall M, build_model None f A b None None = Ok M -> gs_optimal (grb M) = true -> Gurobi.linear_program grb f A b (Some C) None = Err AttributeError).
Proof.
  intros HA Lb Lf HH. assert (LA : length (rows A) = m) by apply HA. repeat match goal with |- _ /\ _ => split end; try reflexivity.
  intros HC M E O.
  assert (HD : prog_data None f A b (Mat n []) [] m 0 n) by (unfold prog_data, shape in *; cbn; repeat split; try tauto; constructor).
  destruct (build_ok None f A b None None (Mat n []) [] m 0 n HD) as (q & E' & _); [right; repeat split|]. rewrite E' in E. injection E as <-.
  unfold Gurobi.linear_program. change (build_model None f A b (Some C) None) with (build_model None f A b None None). rewrite E'. cbn [bind].
  unfold reorganize_solution. rewrite O. rewrite (mapM_ok _ (fun i => - nth i (gs_pi_ineq (grb (the_model q f A b (Mat n []) [] (repeat false n)))) 0)).
  - cbn [bind]. apply Nat.ltb_lt in HC as HC'. rewrite HC'. destruct (nrows C) as [|k] eqn:K; [lia|]. cbn [seq mapM the_model g_eq rows map2 vneg map length]. reflexivity.
  - intros i Hi. apply in_seq in Hi. unfold nrows in Hi. cbn [the_model g_ineq]. rewrite map2_length. unfold vneg. rewrite map_length, LA, Lb, Nat.min_id.
    destruct (Nat.ltb_spec i m); [reflexivity|lia].
Qed.

(** ** C60: what the wrappers return *)
Lemma ex_lin r c v : le_lin (LinExpr (row_terms tol9 r) c) v = dot (vcut r) v.
Proof. unfold le_lin. cbn [le_terms]. rewrite expr_val. ring. Qed.
Lemma ex_lins A b v : length (rows A) = length b ->
  map (fun e => le_lin e v) (map2 (fun r bi => LinExpr (row_terms tol9 r) (cut bi)) (rows A) b) = mv (mcut A) v.
Proof.
  intros L. destruct A as [n rs]. unfold mv, mcut. cbn [rows] in *. revert b L. induction rs as [|r rs IH]; intros [|bi b] L; try discriminate L; [reflexivity|].
  cbn [map map2]. rewrite ex_lin, (IH b) by (cbn in L; lia). reflexivity.
Qed.
Lemma polar q x v : length x = length v ->
  fold_right (fun t acc => let '(i, c, j) := t in c * (nth i x 0 * nth j v 0 + nth i v 0 * nth j x 0) + acc) 0 q = qe_val q (vadd x v) - qe_val q x - qe_val q v.
Proof.
  intros L. unfold qe_val. induction q as [|[[i c] j] q IH]; cbn [fold_right]; [ring|]. rewrite IH, !nth_vadd by exact L. ring.
Qed.
Lemma nth_error_map2 {A B C} (f : A -> B -> C) l l' i a b : nth_error l i = Some a -> nth_error l' i = Some b -> nth_error (map2 f l l') i = Some (f a b).
Proof.
  revert l' i. induction l as [|c l IH]; intros [|c' l'] [|i] H1 H2; cbn in *; try discriminate; [congruence|]. apply IH; assumption.
Qed.
(** what is needed of Gurobi on the model of one program *)
Definition gurobi_exact (grb : gmodel -> gsol) H f A b Co d_o : Prop :=
  forall M, build_model H f A b Co d_o = Ok M -> gsol_ok M (grb M) /\ gsol_duals M (grb M) /\ gsol_basis M (grb M).
Lemma reorganize_ok grb q f A b Co d_o C d m me n bin : prog_data None f A b C d m me n -> eq_args n Co d_o C d ->
  let M := the_model q f A b C d bin in
  let l := map (fun i => - nth i (gs_pi_ineq (grb M)) 0) (seq 0 m) in
  let nu := map (fun i => - nth i (gs_pi_eq (grb M)) 0) (seq 0 me) in
  reorganize_solution grb M A Co = Ok (if gs_optimal (grb M) then Sol (Some (gs_objVal (grb M))) (Some (gs_x (grb M))) None (Some l) (if (0 <? me)%nat then Some nu else None) else sol_none).
Proof.
  intros (HA & Lb & HC & Ld & Lf & _) HE M l nu. assert (LA : length (rows A) = m) by apply HA. assert (LC : length (rows C) = me) by apply HC.
  unfold reorganize_solution. destruct (gs_optimal (grb M)) eqn:O; [|reflexivity].
  rewrite (mapM_ok _ (fun i => - nth i (gs_pi_ineq (grb M)) 0)).
  2:{ intros i Hi. apply in_seq in Hi. unfold nrows in Hi. unfold M at 1. cbn [the_model g_ineq]. rewrite map2_length. unfold vneg. rewrite map_length, LA, Lb, Nat.min_id.
      destruct (Nat.ltb_spec i m); [reflexivity|lia]. }
  cbn [bind]. unfold nrows. rewrite LA. fold l.
  destruct HE as [(-> & ->)|(-> & -> & -> & ->)].
  - rewrite LC. destruct (Nat.ltb_spec 0 me) as [P|P]; [|reflexivity].
    rewrite (mapM_ok _ (fun i => - nth i (gs_pi_eq (grb M)) 0)); [reflexivity|].
    intros i Hi. apply in_seq in Hi. unfold M at 1. cbn [the_model g_eq]. rewrite map2_length. unfold vneg. rewrite map_length, LC, Ld, Nat.min_id.
    destruct (Nat.ltb_spec i me); [reflexivity|lia].
  - cbn in LC. subst me. reflexivity.
Qed.
Lemma neg_pi v m : length v = m -> map (fun i => - nth i v 0) (seq 0 m) = vneg v.
Proof. intros L. apply vec_ext; [len|]. intros i Hi. rewrite nth_vneg. lenh Hi. rewrite nth_map_seq by lia. reflexivity. Qed.

(** KKT from prices *)
Lemma duals_ok grb H q f A b C d m me n : prog_data H f A b C d m me n -> sharp_data H f A b C d -> (forall H', H = Some H' -> tr H' = H') ->
  (forall x, length x = n -> qe_val q x = match H with Some H => dot x (mv H x) | None => 0 end) ->
  let M := the_model q f A b C d (repeat false n) in
  gsol_ok M (grb M) -> gsol_duals M (grb M) -> gs_optimal (grb M) = true ->
  let x := gs_x (grb M) in let l := vneg (gs_pi_ineq (grb M)) in let nu := vneg (gs_pi_eq (grb M)) in
  length (gs_pi_ineq (grb M)) = m /\ length (gs_pi_eq (grb M)) = me /\ length x = n /\
  nonneg l /\ stationary (match H with Some H => vadd (mv H x) f | None => f end) A l C nu n /\ compl_slack A b l x.
Proof.
  intros (HA & Lb & HC & Ld & Lf & HH) (SH & Sf & SA & Sb & SC & Sd) HS HQ M OK DU O x l nu.
  assert (LA : length (rows A) = m) by apply HA. assert (LC : length (rows C) = me) by apply HC.
  destruct (DU O) as (L1 & L2 & NP & ST & CS). unfold gsol_ok in OK. rewrite O in OK. destruct OK as ((Lx & _) & _). fold x in Lx, ST, CS.
  assert (L1' : length (gs_pi_ineq (grb M)) = m). { rewrite L1. unfold M. cbn [the_model g_ineq]. rewrite map2_length. unfold vneg. rewrite map_length. lia. }
  assert (L2' : length (gs_pi_eq (grb M)) = me). { rewrite L2. unfold M. cbn [the_model g_eq]. rewrite map2_length. unfold vneg. rewrite map_length. lia. }
  assert (Lx' : length x = n). { rewrite Lx. unfold M. cbn [the_model g_lb]. rewrite repeat_length. exact Lf. }
  split; [exact L1'|]. split; [exact L2'|]. split; [exact Lx'|]. split; [|split].
  - unfold nonneg, l, vneg. apply Forall_map. eapply Forall_impl; [|exact NP]. intros a Ha. cbn in Ha. lra.
  - intros v Lv. specialize (ST v). assert (Lg : length (g_lb M) = n). { unfold M. cbn [the_model g_lb]. rewrite repeat_length. exact Lf. }
    rewrite Lg in ST. specialize (ST Lv). unfold l, nu. rewrite !dot_vneg_l.
    assert (G : g_gradient M x v = dot (match H with Some H => vadd (mv H x) f | None => f end) v).
    { unfold g_gradient. unfold M at 1 2. cbn [the_model g_quad g_lin]. rewrite polar by lia. rewrite ex_lin, (cut_sharp f Sf), !HQ by len. destruct H as [H|].
      - assert (SY : dot x (mv H v) = dot v (mv H x)) by (apply (sym_dot H n); auto; apply HS; reflexivity).
        assert (LH : length (rows H) = n) by apply HH.
        rewrite (mv_vadd H n n x v) by auto. rewrite dot_vadd_l by lia. rewrite !dot_vadd_r by len. rewrite dot_vadd_l by len. rewrite (dot_comm (mv H x) v). lra.
      - lra. }
    rewrite G in ST. rewrite ST. unfold M at 2 4. cbn [the_model g_ineq g_eq]. rewrite !ex_lins by (unfold vneg; rewrite map_length; lia).
    rewrite (mcut_sharp A SA), (mcut_sharp C SC). ring.
  - intros i Hi. unfold l. rewrite nth_vneg.
    assert (E : nth_error (g_ineq M) i = Some (LinExpr (row_terms tol9 (row A i)) (cut (- nth i b 0)))).
    { unfold M. cbn [the_model g_ineq]. apply (nth_error_map2 (fun r bi => LinExpr (row_terms tol9 r) (cut bi))).
      - unfold row. apply nth_error_nth'. lia.
      - unfold vneg. rewrite nth_error_map. rewrite (nth_error_nth' b 0 Hi). reflexivity. }
    specialize (CS i _ E). rewrite expr_val in CS.
    assert (R1 : vcut (row A i) = row A i). { apply cut_sharp. apply SA. unfold row. apply nth_In. lia. }
    assert (R2 : cut (- nth i b 0) = - nth i b 0). { rewrite cut_opp. f_equal. assert (V : vcut b = b) by (apply cut_sharp, Sb). rewrite <- V at 2. unfold vcut. rewrite (nth_indep (map cut b) 0 (cut 0)) by len. rewrite map_nth. reflexivity. }
    rewrite R1, R2 in CS. lra.
Qed.
(** primal side *)
Lemma primal_ok grb H q f A b C d m me n bin : prog_data H f A b C d m me n -> sharp_data H f A b C d ->
  (forall x, length x = n -> qe_val q x = match H with Some H => dot x (mv H x) | None => 0 end) ->
  let M := the_model q f A b C d bin in
  let ok x := in_set A b C d x /\ forall i, nth_error bin i = Some true -> nth i x 0 = 0 \/ nth i x 0 = 1 in
  let cost x := match H with Some H => qp_cost H f x | None => dot f x end in
  gsol_ok M (grb M) ->
  if gs_optimal (grb M) then ok (gs_x (grb M)) /\ gs_objVal (grb M) = cost (gs_x (grb M)) /\ forall y, ok y -> cost (gs_x (grb M)) <= cost y
  else ~ exists x, ok x /\ forall y, ok y -> cost x <= cost y.
Proof.
  intros HD (SH & Sf & SA & Sb & SC & Sd) HQ M ok cost OK.
  assert (HD' : prog_data None f A b C d m me n) by (unfold prog_data in *; tauto).
  assert (F : forall x, g_feasible M x <-> ok x).
  { intros x. unfold M. rewrite (model_feasible q f A b C d m me n bin x HD'). rewrite (mcut_sharp A SA), (mcut_sharp C SC), (cut_sharp b Sb), (cut_sharp d Sd). reflexivity. }
  assert (NC : ncols A = n) by apply HD.
  assert (O : forall x, ok x -> g_objective M x = cost x).
  { intros x ((Lx & _) & _). rewrite NC in Lx. unfold M. rewrite (model_objective q f A b C d bin n x H Lx).
    - unfold cost. rewrite (cut_sharp f Sf). destruct H as [H|]; [rewrite (mcut_sharp H SH)|]; reflexivity.
    - rewrite (HQ x Lx). destruct H as [H|]; [rewrite (mcut_sharp H SH)|]; reflexivity. }
  unfold gsol_ok in OK. destruct (gs_optimal (grb M)).
  - destruct OK as (F1 & V & B). apply F in F1. rewrite (O _ F1) in V. split; [exact F1|]. split; [exact V|].
    intros y Hy. rewrite <- (O _ F1), <- (O _ Hy). apply B, F, Hy.
  - intros (x & Hx & B). apply OK. exists x. split; [apply F, Hx|]. intros y Hy. apply F in Hy. rewrite (O _ Hx), (O _ Hy). apply B, Hy.
Qed.
Lemma sharp_quad H n q : match H with Some H => msharp H | None => True end ->
  (forall x, length x = n -> qe_val q x = match H with Some H => dot x (mv (mcut H) x) | None => 0 end) ->
  forall x, length x = n -> qe_val q x = match H with Some H => dot x (mv H x) | None => 0 end.
Proof. intros SH HQ x Lx. rewrite (HQ x Lx). destruct H as [H|]; [rewrite (mcut_sharp H SH)|]; reflexivity. Qed.

(*@ Theorem C60_gurobi_lp : On a linear program without tiny entries, if Gurobi is exact on its model, the wrapper returns a minimizer, its cost, multipliers that satisfy the KKT conditions and an active set of active constraints; or None everywhere if there is no minimizer. *)
Lemma gurobi_lp grb f A b Co d_o C d m me n : prog_data None f A b C d m me n -> eq_args n Co d_o C d -> sharp_data None f A b C d ->
  gurobi_exact grb None f A b Co d_o ->
  (exists s x l nu act, Gurobi.linear_program grb f A b Co d_o = Ok s /\ s_argmin s = Some x /\ s_min s = Some (dot f x) /\ lp_optimal f A b C d x /\
     s_multiplier_inequality s = Some l /\ s_multiplier_equality s = (if (0 <? me)%nat then Some nu else None) /\ length l = m /\ length nu = me /\
     nonneg l /\ stationary f A l C nu n /\ compl_slack A b l x /\
     s_active_set s = Some act /\ forall i, In i act -> (i < m)%nat /\ dot (row A i) x = nth i b 0) \/
  (Gurobi.linear_program grb f A b Co d_o = Ok sol_none /\ ~ exists x, lp_optimal f A b C d x).
Proof.
  intros HD HE SD HX. destruct (build_ok None f A b Co d_o C d m me n HD HE) as (q & E & Q0).
  pose proof (sharp_quad None n q (proj1 SD) Q0) as Q. destruct (HX _ E) as (OK & DU & HB).
  pose proof (primal_ok grb None q f A b C d m me n (repeat false n) HD SD Q OK) as PR. cbv zeta beta iota in PR.
  unfold Gurobi.linear_program. rewrite E. cbn [bind]. set (M := the_model q f A b C d (repeat false n)) in *.
  pose proof (reorganize_ok grb q f A b Co d_o C d m me n (repeat false n) ltac:(unfold prog_data in *; tauto) HE) as RO. cbv zeta in RO. fold M in RO. rewrite RO. cbn [bind]. destruct (gs_optimal (grb M)) eqn:O.
  - left. destruct PR as ((F1 & _) & V & B).
    destruct (duals_ok grb None q f A b C d m me n HD SD ltac:(discriminate) Q OK DU O) as (L1 & L2 & Lx & NN & ST & CS). fold M in L1, L2, Lx, NN, ST, CS.
    do 5 eexists. split; [reflexivity|]. cbn [s_argmin s_min s_multiplier_inequality s_multiplier_equality s_active_set].
    split; [reflexivity|]. rewrite V. split; [reflexivity|]. split.
    { split; [exact F1|]. intros y Hy. apply B. split; [exact Hy|apply no_binary]. }
    rewrite (neg_pi _ m L1), (neg_pi _ me L2). split; [reflexivity|]. split; [reflexivity|]. split; [len|]. split; [len|]. split; [exact NN|]. split; [exact ST|]. split; [exact CS|].
    split; [reflexivity|]. intros i Hi. apply filter_In in Hi. destruct Hi as (Hi & Z). apply in_seq in Hi. apply Z.eqb_eq in Z.
    destruct HD as (HA & Lb & _). assert (LA : length (rows A) = m) by apply HA. unfold nrows in Hi. split; [lia|].
    destruct SD as (_ & _ & SA & Sb & _).
    assert (EI : nth_error (g_ineq M) i = Some (LinExpr (row_terms tol9 (row A i)) (cut (- nth i b 0)))).
    { unfold M. cbn [the_model g_ineq]. apply (nth_error_map2 (fun r bi => LinExpr (row_terms tol9 r) (cut bi))).
      - unfold row. apply nth_error_nth'. lia.
      - unfold vneg. rewrite nth_error_map. rewrite (nth_error_nth' b 0) by lia. reflexivity. }
    specialize (HB O i _ EI Z). rewrite expr_val in HB.
    assert (R1 : vcut (row A i) = row A i). { apply cut_sharp. apply SA. unfold row. apply nth_In. lia. }
    assert (R2 : cut (- nth i b 0) = - nth i b 0). { rewrite cut_opp. f_equal. assert (V2 : vcut b = b) by (apply cut_sharp, Sb). rewrite <- V2 at 2. unfold vcut. rewrite (nth_indep (map cut b) 0 (cut 0)) by len. rewrite map_nth. reflexivity. }
    rewrite R1, R2 in HB. lra.
  - right. split; [reflexivity|]. intros (x & Fx & Bx). apply PR. exists x. split; [split; [exact Fx|apply no_binary]|]. intros y (Hy & _). apply Bx, Hy.
Qed.
(*@ Theorem C60_gurobi_qp : On a quadratic program with symmetric H and without tiny entries, if Gurobi is exact on its model, the wrapper returns a minimizer, its cost, multipliers that satisfy the KKT conditions and as active set the indices of the multipliers above 1e-5, which are active constraints; or None everywhere if there is no minimizer. *)
Lemma gurobi_qp grb H f A b Co d_o C d m me n : prog_data (Some H) f A b C d m me n -> tr H = H -> eq_args n Co d_o C d -> sharp_data (Some H) f A b C d ->
  gurobi_exact grb (Some H) f A b Co d_o ->
  (exists s x l nu act, Gurobi.quadratic_program grb tol5 H f A b Co d_o = Ok s /\ s_argmin s = Some x /\ s_min s = Some (qp_cost H f x) /\ qp_optimal H f A b C d x /\
     s_multiplier_inequality s = Some l /\ s_multiplier_equality s = (if (0 <? me)%nat then Some nu else None) /\ length l = m /\ length nu = me /\
     nonneg l /\ stationary (vadd (mv H x) f) A l C nu n /\ compl_slack A b l x /\
     s_active_set s = Some act /\ forall i, In i act <-> (i < m)%nat /\ / 10 ^ 5 < nth i l 0) \/
  (Gurobi.quadratic_program grb tol5 H f A b Co d_o = Ok sol_none /\ ~ exists x, qp_optimal H f A b C d x).
Proof.
  intros HD SY HE SD HX. destruct (build_ok (Some H) f A b Co d_o C d m me n HD HE) as (q & E & Q0).
  pose proof (sharp_quad (Some H) n q (proj1 SD) Q0) as Q. destruct (HX _ E) as (OK & DU & _).
  pose proof (primal_ok grb (Some H) q f A b C d m me n (repeat false n) HD SD Q OK) as PR. cbv zeta beta iota in PR.
  assert (HD' : prog_data None f A b C d m me n) by (unfold prog_data in *; tauto).
  unfold Gurobi.quadratic_program. rewrite E. cbn [bind]. set (M := the_model q f A b C d (repeat false n)) in *.
  pose proof (reorganize_ok grb q f A b Co d_o C d m me n (repeat false n) ltac:(unfold prog_data in *; tauto) HE) as RO. cbv zeta in RO. fold M in RO. rewrite RO. cbn [bind]. destruct (gs_optimal (grb M)) eqn:O.
  - left. destruct PR as ((F1 & _) & V & B).
    destruct (duals_ok grb (Some H) q f A b C d m me n HD SD ltac:(intros H' [= <-]; exact SY) Q OK DU O) as (L1 & L2 & Lx & NN & ST & CS). fold M in L1, L2, Lx, NN, ST, CS.
    do 5 eexists. split; [reflexivity|]. cbn [s_argmin s_min s_multiplier_inequality s_multiplier_equality s_active_set].
    split; [reflexivity|]. rewrite V. split; [reflexivity|]. split.
    { split; [exact F1|]. intros y Hy. apply B. split; [exact Hy|apply no_binary]. }
    rewrite (neg_pi _ m L1), (neg_pi _ me L2). split; [reflexivity|]. split; [reflexivity|]. split; [len|]. split; [len|]. split; [exact NN|]. split; [exact ST|]. split; [exact CS|].
    split; [reflexivity|]. intros i. rewrite (In_where _ _ 0). rewrite Rltb_true. unfold vneg at 1. rewrite map_length, L1. unfold tol5. replace (10 ^ 5) with 100000 by ring. reflexivity.
  - right. split; [reflexivity|]. intros (x & Fx & Bx). apply PR. exists x. split; [split; [exact Fx|apply no_binary]|]. intros y (Hy & _). apply Bx, Hy.
Qed.
Lemma binary_entries nc n x : length x = n ->
  ((forall i, nth_error (firstn nc (repeat false n) ++ repeat true (n - nc)) i = Some true -> nth i x 0 = 0 \/ nth i x 0 = 1) <-> binary_from nc x).
Proof.
  intros L. unfold binary_from.
  assert (N : forall i, nth_error (firstn nc (repeat false n) ++ repeat true (n - nc)) i = Some true <-> (nc <= i < n)%nat).
  { intros i. assert (LF : length (firstn nc (repeat false n)) = Nat.min nc n) by len.
    destruct (Nat.lt_ge_cases i (Nat.min nc n)) as [I|I].
    - rewrite nth_error_app1 by lia. split; [|lia]. intros E. apply nth_error_In in E.
      assert (E2 : In true (repeat false n)) by (rewrite <- (firstn_skipn nc); apply in_or_app; left; exact E). apply repeat_spec in E2. discriminate E2.
    - rewrite nth_error_app2 by lia. rewrite LF. split; intros E.
      + assert (Hl : (i - Nat.min nc n < length (repeat true (n - nc)))%nat) by (apply nth_error_Some; rewrite E; discriminate). rewrite repeat_length in Hl. lia.
      + rewrite (nth_error_nth' _ true) by (rewrite repeat_length; lia). f_equal. apply (repeat_spec (n - nc)). apply nth_In. rewrite repeat_length. lia. }
  rewrite Forall_forall. split; intros H.
  - intros a Ha. destruct (In_nth _ _ 0 Ha) as (i & Hi & E). rewrite skipn_length in Hi. rewrite nth_skipn' in E. rewrite <- E. apply H, N. lia.
  - intros i Hi. apply N in Hi. apply H. replace i with (nc + (i - nc))%nat by lia. rewrite <- nth_skipn'. apply nth_In. rewrite skipn_length. lia.
Qed.
(*@ Theorem C60_gurobi_miqp : On a mixed-integer quadratic program without tiny entries, if Gurobi is exact on its model, the wrapper returns a minimizer over the points with binary entries from number nc on, and its cost; or None, None if there is no minimizer. *)
Lemma gurobi_miqp grb nc H f A b Co d_o C d m me n : prog_data (Some H) f A b C d m me n -> eq_args n Co d_o C d -> sharp_data (Some H) f A b C d ->
  (forall M, build_model (Some H) f A b Co d_o = Ok M -> gsol_ok (set_binary nc M) (grb (set_binary nc M))) ->
  (exists x, Gurobi.mixed_integer_quadratic_program grb nc H f A b Co d_o = Ok (Some (qp_cost H f x), Some x) /\ miqp_optimal nc H f A b C d x) \/
  (Gurobi.mixed_integer_quadratic_program grb nc H f A b Co d_o = Ok (None, None) /\ ~ exists x, miqp_optimal nc H f A b C d x).
Proof.
  intros HD HE SD HX. destruct (build_ok (Some H) f A b Co d_o C d m me n HD HE) as (q & E & Q0).
  pose proof (sharp_quad (Some H) n q (proj1 SD) Q0) as Q. specialize (HX _ E).
  set (bin := firstn nc (repeat false n) ++ repeat true (n - nc)).
  assert (EB : set_binary nc (the_model q f A b C d (repeat false n)) = the_model q f A b C d bin).
  { unfold set_binary, the_model. cbn [g_lb g_binary g_ineq g_eq g_quad g_lin]. rewrite repeat_length. reflexivity. }
  rewrite EB in HX. pose proof (primal_ok grb (Some H) q f A b C d m me n bin HD SD Q HX) as PR. cbv zeta beta iota in PR.
  unfold Gurobi.mixed_integer_quadratic_program. rewrite E. cbn [bind]. rewrite EB. set (M := the_model q f A b C d bin) in *.
  assert (NC : ncols A = n) by apply HD.
  assert (EQ : forall x, (in_set A b C d x /\ forall i, nth_error bin i = Some true -> nth i x 0 = 0 \/ nth i x 0 = 1) <-> miqp_feasible nc A b C d x).
  { intros x. unfold miqp_feasible. split; intros (I & B); (split; [exact I|]); destruct I as (Lx & _); rewrite NC in Lx; apply (binary_entries nc n x Lx); exact B. }
  destruct (gs_optimal (grb M)).
  - left. destruct PR as (F1 & V & B). exists (gs_x (grb M)). rewrite V. split; [reflexivity|]. split; [apply EQ, F1|]. intros y Hy. apply B, EQ, Hy.
  - right. split; [reflexivity|]. intros (x & Fx & Bx). apply PR. exists x. split; [apply EQ, Fx|]. intros y Hy. apply EQ in Hy. apply Bx, Hy.
Qed.

(** an oracle that answers one program correctly *)
Lemma sharp_row A b m i : msharp A -> sharp b -> length (rows A) = m -> length b = m -> (i < m)%nat -> vcut (row A i) = row A i /\ cut (- nth i b 0) = - nth i b 0.
Proof.
  intros SA Sb LA Lb Hi. split.
  - apply cut_sharp. apply SA. unfold row. apply nth_In. lia.
  - rewrite cut_opp. f_equal. assert (V2 : vcut b = b) by (apply cut_sharp, Sb). rewrite <- V2 at 2. unfold vcut. rewrite (nth_indep (map cut b) 0 (cut 0)) by len. rewrite map_nth. reflexivity.
Qed.
Lemma exact_const H f A b Co d_o C d m me n x l nu : prog_data H f A b C d m me n -> eq_args n Co d_o C d -> sharp_data H f A b C d -> (forall H', H = Some H' -> tr H' = H') ->
  let cost x := match H with Some H => qp_cost H f x | None => dot f x end in
  in_set A b C d x -> (forall y, in_set A b C d y -> cost x <= cost y) -> length l = m -> length nu = me ->
  nonneg l -> stationary (match H with Some H => vadd (mv H x) f | None => f end) A l C nu n -> compl_slack A b l x ->
  gurobi_exact (fun _ => GSol true (cost x) x (vneg l) (vneg nu) []) H f A b Co d_o.
Proof.
  intros HD HE SD SY cost IX BX Ll Ln NN ST CS M EM. destruct (build_ok H f A b Co d_o C d m me n HD HE) as (q & E & Q0).
  rewrite E in EM. injection EM as <-. pose proof (sharp_quad H n q (proj1 SD) Q0) as Q.
  pose proof SD as (SH & Sf & SA & Sb & SC & Sd). pose proof HD as (HA & Lb & HC & Ld & Lf & HH).
  assert (LA : length (rows A) = m) by apply HA. assert (LC : length (rows C) = me) by apply HC. assert (NC : ncols A = n) by apply HA.
  assert (Lx : length x = n) by (destruct IX as (Lx & _); lia).
  assert (F : forall x, g_feasible (the_model q f A b C d (repeat false n)) x <-> in_set A b C d x).
  { intros y. rewrite (model_feasible q f A b C d m me n) by (unfold prog_data in *; tauto). rewrite (mcut_sharp A SA), (mcut_sharp C SC), (cut_sharp b Sb), (cut_sharp d Sd).
    split; [tauto|]. intros I. split; [exact I|apply no_binary]. }
  assert (O : forall y, in_set A b C d y -> g_objective (the_model q f A b C d (repeat false n)) y = cost y).
  { intros y (Ly & _). rewrite NC in Ly. rewrite (model_objective q f A b C d _ n y H Ly) by (rewrite (Q0 y Ly); reflexivity). unfold cost. rewrite (cut_sharp f Sf). destruct H as [H|]; [rewrite (mcut_sharp H SH)|]; reflexivity. }
  split; [|split].
  - unfold gsol_ok. cbn [gs_optimal gs_x gs_objVal]. split; [apply F, IX|]. rewrite (O x IX). split; [reflexivity|]. intros y Hy. apply F in Hy. rewrite (O y Hy). apply BX, Hy.
  - intros _. cbn [gs_x gs_pi_ineq gs_pi_eq]. cbn [the_model g_ineq g_eq g_lb]. rewrite !map2_length, repeat_length, Lf. unfold vneg at 1 2 3 4. rewrite !map_length.
    split; [lia|]. split; [lia|]. split.
    { unfold vneg. apply Forall_map. eapply Forall_impl; [|exact NN]. intros a Ha. cbn in Ha. lra. }
    split.
    + intros v Lv. rewrite !ex_lins by (unfold vneg; rewrite map_length; lia). rewrite (mcut_sharp A SA), (mcut_sharp C SC), !dot_vneg_l.
      specialize (ST v Lv). unfold g_gradient. cbn [the_model g_quad g_lin]. rewrite polar by lia. rewrite ex_lin, (cut_sharp f Sf), !Q by len. destruct H as [H|].
      * assert (SYM : dot x (mv H v) = dot v (mv H x)) by (apply (sym_dot H n); auto; apply SY; reflexivity).
        assert (LH : length (rows H) = n) by apply HH. rewrite dot_vadd_l in ST by len. rewrite (dot_comm (mv H x) v) in ST.
        rewrite (mv_vadd H n n x v) by auto. rewrite dot_vadd_l by lia. rewrite !dot_vadd_r by len. lra.
      * lra.
    + intros i e Hi. assert (Hm : (i < m)%nat).
      { assert (Hl : (i < length (map2 (fun r bi => LinExpr (row_terms tol9 r) (cut bi)) (rows A) (vneg b)))%nat) by (apply nth_error_Some; rewrite Hi; discriminate).
        rewrite map2_length in Hl. lia. }
      rewrite (nth_error_map2 (fun r bi => LinExpr (row_terms tol9 r) (cut bi)) _ _ i (row A i) (- nth i b 0)) in Hi.
      * injection Hi as <-. rewrite expr_val. destruct (sharp_row A b m i SA Sb LA Lb Hm) as (-> & ->). rewrite nth_vneg. specialize (CS i ltac:(lia)). lra.
      * unfold row. apply nth_error_nth'. lia.
      * unfold vneg. rewrite nth_error_map. rewrite (nth_error_nth' b 0) by lia. reflexivity.
  - intros _ i e _. cbn [gs_cbasis]. destruct i; discriminate.
Qed.
Lemma sharp_int a : 1 <= Rabs a -> sharp [a].
Proof. intros H b [<-|[]]. right. apply Rlt_le_trans with 1; [|exact H]. replace 1 with (/ 1) by field. apply Rinv_lt_contravar; simpl; lra. Qed.
Lemma sharp_1 : sharp [1]. Proof. apply sharp_int. rewrite Rabs_R1. lra. Qed.
(*@ Example C60_example : min 1/2 x^2 - 2x s.t. x <= 1 with a Gurobi that answers it exactly (x = 1, Pi = -1): all hypotheses of C24 and C60 hold and the wrapper returns argmin 1, min -3/2, multiplier 1 and active set [0]. *)
Lemma gurobi_example : let H := Mat 1 [[1]] in let A := Mat 1 [[1]] in
  let grb := fun _ => GSol true (- (3 / 2)) [1] [-1] [] [] in
  prog_data (Some H) [-2] A [1] (Mat 1 []) [] 1 0 1 /\ tr H = H /\ eq_args 1 None None (Mat 1 []) [] /\ sharp_data (Some H) [-2] A [1] (Mat 1 []) [] /\
  gurobi_exact grb (Some H) [-2] A [1] None None /\
  Gurobi.quadratic_program grb tol5 H [-2] A [1] None None = Ok (Sol (Some (- (3 / 2))) (Some [1]) (Some [0%nat]) (Some [- (-1)]) None).
Proof.
  intros H A grb.
  assert (HD : prog_data (Some H) [-2] A [1] (Mat 1 []) [] 1 0 1) by (unfold prog_data, shape; simpl; repeat split; repeat constructor).
  assert (HE : eq_args 1 None None (Mat 1 []) []) by (right; repeat split).
  assert (SD : sharp_data (Some H) [-2] A [1] (Mat 1 []) []).
  { unfold sharp_data, msharp. cbn. repeat match goal with |- _ /\ _ => split end; try (intros r []; fail).
    - intros r [<-|[]]. apply sharp_1.
    - apply sharp_int. rewrite Rabs_left; lra.
    - intros r [<-|[]]. apply sharp_1.
    - apply sharp_1. }
  assert (SY : tr H = H) by reflexivity.
  split; [exact HD|]. split; [exact SY|]. split; [exact HE|]. split; [exact SD|]. split.
  - assert (G : gurobi_exact (fun _ => GSol true (qp_cost H [-2] [1]) [1] (vneg [1]) (vneg []) []) (Some H) [-2] A [1] None None).
    { apply (exact_const (Some H) [-2] A [1] None None (Mat 1 []) [] 1 0 1 [1] [1] []); auto.
      - intros H' [= <-]. reflexivity.
      - split; [reflexivity|]. split; [constructor; [cbn; lra|constructor]|constructor].
      - intros y (Ly & I & _). destruct y as [|y [|]]; try discriminate Ly. unfold ineq_holds in I. cbn in I. inv2 I. unfold qp_cost, H. cbn. nra.
      - constructor; [lra|constructor].
      - intros v Lv. destruct v as [|v [|]]; try discriminate Lv. cbn. ring.
      - intros i Hi. cbn in Hi. assert (i = 0%nat) by lia. subst i. cbn. ring. }
    unfold grb. replace (- (3 / 2)) with (qp_cost H [-2] [1]) by (unfold qp_cost, H; cbn; field). exact G.
  - destruct (build_ok (Some H) [-2] A [1] None None (Mat 1 []) [] 1 0 1 HD HE) as (q & E & _).
    unfold Gurobi.quadratic_program. rewrite E. cbn [bind]. rewrite (reorganize_ok grb q [-2] A [1] None None (Mat 1 []) [] 1 0 1) by (auto; unfold prog_data in *; tauto).
    cbn. unfold where_. cbn. assert (B : Rltb tol5 (- (-1)) = true) by (apply Rltb_true; unfold tol5; lra). rewrite B. reflexivity.
Qed.

(** ** C25 *)
(*@ Theorem C25_dispatch_partial : 'pnnls' and 'gurobi' run the solver named; a lone C or d raises ValueError with 'pnnls' (the default) in linear_program and quadratic_program; every other name but 'drake' raises ValueError, as does 'pnnls' for mixed-integer programs; 'drake' raises NameError.
   Missing: with 'gurobi' a lone C or d does not raise ValueError (C24_lone_equalities, C25_lone_refuted); 'drake' is documented but is not run. *)
Lemma dispatch np grb nc H f A b C d Co d_o solver : 
  (linear_program np grb f A b Co d_o "pnnls" = Pnnls.linear_program np (/ 10 ^ 7) f A b Co d_o /\
   linear_program np grb f A b Co d_o "gurobi" = Gurobi.linear_program grb f A b Co d_o /\
   quadratic_program np grb H f A b Co d_o "pnnls" = Pnnls.quadratic_program np (/ 10 ^ 7) H f A b Co d_o /\
   quadratic_program np grb H f A b Co d_o "gurobi" = Gurobi.quadratic_program grb (/ 10 ^ 5) H f A b Co d_o /\
   mixed_integer_quadratic_program grb nc H f A b Co d_o "gurobi" = Gurobi.mixed_integer_quadratic_program grb nc H f A b Co d_o) /\
  (linear_program np grb f A b (Some C) None "pnnls" = Err ValueError /\ linear_program np grb f A b None (Some d) "pnnls" = Err ValueError /\
   quadratic_program np grb H f A b (Some C) None "pnnls" = Err ValueError /\ quadratic_program np grb H f A b None (Some d) "pnnls" = Err ValueError) /\
  (linear_program np grb f A b Co d_o "drake" = Err NameError /\ quadratic_program np grb H f A b Co d_o "drake" = Err NameError /\
   mixed_integer_quadratic_program grb nc H f A b Co d_o "drake" = Err NameError) /\
  (solver <> "pnnls"%string -> solver <> "gurobi"%string -> solver <> "drake"%string ->
   linear_program np grb f A b Co d_o solver = Err ValueError /\ quadratic_program np grb H f A b Co d_o solver = Err ValueError) /\
  (solver <> "gurobi"%string -> solver <> "drake"%string -> mixed_integer_quadratic_program grb nc H f A b Co d_o solver = Err ValueError).
Proof.
  assert (T7 : tol7 = / 10 ^ 7) by (unfold tol7; f_equal; ring). assert (T5 : tol5 = / 10 ^ 5) by (unfold tol5; f_equal; ring). rewrite <- T7, <- T5.
  repeat match goal with |- _ /\ _ => split end; try reflexivity.
  - intros N1 N2 N3. apply String.eqb_neq in N1, N2, N3. unfold linear_program, quadratic_program. rewrite N1, N2, N3. split; reflexivity.
  - intros N2 N3. apply String.eqb_neq in N2, N3. unfold mixed_integer_quadratic_program. rewrite N2, N3. reflexivity.
Qed.
(*@ Theorem C25_lone_refuted : With solver 'gurobi' and d but no C, no exception is raised: the solution of the program without equalities is returned. *)
Lemma lone_refuted : exists H f A b d, forall np, exists grb s, gurobi_exact grb (Some H) f A b None (Some d) /\
  quadratic_program np grb H f A b None (Some d) "gurobi" = Ok s /\ s_argmin s = Some [1].
Proof.
  exists (Mat 1 [[1]]), [-2], (Mat 1 [[1]]), [1], [0]. intros np. exists (fun _ => GSol true (- (3 / 2)) [1] [-1] [] []). eexists.
  destruct gurobi_example as (_ & _ & _ & _ & E & V). split; [exact E|]. split; [exact V|reflexivity].
Qed.

(** ** C61: the solvers agree *)
(*@ Theorem C61_solvers_agree : On linear programs that have a solution and no tiny entries, 'pnnls' and 'gurobi' return the same minimum; on strictly convex quadratic programs without tiny entries, whenever 'pnnls' returns a solution 'gurobi' returns the same minimizer and minimum; for infeasible programs both return None everywhere for quadratic programs. *)
Lemma solvers_agree np grb H f A b Co d_o C d m me n : exact_np np -> prog_data (Some H) f A b C d m me n -> Spec.pd H n -> eq_args n Co d_o C d -> sharp_data (Some H) f A b C d ->
  gurobi_exact grb None f A b Co d_o -> gurobi_exact grb (Some H) f A b Co d_o ->
  (lp_solvable f A b C d -> exists s s', linear_program np grb f A b Co d_o "pnnls" = Ok s /\ linear_program np grb f A b Co d_o "gurobi" = Ok s' /\ s_min s = s_min s' /\ s_min s <> None) /\
  (forall s, quadratic_program np grb H f A b Co d_o "pnnls" = Ok s -> s_argmin s <> None ->
     exists s', quadratic_program np grb H f A b Co d_o "gurobi" = Ok s' /\ s_argmin s = s_argmin s' /\ s_min s = s_min s') /\
  ((forall x, ~ in_set A b C d x) -> quadratic_program np grb H f A b Co d_o "pnnls" = Ok sol_none /\ quadratic_program np grb H f A b Co d_o "gurobi" = Ok sol_none).
Proof.
  intros (NP1 & NP2 & NP3 & NP4 & _) HD HP HE SD X1 X2. pose proof HD as (HA & Lb & HC & Ld & Lf & HH).
  assert (T7 : 0 < tol7) by (unfold tol7; lra).
  change (linear_program np grb f A b Co d_o "pnnls") with (Pnnls.linear_program np tol7 f A b Co d_o).
  change (linear_program np grb f A b Co d_o "gurobi") with (Gurobi.linear_program grb f A b Co d_o).
  change (quadratic_program np grb H f A b Co d_o "pnnls") with (Pnnls.quadratic_program np tol7 H f A b Co d_o).
  change (quadratic_program np grb H f A b Co d_o "gurobi") with (Gurobi.quadratic_program grb tol5 H f A b Co d_o).
  split; [|split].
  - intros HS. destruct (lp_optimality np tol7 f A b Co d_o C d m me n) as (s & x & E & Ex & Em & Ox); auto.
    destruct (gurobi_lp grb f A b Co d_o C d m me n) as [(s' & x' & l & nu & act & E' & Ex' & Em' & Ox' & _)|(_ & N)]; auto.
    + unfold prog_data in *. tauto.
    + unfold sharp_data in *. tauto.
    + exists s, s'. split; [exact E|]. split; [exact E'|]. rewrite Em, Em'. split; [|discriminate]. f_equal. destruct Ox as (I & B), Ox' as (I' & B').
      specialize (B _ I'). specialize (B' _ I). lra.
    + exfalso. apply N. exists x. exact Ox.
  - intros s E NN. destruct (s_argmin s) as [x|] eqn:Ex; [|congruence].
    destruct (qp_optimality np tol7 H f A b Co d_o C d m me n s x) as (Ox & Un & Em & _); auto; [lra|].
    destruct (gurobi_qp grb H f A b Co d_o C d m me n) as [(s' & x' & l & nu & act & E' & Ex' & Em' & Ox' & _)|(_ & N)]; auto.
    + apply HP.
    + exists s'. split; [exact E'|]. rewrite (Un x' Ox') in *. split; congruence.
    + exfalso. apply N. exists x. exact Ox.
  - intros IN. split; [apply (qp_infeasible_none np tol7 H f A b Co d_o C d m me n); auto; lra|].
    destruct (gurobi_qp grb H f A b Co d_o C d m me n) as [(s' & x' & l & nu & act & E' & Ex' & Em' & Ox' & _)|(E & _)]; auto.
    + apply HP.
    + exfalso. apply (IN x'). apply Ox'.
Qed.
