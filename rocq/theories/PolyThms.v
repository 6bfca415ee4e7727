(** * PolyThms: constraint bookkeeping of Polyhedron (C01, C02, C04-C07, C15, C36), proofs *)
From Coq Require Import ZArith.
From Verif Require Import Arr ArrFacts Spec Numpy Pnnls PnnlsFacts GeomUtils Polyhedron.

(** ** Specification *)
(** coherent polyhedron in R^n with m inequalities and me equalities *)
Definition wf (p : poly) (m me n : nat) : Prop :=
  shape (pA p) m n /\ length (pb p) = m /\ shape (pC p) me n /\ length (pd p) = me.
(** a two-dimensional numpy array *)
Definition rect (A : mat) : Prop := shape A (nrows A) (ncols A).

(** the coordinates of x whose position is in the list, in increasing order of position *)
Definition coords (indices : option (list Z)) (x : vec) : vec :=
  match indices with
  | None => x
  | Some l => map (fun i => nth i x 0) (filter (fun i => existsb (Z.eqb (Z.of_nat i)) l) (seq 0 (length x)))
  end.

(** calls that add constraints *)
Inductive pop : Type :=
| AddInequality (A : mat) (b : nd) (indices : option (list Z))
| AddEquality (C : mat) (d : nd) (indices : option (list Z))
| AddLowerBound (x_min : bound) (indices : option (list Z))
| AddUpperBound (x_max : bound) (indices : option (list Z))
| AddBounds (x_min x_max : bound) (indices : option (list Z)).

(** what each call asks of a point x *)
Definition bound_vec (x : bound) : vec := match x with BFloat r => [r] | BArr (D1 v) => v | BArr (D2 _) => [] end.
Definition asks (o : pop) (x : vec) : Prop :=
  match o with
  | AddInequality A (D1 b) idx => ineq_holds A b (coords idx x)
  | AddEquality C (D1 d) idx => eq_holds C d (coords idx x)
  | AddLowerBound lo idx => Forall2 Rle (bound_vec lo) (coords idx x)
  | AddUpperBound hi idx => Forall2 Rle (coords idx x) (bound_vec hi)
  | AddBounds lo hi idx => Forall2 Rle (bound_vec lo) (coords idx x) /\ Forall2 Rle (coords idx x) (bound_vec hi)
  | _ => False
  end.
(** arguments are rectangular arrays *)
Definition args_rect (o : pop) : Prop :=
  match o with AddInequality A _ _ => rect A | AddEquality C _ _ => rect C | _ => True end.

(** the call *)
Definition call (o : pop) : pm Datatypes.unit :=
  match o with
  | AddInequality A b idx => add_inequality A b idx
  | AddEquality C d idx => add_equality C d idx
  | AddLowerBound lo idx => add_lower_bound lo idx
  | AddUpperBound hi idx => add_upper_bound hi idx
  | AddBounds lo hi idx => add_bounds lo hi idx
  end.
(** a history of calls, all of which return *)
Inductive calls : poly -> list pop -> poly -> Prop :=
| calls_nil p : calls p [] p
| calls_cons p o p1 ops p2 : call o p = (Ok tt, p1) -> calls p1 ops p2 -> calls p (o :: ops) p2.

(** ** Selection matrix *)
Definition keep (idx : option (list Z)) (n : nat) : list nat :=
  match idx with None => seq 0 n | Some l => filter (fun i => existsb (Z.eqb (Z.of_nat i)) l) (seq 0 n) end.

Lemma selection_rows p idx : selection_matrix p idx = Mat (ncols (pA p)) (map (unit (ncols (pA p))) (keep idx (ncols (pA p)))).
Proof.
  unfold selection_matrix, keep. f_equal. f_equal. destruct idx as [l|].
  - apply filter_ext. intros i. unfold in_indices. induction l as [|z l IH]; [reflexivity|]. simpl. rewrite IH.
    now rewrite Z.eqb_sym.
  - transitivity (filter (fun _ => true) (seq 0 (ncols (pA p)))).
    + apply filter_ext_in. intros i Hi. unfold in_indices. apply existsb_exists. exists (Z.of_nat i). split; [now apply in_map|apply Z.eqb_refl].
    + induction (seq 0 (ncols (pA p))) as [|a l IH]; [reflexivity|]. simpl. now rewrite IH.
Qed.
Lemma keep_lt idx n i : In i (keep idx n) -> (i < n)%nat.
Proof.
  destruct idx; simpl; intros H; [apply filter_In in H; destruct H as (H & _)|]; apply in_seq in H; lia.
Qed.
Lemma shape_selection p idx : shape (selection_matrix p idx) (length (keep idx (ncols (pA p)))) (ncols (pA p)).
Proof.
  rewrite selection_rows. repeat split; simpl; [len|]. apply Forall_forall. intros r Hr. apply in_map_iff in Hr.
  destruct Hr as (i & <- & _). len.
Qed.
Lemma mv_selection p idx x : length x = ncols (pA p) -> mv (selection_matrix p idx) x = coords idx x.
Proof.
  intros L. rewrite selection_rows. unfold mv. simpl. rewrite map_map.
  transitivity (map (fun i => nth i x 0) (keep idx (ncols (pA p)))).
  - apply map_ext_in. intros i Hi. apply dot_unit; [|exact L]. eapply keep_lt; eauto.
  - destruct idx as [l|]; simpl; [now rewrite L|]. 
    apply vec_ext; [len|]. intros i Hi. lenh Hi. now rewrite nth_map_seq by lia.
Qed.
Lemma coords_length idx x : length (coords idx x) = length (keep idx (length x)).
Proof. destruct idx; simpl; [now rewrite map_length|now rewrite seq_length]. Qed.

(** ** What each call does *)
Lemma add_inequality_eq A b idx p :
  add_inequality A b idx p =
    if Nat.eqb (nrows A) (nd_size b) then
      if Nat.eqb (ncols A) (length (keep idx (ncols (pA p)))) then
        let p1 := set_A (delete_attributes p) (vstack (pA p) (mm A (selection_matrix p idx))) in
        match b with D1 bv => (Ok tt, set_b p1 (pb p ++ bv)) | D2 _ => (Err ValueError, p1) end
      else (Err ValueError, delete_attributes p)
    else (Err ValueError, p).
Proof.
  unfold add_inequality, pbind, plift, pget, pput, same_number_rows.
  destruct (Nat.eqb (nrows A) (nd_size b)); [|reflexivity].
  cbn -[selection_matrix].
  replace (selection_matrix (delete_attributes p) idx) with (selection_matrix p idx) by reflexivity.
  unfold np_dot, nrows. rewrite (shape_rows _ _ _ (shape_selection p idx)).
  destruct (Nat.eqb (ncols A) (length (keep idx (ncols (pA p))))); [|reflexivity].
  unfold np_vstack. cbn -[selection_matrix]. rewrite (shape_cols _ _ _ (shape_selection p idx)), Nat.eqb_refl.
  destruct b; reflexivity.
Qed.
Lemma add_equality_eq C d idx p : ncols (pC p) = ncols (pA p) ->
  add_equality C d idx p =
    if Nat.eqb (nrows C) (nd_size d) then
      if Nat.eqb (ncols C) (length (keep idx (ncols (pA p)))) then
        let p1 := set_C (delete_attributes p) (vstack (pC p) (mm C (selection_matrix p idx))) in
        match d with D1 dv => (Ok tt, set_d p1 (pd p ++ dv)) | D2 _ => (Err ValueError, p1) end
      else (Err ValueError, delete_attributes p)
    else (Err ValueError, p).
Proof.
  intros EC. unfold add_equality, pbind, plift, pget, pput, same_number_rows.
  destruct (Nat.eqb (nrows C) (nd_size d)); [|reflexivity].
  cbn -[selection_matrix].
  replace (selection_matrix (delete_attributes p) idx) with (selection_matrix p idx) by reflexivity.
  unfold np_dot, nrows. rewrite (shape_rows _ _ _ (shape_selection p idx)).
  destruct (Nat.eqb (ncols C) (length (keep idx (ncols (pA p))))); [|reflexivity].
  unfold np_vstack. cbn -[selection_matrix]. rewrite EC, (shape_cols _ _ _ (shape_selection p idx)), Nat.eqb_refl.
  destruct d; reflexivity.
Qed.

Lemma in_poly_vle p m me n x : wf p m me n -> in_poly p x <-> length x = n /\ vle (mv (pA p) x) (pb p) /\ mv (pC p) x = pd p.
Proof.
  intros ((_ & HA & _) & _). unfold in_poly. rewrite in_set_vle, HA. tauto.
Qed.

Lemma add_inequality_step A b idx p m me n p' : wf p m me n -> rect A -> add_inequality A b idx p = (Ok tt, p') ->
  exists bv, b = D1 bv /\ wf p' (m + nrows A) me n /\
  forall x, in_poly p' x <-> in_poly p x /\ ineq_holds A bv (coords idx x).
Proof.
  intros W RA E. rewrite add_inequality_eq in E.
  destruct (Nat.eqb_spec (nrows A) (nd_size b)) as [E1|]; [|discriminate].
  destruct (Nat.eqb_spec (ncols A) (length (keep idx (ncols (pA p))))) as [E2|]; [|discriminate].
  destruct b as [bv|]; [|discriminate]. injection E as <-. simpl in E1.
  exists bv. split; [reflexivity|]. pose proof W as (WA & Wb & WC & Wd).
  assert (Hn : ncols (pA p) = n) by apply WA.
  pose proof (shape_selection p idx) as HS. unfold rect in RA. rewrite Hn in *. rewrite E2 in RA.
  assert (W' : wf (set_b (set_A (delete_attributes p) (vstack (pA p) (mm A (selection_matrix p idx)))) (pb p ++ bv)) (m + nrows A) me n).
  { unfold wf. cbn [pA pb pC pd set_A set_b set_C set_d delete_attributes]. split; [eauto with shp|]. split; [len|]. split; [exact WC|exact Wd]. }
  split; [exact W'|]. intros x. rewrite (in_poly_vle _ _ _ _ _ W'), (in_poly_vle _ _ _ _ _ W). cbn [pA pb pC pd set_A set_b set_C set_d delete_attributes].
  rewrite mv_vstack, ineq_holds_vle.
  assert (LA : length (rows (pA p)) = m) by apply WA.
  rewrite vle_app by len. rewrite (mv_mm A _ _ _ _ HS).
  split.
  - intros (L & (V1 & V2) & EC). rewrite mv_selection in V2 by (rewrite Hn; exact L). tauto.
  - intros ((L & V1 & EC) & V2). rewrite mv_selection by (rewrite Hn; exact L). tauto.
Qed.

Lemma add_equality_step C d idx p m me n p' : wf p m me n -> rect C -> add_equality C d idx p = (Ok tt, p') ->
  exists dv, d = D1 dv /\ wf p' m (me + nrows C) n /\
  forall x, in_poly p' x <-> in_poly p x /\ eq_holds C dv (coords idx x).
Proof.
  intros W RC E. pose proof W as (WA & Wb & WC & Wd).
  assert (Hn : ncols (pA p) = n) by apply WA. assert (HnC : ncols (pC p) = n) by apply WC.
  rewrite add_equality_eq in E by lia.
  destruct (Nat.eqb_spec (nrows C) (nd_size d)) as [E1|]; [|discriminate].
  destruct (Nat.eqb_spec (ncols C) (length (keep idx (ncols (pA p))))) as [E2|]; [|discriminate].
  destruct d as [dv|]; [|discriminate]. injection E as <-. simpl in E1.
  exists dv. split; [reflexivity|]. 
  pose proof (shape_selection p idx) as HS. unfold rect in RC. rewrite Hn in *. rewrite E2 in RC.
  assert (W' : wf (set_d (set_C (delete_attributes p) (vstack (pC p) (mm C (selection_matrix p idx)))) (pd p ++ dv)) m (me + nrows C) n).
  { unfold wf. cbn [pA pb pC pd set_A set_b set_C set_d delete_attributes]. split; [exact WA|]. split; [exact Wb|]. split; [eauto with shp|len]. }
  split; [exact W'|]. intros x. rewrite (in_poly_vle _ _ _ _ _ W'), (in_poly_vle _ _ _ _ _ W). cbn [pA pb pC pd set_A set_b set_C set_d delete_attributes].
  rewrite mv_vstack, eq_holds_mv.
  assert (LC : length (rows (pC p)) = me) by apply WC.
  rewrite (mv_mm C _ _ _ _ HS).
  rewrite app_inj_iff by len.
  split.
  - intros (L & V1 & (V2 & EC)). rewrite mv_selection in EC by (rewrite Hn; exact L). tauto.
  - intros ((L & V1 & EC) & V2). rewrite mv_selection by (rewrite Hn; exact L). tauto.
Qed.

Lemma rect_selection p idx : rect (selection_matrix p idx).
Proof.
  pose proof (shape_selection p idx) as HS. unfold rect, nrows.
  rewrite (shape_rows _ _ _ HS), (shape_cols _ _ _ HS). exact HS.
Qed.
Lemma rect_mneg A : rect A -> rect (mneg A).
Proof. unfold rect, nrows. intros H. simpl. rewrite map_length. now apply shape_mneg. Qed.

Lemma vle_vneg u v : vle (vneg u) (vneg v) <-> vle v u.
Proof.
  rewrite !vle_nth. len. split; intros (L & H); split; auto; intros i Hi; specialize (H i ltac:(len));
    rewrite !nth_vneg in *; lra.
Qed.
Lemma coords_all x : coords None x = x. Proof. reflexivity. Qed.

Lemma bound_array_D1 b v : bound_array b = D1 v -> bound_vec b = v.
Proof. destruct b as [r|[w|]]; simpl; congruence. Qed.

Lemma add_lower_bound_step lo idx p m me n p' : wf p m me n -> add_lower_bound lo idx p = (Ok tt, p') ->
  exists m', wf p' m' me n /\ forall x, in_poly p' x <-> in_poly p x /\ Forall2 Rle (bound_vec lo) (coords idx x).
Proof.
  intros W E. unfold add_lower_bound, pbind, pget in E.
  apply (add_inequality_step _ _ _ _ m me n) in E; [|exact W|apply rect_mneg, rect_selection].
  destruct E as (bv & Eb & W' & H). eexists. split; [exact W'|]. intros x. rewrite H. cbn [coords].
  rewrite ineq_holds_vle, mv_mneg.
  assert (Ev : bv = vneg (bound_vec lo)).
  { destruct lo as [r|[v|]]; simpl in Eb; [now injection Eb as <-|now injection Eb as <-|discriminate]. }
  assert (D : in_poly p x -> (vle (vneg (mv (selection_matrix p idx) x)) bv <-> Forall2 Rle (bound_vec lo) (coords idx x))).
  { intros (L & _). rewrite Ev, vle_vneg, mv_selection by exact L. reflexivity. }
  tauto.
Qed.
Lemma add_upper_bound_step hi idx p m me n p' : wf p m me n -> add_upper_bound hi idx p = (Ok tt, p') ->
  exists m', wf p' m' me n /\ forall x, in_poly p' x <-> in_poly p x /\ Forall2 Rle (coords idx x) (bound_vec hi).
Proof.
  intros W E. unfold add_upper_bound, pbind, pget in E.
  apply (add_inequality_step _ _ _ _ m me n) in E; [|exact W|apply rect_selection].
  destruct E as (bv & Eb & W' & H). eexists. split; [exact W'|]. intros x. rewrite H. cbn [coords].
  rewrite ineq_holds_vle. apply bound_array_D1 in Eb.
  assert (D : in_poly p x -> (vle (mv (selection_matrix p idx) x) bv <-> Forall2 Rle (coords idx x) (bound_vec hi))).
  { intros (L & _). rewrite Eb, mv_selection by exact L. reflexivity. }
  tauto.
Qed.

Lemma call_step o p m me n p' : wf p m me n -> args_rect o -> call o p = (Ok tt, p') ->
  exists m' me', wf p' m' me' n /\ forall x, in_poly p' x <-> in_poly p x /\ asks o x.
Proof.
  intros W RO E. destruct o as [A b idx|C d idx|lo idx|hi idx|lo hi idx]; simpl in *.
  - destruct (add_inequality_step _ _ _ _ _ _ _ _ W RO E) as (bv & -> & W' & H). eauto.
  - destruct (add_equality_step _ _ _ _ _ _ _ _ W RO E) as (dv & -> & W' & H). eauto.
  - destruct (add_lower_bound_step _ _ _ _ _ _ _ W E) as (m' & W' & H). eauto.
  - destruct (add_upper_bound_step _ _ _ _ _ _ _ W E) as (m' & W' & H). eauto.
  - unfold add_bounds, pbind in E. destruct (add_lower_bound lo idx p) as ([[]|e] & p1) eqn:E1; [|discriminate].
    destruct (add_lower_bound_step _ _ _ _ _ _ _ W E1) as (m1 & W1 & H1).
    destruct (add_upper_bound_step _ _ _ _ _ _ _ W1 E) as (m2 & W2 & H2).
    exists m2, me. split; [exact W2|]. intros x. rewrite H2, H1. tauto.
Qed.

(*@ Theorem C01_accumulation : After any history of successful add_* calls the stored constraints describe the original set intersected with everything that was added. *)
Lemma accumulation p ops p' m me n :
  wf p m me n -> Forall args_rect ops -> calls p ops p' ->
  forall x, in_poly p' x <-> in_poly p x /\ Forall (fun o => asks o x) ops.
Proof.
  intros W RO H. revert m me W. induction H as [p|p o p1 ops p2 E H IH]; intros m me W x.
  - split; [intros; split; [assumption|constructor]|tauto].
  - inversion RO; subst. destruct (call_step _ _ _ _ _ _ W ltac:(eassumption) E) as (m1 & me1 & W1 & H1).
    rewrite (IH ltac:(assumption) m1 me1 W1), H1. split.
    + intros ((HA & HB) & HC). split; [exact HA|]. now constructor.
    + intros (HA & HB). inversion HB; subst. tauto.
Qed.

(** ** C02 *)
(** strictly increasing list of positions below n *)
Inductive increasing (n : nat) : list nat -> Prop :=
| inc_nil : increasing n []
| inc_one i : (i < n)%nat -> increasing n [i]
| inc_cons i j l : (i < j)%nat -> increasing n (j :: l) -> increasing n (i :: j :: l).

Lemma increasing_lt n i l : increasing n (i :: l) -> (i < n)%nat /\ forall j, In j l -> (i < j < n)%nat.
Proof.
  revert i; induction l as [|j l IH]; intros i H; inversion H; subst.
  - split; [assumption|]. intros ? [].
  - destruct (IH j) as (L1 & L2); [assumption|]. split; [lia|].
    intros k [<-|Hk]; [lia|]. specialize (L2 k Hk). lia.
Qed.
Lemma increasing_tl n i l : increasing n (i :: l) -> increasing n l.
Proof. inversion 1; [constructor|assumption]. Qed.

Lemma filter_increasing n l a : increasing n l -> (forall i, In i l -> (a <= i)%nat) ->
  filter (fun i => existsb (Z.eqb (Z.of_nat i)) (map Z.of_nat l)) (seq a (n - a)) = l.
Proof.
  remember (n - a)%nat as k eqn:Ek. revert a Ek l. induction k as [|k IH]; intros a Ek l Hl Ha.
  - destruct l as [|i l]; [reflexivity|]. exfalso. destruct (increasing_lt _ _ _ Hl) as (H1 & _).
    specialize (Ha i (or_introl eq_refl)). lia.
  - simpl. destruct l as [|i l].
    + simpl. clear. induction (seq (S a) k); [reflexivity|]. simpl. exact IHl.
    + destruct (increasing_lt _ _ _ Hl) as (H1 & H2). assert (a <= i)%nat by (apply Ha; now left).
      destruct (Nat.eq_dec i a) as [->|N].
      * simpl. rewrite Z.eqb_refl. simpl. f_equal.
        transitivity (filter (fun i => existsb (Z.eqb (Z.of_nat i)) (map Z.of_nat l)) (seq (S a) k));
          [|apply IH; [lia|eapply increasing_tl; eauto|intros j Hj; specialize (H2 j Hj); lia]].
        apply filter_ext_in. intros j Hj. apply in_seq in Hj.
        simpl. destruct (Z.eqb_spec (Z.of_nat j) (Z.of_nat a)); [lia|reflexivity].
      * replace (existsb (Z.eqb (Z.of_nat a)) (map Z.of_nat (i :: l))) with false.
        -- apply IH; [lia|assumption|]. intros j [<-|Hj]; [lia|]. specialize (H2 j Hj). lia.
        -- symmetry. apply Bool.not_true_is_false. intros C. apply existsb_exists in C. destruct C as (z & Hz & C).
           apply Z.eqb_eq in C. apply in_map_iff in Hz. destruct Hz as (j & <- & Hj).
           assert (j = a) by lia. subst j. destruct Hj as [->|Hj]; [lia|]. specialize (H2 a Hj). lia.
Qed.

(*@ Theorem C02_selected_coordinates : With a strictly increasing list of indices, a call constrains exactly the listed coordinates, in the listed order. *)
Lemma selected_coordinates p m me n A b l p' :
  wf p m me n -> rect A -> increasing n l -> add_inequality A (D1 b) (Some (map Z.of_nat l)) p = (Ok tt, p') ->
  forall x, in_poly p' x <-> in_poly p x /\ ineq_holds A b (map (fun i => nth i x 0) l).
Proof.
  intros W RA Hl E x. destruct (add_inequality_step _ _ _ _ _ _ _ _ W RA E) as (bv & Eb & W' & H). injection Eb as <-.
  rewrite H. assert (D : in_poly p x -> coords (Some (map Z.of_nat l)) x = map (fun i => nth i x 0) l).
  { intros Hx. apply (in_poly_vle _ _ _ _ _ W) in Hx. destruct Hx as (L & _). simpl. f_equal. rewrite L.
    rewrite <- (Nat.sub_0_r n) at 1. apply filter_increasing; [exact Hl|]. intros; lia. }
  split; intros (Hx & Hi); [rewrite D in Hi|rewrite <- D in Hi]; auto.
Qed.
(*@ Theorem C02_selected_equalities : The same for equalities. *)
Lemma selected_coordinates_eq p m me n C d l p' :
  wf p m me n -> rect C -> increasing n l -> add_equality C (D1 d) (Some (map Z.of_nat l)) p = (Ok tt, p') ->
  forall x, in_poly p' x <-> in_poly p x /\ eq_holds C d (map (fun i => nth i x 0) l).
Proof.
  intros W RA Hl E x. destruct (add_equality_step _ _ _ _ _ _ _ _ W RA E) as (bv & Eb & W' & H). injection Eb as <-.
  rewrite H. assert (D : in_poly p x -> coords (Some (map Z.of_nat l)) x = map (fun i => nth i x 0) l).
  { intros Hx. apply (in_poly_vle _ _ _ _ _ W) in Hx. destruct Hx as (L & _). simpl. f_equal. rewrite L.
    rewrite <- (Nat.sub_0_r n) at 1. apply filter_increasing; [exact Hl|]. intros; lia. }
  split; intros (Hx & Hi); [rewrite D in Hi|rewrite <- D in Hi]; auto.
Qed.
(*@ Theorem C02_selected_bounds : Bounds on listed coordinates: x_min_k <= x[l_k] <= x_max_k and nothing else. *)
Lemma selected_bounds p m me n lo hi l p' :
  wf p m me n -> increasing n l -> add_bounds (BArr (D1 lo)) (BArr (D1 hi)) (Some (map Z.of_nat l)) p = (Ok tt, p') ->
  forall x, in_poly p' x <-> in_poly p x /\
    Forall2 (fun a i => a <= nth i x 0) lo l /\ Forall2 (fun i a => nth i x 0 <= a) l hi.
Proof.
  intros W Hl E x. destruct (call_step (AddBounds (BArr (D1 lo)) (BArr (D1 hi)) (Some (map Z.of_nat l))) _ _ _ _ _ W Logic.I E)
    as (m' & me' & W' & H). rewrite H. cbn [asks bound_vec].
  assert (D : in_poly p x -> coords (Some (map Z.of_nat l)) x = map (fun i => nth i x 0) l).
  { intros Hx. apply (in_poly_vle _ _ _ _ _ W) in Hx. destruct Hx as (L & _). simpl. f_equal. rewrite L.
    rewrite <- (Nat.sub_0_r n) at 1. apply filter_increasing; [exact Hl|]. intros; lia. }
  assert (M1 : forall lo, Forall2 Rle lo (map (fun i => nth i x 0) l) <-> Forall2 (fun a i => a <= nth i x 0) lo l).
  { clear. induction l as [|i l IH]; intros [|a lo]; simpl; split; intros H; inversion H; subst; constructor; auto; now apply IH. }
  assert (M2 : forall hi, Forall2 Rle (map (fun i => nth i x 0) l) hi <-> Forall2 (fun i a => nth i x 0 <= a) l hi).
  { clear. induction l as [|i l IH]; intros [|a hi]; simpl; split; intros H; inversion H; subst; constructor; auto; now apply IH. }
  rewrite <- M1, <- M2. split; intros (Hx & Hi); [rewrite D in Hi by exact Hx|rewrite D by exact Hx]; auto.
Qed.

(** the polyhedron R^n *)
Definition whole (n : nat) : poly := Poly (zmat 0 n) (zeros 0) (zmat 0 n) (zeros 0) None None None None None.

(*@ Theorem C02_order_refuted : The order of the listed indices is not respected: x[1] + 2 x[0] <= 1 (indices [1,0]) is stored as x[0] + 2 x[1] <= 1. *)
Lemma order_refuted :
  exists p', add_inequality (Mat 2 [[1; 2]]) (D1 [1]) (Some [1%Z; 0%Z]) (whole 2) = (Ok tt, p') /\
    exists x, length x = 2%nat /\ in_poly p' x /\ ~ 1 * nth 1 x 0 + 2 * nth 0 x 0 <= 1.
Proof.
  eexists. split; [rewrite add_inequality_eq; reflexivity|]. exists [2; -1]. split; [reflexivity|]. split.
  - split; [reflexivity|]. split; [|constructor]. cbn. apply Forall2_cons; [cbn; lra|constructor].
  - simpl. lra.
Qed.
(*@ Theorem C02_negative_refuted : Negative indices are dropped silently: a bound on x[-1] given to add_upper_bound is rejected with an exception and one given with a zero-column matrix is lost. *)
Lemma negative_refuted : 
  add_upper_bound (BFloat 1) (Some [(-1)%Z]) (whole 2) = (Err ValueError, whole 2) /\
  exists p', add_upper_bound (BArr (D1 [])) (Some [(-1)%Z]) (whole 2) = (Ok tt, p') /\ forall x, length x = 2%nat -> in_poly p' x.
Proof.
  split; [unfold add_upper_bound, pbind, pget; rewrite add_inequality_eq; reflexivity|]. 
  eexists. split; [unfold add_upper_bound, pbind, pget; rewrite add_inequality_eq; reflexivity|]. intros x L. split; [exact L|]. split; constructor.
Qed.

(** ** C04 *)
Lemma shape_rect A m n : shape A m n -> rect A.
Proof. intros H. pose proof H as (H1 & H2 & _). unfold rect, nrows. rewrite H1, H2. exact H. Qed.

(*@ Theorem C04_intersection : The intersection always exists and contains exactly the common points. *)
Lemma intersection_ok p1 p2 m1 me1 m2 me2 n : wf p1 m1 me1 n -> wf p2 m2 me2 n ->
  exists p3, intersection p1 p2 = Ok p3 /\ wf p3 (m2 + m1) (me2 + me1) n /\
    (forall x, in_poly p3 x <-> in_poly p1 x /\ in_poly p2 x) /\
    p_empty p3 = None /\ p_bounded p3 = None /\ p_radius p3 = None /\ p_center p3 = None /\ p_vertices p3 = None.
Proof.
  intros W1 W2. pose proof W1 as (WA1 & Wb1 & WC1 & Wd1). pose proof W2 as (WA2 & Wb2 & WC2 & Wd2).
  unfold intersection, pbind.
  destruct (add_inequality (pA p1) (D1 (pb p1)) None p2) as (r & p3) eqn:E1.
  assert (Er : r = Ok tt).
  { rewrite add_inequality_eq in E1. simpl nd_size in E1. rewrite (nrows_shape _ _ _ WA1), Wb1, Nat.eqb_refl in E1. simpl keep in E1.
    rewrite seq_length, (shape_cols _ _ _ WA1), (shape_cols _ _ _ WA2), Nat.eqb_refl in E1. now injection E1. }
  subst r. destruct (add_inequality_step _ _ _ _ _ _ _ _ W2 (shape_rect _ _ _ WA1) E1) as (bv & Eb & W3 & H3). injection Eb as <-.
  destruct (add_equality (pC p1) (D1 (pd p1)) None p3) as (r & p4) eqn:E2.
  pose proof W3 as (WA3 & Wb3 & WC3 & Wd3).
  assert (E2' := E2). rewrite add_equality_eq in E2' by (rewrite (shape_cols _ _ _ WA3), (shape_cols _ _ _ WC3); reflexivity).
  simpl nd_size in E2'. rewrite (nrows_shape _ _ _ WC1), Wd1, Nat.eqb_refl in E2'. simpl keep in E2'.
  rewrite seq_length, (shape_cols _ _ _ WC1), (shape_cols _ _ _ WA3), Nat.eqb_refl in E2'. injection E2' as Er E4. subst r.
  destruct (add_equality_step _ _ _ _ _ _ _ _ W3 (shape_rect _ _ _ WC1) E2) as (dv & Ed & W4 & H4). injection Ed as <-.
  exists p4. rewrite (nrows_shape _ _ _ WA1), (nrows_shape _ _ _ WC1) in *. split; [reflexivity|]. split; [exact W4|]. split.
  - intros x. rewrite H4, H3. cbn [coords]. unfold in_poly, in_set.
    rewrite (shape_cols _ _ _ WA1), (shape_cols _ _ _ WA2). tauto.
  - subst p4. simpl. auto.
Qed.

(** ** C05 *)
(*@ Theorem C05_cartesian_product : (x, y) is in the product iff x is in the first and y in the second factor, with any number (including zero) of inequalities and equalities. *)
Lemma cartesian_product_ok p1 p2 m1 me1 n1 m2 me2 n2 : wf p1 m1 me1 n1 -> wf p2 m2 me2 n2 ->
  exists p3, cartesian_product p1 p2 = Ok p3 /\ wf p3 (m1 + m2) (me1 + me2) (n1 + n2) /\
    forall x y, length x = n1 -> in_poly p3 (x ++ y) <-> in_poly p1 x /\ in_poly p2 y.
Proof.
  intros W1 W2. pose proof W1 as (WA1 & Wb1 & WC1 & Wd1). pose proof W2 as (WA2 & Wb2 & WC2 & Wd2).
  assert (SA : shape (bdiag2 (pA p1) (pA p2)) (m1 + m2) (n1 + n2)) by auto with shp.
  assert (SC : shape (bdiag2 (pC p1) (pC p2)) (me1 + me2) (n1 + n2)) by auto with shp.
  unfold cartesian_product, Polyhedron, same_number_rows. cbn [block_diag nd_size].
  rewrite (nrows_shape _ _ _ SA), (nrows_shape _ _ _ SC), !app_length, Wb1, Wb2, Wd1, Wd2, !Nat.eqb_refl. cbn [bind].
  eexists. split; [reflexivity|].
  match goal with |- wf ?q _ _ _ /\ _ => set (p3 := q) end.
  assert (W3 : wf p3 (m1 + m2) (me1 + me2) (n1 + n2)).
  { unfold wf, p3. cbn -[bdiag2]. split; [exact SA|]. split; [len|]. split; [exact SC|len]. }
  split; [exact W3|]. intros x y Lx.
  assert (LA1 : length (rows (pA p1)) = m1) by apply WA1. assert (LC1 : length (rows (pC p1)) = me1) by apply WC1.
  rewrite (in_poly_vle _ _ _ _ _ W3), (in_poly_vle _ _ _ _ _ W1), (in_poly_vle _ _ _ _ _ W2). unfold p3. cbn -[bdiag2].
  rewrite (mv_bdiag2 _ _ m1 n1 m2 n2), (mv_bdiag2 _ _ me1 n1 me2 n2) by auto.
  rewrite vle_app by len. len.
  rewrite app_inj_iff by len. split; intros H; intuition lia.
Qed.

(** ** C06 *)
Lemma fold_max l : forall a, (forall t, fold_left Rmax l a <= t <-> a <= t /\ Forall (fun z => z <= t) l).
Proof.
  induction l as [|b l IH]; intros a t; simpl.
  - split; [intros; split; auto|tauto].
  - rewrite IH. split.
    + intros (H & F). pose proof (Rmax_l a b). pose proof (Rmax_r a b). split; [lra|]. constructor; [lra|exact F].
    + intros (H & F). inversion F; subst. split; [now apply Rmax_lub|assumption].
Qed.
Lemma vmax_le v t : v <> [] -> exists mx, vmax v = Ok mx /\ (mx <= t <-> Forall (fun z => z <= t) v).
Proof.
  destruct v as [|a l]; [congruence|]. intros _. simpl. eexists. split; [reflexivity|]. rewrite fold_max. split.
  - intros (H & F). now constructor.
  - intros H. inversion H; auto.
Qed.

Lemma forall_residual A b x t : length b = length (rows A) ->
  Forall (fun z => z <= t) (vsub (mv A x) b) <-> Forall2 (fun a bi => dot a x <= bi + t) (rows A) b.
Proof.
  unfold mv. revert b. induction (rows A) as [|r rs IH]; intros [|b0 b] L; try discriminate L.
  - split; intros; constructor.
  - unfold vsub. simpl. split; intros H; inversion H; subst; constructor.
    + lra.
    + apply IH; auto.
    + lra.
    + apply IH; auto.
Qed.

(*@ Theorem C06_contains_partial : contains(x, tol) for a polyhedron with at least one inequality and at most one equality.
   Missing: several equalities and zero inequalities, for which the statement is false (see the refutations). *)
Lemma contains_ok p m me n x tol : wf p m me n -> (0 < m)%nat -> (me <= 1)%nat -> length x = n ->
  exists r, contains tol p x = Ok r /\
    (r = true <-> Forall2 (fun a bi => dot a x <= bi + tol) (rows (pA p)) (pb p) /\
                  Forall2 (fun c di => Rabs (dot c x - di) <= tol) (rows (pC p)) (pd p)).
Proof.
  intros (WA & Wb & WC & Wd) Hm Hme Lx. unfold contains, np_mv.
  rewrite (shape_cols _ _ _ WA), Lx, Nat.eqb_refl. cbn [bind].
  assert (LA : length (rows (pA p)) = m) by apply WA. assert (LC : length (rows (pC p)) = me) by apply WC.
  destruct (vmax_le (vsub (mv (pA p) x) (pb p)) tol) as (mx & -> & Hmx).
  { intros E. apply (f_equal (@length R)) in E. lenh E. lia. }
  cbn [bind]. unfold nrows. rewrite LC.
  rewrite forall_residual in Hmx by lia.
  destruct me as [|[|]]; [| |lia].
  - simpl. eexists. split; [reflexivity|]. rewrite andb_true_r, Rleb_true, Hmx.
    destruct (rows (pC p)); [|discriminate]. destruct (pd p); [|discriminate]. intuition.
  - simpl (0 <? 1)%nat. cbv iota. rewrite (shape_cols _ _ _ WC), Nat.eqb_refl. cbn [bind]. unfold mv.
    destruct (rows (pC p)) as [|c [|]]; try discriminate LC. destruct (pd p) as [|d [|]]; try discriminate Wd.
    simpl. eexists. split; [reflexivity|]. rewrite andb_true_iff, !Rleb_true, Hmx. split.
    + intros (H1 & H2). split; [exact H1|]. constructor; [exact H2|constructor].
    + intros (H1 & H2). split; [exact H1|]. now inversion H2.
Qed.

(*@ Theorem C06_contains_general : With any number of equalities: True is returned iff all inequalities hold within tol and the LARGEST equality residual (with sign) is within tol of zero. *)
Lemma contains_general p m me n x tol : wf p m me n -> (0 < m)%nat -> length x = n ->
  exists r, contains tol p x = Ok r /\
    (r = true <-> Forall2 (fun a bi => dot a x <= bi + tol) (rows (pA p)) (pb p) /\
       (Forall2 (fun c di => dot c x - di <= tol) (rows (pC p)) (pd p) /\
        ((0 < me)%nat -> exists i, (i < me)%nat /\ - tol <= dot (row (pC p) i) x - nth i (pd p) 0))).
Proof.
  intros (WA & Wb & WC & Wd) Hm Lx. unfold contains, np_mv.
  rewrite (shape_cols _ _ _ WA), Lx, Nat.eqb_refl. cbn [bind].
  assert (LA : length (rows (pA p)) = m) by apply WA. assert (LC : length (rows (pC p)) = me) by apply WC.
  destruct (vmax_le (vsub (mv (pA p) x) (pb p)) tol) as (mx & -> & Hmx).
  { intros E. apply (f_equal (@length R)) in E. lenh E. lia. }
  cbn [bind]. unfold nrows. rewrite LC.
  rewrite forall_residual in Hmx by lia.
  destruct (Nat.ltb_spec 0 me) as [Hme|Hme].
  - rewrite (shape_cols _ _ _ WC), Nat.eqb_refl. cbn [bind].
    assert (NE : vsub (mv (pC p) x) (pd p) <> []).
    { intros E. apply (f_equal (@length R)) in E. lenh E. lia. }
    destruct (vmax_le _ tol NE) as (me' & E & He). rewrite E. cbn [bind].
    assert (Hlow : - tol <= me' <-> exists i, (i < me)%nat /\ - tol <= dot (row (pC p) i) x - nth i (pd p) 0).
    { assert (Ex : forall i, (i < me)%nat -> nth i (vsub (mv (pC p) x) (pd p)) 0 = dot (row (pC p) i) x - nth i (pd p) 0).
      { intros i Hi. rewrite nth_vsub by len. rewrite nth_mv. reflexivity. }
      assert (Lv : length (vsub (mv (pC p) x) (pd p)) = me) by len.
      destruct (vsub (mv (pC p) x) (pd p)) as [|a l]; [congruence|]. simpl in E. injection E as <-.
      split.
      - intros H. destruct (Rle_lt_dec (- tol) a) as [Ha|Ha].
        + exists O. split; [lia|]. rewrite <- Ex by lia. exact Ha.
        + assert (G : exists z, In z l /\ - tol <= z).
          { clear -H Ha. revert a H Ha. induction l as [|b l IH]; simpl; intros a H Ha; [lra|].
            destruct (Rle_lt_dec (- tol) b) as [Hb|Hb]; [exists b; auto|].
            destruct (IH (Rmax a b) H) as (z & Hz & Gz); [apply Rmax_lub_lt; lra|]. eauto. }
          destruct G as (z & Hz & Gz). apply (In_nth _ _ 0) in Hz. destruct Hz as (k & Hk & <-).
          exists (S k). split; [simpl in Lv; lia|]. rewrite <- Ex by (simpl in Lv; lia). exact Gz.
      - intros (i & Hi & G). rewrite <- Ex in G by lia. eapply Rle_trans; [exact G|].
        assert (F := proj1 (fold_max l a (fold_left Rmax l a)) (Rle_refl _)). destruct F as (F1 & F2).
        destruct i as [|i]; simpl; [exact F1|]. rewrite Forall_forall in F2. apply F2, nth_In. simpl in Lv. lia. }
    eexists. split; [reflexivity|]. rewrite andb_true_iff, !Rleb_true, Hmx.
    assert (Ab : Rabs me' <= tol <-> me' <= tol /\ - tol <= me').
    { split; [intros H; unfold Rabs in H; destruct (Rcase_abs me'); lra|intros; apply Rabs_le; lra]. }
    rewrite Ab, He, forall_residual, Hlow by lia.
    assert (F2 : forall rs ds, Forall2 (fun a bi => dot a x <= bi + tol) rs ds <-> Forall2 (fun c di => dot c x - di <= tol) rs ds).
    { clear. intros rs ds. split; intros H; induction H; constructor; auto; lra. }
    rewrite (F2 (rows (pC p)) (pd p)). tauto.
  - eexists. split; [reflexivity|]. rewrite andb_true_r, Rleb_true, Hmx.
    destruct (rows (pC p)); [|simpl in LC; lia]. destruct (pd p); [|simpl in Wd; lia]. split; [|tauto].
    intros H. split; [exact H|]. split; [constructor|lia].
Qed.

(*@ Theorem C06_contains_refuted : Two equalities: (0, -5) is accepted as a point of {x0 = 0, x1 = 0}, for every tol >= 0. *)
Lemma contains_refuted :
  exists p x, wf p 1 2 2 /\ length x = 2%nat /\ ~ Forall2 (fun c di => Rabs (dot c x - di) <= 4) (rows (pC p)) (pd p) /\
    forall tol, 0 <= tol -> contains tol p x = Ok true.
Proof.
  exists (Poly (Mat 2 [[0; 0]]) [0] (Mat 2 [[1; 0]; [0; 1]]) [0; 0] None None None None None), [0; -5].
  split; [unfold wf; simpl; repeat split; repeat constructor|]. split; [reflexivity|]. split.
  - intros H. simpl in H. inversion H as [|? ? ? ? _ H2]; subst. inversion H2 as [|? ? ? ? H3 _]; subst. simpl in H3.
    unfold Rabs in H3. destruct (Rcase_abs _) in H3; lra.
  - intros tol Ht.
    destruct (contains_general (Poly (Mat 2 [[0; 0]]) [0] (Mat 2 [[1; 0]; [0; 1]]) [0; 0] None None None None None) 1 2 2 [0; -5] tol)
      as (r & -> & H); [unfold wf; simpl; repeat split; repeat constructor|lia|reflexivity|].
    f_equal. apply H. simpl. split; [|split].
    + constructor; [cbn; lra|constructor].
    + repeat (apply Forall2_cons; [cbn; lra|]). constructor.
    + intros _. exists O. split; [lia|]. cbn. lra.
Qed.
(*@ Theorem C06_contains_no_inequalities_refuted : Without inequalities the membership test always raises. *)
Lemma contains_raises p me n x tol : wf p 0 me n -> length x = n -> contains tol p x = Err ValueError.
Proof.
  intros (WA & Wb & _) Lx. unfold contains, np_mv. rewrite (shape_cols _ _ _ WA), Lx, Nat.eqb_refl. cbn [bind].
  unfold mv. assert (LA : length (rows (pA p)) = O) by apply WA. destruct (rows (pA p)); [|discriminate]. reflexivity.
Qed.

(** ** C07 *)
Lemma norm_pos_sqr r : 0 < norm r -> 0 < dot r r.
Proof. intros H. rewrite <- norm_sqr. nra. Qed.

Lemma normalize_rows_iff (op : R -> R -> Prop) tol rs b x :
  (forall k a c, 0 < k -> op (k * a) (k * c) <-> op a c) ->
  (0 <= tol) ->
  Forall2 (fun r bi => op (dot r x) bi)
     (map (fun r => if Rltb tol (norm r) then map (fun a => a / norm r) r else r) rs)
     (map2 (fun r bi => if Rltb tol (norm r) then bi / norm r else bi) rs b) <->
  Forall2 (fun r bi => op (dot r x) bi) (firstn (length b) rs) (firstn (length rs) b) /\ (length rs <= length b)%nat.
Proof.
  intros Hop Ht. revert b. induction rs as [|r rs IH]; intros b.
  - simpl. split; [intros _; split; [|lia]; destruct b; constructor|intros; constructor].
  - destruct b as [|b0 b]; simpl.
    + split; [intros H; inversion H|intros (_ & H); lia].
    + specialize (IH b).
      assert (H0 : (op (dot (if Rltb tol (norm r) then map (fun a => a / norm r) r else r) x)
                       (if Rltb tol (norm r) then b0 / norm r else b0)) <-> op (dot r x) b0).
      { destruct (Rltb tol (norm r)) eqn:E; [|tauto]. apply Rltb_true in E.
        replace (map (fun a => a / norm r) r) with (vscale (/ norm r) r).
        - rewrite dot_vscale_l. unfold Rdiv. rewrite (Rmult_comm b0). apply Hop. apply Rinv_0_lt_compat. lra.
        - unfold vscale. apply map_ext. intros; unfold Rdiv; ring. }
      split.
      * intros H. inversion H; subst. apply H0 in H4. apply IH in H6. destruct H6. split; [constructor; auto|lia].
      * intros (H & L). inversion H; subst. constructor; [now apply H0|]. apply IH. split; [assumption|lia].
Qed.

Lemma normalize_rows_iff' (op : R -> R -> Prop) tol rs b x :
  (forall k a c, 0 < k -> op (k * a) (k * c) <-> op a c) -> 0 <= tol -> length b = length rs ->
  Forall2 (fun r bi => op (dot r x) bi)
     (map (fun r => if Rltb tol (norm r) then map (fun a => a / norm r) r else r) rs)
     (map2 (fun r bi => if Rltb tol (norm r) then bi / norm r else bi) rs b) <->
  Forall2 (fun r bi => op (dot r x) bi) rs b.
Proof.
  intros Hop Ht L. rewrite normalize_rows_iff by assumption. rewrite L, firstn_all, <- L, firstn_all. intuition.
Qed.

(*@ Theorem C07_normalize : With floating-point storage, normalize() keeps the set, the number of rows, and gives unit norm to every row whose norm exceeds tol. *)
Lemma normalize_ok p m me n tol : wf p m me n -> 0 <= tol ->
  wf (normalize tol p) m me n /\
  (forall x, in_poly (normalize tol p) x <-> in_poly p x) /\
  (forall i, (i < m)%nat -> norm (row (pA (normalize tol p)) i) = if Rltb tol (norm (row (pA p) i)) then 1 else norm (row (pA p) i)) /\
  (forall i, (i < me)%nat -> norm (row (pC (normalize tol p)) i) = if Rltb tol (norm (row (pC p) i)) then 1 else norm (row (pC p) i)).
Proof.
  intros (WA & Wb & WC & Wd) Ht.
  assert (LA : length (rows (pA p)) = m) by apply WA. assert (LC : length (rows (pC p)) = me) by apply WC.
  assert (SH : forall A k, shape A k n -> shape (normalize_lhs (fun a => a) tol A) k n).
  { intros A k (H1 & H2 & H3). unfold normalize_lhs. repeat split; simpl; [len|exact H2|].
    apply Forall_forall. intros r Hr. apply in_map_iff in Hr. destruct Hr as (r' & <- & Hr').
    rewrite Forall_forall in H3. destruct (Rltb tol (norm r')); len; auto. }
  assert (NR : forall A k i, shape A k n -> (i < k)%nat ->
     norm (row (normalize_lhs (fun a => a) tol A) i) = if Rltb tol (norm (row A i)) then 1 else norm (row A i)).
  { intros A k i (H1 & H2 & H3) Hi. unfold normalize_lhs, row. simpl.
    rewrite (nth_indep _ [] ((fun r => if Rltb tol (norm r) then map (fun a => a / norm r) r else r) [])) by len.
    rewrite (map_nth (fun r => if Rltb tol (norm r) then map (fun a => a / norm r) r else r)).
    set (r := nth i (rows A) []). destruct (Rltb tol (norm r)) eqn:E; [|reflexivity]. apply Rltb_true in E.
    replace (map (fun a => a / norm r) r) with (vscale (/ norm r) r).
    - unfold norm at 1. rewrite dot_vscale_l, dot_vscale_r, <- norm_sqr.
      replace (/ norm r * (/ norm r * (norm r * norm r))) with 1 by (field; lra). apply sqrt_1.
    - unfold vscale. apply map_ext. intros; unfold Rdiv; ring. }
  split.
  { unfold wf, normalize, normalize_with; cbn -[normalize_lhs normalize_rhs]. unfold normalize_rhs.
    split; [auto|]. split; [len|]. split; [auto|]. len. }
  split.
  { intros x. unfold in_poly, in_set, ineq_holds, eq_holds, normalize, normalize_with, normalize_lhs, normalize_rhs.
    cbn [pA pb pC pd rows ncols].
    rewrite (normalize_rows_iff' (fun a c => a <= c)), (normalize_rows_iff' (fun a c => a = c)); auto; try lia.
    - reflexivity.
    - intros k a c Hk. split; [|intros ->; reflexivity]. intros H. apply Rmult_eq_reg_l in H; lra.
    - intros k a c Hk. split; intros H; [eapply Rmult_le_reg_l; eauto|]. apply Rmult_le_compat_l; lra. }
  split; intros i Hi; [apply (NR (pA p) m)|apply (NR (pC p) me)]; auto.
Qed.

(** truncation towards zero, the conversion from float to int *)
Definition truncate (a : R) : R := if Rle_dec 0 a then IZR (Int_part a) else - IZR (Int_part (- a)).

(*@ Theorem C07_integer_storage_refuted : With integer arrays normalize() truncates: {x0 + x1 <= 1} becomes {0 <= 0}, i.e. the whole plane. *)
Lemma integer_storage_refuted :
  exists p, wf p 1 0 2 /\ (exists x, length x = 2%nat /\ ~ in_poly p x) /\
    forall x, length x = 2%nat -> in_poly (normalize_with truncate tol7 p) x.
Proof.
  exists (Poly (Mat 2 [[1; 1]]) [1] (Mat 2 []) [] None None None None None).
  split; [unfold wf; simpl; repeat split; repeat constructor|]. split.
  - exists [1; 1]. split; [reflexivity|]. intros (_ & H & _). unfold ineq_holds in H. simpl in H. inv2 H. lra.
  - intros x L. 
    assert (N : norm [1; 1] = sqrt 2) by (unfold norm; f_equal; cbn; ring).
    assert (S1 : 1 < sqrt 2) by (rewrite <- sqrt_1 at 1; apply sqrt_lt_1; lra).
    assert (T : truncate (1 / sqrt 2) = 0).
    { unfold truncate. assert (P : 0 < 1 / sqrt 2 < 1).
      { split; [apply Rdiv_lt_0_compat; lra|]. apply Rmult_lt_reg_r with (sqrt 2); [lra|]. unfold Rdiv. rewrite Rmult_assoc, Rinv_l; lra. }
      destruct (Rle_dec 0 (1 / sqrt 2)); [|lra].
      assert (Int_part (1 / sqrt 2) = 0%Z); [|now rewrite H].
      destruct (base_Int_part (1 / sqrt 2)) as (B1 & B2).
      assert (H1 : (Int_part (1 / sqrt 2) < 1)%Z) by (apply lt_IZR; lra).
      assert (H2 : (-1 < Int_part (1 / sqrt 2))%Z) by (apply lt_IZR; lra). lia. }
    split; [exact L|]. split; [|constructor].
    unfold ineq_holds, normalize_with, normalize_lhs, normalize_rhs. cbn [pA pb rows map map2].
    rewrite N. rewrite (proj2 (Rltb_true tol7 (sqrt 2))) by (unfold tol7; lra). cbn [map].
    rewrite T. constructor; [|constructor]. destruct x as [|a [|b [|]]]; try discriminate L. cbn. lra.
Qed.

(** ** C15 *)
(** constraints of two objects are the same *)
Definition same_constraints (p q : poly) : Prop := pA p = pA q /\ pb p = pb q /\ pC p = pC q /\ pd p = pd q.

(*@ Theorem C15_rejected_unchanged_partial : A rejected add_inequality / add_equality with a one-dimensional right-hand side leaves all constraints unchanged.
   Missing: two-dimensional right-hand sides and add_bounds, for which the statement is false (see the refutations). *)
Lemma rejected_unchanged p m me n A b idx e p' : wf p m me n ->
  (add_inequality A (D1 b) idx p = (Err e, p') \/ add_equality A (D1 b) idx p = (Err e, p')) ->
  e = ValueError /\ same_constraints p p'.
Proof.
  intros (WA & _ & WC & _) [E|E].
  - rewrite add_inequality_eq in E. unfold same_constraints.
    destruct (Nat.eqb (nrows A) (nd_size (D1 b))); [|injection E as <- <-; auto].
    destruct (Nat.eqb (ncols A) _); [discriminate|injection E as <- <-]. simpl. auto.
  - rewrite add_equality_eq in E by (rewrite (shape_cols _ _ _ WA), (shape_cols _ _ _ WC); reflexivity). unfold same_constraints.
    destruct (Nat.eqb (nrows A) (nd_size (D1 b))); [|injection E as <- <-; auto].
    destruct (Nat.eqb (ncols A) _); [discriminate|injection E as <- <-]. simpl. auto.
Qed.
(*@ Theorem C15_column_vector_refuted : add_inequality with b of shape (1,1) raises, but A has one row more than b afterwards. *)
Lemma column_vector_refuted :
  exists p', add_inequality (Mat 1 [[1]]) (D2 (Mat 1 [[1]])) None (whole 1) = (Err ValueError, p') /\
    nrows (pA p') = 1%nat /\ length (pb p') = 0%nat /\ (forall x, ~ in_poly p' x) /\ (forall x, length x = 1%nat -> in_poly (whole 1) x).
Proof.
  eexists. split; [rewrite add_inequality_eq; reflexivity|]. split; [reflexivity|]. split; [reflexivity|]. split.
  - intros x (_ & H & _). inversion H.
  - intros x L. split; [exact L|]. split; constructor.
Qed.
(*@ Theorem C15_add_bounds_refuted : add_bounds with an x_max of the wrong size raises after the lower bounds have been added. *)
Lemma add_bounds_refuted :
  exists p', add_bounds (BArr (D1 [0])) (BArr (D1 [1; 1])) None (whole 1) = (Err ValueError, p') /\
    in_poly (whole 1) [-1] /\ ~ in_poly p' [-1].
Proof.
  eexists. split.
  - unfold add_bounds, add_lower_bound, add_upper_bound, pbind, pget. rewrite add_inequality_eq. cbn -[add_inequality].
    rewrite add_inequality_eq. reflexivity.
  - split; [split; [reflexivity|]; split; constructor|].
    intros (_ & H & _). unfold ineq_holds in H. cbn in H. inv2 H. lra.
Qed.

(** ** C36, Polyhedron *)
(*@ Theorem C36_polyhedron_constructor : Exactly which arguments the constructor accepts, and what it stores. *)
Lemma polyhedron_constructor A b C d :
  (forall p, Polyhedron A b C d = Ok p <->
     exists bv Cm dv, b = D1 bv /\ eq_args (ncols A) C (match d with Some (D1 v) => Some v | _ => None end) Cm dv /\
       (forall M, d <> Some (D2 M)) /\ nrows A = length bv /\ nrows Cm = length dv /\
       p = Poly A bv Cm dv None None None None None) /\
  (forall e, Polyhedron A b C d = Err e -> e = ValueError).
Proof.
  unfold Polyhedron, same_number_rows, eq_args. split.
  - intros p. destruct b as [bv|M].
    2:{ split; [discriminate|]. intros (bv & Cm & dv & E & _). discriminate. }
    simpl nd_size. destruct (Nat.eqb_spec (nrows A) (length bv)) as [EA|NA]; cbn [bind].
    2:{ split; [discriminate|]. intros (bv' & Cm & dv & E & _ & _ & H & _). injection E as <-. contradiction. }
    destruct C as [C|]; destruct d as [[dv|M]|].
    + simpl. destruct (Nat.eqb_spec (nrows C) (length dv)) as [EC|NC]; cbn [bind].
      * split.
        -- intros E. injection E as <-. exists bv, C, dv. repeat match goal with |- _ /\ _ => split end; auto. intros M; discriminate.
        -- intros (bv' & Cm & dv' & E & [(E1 & E2)|(E1 & _)] & _ & _ & _ & ->); [|discriminate].
           injection E as <-. injection E1 as <-. injection E2 as <-. reflexivity.
      * split; [discriminate|]. intros (bv' & Cm & dv' & E & [(E1 & E2)|(E1 & _)] & _ & _ & H & _); [|discriminate].
        injection E1 as <-. injection E2 as <-. contradiction.
    + split; [discriminate|]. intros (bv' & Cm & dv' & E & _ & H & _). now elim (H M).
    + split; [discriminate|]. intros (bv' & Cm & dv' & E & [(E1 & E2)|(E1 & _)] & _); discriminate.
    + split; [discriminate|]. intros (bv' & Cm & dv' & E & [(E1 & E2)|(E1 & E2 & _)] & _); discriminate.
    + split; [discriminate|]. intros (bv' & Cm & dv' & E & _ & H & _). now elim (H M).
    + split.
      * intros E. injection E as <-. exists bv, (Mat (ncols A) []), []. repeat match goal with |- _ /\ _ => split end; auto.
        intros M; discriminate.
      * intros (bv' & Cm & dv' & E & [(E1 & E2)|(_ & _ & -> & ->)] & _ & _ & _ & ->); [discriminate|].
        injection E as <-. reflexivity.
  - intros e E. destruct b as [bv|M]; [|congruence]. destruct (Nat.eqb _ _); cbn [bind] in E; [|congruence].
    destruct C as [C|]; destruct d as [[dv|M]|]; try congruence.
    destruct (Nat.eqb _ _); cbn [bind] in E; congruence.
Qed.
(*@ Theorem C36_polyhedron_columns_refuted : C with a number of columns different from A is accepted. *)
Lemma polyhedron_columns_refuted :
  exists A b C d p, shape A 1 1 /\ shape C 1 2 /\ Polyhedron A (D1 b) (Some C) (Some (D1 d)) = Ok p.
Proof.
  exists (Mat 1 [[1]]), [0], (Mat 2 [[1; 1]]), [0]. eexists. split; [|split; [|reflexivity]]; repeat split; repeat constructor.
Qed.

(** from_bounds and relatives *)
Lemma add_lower_bound_ok lo p m me n : wf p m me n -> length lo = n ->
  exists p', add_lower_bound (BArr (D1 lo)) None p = (Ok tt, p') /\ wf p' (m + n) me n.
Proof.
  intros W L. pose proof W as (WA & _). assert (Hn : ncols (pA p) = n) by apply WA.
  pose proof (shape_selection p None) as HS. cbn [keep] in HS. rewrite Hn, seq_length in HS. assert (HSn := shape_mneg _ _ _ HS).
  destruct (add_lower_bound (BArr (D1 lo)) None p) as (r & p') eqn:E. unfold add_lower_bound, pbind, pget in E.
  assert (Er : r = Ok tt).
  { cbn [bound_array nd_neg] in E. rewrite add_inequality_eq in E. cbn [nd_size keep] in E.
    rewrite (nrows_shape _ _ _ HSn), vneg_length, L, Nat.eqb_refl, (shape_cols _ _ _ HSn), seq_length, Hn, Nat.eqb_refl in E. now injection E. }
  subst r. exists p'. split; [reflexivity|].
  destruct (add_inequality_step _ _ _ _ _ _ _ _ W (rect_mneg _ (rect_selection p None)) E) as (bv & _ & W' & _).
  now rewrite (nrows_shape _ _ _ HSn) in W'.
Qed.
Lemma add_upper_bound_ok hi p m me n : wf p m me n -> length hi = n ->
  exists p', add_upper_bound (BArr (D1 hi)) None p = (Ok tt, p') /\ wf p' (m + n) me n.
Proof.
  intros W L. pose proof W as (WA & _). assert (Hn : ncols (pA p) = n) by apply WA.
  pose proof (shape_selection p None) as HS. cbn [keep] in HS. rewrite Hn, seq_length in HS.
  destruct (add_upper_bound (BArr (D1 hi)) None p) as (r & p') eqn:E. unfold add_upper_bound, pbind, pget in E.
  assert (Er : r = Ok tt).
  { cbn [bound_array nd_neg] in E. rewrite add_inequality_eq in E. cbn [nd_size keep] in E.
    rewrite (nrows_shape _ _ _ HS), L, Nat.eqb_refl, (shape_cols _ _ _ HS), seq_length, Hn, Nat.eqb_refl in E. now injection E. }
  subst r. exists p'. split; [reflexivity|].
  destruct (add_inequality_step _ _ _ _ _ _ _ _ W (rect_selection p None) E) as (bv & _ & W' & _).
  now rewrite (nrows_shape _ _ _ HS) in W'.
Qed.
Lemma wf_whole n : wf (whole n) 0 0 n.
Proof. unfold wf; simpl; repeat split; repeat constructor. Qed.

(*@ Theorem C02_from_bounds : Polyhedron.from_bounds(x_min, x_max) is the box. *)
Lemma from_bounds_ok lo hi : length lo = length hi ->
  exists p, from_bounds (D1 lo) (D1 hi) None None = Ok p /\ wf p (length lo + length lo) 0 (length lo) /\
    forall x, in_poly p x <-> Forall2 Rle lo x /\ Forall2 Rle x hi.
Proof.
  intros L. unfold from_bounds. cbn [nd_size]. rewrite <- L, Nat.eqb_refl.
  unfold run_on. replace (Polyhedron (zmat 0 (length lo)) (D1 (zeros 0)) None None) with (Ok (whole (length lo))) by reflexivity.
  cbn [bind]. set (n := length lo) in *.
  destruct (add_lower_bound_ok lo (whole n) 0 0 n (wf_whole n) eq_refl) as (p1 & E1 & W1).
  destruct (add_upper_bound_ok hi p1 _ 0 n W1 (eq_sym L)) as (p2 & E2 & W2).
  unfold add_bounds, pbind. rewrite E1, E2. exists p2. split; [reflexivity|]. split; [exact W2|].
  destruct (add_lower_bound_step _ _ _ _ _ _ _ (wf_whole n) E1) as (m1 & _ & H1).
  destruct (add_upper_bound_step _ _ _ _ _ _ _ W1 E2) as (m2 & _ & H2).
  intros x. rewrite H2, H1. cbn [coords bound_vec].
  split; [tauto|]. intros (B1 & B2). split; [|exact B2]. split; [|exact B1].
  split; [|split; constructor]. simpl. apply Forall2_len in B1. symmetry. exact B1.
Qed.
(*@ Theorem C02_from_lower_bound : Polyhedron.from_lower_bound(x_min) is the shifted orthant. *)
Lemma from_lower_bound_ok lo :
  exists p, from_lower_bound (D1 lo) None None = Ok p /\ wf p (length lo) 0 (length lo) /\ forall x, in_poly p x <-> Forall2 Rle lo x.
Proof.
  unfold from_lower_bound. cbn [nd_size].
  unfold run_on. replace (Polyhedron (zmat 0 (length lo)) (D1 (zeros 0)) None None) with (Ok (whole (length lo))) by reflexivity.
  cbn [bind]. destruct (add_lower_bound_ok lo (whole (length lo)) 0 0 _ (wf_whole _) eq_refl) as (p1 & E1 & W1).
  rewrite E1. exists p1. split; [reflexivity|]. split; [exact W1|].
  destruct (add_lower_bound_step _ _ _ _ _ _ _ (wf_whole _) E1) as (m1 & _ & H1).
  intros x. rewrite H1. cbn [coords bound_vec]. split; [tauto|]. intros B. split; [|exact B].
  split; [|split; constructor]. simpl. apply Forall2_len in B. symmetry. exact B.
Qed.
(*@ Theorem C02_from_upper_bound : Polyhedron.from_upper_bound(x_max) is the set of x with x <= x_max. *)
Lemma from_upper_bound_ok hi :
  exists p, from_upper_bound (D1 hi) None None = Ok p /\ wf p (length hi) 0 (length hi) /\ forall x, in_poly p x <-> Forall2 Rle x hi.
Proof.
  unfold from_upper_bound. cbn [nd_size].
  unfold run_on. replace (Polyhedron (zmat 0 (length hi)) (D1 (zeros 0)) None None) with (Ok (whole (length hi))) by reflexivity.
  cbn [bind]. destruct (add_upper_bound_ok hi (whole (length hi)) 0 0 _ (wf_whole _) eq_refl) as (p1 & E1 & W1).
  rewrite E1. exists p1. split; [reflexivity|]. split; [exact W1|].
  destruct (add_upper_bound_step _ _ _ _ _ _ _ (wf_whole _) E1) as (m1 & _ & H1).
  intros x. rewrite H1. cbn [coords bound_vec]. split; [tauto|]. intros B. split; [|exact B].
  split; [|split; constructor]. simpl. apply Forall2_len in B. exact B.
Qed.

(** ** Examples *)
(*@ Example C01_example : A history on the plane: 0 <= x0 <= 1 by bounds on coordinate 0, then x0 + x1 = 1: all calls return, and (1/2, 1/2) is in the result. *)
Lemma accumulation_example :
  exists p', wf (whole 2) 0 0 2 /\
    calls (whole 2) [AddBounds (BFloat 0) (BFloat 1) (Some [0%Z]); AddEquality (Mat 2 [[1; 1]]) (D1 [1]) None] p' /\
    in_poly p' [/2; /2] /\ ~ in_poly p' [2; -1].
Proof.
  eexists. split; [unfold wf; simpl; repeat split; repeat constructor|]. split.
  - econstructor.
    { unfold call, add_bounds, add_lower_bound, add_upper_bound, pbind, pget. rewrite add_inequality_eq. cbn -[add_inequality].
      rewrite add_inequality_eq. reflexivity. }
    econstructor; [cbn [call]; rewrite add_equality_eq by reflexivity; reflexivity|]. constructor.
  - split.
    + split; [reflexivity|]. split; repeat (apply Forall2_cons; [cbn; lra|]); constructor.
    + intros (_ & H & _). unfold ineq_holds in H. cbn in H. inv2 H. lra.
Qed.
(*@ Example C05_example : A segment times a point (one factor with an equality and no inequality). *)
Lemma cartesian_example :
  let p1 := Poly (Mat 1 [[1]; [-1]]) [1; 0] (Mat 1 []) [] None None None None None in
  let p2 := Poly (Mat 1 []) [] (Mat 1 [[2]]) [4] None None None None None in
  exists p3, cartesian_product p1 p2 = Ok p3 /\ in_poly p3 [/2; 2] /\ ~ in_poly p3 [/2; 3].
Proof.
  cbv zeta. eexists. split; [reflexivity|]. split.
  - split; [reflexivity|]. split; repeat (apply Forall2_cons; [cbn; lra|]); constructor.
  - intros (_ & _ & H). unfold eq_holds in H. cbn in H. inv2 H. lra.
Qed.
