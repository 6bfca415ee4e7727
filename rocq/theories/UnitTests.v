(** * UnitTests: assertions of the unit tests in pympc/test, checked on the model

    Not properties but a test of the model itself: what the tests of the repository assert of the code holds of the
    definitions of this development, for every library that satisfies the contracts.  Only the deterministic assertions are
    here (many tests draw random data; those are instances of the general theorems named beside). *)
From Coq Require Import ZArith String.
From Verif Require Import Arr ArrFacts Spec SpecMpc Numpy Pnnls PnnlsFacts QpFacts GeomUtils Polyhedron PolyThms Oracle SolverThms NullFacts PolySolveThms PolyMore PolyCacheThms PolyChebThms PolySetThms PolyBoundThms SpecDyn Dynamics DynThms CondenseThms LqrThms McaisThms WellThms Mpqp MpqpThms GeomThms.
Open Scope R_scope.

(** equality of structures of real numbers *)
Ltac eqr := match goal with |- @eq R _ _ => lra | _ => first [reflexivity | f_equal; eqr] end.
Ltac run := cbv -[Rplus Rmult Ropp Rminus IZR Rinv Rdiv Rle Rlt]; eqr.

(** ** test_polyhedron.py:15-40, test_initialization *)
Lemma test_initialization : let A := eye 3 in let b := D1 (ones 3) in let C := eye 2 in let d := D1 (ones 2) in
  Polyhedron A b (Some C) None = Err ValueError /\ Polyhedron A d None None = Err ValueError /\ Polyhedron A b (Some C) (Some b) = Err ValueError /\
  Polyhedron A (D2 (Mat 1 [[1]; [1]; [1]])) None None = Err ValueError /\ Polyhedron A b (Some C) (Some (D2 (Mat 1 [[1]; [1]]))) = Err ValueError /\
  exists p, Polyhedron A b (Some C) (Some d) = Ok p /\ pb p = ones 3 /\ pd p = ones 2.
Proof. cbn. repeat split; try reflexivity. eexists. repeat split. Qed.
(** test_polyhedron.py:42-78, test_add_functions: inequalities and equalities *)
Lemma test_add : let p0 := Polyhedron (eye 2) (D1 (ones 2)) None None in
  let p1 := run_on p0 (add_inequality (Mat 2 [[1; 1]]) (D1 [1]) None) in
  let p2 := run_on p1 (add_inequality (Mat 1 [[1]]) (D1 [3 * 1]) (Some [1%Z])) in
  let p3 := run_on p2 (add_equality (eye 2) (D1 (ones 2)) None) in
  let p4 := run_on p3 (add_equality (Mat 1 [[3]]) (D1 [1]) (Some [0%Z])) in
  p4 = Ok (Poly (Mat 2 [[1; 0]; [0; 1]; [1; 1]; [0; 1]]) [1; 1; 1; 3] (Mat 2 [[1; 0]; [0; 1]; [3; 0]]) [1; 1; 1] None None None None None) /\
  run_on p2 (add_inequality (Mat 2 [[1; 0]; [0; 1]; [1; 1]; [0; 1]]) (D1 (ones 2)) None) = Err ValueError /\
  run_on p4 (add_equality (Mat 2 [[1; 0]; [0; 1]; [3; 0]]) (D1 (ones 2)) None) = Err ValueError.
Proof. split; [run|]. split; reflexivity. Qed.
(** test_polyhedron.py:80-104: bounds *)
Lemma test_add_bounds : let p0 := Polyhedron (zmat 0 2) (D1 []) None None in
  let p1 := run_on p0 (add_lower_bound (BArr (D1 [-1; -1])) None) in
  let p2 := run_on p1 (add_upper_bound (BArr (D1 [2; 2])) None) in
  let p3 := run_on p2 (add_bounds (BArr (D1 [-3; -3])) (BArr (D1 [3; 3])) None) in
  let p4 := run_on p3 (add_lower_bound (BArr (D1 [-4])) (Some [0%Z])) in
  let p5 := run_on p4 (add_upper_bound (BArr (D1 [5])) (Some [0%Z])) in
  let p6 := run_on p5 (add_bounds (BArr (D1 [-6])) (BArr (D1 [6])) (Some [1%Z])) in
  p6 = Ok (Poly (Mat 2 [[-1; 0]; [0; -1]; [1; 0]; [0; 1]; [-1; 0]; [0; -1]; [1; 0]; [0; 1]; [-1; 0]; [1; 0]; [0; -1]; [0; 1]]) [1; 1; 2; 2; 3; 3; 3; 3; 4; 5; 6; 6] (Mat 2 []) [] None None None None None) /\
  let q := Polyhedron (eye 3) (D1 (ones 3)) None None in let x := BArr (D1 [0]) in let i := Some [0%Z; 1%Z] in
  run_on q (add_lower_bound x i) = Err ValueError /\ run_on q (add_upper_bound x i) = Err ValueError /\ run_on q (add_bounds x x i) = Err ValueError.
Proof. split; [run|]. repeat split. Qed.
(** test_polyhedron.py:138-212, test_from_functions *)
Lemma test_from : let x := D1 (ones 2) in let mk A b := Ok (Poly A b (Mat (ncols A) []) [] None None None None None) in
  from_lower_bound (D2 (Mat 5 [[1; 1; 1; 1; 1]])) None None = Err ValueError /\
  from_lower_bound x None None = mk (Mat 2 [[-1; 0]; [0; -1]]) [-1; -1] /\ from_upper_bound x None None = mk (Mat 2 [[1; 0]; [0; 1]]) [1; 1] /\
  from_bounds x x None None = mk (Mat 2 [[-1; 0]; [0; -1]; [1; 0]; [0; 1]]) [-1; -1; 1; 1] /\
  from_bounds x (D2 (Mat 1 [[1]; [1]; [1]])) None None = Err ValueError /\
  from_lower_bound x (Some [1%Z; 2%Z]) (Some 3%nat) = mk (Mat 3 [[0; -1; 0]; [0; 0; -1]]) [-1; -1] /\
  from_upper_bound x (Some [0%Z; 2%Z]) (Some 3%nat) = mk (Mat 3 [[1; 0; 0]; [0; 0; 1]]) [1; 1] /\
  from_bounds x x (Some [0%Z; 1%Z]) (Some 3%nat) = mk (Mat 3 [[-1; 0; 0]; [0; -1; 0]; [1; 0; 0]; [0; 1; 0]]) [-1; -1; 1; 1] /\
  from_lower_bound x (Some [1%Z; 2%Z; 3%Z]) (Some 5%nat) = Err ValueError /\ from_upper_bound x (Some [1%Z; 2%Z; 3%Z]) (Some 5%nat) = Err ValueError /\
  from_bounds x x (Some [1%Z; 2%Z; 3%Z]) (Some 5%nat) = Err ValueError.
Proof. cbv zeta. repeat split; run. Qed.
(** test_polyhedron.py:228-255, test_normalize *)
Lemma test_normalize : normalize tol7 (Poly (Mat 2 [[0; 2]; [0; -3]]) [2; 0] (Mat 2 [[1; 1]]) [1] None None None None None)
  = Poly (Mat 2 [[0; 1]; [0; -1]]) [1; 0] (Mat 2 [[/ sqrt 2; / sqrt 2]]) [/ sqrt 2] None None None None None.
Proof.
  assert (N1 : norm [0; 2] = 2) by (unfold norm; cbn; replace (0 * 0 + (2 * 2 + 0)) with (2 * 2) by ring; apply sqrt_square; lra).
  assert (N2 : norm [0; -3] = 3) by (unfold norm; cbn; replace (0 * 0 + (-3 * -3 + 0)) with (3 * 3) by ring; apply sqrt_square; lra).
  assert (N3 : norm [1; 1] = sqrt 2) by (unfold norm; cbn; f_equal; ring).
  assert (S2 : 1 < sqrt 2) by (rewrite <- sqrt_1 at 1; apply sqrt_lt_1_alt; lra).
  unfold normalize, normalize_with, normalize_lhs, normalize_rhs. cbn [pA pb pC pd rows ncols map map2 p_empty p_bounded p_radius p_center p_vertices]. rewrite N1, N2, N3.
  rewrite !(proj2 (Rltb_true _ _)) by (unfold tol7; lra). cbn [map]. repeat match goal with |- @eq R _ _ => fail 1 | |- _ = _ => f_equal end; try field; lra.
Qed.
(** test_polyhedron.py:257-302, test_remove_equalities: the errors (the values are C14) *)
Lemma test_remove_equalities np : exact_np np -> let sq C d := Poly (Mat 2 [[-1; 0]; [0; -1]; [1; 0]; [0; 1]]) [1; 1; 1; 1] (Mat 2 C) d None None None None None in
  let r p := remove_equalities np (pA p) (pb p) (pC p) (pd p) in
  (exists E f N R, r (sq [[1; 1]] [1]) = Ok (E, f, N, R)) /\
  r (sq [[1; 1]; [1; -1]] [1; 0]) = Err ValueError /\ r (sq [[1; 1]; [1; -1]; [0; 1]] [1; 0; 5]) = Err ValueError /\ r (sq [[1; 1]; [2; 2]] [1; 1]) = Err ValueError.
Proof.
  intros (_ & _ & _ & Hi & _ & Hs) sq r.
  assert (W : forall C d k, length C = k -> length d = k -> Forall (fun v => length v = 2%nat) C -> wf (sq C d) 4 k 2) by (intros C d k L1 L2 F; unfold wf; cbn; repeat split; auto; repeat constructor).
  split; [|split; [|split]].
  - destruct (elimination np (sq [[1; 1]] [1]) 4 1 2 Hs Hi ltac:(apply W; repeat constructor) ltac:(lia)) as (E & f & N & R & X & H & _).
    { intros y Ly Hy. destruct y as [|y [|]]; try discriminate Ly. cbn in Hy. injection Hy as Hy _. cbn. f_equal. lra. }
    exists E, f, N, R. exact H.
  - refine (elimination_rejects np (sq [[1; 1]; [1; -1]] [1; 0]) 4 2 2 Hs Hi _ _); [apply W; repeat constructor|]. intros (H & _). lia.
  - refine (elimination_rejects np (sq [[1; 1]; [1; -1]; [0; 1]] [1; 0; 5]) 4 3 2 Hs Hi _ _); [apply W; repeat constructor|]. intros (H & _). lia.
  - refine (elimination_rejects np (sq [[1; 1]; [2; 2]] [1; 1]) 4 2 2 Hs Hi _ _); [apply W; repeat constructor|]. intros (H & _). lia.
Qed.
(** ** membership *)
Lemma F2c {A B} (P : A -> B -> Prop) a u b v : Forall2 P (a :: u) (b :: v) <-> P a b /\ Forall2 P u v.
Proof. split; [intros H; inversion H; auto|intros (H1 & H2); constructor; auto]. Qed.
Lemma F2n {A B} (P : A -> B -> Prop) : Forall2 P [] [] <-> True.
Proof. split; auto. Qed.
Ltac members := unfold in_poly, in_set, ineq_holds, eq_holds; cbn; rewrite ?F2c, ?F2n; cbn.
Ltac wfs := unfold wf; cbn; repeat split; auto; repeat constructor.
Definition box2 (l u : R) C d := Poly (Mat 2 [[-1; 0]; [0; -1]; [1; 0]; [0; 1]]) [- l; - l; u; u] (Mat 2 C) d None None None None None.
Lemma box2_from l u : from_bounds (D1 [l; l]) (D1 [u; u]) None None = Ok (box2 l u [] []).
Proof. unfold box2. run. Qed.
Lemma wf_box2 l u C d k : length C = k -> length d = k -> Forall (fun v => length v = 2%nat) C -> wf (box2 l u C d) 4 k 2.
Proof. intros L1 L2 F; unfold wf; cbn; repeat split; auto; repeat constructor. Qed.
Lemma in_box2 l u a b : in_poly (box2 l u [] []) [a; b] <-> l <= a <= u /\ l <= b <= u.
Proof. members. split; [intros (_ & H & _)|intros H]; repeat split; lra. Qed.
(** test_polyhedron.py:382-400, test_empty *)
Lemma test_empty np : exact_np np -> let p0 := box2 1 2 [] [] in let p1 := box2 1 2 [[1; 1]] [3] in
  let p2 := Poly (Mat 2 [[-1; 0]; [0; -1]; [1; 0]; [0; 1]; [1; 0]]) [-1; -1; 2; 2; / 2] (Mat 2 [[1; 1]]) [3] None None None None None in
  from_bounds (D1 (ones 2)) (D1 [2; 2]) None None = Ok p0 /\ fst (get_empty np p0) = Ok false /\
  run_on (Ok (snd (get_empty np p0))) (add_equality (Mat 2 [[1; 1]]) (D1 [3]) None) = Ok p1 /\ fst (get_empty np p1) = Ok false /\
  run_on (Ok (snd (get_empty np p1))) (add_upper_bound (BArr (D1 [/ 2])) (Some [0%Z])) = Ok p2 /\ fst (get_empty np p2) = Ok true.
Proof.
  intros Hnp p0 p1 p2.
  destruct (get_empty_ok np p0 4 0 2 Hnp ltac:(apply wf_box2; repeat constructor) eq_refl) as (e0 & E0 & H0). destruct (get_empty_ok np p1 4 1 2 Hnp ltac:(apply wf_box2; repeat constructor) eq_refl) as (e1 & E1 & H1).
  destruct (get_empty_ok np p2 5 1 2 Hnp ltac:(wfs) eq_refl) as (e2 & E2 & H2).
  assert (P1 : in_poly p1 [3 / 2; 3 / 2]) by (unfold p1, box2; members; repeat split; lra). assert (NR : near [3 / 2; 3 / 2]) by (unfold near; cbn; unfold tol7; lra).
  assert (P0 : in_poly p0 [3 / 2; 3 / 2]) by (apply in_box2; lra).
  assert (Z0 : e0 = false) by (destruct e0; [exfalso; apply (proj1 H0 eq_refl); eauto|reflexivity]). assert (Z1 : e1 = false) by (destruct e1; [exfalso; apply (proj1 H1 eq_refl); eauto|reflexivity]).
  assert (Z2 : e2 = true). { apply H2. intros (x & Hx & _). pose proof (proj1 Hx) as Lx. cbn in Lx. destruct x as [|a [|b [|]]]; try discriminate Lx. revert Hx. unfold p2. members. intros. lra. }
  subst. rewrite E0, E1, E2. cbn [fst snd]. repeat split; run.
Qed.
(** test_polyhedron.py:402-446, test_bounded *)
Definition pol2 A b C d := Poly (Mat 2 A) b (Mat 2 C) d None None None None None.
Lemma reported_bounded np p m me n : exact_np np -> wf p m me n -> p_empty p = None -> p_bounded p = None -> bounded_set (in_poly p) -> fst (get_bounded np p) = Ok true.
Proof. intros Hnp W E1 E2 B. destruct (polytope_is_bounded np p m me n Hnp W E1 E2 B) as (p' & ->). reflexivity. Qed.
Lemma reported_unbounded np p m me n x : exact_np np -> wf p m me n -> p_empty p = None -> p_bounded p = None -> in_poly p x -> near x ->
  (exists d i, recession p d /\ (i < m)%nat /\ 2 * tol7 * PolyBoundThms.norm1 d < Rabs (dot (row (pA p) i) d)) \/ (exists d, length d = n /\ mv (pA p) d = zeros m /\ mv (pC p) d = zeros me /\ d <> zeros n) ->
  fst (get_bounded np p) = Ok false.
Proof.
  intros Hnp W E1 E2 Hx Nx H. destruct (get_bounded_ok np p m me n Hnp W E1 E2) as (r & p' & -> & _ & Ht). cbn [fst]. destruct r; [exfalso|reflexivity].
  destruct (Ht eq_refl) as [G|(_ & G1 & G2)]; [exact (G x Hx Nx)|]. destruct H as [(d & i & R & Hi & V)|(d & L & K1 & K2 & N)]; [specialize (G2 d R i Hi); lra|apply N, G1; assumption].
Qed.
Lemma bounded_2 p M : 0 <= M -> ncols (pA p) = 2%nat -> (forall a b, in_poly p [a; b] -> - M <= a <= M /\ - M <= b <= M) -> bounded_set (in_poly p).
Proof.
  intros HM NC H. exists (2 * M). intros x Hx. pose proof (proj1 Hx) as Lx. rewrite NC in Lx. destruct x as [|a [|b [|]]]; try discriminate Lx. specialize (H a b Hx).
  unfold norm. rewrite <- (sqrt_square (2 * M)) by lra. apply sqrt_le_1_alt. cbn. nra.
Qed.
Lemma test_bounded np : exact_np np -> let b p := fst (get_bounded np p) in
  b (box2 1 (-1) [] []) = Ok true /\ b (pol2 [[-1; 0]; [1; 0]] [-1; -1] [] []) = Ok true /\ b (box2 1 2 [] []) = Ok true /\
  b (pol2 [[-1; 0]] [0] [] []) = Ok false /\ b (pol2 [[-1; 0]; [0; -1]] [0; 0] [] []) = Ok false /\
  b (pol2 [[-1; 0]; [0; -1]; [1; 0]] [0; 0; 1] [] []) = Ok false /\ b (pol2 [[-1; 0]; [0; -1]; [1; 0]; [-1; 0]] [0; 0; 1; -1] [] []) = Ok false /\
  b (pol2 [[-1; 0]; [0; -1]; [1; 0]; [-1; 0]; [0; 1]] [0; 0; 1; -1; 1000] [] []) = Ok true /\
  b (Poly (Mat 3 [[-1; 0; 0]; [0; -1; 0]; [1; 0; 0]; [0; 1; 0]]) [1; 2; 1; 2] (Mat 3 [[1; 0; -1]]) [0] None None None None None) = Ok true.
Proof.
  intros Hnp b. assert (NR : forall a c, -1 <= a <= 1 -> -1 <= c <= 1 -> near [a; c]) by (intros; unfold near; cbn; unfold tol7; nra).
  assert (R1 : forall d, length d = 2%nat -> PolyBoundThms.norm1 d = Rabs (nth 0 d 0) + Rabs (nth 1 d 0)) by (intros d L; destruct d as [|u [|v [|]]]; try discriminate L; unfold PolyBoundThms.norm1; cbn; ring).
  repeat split.
  - apply (reported_bounded np _ 4 0 2); [exact Hnp|exact (wf_box2 _ _ [] [] 0 eq_refl eq_refl (Forall_nil _))|reflexivity|reflexivity|]. apply (bounded_2 _ 1); [lra|reflexivity|]. intros u v H. apply in_box2 in H. lra.
  - apply (reported_bounded np _ 2 0 2); [exact Hnp|wfs|reflexivity|reflexivity|]. apply (bounded_2 _ 1); [lra|reflexivity|]. intros u v. unfold pol2. members. intros. lra.
  - apply (reported_bounded np _ 4 0 2); [exact Hnp|exact (wf_box2 _ _ [] [] 0 eq_refl eq_refl (Forall_nil _))|reflexivity|reflexivity|]. apply (bounded_2 _ 2); [lra|reflexivity|]. intros u v H. apply in_box2 in H. lra.
  - apply (reported_unbounded np _ 1 0 2 [0; 0]); [exact Hnp|wfs|reflexivity|reflexivity|unfold pol2; members; repeat split; lra|apply NR; lra|]. right. exists [0; 1]. cbn. repeat split; [f_equal; lra|]. intros E. injection E. lra.
  - apply (reported_unbounded np _ 2 0 2 [0; 0]); [exact Hnp|wfs|reflexivity|reflexivity|unfold pol2; members; repeat split; lra|apply NR; lra|]. left. exists [0; 1], 1%nat. split; [|split; [lia|]].
    + unfold recession; cbn; repeat split; repeat (apply Forall_cons || apply Forall_nil); cbn; lra.
    + rewrite R1 by reflexivity. cbn. rewrite Rabs_R0, (Rabs_left (_ + _)), Rabs_R1 by lra. unfold tol7. lra.
  - apply (reported_unbounded np _ 3 0 2 [0; 0]); [exact Hnp|wfs|reflexivity|reflexivity|unfold pol2; members; repeat split; lra|apply NR; lra|]. left. exists [0; 1], 1%nat. split; [|split; [lia|]].
    + unfold recession; cbn; repeat split; repeat (apply Forall_cons || apply Forall_nil); cbn; lra.
    + rewrite R1 by reflexivity. cbn. rewrite Rabs_R0, (Rabs_left (_ + _)), Rabs_R1 by lra. unfold tol7. lra.
  - apply (reported_unbounded np _ 4 0 2 [1; 0]); [exact Hnp|wfs|reflexivity|reflexivity|unfold pol2; members; repeat split; lra|apply NR; lra|]. left. exists [0; 1], 1%nat. split; [|split; [lia|]].
    + unfold recession; cbn; repeat split; repeat (apply Forall_cons || apply Forall_nil); cbn; lra.
    + rewrite R1 by reflexivity. cbn. rewrite Rabs_R0, (Rabs_left (_ + _)), Rabs_R1 by lra. unfold tol7. lra.
  - apply (reported_bounded np _ 5 0 2); [exact Hnp|wfs|reflexivity|reflexivity|]. apply (bounded_2 _ 1000); [lra|reflexivity|]. intros u v. unfold pol2. members. intros. lra.
  - apply (reported_bounded np _ 4 1 3); [exact Hnp|wfs|reflexivity|reflexivity|]. exists 4. intros x Hx. pose proof (proj1 Hx) as Lx. cbn in Lx. destruct x as [|u [|v [|w [|]]]]; try discriminate Lx. revert Hx. members. intros H.
    unfold norm. rewrite <- (sqrt_square 4) by lra. apply sqrt_le_1_alt. cbn. assert (w = u) by lra. subst w. nra.
Qed.
(** test_polyhedron.py:448-471, test_contains *)
Lemma test_contains : let p := box2 1 3 [] [] in let q := box2 1 3 [[1; 1]] [4] in
  contains tol7 p [2; 2] = Ok true /\ contains tol7 p [5 / 2; 5 / 2] = Ok true /\ contains tol7 p [7 / 2; 7 / 2] = Ok false /\
  contains tol7 q [2; 2] = Ok true /\ contains tol7 q [5 / 2; 5 / 2] = Ok false /\ contains tol7 q [7 / 2; 7 / 2] = Ok false.
Proof.
  intros p q.
  assert (P : forall a r, (1 <= a <= 3 -> r = true) -> (a < 1 - tol7 \/ 3 + tol7 < a -> r = false) -> (1 <= a <= 3 \/ (a < 1 - tol7 \/ 3 + tol7 < a)) -> contains tol7 p [a; a] = Ok r).
  { intros a r H1 H2 H. destruct (contains_ok p 4 0 2 [a; a] tol7 (wf_box2 _ _ [] [] 0 eq_refl eq_refl (Forall_nil _)) ltac:(lia) ltac:(lia) eq_refl) as (r' & -> & G). f_equal. revert G. cbn. rewrite !F2c, !F2n. cbn. unfold tol7 in *. intros G.
    destruct r' eqn:Er; symmetry; [apply H1; pose proof (proj1 G eq_refl); lra|apply H2]. destruct H as [H|H]; [|exact H]. exfalso. assert (false = true); [apply G; repeat split; lra|discriminate]. }
  assert (Q : forall a r, (1 <= a <= 3 /\ 2 * a = 4 -> r = true) -> (3 + tol7 < a \/ 4 + tol7 < 2 * a -> r = false) -> (1 <= a <= 3 /\ 2 * a = 4 \/ (3 + tol7 < a \/ 4 + tol7 < 2 * a)) -> contains tol7 q [a; a] = Ok r).
  { intros a r H1 H2 H. destruct (contains_ok q 4 1 2 [a; a] tol7 ltac:(apply wf_box2; repeat constructor) ltac:(lia) ltac:(lia) eq_refl) as (r' & -> & G). f_equal. revert G. cbn. rewrite !F2c, !F2n. cbn. unfold tol7 in *. intros G.
    destruct H as [H|H]; [rewrite H1 by exact H; apply G; repeat split; try lra; rewrite Rabs_right; lra|rewrite H2 by exact H; destruct r'; [exfalso|reflexivity]].
    destruct (proj1 G eq_refl) as (G1 & G2 & _). unfold Rabs in G2; destruct (Rcase_abs _); lra. }
  repeat split; [apply P|apply P|apply P|apply Q|apply Q|apply Q]; unfold tol7; try (intros; reflexivity); try (intros; exfalso; lra); try lra.
Qed.
(** test_polyhedron.py:473-526, test_is_included_in *)
Lemma inc_true np p q m me m' me' a b : exact_np np -> wf p m me 2 -> wf q m' me' 2 -> in_poly p [a; b] -> (forall x y, in_poly p [x; y] -> in_poly q [x; y]) -> is_included_in np tol7 p q = Ok true.
Proof.
  intros Hnp W1 W2 H0 H. apply (included_true np tol7 p q m me m' me' 2 Hnp W1 W2); [unfold tol7; lra|eauto|]. intros x Hx. pose proof (proj1 Hx) as Lx. rewrite (shape_cols _ _ _ (proj1 W1)) in Lx. destruct x as [|u [|v [|]]]; try discriminate Lx. auto.
Qed.
Lemma inc_false np p q m me m' me' a b M : exact_np np -> wf p m me 2 -> wf q m' me' 2 -> 0 <= M -> (forall x y, in_poly p [x; y] -> - M <= x <= M /\ - M <= y <= M) -> in_poly p [a; b] -> ~ in_poly_tol q tol7 [a; b] ->
  is_included_in np tol7 p q = Ok false.
Proof.
  intros Hnp W1 W2 HM B H0 N. destruct (inclusion np tol7 p q m me m' me' 2 Hnp W1 W2 ltac:(eauto) (bounded_2 p M HM (shape_cols _ _ _ (proj1 W1)) B)) as (r & -> & H). destruct r; [exfalso; apply N, (proj1 H eq_refl), H0|reflexivity].
Qed.
Ltac outside := let K := fresh in intros (K & ?); revert K; cbn; rewrite ?F2c, ?F2n; cbn; unfold tol7; intros; lra.
Ltac outside_eq := let K := fresh in intros (_ & K); revert K; cbn; rewrite ?F2c, ?F2n; cbn; unfold tol7; intros (K & _); unfold Rabs in K; destruct (Rcase_abs _); lra.
Ltac inc a b := lazymatch goal with
  | |- is_included_in _ _ _ _ = Ok true => eapply (inc_true _ _ _ _ _ _ _ a b); [assumption|wfs|wfs|members; repeat split; lra|intros x y; members; intros; repeat split; lra]
  | |- is_included_in _ _ _ _ = Ok false => eapply (inc_false _ _ _ _ _ _ _ a b 3); [assumption|wfs|wfs|lra|intros x y; members; intros; lra|members; repeat split; lra|first [outside|outside_eq]]
  end.
Lemma test_is_included_in np : exact_np np -> let i := is_included_in np tol7 in let p1 := box2 1 2 [] [] in
  let p2 := pol2 [[-1; 0]; [0; -1]; [1; 0]; [0; 1]; [-1; 0]; [0; -1]] [- / 2; - / 2; 2; 2; - (3 / 2); - (3 / 2)] in
  let p3 := pol2 [[-1; 0]; [0; -1]; [1; 0]; [0; 1]; [-1; 0]; [0; -1]; [0; 1]] [- / 2; - / 2; 2; 2; - (3 / 2); - (3 / 2); 7 / 4] [[1; 1]] [7 / 2] in
  let p1e := box2 1 2 [[1; 1]] [7 / 2] in
  i p1 p1 = Ok true /\ i p1 (box2 (/ 2) (5 / 2) [] []) = Ok true /\ i (box2 (/ 2) (5 / 2) [] []) p1 = Ok false /\
  i p1 (box2 (/ 2) (3 / 2) [] []) = Ok false /\ i (box2 (/ 2) (3 / 2) [] []) p1 = Ok false /\
  i p1 (box2 (/ 2) 2 [] []) = Ok true /\ i (box2 (/ 2) 2 [] []) p1 = Ok false /\
  run_on (Ok (box2 (/ 2) 2 [] [])) (add_lower_bound (BArr (D1 [3 / 2; 3 / 2])) None) = Ok (p2 [] []) /\ i p1 (p2 [] []) = Ok false /\ i (p2 [] []) p1 = Ok true /\
  run_on (Ok p1) (add_equality (Mat 2 [[1; 1]]) (D1 [7 / 2]) None) = Ok p1e /\ i p1e (p2 [] []) = Ok true /\ i (p2 [] []) p1e = Ok false /\
  run_on (Ok (p2 [] [])) (add_equality (Mat 2 [[1; 1]]) (D1 [7 / 2]) None) = Ok (p2 [[1; 1]] [7 / 2]) /\ i p1e (p2 [[1; 1]] [7 / 2]) = Ok true /\ i (p2 [[1; 1]] [7 / 2]) p1e = Ok true /\
  run_on (Ok (p2 [[1; 1]] [7 / 2])) (add_upper_bound (BArr (D1 [7 / 4])) (Some [1%Z])) = Ok p3 /\ i p1e p3 = Ok false /\ i p3 p1e = Ok true.
Proof.
  intros Hnp i p1 p2 p3 p1e. unfold i, p1, p2, p3, p1e, pol2, box2. repeat match goal with |- _ /\ _ => split end; try (lazymatch goal with |- run_on _ _ = _ => run end).
  - inc 1 1.
  - inc 1 1.
  - inc (/ 2) (/ 2).
  - inc 2 2.
  - inc (/ 2) (/ 2).
  - inc 1 1.
  - inc (/ 2) (/ 2).
  - inc 1 1.
  - inc 2 2.
  - inc (7 / 4) (7 / 4).
  - inc 2 2.
  - inc 2 (3 / 2).
  - inc 2 (3 / 2).
  - inc (3 / 2) 2.
  - inc (7 / 4) (7 / 4).
Qed.
(** test_polyhedron.py:528-556, test_intersection: the stacked rows, and emptiness once the equality is added *)
Lemma test_intersection np : exact_np np ->
  intersection (box2 (-1) 1 [] []) (box2 0 2 [] []) = Ok (pol2 [[-1; 0]; [0; -1]; [1; 0]; [0; 1]; [-1; 0]; [0; -1]; [1; 0]; [0; 1]] [0; 0; 2; 2; 1; 1; 1; 1] [] []) /\
  exists p3, intersection (box2 (-1) 1 [[1; 0]] [- / 2]) (box2 0 2 [] []) = Ok p3 /\ fst (get_empty np p3) = Ok true.
Proof.
  intros Hnp. split; [run|]. eexists. split; [reflexivity|]. match goal with |- fst (get_empty np ?p) = _ => destruct (get_empty_ok np p 8 1 2 Hnp ltac:(wfs) eq_refl) as (e & -> & H) end.
  cbn [fst]. f_equal. apply H. intros (x & Hx & _). pose proof (proj1 Hx) as Lx. cbn in Lx. destruct x as [|a [|b [|]]]; try discriminate Lx. revert Hx. members. intros. lra.
Qed.
(** test_polyhedron.py:558-586, test_cartesian_product: the same rows in another order *)
Lemma test_cartesian_product : let C := Mat 4 [[1; 1; 0; 0]; [0; 0; 1; 1]] in
  cartesian_product (box2 (-1) 1 [[1; 1]] [0]) (box2 (-1) 1 [[1; 1]] [0]) =
    Ok (Poly (Mat 4 [[-1; 0; 0; 0]; [0; -1; 0; 0]; [1; 0; 0; 0]; [0; 1; 0; 0]; [0; 0; -1; 0]; [0; 0; 0; -1]; [0; 0; 1; 0]; [0; 0; 0; 1]]) (ones 8) C (zeros 2) None None None None None) /\
  run_on (from_bounds (D1 (vneg (ones 4))) (D1 (ones 4)) None None) (add_equality C (D1 (zeros 2)) None) =
    Ok (Poly (Mat 4 [[-1; 0; 0; 0]; [0; -1; 0; 0]; [0; 0; -1; 0]; [0; 0; 0; -1]; [1; 0; 0; 0]; [0; 1; 0; 0]; [0; 0; 1; 0]; [0; 0; 0; 1]]) (ones 8) C (zeros 2) None None None None None).
Proof. split; run. Qed.
(** ** Dynamics *)
Definition omat m n := Mat n (repeat (ones n) m).
(** test_dynamics/test_utils.py:11-33 *)
Lemma test_check_affine_system : check_affine_system (omat 2 1) (omat 2 1) None None = Err ValueError /\ check_affine_system (omat 3 3) (omat 2 1) None None = Err ValueError /\
  check_affine_system (omat 3 3) (omat 3 1) (Some (D1 (ones 1))) None = Err ValueError /\ check_affine_system (omat 3 3) (omat 3 1) (Some (D2 (omat 3 1))) None = Err ValueError /\
  check_affine_system (omat 3 3) (omat 3 1) (Some (D1 (ones 3))) (Some (- (1 / 10))) = Err ValueError.
Proof. repeat split; try reflexivity. cbn. unfold Rltb. destruct (Rlt_dec _ _); [reflexivity|exfalso; lra]. Qed.
(** test_discrete_time_systems.py:12-20, 174-186, 258-301 *)
Lemma test_system_initialization : LinearSystem (omat 3 3) (omat 4 1) = Err ValueError /\ LinearSystem (omat 4 5) (omat 4 1) = Err ValueError /\
  AffineSystem (omat 3 3) (omat 4 1) (D1 (ones 4)) = Err ValueError /\ AffineSystem (omat 4 5) (omat 4 1) (D1 (ones 4)) = Err ValueError /\ AffineSystem (omat 4 4) (omat 4 1) (D1 (ones 5)) = Err ValueError.
Proof. repeat split. Qed.
Lemma test_pwa_initialization : let S := Aff (ASys (omat 3 3) (omat 3 2) (ones 3)) in let D n := Poly (omat 9 n) (ones 9) (Mat n []) [] None None None None None in
  AffineSystem (omat 3 3) (omat 3 2) (D1 (ones 3)) = Ok (ASys (omat 3 3) (omat 3 2) (ones 3)) /\ Polyhedron (omat 9 5) (D1 (ones 9)) None None = Ok (D 5%nat) /\
  PieceWiseAffineSystem (repeat S 5) (repeat (D 5%nat) 4) = Err ValueError /\
  PieceWiseAffineSystem (repeat S 5 ++ [Aff (ASys (omat 2 2) (omat 2 2) (ones 2))]) (repeat (D 5%nat) 6) = Err ValueError /\
  PieceWiseAffineSystem (repeat S 5 ++ [Aff (ASys (omat 3 3) (omat 3 1) (ones 3))]) (repeat (D 5%nat) 6) = Err ValueError /\
  PieceWiseAffineSystem (repeat S 7) (repeat (D 5%nat) 6 ++ [D 4%nat]) = Err ValueError /\ PieceWiseAffineSystem (repeat S 7) (repeat (D 4%nat) 7) = Err ValueError.
Proof. repeat split; run. Qed.
(** test_discretization_methods.py:11-29: the double integrator with explicit Euler *)
Lemma test_explicit_euler : let A := Mat 2 [[0; 1]; [0; 0]] in let B := Mat 1 [[0]; [1]] in
  explicit_euler A B (D1 (zeros 2)) 1 = Ok (madd (eye 2) (mscale 1 A), mscale 1 B, zeros 2).
Proof. unfold explicit_euler. cbn. unfold Rltb. destruct (Rlt_dec _ _); [exfalso; lra|]. run. Qed.
(** test_discrete_time_systems.py:381-409, test_is_well_posed *)
Definition box3 (l u : R) := Poly (Mat 3 [[-1; 0; 0]; [0; -1; 0]; [0; 0; -1]; [1; 0; 0]; [0; 1; 0]; [0; 0; 1]]) [- l; - l; - l; u; u; u] (Mat 3 []) [] None None None None None.
Definition cut3 (l u l' : R) := Poly (Mat 3 [[-1; 0; 0]; [0; -1; 0]; [0; 0; -1]; [1; 0; 0]; [0; 1; 0]; [0; 0; 1]; [-1; 0; 0]; [0; -1; 0]; [0; 0; -1]]) [- l; - l; - l; u; u; u; - l'; - l'; - l'] (Mat 3 []) [] None None None None None.
Lemma box3_from l u : from_bounds (D1 [l; l; l]) (D1 [u; u; u]) None None = Ok (box3 l u).
Proof. unfold box3. run. Qed.
Lemma cut3_from l u l' : run_on (Ok (box3 l u)) (add_lower_bound (BArr (D1 [l'; l'; l'])) None) = Ok (cut3 l u l').
Proof. unfold box3, cut3. run. Qed.
Lemma in_box3 l u a b c : in_poly (box3 l u) [a; b; c] <-> l <= a <= u /\ l <= b <= u /\ l <= c <= u.
Proof. unfold box3. members. split; [intros (_ & H & _)|intros H]; repeat split; lra. Qed.
Lemma in_cut3 l u l' a b c : in_poly (cut3 l u l') [a; b; c] <-> (l <= a <= u /\ l <= b <= u /\ l <= c <= u) /\ l' <= a /\ l' <= b /\ l' <= c.
Proof. unfold cut3. members. split; [intros (_ & H & _)|intros H]; repeat split; lra. Qed.
Ltac rows_nz := let i := fresh in let E := fresh in intros i ? E; do 9 (try (destruct i as [|i]; [cbn in E; injection E; lra|])); cbn in *; lia.
Lemma plain_box3 l u : plain 3 (box3 l u).
Proof. exists 6%nat. split; [wfs|rows_nz]. Qed.
Lemma plain_cut3 l u l' : plain 3 (cut3 l u l').
Proof. exists 9%nat. split; [wfs|rows_nz]. Qed.
Lemma bounded_3 p M : 0 <= M -> ncols (pA p) = 3%nat -> (forall a b c, in_poly p [a; b; c] -> - M <= a <= M /\ - M <= b <= M /\ - M <= c <= M) -> bounded_set (in_poly p).
Proof.
  intros HM NC H. exists (2 * M). intros x Hx. pose proof (proj1 Hx) as Lx. rewrite NC in Lx. destruct x as [|a [|b [|c [|]]]]; try discriminate Lx. specialize (H a b c Hx).
  unfold norm. rewrite <- (sqrt_square (2 * M)) by lra. apply sqrt_le_1_alt. cbn. nra.
Qed.
Lemma test_is_well_posed np : exact_np np ->
  is_well_posed np tol7 (PWA 2 1 [] [box3 (-1) 1; box3 0 2]) = Ok false /\ is_well_posed np tol7 (PWA 2 1 [] [box3 (-1) 1; cut3 0 2 1; box3 2 3]) = Ok true.
Proof.
  intros Hnp. assert (T : 0 <= tol7) by (unfold tol7; lra).
  assert (NO : forall D1 D2 t, (forall a b c, in_poly D1 [a; b; c] -> a <= t) -> (forall a b c, in_poly D2 [a; b; c] -> t <= a) -> ~ overlap 3 tol7 D1 D2).
  { intros D1 D2 t H1 H2 (r & Hr & _ & c & Lc & H). destruct c as [|c1 [|c2 [|c3 [|]]]]; try discriminate Lc.
    destruct (H [c1 + r; c2; c3] eq_refl ltac:(unfold dist2; cbn; nra)) as (K1 & _). destruct (H [c1 - r; c2; c3] eq_refl ltac:(unfold dist2; cbn; nra)) as (_ & K2). specialize (H1 _ _ _ K1). specialize (H2 _ _ _ K2). lra. }
  split.
  - destruct (well_posed_bounded np 3 tol7 (PWA 2 1 [] [box3 (-1) 1; box3 0 2]) (box3 0 0) Hnp T ltac:(lia)) as (r & -> & H).
    + repeat constructor; apply plain_box3.
    + repeat constructor; (apply (bounded_3 _ 2); [lra|reflexivity|]; intros a b c K; apply in_box3 in K; lra).
    + destruct r; [exfalso|reflexivity]. apply (proj1 H eq_refl 0%nat 1%nat ltac:(cbn; lia)). cbn. exists (/ 2). split; [unfold tol7; lra|]. split; [lra|]. exists [/ 2; / 2; / 2]. split; [reflexivity|].
      intros y Ly. destruct y as [|a [|b [|c [|]]]]; try discriminate Ly. unfold dist2; cbn. intros K. rewrite !in_box3.
      assert (Q : forall t, t * t <= / 4 -> - / 2 <= t <= / 2) by (intros; nra). pose proof (Rle_0_sqr (a - / 2)) as K1. pose proof (Rle_0_sqr (b - / 2)) as K2. pose proof (Rle_0_sqr (c - / 2)) as K3. unfold Rsqr in *.
      pose proof (Q (a - / 2) ltac:(lra)). pose proof (Q (b - / 2) ltac:(lra)). pose proof (Q (c - / 2) ltac:(lra)). repeat split; lra.
  - destruct (well_posed_bounded np 3 tol7 (PWA 2 1 [] [box3 (-1) 1; cut3 0 2 1; box3 2 3]) (box3 0 0) Hnp T ltac:(lia)) as (r & -> & H).
    + repeat constructor; first [apply plain_box3|apply plain_cut3].
    + repeat constructor; (apply (bounded_3 _ 3); [lra|reflexivity|]; intros a b c K; first [apply in_box3 in K|apply in_cut3 in K]; lra).
    + f_equal. apply H. intros i j Hij. cbn in Hij. destruct i as [|[|]]; [destruct j as [|[|[|]]]|destruct j as [|[|[|]]]|]; try lia; cbn.
      * apply (NO _ _ 1); intros a b c K; first [apply in_box3 in K|apply in_cut3 in K]; lra.
      * apply (NO _ _ 2); intros a b c K; first [apply in_box3 in K|apply in_cut3 in K]; lra.
      * apply (NO _ _ 2); intros a b c K; first [apply in_box3 in K|apply in_cut3 in K]; lra.
Qed.
(** ** Solvers *)
Lemma lp_dichotomy np tol f A b Co d_o s : linear_program np tol f A b Co d_o = Ok s -> s = sol_none \/ exists x, s_argmin s = Some x.
Proof.
  unfold linear_program. intros E. assert (K : forall C d, lp_core np tol f A b C d = sol_none \/ exists x, s_argmin (lp_core np tol f A b C d) = Some x).
  { intros C d. unfold lp_core. repeat (match goal with |- context [let (_, _) := ?e in _] => destruct e end). destruct (Rltb _ _); [right; eexists; reflexivity|left; reflexivity]. }
  destruct Co, d_o; try discriminate E; injection E as <-; apply K.
Qed.
Lemma lp_2d np f A b Co d_o C d m me x0 x1 : exact_np np -> shape A m 2 -> length b = m -> shape C me 2 -> length d = me -> length f = 2%nat -> eq_args 2 Co d_o C d -> in_set A b C d [x0; x1] ->
  (forall u v, in_set A b C d [u; v] -> dot f [x0; x1] <= dot f [u; v] /\ (dot f [u; v] <= dot f [x0; x1] -> u = x0 /\ v = x1)) ->
  exists s, linear_program np tol7 f A b Co d_o = Ok s /\ s_argmin s = Some [x0; x1] /\ s_min s = Some (dot f [x0; x1]).
Proof.
  intros Hnp HA Hb HC Hd Hf EA F O. assert (S2 : forall x, in_set A b C d x -> exists u v, x = [u; v]).
  { intros x Hx. pose proof (proj1 Hx) as L. rewrite (shape_cols _ _ _ HA) in L. destruct x as [|u [|v [|]]]; try discriminate L. eauto. }
  destruct (lp_optimality np tol7 f A b Co d_o C d m me 2) as (s & x & E & Ex & Em & F' & O'); try assumption; try apply Hnp; try (unfold tol7; lra).
  { split; [eauto|]. exists (dot f [x0; x1]). intros x Hx. destruct (S2 x Hx) as (u & v & ->). apply O, Hx. }
  destruct (S2 x F') as (u & v & ->). destruct (O u v F') as (_ & Q). destruct (Q (O' _ F)) as (-> & ->). eauto.
Qed.
(** test_solvers.py:13-92: minimum and minimizer of the first LPs *)
Lemma test_linear_program np : exact_np np -> let lp f A b C d := linear_program np tol7 f (Mat 2 A) b C d in
  (exists s, lp [1; 1] [[1; 0]; [-1; 0]; [0; 1]; [0; -1]] [5; 5; 1; 1] None None = Ok s /\ s_argmin s = Some [-5; -1] /\ s_min s = Some (-6)) /\
  (exists s, lp [1; 1] [[-1; 0]; [0; -1]] [0; 0] None None = Ok s /\ s_argmin s = Some [0; 0] /\ s_min s = Some 0) /\
  (exists s, lp [1; 1] [[-1; 0]; [0; -1]] [0; 0] (Some (Mat 2 [[2; 1]])) (Some [2]) = Ok s /\ s_argmin s = Some [1; 0] /\ s_min s = Some 1) /\
  lp [1; 1] [[0; 1]; [0; -1]] [0; -1] None None = Ok sol_none /\
  lp [1; 1] [[1; 0]; [0; 1]; [0; -1]] [0; 0; 1] None None = Ok sol_none /\
  lp [1; 1] [[1; 0]; [0; 1]; [0; -1]] [0; 0; 1] (Some (Mat 2 [[0; 1]])) (Some [- (1 / 10)]) = Ok sol_none /\
  (exists s, lp [1; 1] [[1; 0]; [0; 1]; [0; -1]] [0; 0; 1] (Some (Mat 2 [[1; -1]])) (Some [0]) = Ok s /\ s_argmin s = Some [-1; -1] /\ s_min s = Some (-2)).
Proof.
  intros Hnp lp. unfold lp.
  assert (S : forall f A b Co d_o C d m me x0 x1 v, shape A m 2 -> length b = m -> shape C me 2 -> length d = me -> length f = 2%nat -> eq_args 2 Co d_o C d -> in_set A b C d [x0; x1] ->
    (forall u v, in_set A b C d [u; v] -> dot f [x0; x1] <= dot f [u; v] /\ (dot f [u; v] <= dot f [x0; x1] -> u = x0 /\ v = x1)) -> v = dot f [x0; x1] ->
    exists s, linear_program np tol7 f A b Co d_o = Ok s /\ s_argmin s = Some [x0; x1] /\ s_min s = Some v) by (intros; subst v; eapply lp_2d; eassumption).
  assert (N : forall f A b Co d_o C d m me, shape A m 2 -> length b = m -> shape C me 2 -> length d = me -> length f = 2%nat -> eq_args 2 Co d_o C d ->
    ((forall x0 x1, (forall i, (i < m)%nat -> dot (row A i) [x0; x1] < nth i b 0 + tol7) -> False) \/
     (exists z0 z1, -1 <= z0 <= 1 /\ -1 <= z1 <= 1 /\ mv C [z0; z1] = zeros me /\ vle (mv A [z0; z1]) (zeros m) /\ dot f [z0; z1] <= -1)) ->
    linear_program np tol7 f A b Co d_o = Ok sol_none).
  { intros f A b Co d_o C d m me HA Hb HC Hd Hf EA H. pose proof (linear_program_core np tol7 f A b Co d_o C d m 2 HA EA) as E.
    destruct (lp_none np tol7 f A b Co d_o C d m me 2 _ ltac:(apply Hnp) ltac:(apply Hnp) ltac:(unfold tol7; lra) HA Hb HC Hd Hf EA E) as (_ & _ & G).
    rewrite E. destruct (lp_dichotomy _ _ _ _ _ _ _ _ E) as [Q|(x & Q)]; [f_equal; exact Q|]. exfalso. destruct (G x Q) as (_ & Lx & G1 & G2 & l & nu & Ll & Nl & Ln & _ & G3).
    destruct x as [|x0 [|x1 [|]]]; try discriminate Lx. destruct H as [H|(z0 & z1 & Z0 & Z1 & HC0 & HA0 & Hf0)]; [exact (H x0 x1 G1)|].
    specialize (G3 [z0; z1] eq_refl). rewrite HC0, dot_zeros_r in G3. assert (K : dot l (mv A [z0; z1]) <= dot l (zeros m)) by (apply dot_vle'; assumption). rewrite dot_zeros_r in K.
    assert (norm [z0; z1] <= 2) by (unfold norm; rewrite <- (sqrt_square 2) by lra; apply sqrt_le_1_alt; cbn; nra). unfold Rabs in G3. unfold tol7 in G3. destruct (Rcase_abs _); lra. }
  repeat match goal with |- _ /\ _ => split end.
  - apply (S _ _ _ _ _ (Mat 2 []) [] 4%nat 0%nat); [wfs|reflexivity|wfs|reflexivity|reflexivity|right; auto|members; repeat split; lra|intros u v; members; intros; lra|cbn; lra].
  - apply (S _ _ _ _ _ (Mat 2 []) [] 2%nat 0%nat); [wfs|reflexivity|wfs|reflexivity|reflexivity|right; auto|members; repeat split; lra|intros u v; members; intros; lra|cbn; lra].
  - apply (S _ _ _ _ _ (Mat 2 [[2; 1]]) [2] 2%nat 1%nat); [wfs|reflexivity|wfs|reflexivity|reflexivity|left; auto|members; repeat split; lra|intros u v; members; intros; lra|cbn; lra].
  - apply (N _ _ _ _ _ (Mat 2 []) [] 2%nat 0%nat); [wfs|reflexivity|wfs|reflexivity|reflexivity|right; auto|left]. intros x0 x1 H. pose proof (H 0%nat ltac:(lia)) as H0. pose proof (H 1%nat ltac:(lia)) as H1. cbn in H0, H1. unfold tol7 in *. lra.
  - apply (N _ _ _ _ _ (Mat 2 []) [] 3%nat 0%nat); [wfs|reflexivity|wfs|reflexivity|reflexivity|right; auto|right]. exists (-1), 0. cbn. repeat split; try lra. unfold vle. repeat (apply Forall2_cons; [cbn; lra|]). constructor.
  - apply (N _ _ _ _ _ (Mat 2 [[0; 1]]) [- (1 / 10)] 3%nat 1%nat); [wfs|reflexivity|wfs|reflexivity|reflexivity|left; auto|right]. exists (-1), 0. cbn. repeat split; try lra; [f_equal; lra|]. unfold vle. repeat (apply Forall2_cons; [cbn; lra|]). constructor.
  - apply (S _ _ _ _ _ (Mat 2 [[1; -1]]) [0] 3%nat 1%nat); [wfs|reflexivity|wfs|reflexivity|reflexivity|left; auto|members; repeat split; lra|intros u v; members; intros; lra|cbn; lra].
Qed.
(** ** Parametric programs: test_parametric_programs.py:16-64 *)
Definition t_q := MPQP (Mat 1 [[1]]) (Mat 1 [[0]]) (Mat 1 [[0]]) [0] [0] 0 (Mat 1 [[1]; [-1]; [0]; [0]]) (Mat 1 [[-1]; [1]; [1]; [-1]]) [1; 1; 2; 2] (Mat 1 [[1]]).
Lemma test_mpqp np : exact_np np ->
  MultiParametricQuadraticProgram np (Mat 1 [[1]]) (Mat 1 [[0]]) (Mat 1 [[0]]) [0] [0] 0 (Mat 1 [[1]; [-1]; [0]; [0]]) (Mat 1 [[-1]; [1]; [1]; [-1]]) [1; 1; 2; 2] = Ok t_q /\
  (exists cr, explicit_solve_given_active_set np t_q [] = Ok (Some cr) /\ cr_Vxx cr = Mat 1 [[0]] /\ cr_Vx cr = [0] /\ cr_V0 cr = 0 /\ cr_ux cr = Mat 1 [[0]] /\ cr_u0 cr = [0]) /\
  (exists cr, explicit_solve_given_active_set np t_q [0%nat] = Ok (Some cr) /\ cr_Vxx cr = Mat 1 [[1]] /\ cr_Vx cr = [1] /\ cr_V0 cr = / 2 /\ cr_ux cr = Mat 1 [[1]] /\ cr_u0 cr = [1]) /\
  (exists cr, explicit_solve_given_active_set np t_q [1%nat] = Ok (Some cr) /\ cr_Vxx cr = Mat 1 [[1]] /\ cr_Vx cr = [-1] /\ cr_V0 cr = / 2 /\ cr_ux cr = Mat 1 [[1]] /\ cr_u0 cr = [-1]) /\
  (exists s, mpqp_solve np t_q [3 / 2] = Ok s /\ s_min s = Some (125 / 1000) /\ s_argmin s = Some [/ 2]).
Proof.
  intros Hnp. pose proof Hnp as (_ & _ & _ & Hi & _ & Hs).
  assert (CT : MultiParametricQuadraticProgram np (Mat 1 [[1]]) (Mat 1 [[0]]) (Mat 1 [[0]]) [0] [0] 0 (Mat 1 [[1]; [-1]; [0]; [0]]) (Mat 1 [[-1]; [1]; [1]; [-1]]) [1; 1; 2; 2] = Ok t_q).
  { unfold MultiParametricQuadraticProgram. rewrite (inv_scalar_ok np 1 Hi) by lra. cbn [bind]. rewrite Rinv_1. reflexivity. }
  split; [exact CT|].
  assert (A1 : forall i e, (i = 0%nat /\ e = 1) \/ (i = 1%nat /\ e = -1) -> exists cr, explicit_solve_given_active_set np t_q [i] = Ok (Some cr) /\ cr_Vxx cr = Mat 1 [[1]] /\ cr_Vx cr = [e] /\ cr_V0 cr = / 2 /\ cr_ux cr = Mat 1 [[1]] /\ cr_u0 cr = [e]).
  { intros i e H. unfold explicit_solve_given_active_set. cbn [t_q q_Au q_Ax q_b q_Huu_inv q_Hux q_fu q_Huu q_Hxx q_fx q_g].
    assert (E1 : mtake (Mat 1 [[1]; [-1]; [0]; [0]]) [i] = Mat 1 [[e]]) by (destruct H as [(-> & ->)|(-> & ->)]; reflexivity).
    assert (E2 : forallb (fun i => Nat.ltb i (nrows (Mat 1 [[1]; [-1]; [0]; [0]]))) [i] = true) by (destruct H as [(-> & ->)|(-> & ->)]; reflexivity). rewrite E2, E1. cbn [negb]. cbv zeta.
    assert (E0 : e * e = 1) by (destruct H as [(_ & ->)|(_ & ->)]; lra).
    rewrite (rank_indep np (Mat 1 [[e]]) 1 1 Hs (scalar_shape _)).
    2:{ intros y Ly E. destruct y as [|c [|]]; try discriminate Ly. cbn in E. injection E as E. change (zeros 1) with [0]. f_equal. assert (e * (e * c) = 0) by (replace (e * c) with (e * c + 0) by lra; nra). nra. }
    cbn [nrows rows length Nat.ltb Nat.leb andb].
    match goal with |- context [np_inv np ?G] => replace G with (Mat 1 [[1]]) by (cbv -[Rplus Rmult Ropp IZR]; repeat f_equal; lra) end.
    rewrite (inv_scalar_ok np 1 Hi) by lra. rewrite Rinv_1. cbn [bind].
    match goal with |- context [Polyhedron ?G ?h None None] => assert (exists p, Polyhedron G h None None = Ok p) as (p & ->) by (destruct H as [(-> & ->)|(-> & ->)]; eexists; cbn; reflexivity) end. cbn [bind].
    eexists. split; [reflexivity|]. cbn [cr_Vxx cr_Vx cr_V0 cr_ux cr_u0]. destruct H as [(-> & ->)|(-> & ->)]; repeat split; run. }
  split; [|split; [apply A1; auto|split; [apply A1; auto|]]].
  - unfold explicit_solve_given_active_set. cbn [t_q q_Au q_Ax q_b q_Huu_inv q_Hux q_fu q_Huu q_Hxx q_fx q_g forallb negb].
    match goal with |- context [np_inv np ?G] => set (GG := G) end. assert (EG : GG = Mat 0 []) by (unfold GG; cbn; reflexivity).
    destruct (Hi GG 0%nat ltac:(rewrite EG; repeat constructor)) as [(_ & X & EX & SX & _)|((x & Lx & Nx & _) & _)]; [|exfalso; apply Nx; destruct x; [reflexivity|discriminate]].
    rewrite EX. cbn [bind]. assert (X = Mat 0 []). { destruct X as [nc rs]. destruct SX as (S1 & S2 & _). cbn in S1, S2. subst nc. destruct rs; [reflexivity|discriminate]. } subst X.
    eexists. split; [reflexivity|]. cbn [cr_Vxx cr_Vx cr_V0 cr_ux cr_u0]. repeat split; run.
  - assert (HD : mp_data (Mat 1 [[1]]) (Mat 1 [[0]]) (Mat 1 [[0]]) [0] [0] (Mat 1 [[1]; [-1]; [0]; [0]]) (Mat 1 [[-1]; [1]; [1]; [-1]]) [1; 1; 2; 2] 1 1 4).
    { pose proof ex_data as (D1 & D2 & D3 & D4 & D5 & D6 & _). unfold mp_data in *. repeat match goal with |- _ /\ _ => split end; try assumption; wfs. }
    pose proof (constructed _ _ _ _ _ _ _ _ _ _ _ _ _ _ Hnp HD CT) as (Hq & _).
    assert (FF : forall v, q_feasible t_q [3 / 2] [v] <-> / 2 <= v <= 5 / 2).
    { intros v. unfold q_feasible, mp_feasible. cbn. split.
      - intros (_ & H). pose proof (H 0%nat ltac:(lia)) as H0. pose proof (H 1%nat ltac:(lia)) as H1. cbn in H0, H1. lra.
      - intros H. split; [reflexivity|]. intros i Hi'. destruct i as [|[|[|[|]]]]; try lia; cbn; lra. }
    destruct (mpqp_solve_ok np t_q 1 1 4 [3 / 2] [0] Hnp Hq eq_refl eq_refl) as (s & Es & [(-> & G)|(_ & u & l & Ea & Em & (Fu & Mu) & _)]).
    + cbn. f_equal. ring.
    + exfalso. specialize (G [/ 2] (proj2 (FF (/ 2)) ltac:(lra))). cbn in G. unfold tol7 in G. lra.
    + exists s. split; [exact Es|]. rewrite Ea, Em. pose proof (proj1 Fu) as Lu. destruct u as [|u [|]]; try discriminate Lu. pose proof (proj1 (FF u) Fu) as Bu.
      destruct (Mu [/ 2] (proj2 (FF (/ 2)) ltac:(lra))) as (Mc & _). unfold q_cost, mp_cost in Mc |- *. cbn in Mc |- *. assert (u = / 2) by nra. subst u. split; f_equal; lra.
Qed.
