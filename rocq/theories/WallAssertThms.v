(** * WallAssertThms: the assertions on boundedness in the notebooks (C91) *)
From Coq Require Import ZArith Classical.
From Verif Require Import Arr ArrFacts Spec SpecDyn Numpy Pnnls PnnlsFacts QpFacts GeomUtils Polyhedron PolyThms Oracle SolverThms NullFacts PolySolveThms PolySetThms PolyBoundThms PolyMore Dynamics Walls.

(*@ Theorem C91_assert : "assert X.bounded" on a new polyhedron: it passes, leaving the constraints as they are, for every bounded set, and raises AssertionError, and no other exception, only for nonempty unbounded ones; it does raise if the set has a point of norm below 10^7 and a direction of recession d along which all constraints are constant (d not zero), or one of them changes by more than 2 tol |d|_1 *)
Lemma assert_spec np p m me n : exact_np np -> wf p m me n -> p_empty p = None -> p_bounded p = None ->
  (bounded_set (in_poly p) -> exists p', assert_bounded np p = Ok p' /\ pA p' = pA p /\ pb p' = pb p /\ pC p' = pC p /\ pd p' = pd p) /\
  (forall e, assert_bounded np p = Err e -> e = AssertionError /\ (exists x, in_poly p x) /\ ~ bounded_set (in_poly p)) /\
  (forall x d, in_poly p x -> near x -> (length d = n /\ d <> zeros n /\ mv (pA p) d = zeros m /\ mv (pC p) d = zeros me) \/ (recession p d /\ exists i, (i < m)%nat /\ 2 * tol7 * norm1 d < Rabs (dot (row (pA p) i) d)) -> assert_bounded np p = Err AssertionError).
Proof.
  intros Hnp W FE FB. destruct (get_bounded_ok np p m me n Hnp W FE FB) as (r & p' & E & HF & HT). unfold assert_bounded. rewrite E. split; [|split].
  - intros B. destruct (polytope_is_bounded np p m me n Hnp W FE FB B) as (p1 & E1). rewrite E in E1. injection E1 as -> <-. exists p'. split; [reflexivity|]. destruct (get_bounded_state _ _ _ _ E) as (E1 & E2 & E3 & E4 & _). auto.
  - intros e. destruct r; [discriminate|]. intros Q. injection Q as <-. split; [reflexivity|]. apply HF. reflexivity.
  - intros x d Hx Nx H. destruct r; [|reflexivity]. exfalso. destruct (HT eq_refl) as [Q|(_ & K & Rc)]; [apply (Q x Hx Nx)|]. destruct H as [(L & Nz & M1 & M2)|(Rd & i & Hi & Q)]; [apply Nz, K; assumption|]. specialize (Rc d Rd i Hi). lra.
Qed.
Definition p_half : poly := Poly (Mat 1 [[-1]]) [0] (Mat 1 []) [] None None None None None.
(*@ Example C91_assert_example : The half line x >= 0 has no bound and the assertion fails, with whatever exact library. *)
Lemma assert_example np : exact_np np -> wf p_half 1 0 1 /\ ~ bounded_set (in_poly p_half) /\ assert_bounded np p_half = Err AssertionError.
Proof.
  intros Hnp. assert (W : wf p_half 1 0 1) by (unfold wf; simpl; repeat split; repeat constructor). split; [exact W|].
  assert (IN : forall a, 0 <= a -> in_poly p_half [a]) by (intros a Ha; split; [reflexivity|]; split; [|constructor]; cbn; constructor; [cbn; lra|constructor]).
  destruct (assert_spec np p_half 1 0 1 Hnp W eq_refl eq_refl) as (_ & B & C).
  assert (E : assert_bounded np p_half = Err AssertionError).
  { apply (C [0] [1]); [apply IN; lra|unfold near, tol7; cbn; lra|]. right. split.
    - split; [reflexivity|]. split; [constructor; [cbn; lra|constructor]|constructor].
    - exists 0%nat. split; [lia|]. unfold norm1. cbn. rewrite (Rabs_right 1) by lra. rewrite Rabs_left by lra. unfold tol7. lra. }
  split; [exact (proj2 (proj2 (B _ E)))|exact E].
Qed.
