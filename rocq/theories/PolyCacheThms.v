(** * PolyCacheThms: cached attributes of Polyhedron (C03), proofs *)
From Coq Require Import ZArith.
From Verif Require Import Arr ArrFacts Spec Numpy Pnnls PnnlsFacts QpFacts GeomUtils Polyhedron PolyThms Oracle SolverThms NullFacts PolySolveThms PolySetThms PolyBoundThms PolyChebThms.

(** a polyhedron just built from the current constraints of p *)
Definition fresh (p : poly) : poly := Poly (pA p) (pb p) (pC p) (pd p) None None None None None.

Section Cache.
Variable np : numpy.   (* any library at all *)

(** every cached value is the one that a fresh polyhedron would compute *)
Definition cache_ok (p : poly) : Prop :=
  (forall e, p_empty p = Some e -> fst (get_empty np (fresh p)) = Ok e) /\
  (forall e, p_bounded p = Some e -> fst (get_bounded np (fresh p)) = Ok e) /\
  (forall r, p_radius p = Some r -> fst (get_radius np (fresh p)) = Ok (Some r)) /\
  (forall c, p_center p = Some c -> fst (get_center np (fresh p)) = Ok (Some c)) /\
  (forall v, p_vertices p = Some v -> fst (get_vertices np (fresh p)) = Ok (Some v)).

Definition coh {A} (c : pm A) : Prop := forall p, cache_ok p ->
  fst (c p) = fst (c (fresh p)) /\ fresh (snd (c p)) = fresh p /\ cache_ok (snd (c p)).

Lemma cache_fresh p : cache_ok (fresh p).
Proof. repeat split; intros ? H; discriminate H. Qed.
Lemma fresh_fresh p : fresh (fresh p) = fresh p. Proof. reflexivity. Qed.

(** changing one cached value *)
Lemma cache_empty p e : cache_ok p -> fst (get_empty np (fresh p)) = Ok e -> cache_ok (set_empty p e).
Proof. intros (H1 & H2 & H3 & H4 & H5) H. split; [intros e' E; injection E as <-; exact H|]. auto. Qed.
Lemma cache_bounded p e : cache_ok p -> fst (get_bounded np (fresh p)) = Ok e -> cache_ok (set_bounded p e).
Proof. intros (H1 & H2 & H3 & H4 & H5) H. split; [auto|]. split; [intros e' E; injection E as <-; exact H|]. auto. Qed.
Lemma cache_chebyshev p r c : cache_ok p -> fst (get_radius np (fresh p)) = Ok r -> fst (get_center np (fresh p)) = Ok c -> cache_ok (set_chebyshev p r c).
Proof.
  intros (H1 & H2 & H3 & H4 & H5) Hr Hc. split; [auto|]. split; [auto|].
  split; [intros r' E; cbn in E; subst r; exact Hr|]. split; [intros c' E; cbn in E; subst c; exact Hc|]. auto.
Qed.
Lemma cache_vertices p v : cache_ok p -> fst (get_vertices np (fresh p)) = Ok (Some v) -> cache_ok (set_vertices p (Some v)).
Proof. intros (H1 & H2 & H3 & H4 & H5) H. do 4 (split; [auto|]). intros v' E; injection E as <-; exact H. Qed.

Lemma empty_coh : coh (get_empty np).
Proof.
  intros p H. unfold get_empty at 1 3 4, pbind, pget. destruct (p_empty p) as [e|] eqn:E.
  - cbn [pret fst snd]. split; [|auto]. symmetry. now apply H.
  - assert (X : fst (get_empty np (fresh p)) =
      (s <- qp np (eye (ncols (pA p))) (zeros (ncols (pA p))) (pA p) (pb p) (Some (pC p)) (Some (pd p)) ;; Ok (match s_min s with None => true | Some _ => false end))).
    { unfold get_empty, pbind, pget, plift, pput, pret. cbn [fresh p_empty pA pb pC pd]. destruct (qp _ _ _ _ _ _ _); reflexivity. }
    unfold plift, pput, pret. destruct (qp np (eye (ncols (pA p))) (zeros (ncols (pA p))) (pA p) (pb p) (Some (pC p)) (Some (pd p))) as [s|e]; cbn [bind fst snd] in X |- *.
    + split; [now rewrite X|]. split; [reflexivity|]. now apply cache_empty.
    + split; [now rewrite X|]. auto.
Qed.

Lemma bounded_coh : coh (get_bounded np).
Proof.
  intros p H. destruct (p_bounded p) as [b|] eqn:E.
  - unfold get_bounded at 1 3 4, pbind, pget. rewrite E. cbn [pret fst snd]. split; [|auto]. symmetry. now apply H.
  - destruct (empty_coh p H) as (E1 & F1 & H1). destruct (empty_coh (fresh p) (cache_fresh p)) as (E2 & F2 & H2). rewrite fresh_fresh in F2, E2.
    destruct (get_empty np p) as [re p1] eqn:Ep. destruct (get_empty np (fresh p)) as [rf p2] eqn:Ef. cbn [fst snd] in *. subst rf.
    assert (G : forall q, fresh q = fresh p ->
       let A := allA q in let n := nrows A in
       (if (0 <? ncols (nullspace_basis np A))%nat then Ok false else
        s <- lp np (ones n) (mneg (eye n)) (vneg (ones n)) (Some (tr A)) (Some (zeros (ncols A))) ;; Ok (match s_min s with None => false | Some _ => true end)) =
       (let A := allA p in let n := nrows A in
       (if (0 <? ncols (nullspace_basis np A))%nat then Ok false else
        s <- lp np (ones n) (mneg (eye n)) (vneg (ones n)) (Some (tr A)) (Some (zeros (ncols A))) ;; Ok (match s_min s with None => false | Some _ => true end)))).
    { intros q Fq. unfold allA. injection Fq as -> _ -> _. reflexivity. }
    assert (Y : forall q q1, p_bounded q = None -> get_empty np q = (re, q1) -> fresh q1 = fresh p ->
      (fst (get_bounded np q) = match re with Ok true => Ok true | Ok false => 
        (let A := allA p in let n := nrows A in
       (if (0 <? ncols (nullspace_basis np A))%nat then Ok false else
        s <- lp np (ones n) (mneg (eye n)) (vneg (ones n)) (Some (tr A)) (Some (zeros (ncols A))) ;; Ok (match s_min s with None => false | Some _ => true end)))
         | Err e => Err e end) /\
      (snd (get_bounded np q) = q1 \/ exists e, fst (get_bounded np q) = Ok e /\ snd (get_bounded np q) = set_bounded q1 e)).
    { intros q q1 Hq Eq Fq. unfold get_bounded, pbind, pget. rewrite Hq, Eq. specialize (G q1 Fq). cbn zeta in G |- *. rewrite <- G. clear G.
      destruct re as [[|]|e]; cbn [pret fst snd]; auto. fold (allA q1).
      destruct (0 <? ncols (nullspace_basis np (allA q1)))%nat; cbn [pret fst snd]; auto. unfold plift, pput, pret.
      destruct (lp _ _ _ _ _ _) as [s|e]; cbn [bind fst snd]; [split; [reflexivity|]|split; auto]. right. eexists. split; reflexivity. }
    destruct (Y p p1 E Ep F1) as (Y1 & Y2). destruct (Y (fresh p) p2 eq_refl Ef F2) as (Y3 & _).
    split; [now rewrite Y1, Y3|]. destruct Y2 as [->|(e & Ye & ->)]; [auto|]. split; [exact F1|]. apply cache_bounded; [auto|]. rewrite F1. congruence.
Qed.

Lemma radius_fresh p : fst (get_radius np (fresh p)) = (rc <- chebyshev np (pA p) (pb p) (pC p) (pd p) ;; Ok (fst rc)) /\
  fst (get_center np (fresh p)) = (rc <- chebyshev np (pA p) (pb p) (pC p) (pd p) ;; Ok (snd rc)).
Proof.
  unfold get_radius, get_center, pbind, pget, plift, pput, pret. cbn [fresh p_radius p_center pA pb pC pd].
  destruct (chebyshev _ _ _ _ _) as [[r c]|e]; split; reflexivity.
Qed.
Lemma radius_coh : coh (get_radius np).
Proof.
  intros p H. destruct (radius_fresh p) as (X1 & X2). unfold get_radius at 1 3 4, pbind, pget, plift, pput, pret. destruct (p_radius p) as [r|] eqn:E.
  - cbn [fst snd]. split; [|auto]. symmetry. now apply H.
  - destruct (chebyshev _ _ _ _ _) as [[r c]|e]; cbn [bind fst snd] in *; (split; [congruence|]).
    + split; [reflexivity|]. now apply cache_chebyshev.
    + auto.
Qed.
Lemma center_coh : coh (get_center np).
Proof.
  intros p H. destruct (radius_fresh p) as (X1 & X2). unfold get_center at 1 3 4, pbind, pget, plift, pput, pret. destruct (p_center p) as [r|] eqn:E.
  - cbn [fst snd]. split; [|auto]. symmetry. now apply H.
  - destruct (chebyshev _ _ _ _ _) as [[r c]|e]; cbn [bind fst snd] in *; (split; [congruence|]).
    + split; [reflexivity|]. now apply cache_chebyshev.
    + auto.
Qed.

(** the part of [get_vertices] that follows the tests *)
Definition vertices_body : pm (option (list vec)) :=
              let! p := pget in
              if (0 <? nrows (pC p))%nat then
                let! q := plift (remove_equalities np (pA p) (pb p) (pC p) (pd p)) in
                let '(A, b, N, R) := q in
                let T := hstack N R in
                let! T1 := plift (np_inv np T) in
                let! c := get_center np in
                let center := firstn (ncols N) (mv T1 (match c with Some c => c | None => [] end)) in
                let! vs := plift (if Nat.eqb (ncols A) 1 then vertices_1d np A b else np_halfspaces np A b center) in
                let! CR1 := plift (np_inv np (mm (pC p) R)) in
                let vs' := map (fun v => mv T (v ++ mv CR1 (pd p))) vs in
                let! p := pget in
                pput (set_vertices p (Some vs')) ;! pret (Some vs')
              else
                let! c := get_center np in
                let center := match c with Some c => c | None => [] end in
                let! vs := plift (if Nat.eqb (ncols (pA p)) 1 then vertices_1d np (pA p) (pb p)
                                  else np_halfspaces np (pA p) (pb p) center) in
                let! p := pget in
                pput (set_vertices p (Some vs)) ;! pret (Some vs).
Lemma vertices_eq : get_vertices np = (let! p := pget in
  match p_vertices p with
  | Some v => pret (Some v)
  | None =>
      let! bnd := get_bounded np in
      if negb bnd then pret None
      else
        let! r := get_radius np in
        match r with
        | None => praise TypeError
        | Some r => if Rltb r tol7 then pret None else vertices_body
        end
  end).
Proof. reflexivity. Qed.

(** reading does not depend on the cached values; the cached vertices may change *)
Definition coh' (c : pm (option (list vec))) : Prop := forall p, cache_ok p ->
  fst (c p) = fst (c (fresh p)) /\
  ((fresh (snd (c p)) = fresh p /\ cache_ok (snd (c p))) \/
   exists p1 v, fresh p1 = fresh p /\ cache_ok p1 /\ snd (c p) = set_vertices p1 (Some v) /\ fst (c p) = Ok (Some v)).

Lemma body_coh : coh' vertices_body.
Proof.
  intros p H. destruct (center_coh p H) as (E1 & F1 & H1). destruct (center_coh (fresh p) (cache_fresh p)) as (E2 & F2 & H2). rewrite fresh_fresh in F2, E2.
  unfold vertices_body, pbind, pget, plift. cbn [fresh pA pb pC pd]. fold (fresh p).
  destruct (get_center np p) as [rc p1] eqn:Ep. destruct (get_center np (fresh p)) as [rf p2] eqn:Ef. cbn [fst snd] in *. subst rf.
  destruct (0 <? nrows (pC p))%nat.
  - destruct (remove_equalities np (pA p) (pb p) (pC p) (pd p)) as [[[[A b] N] R]|e]; [|cbn [fst snd]; auto].
    destruct (np_inv np (hstack N R)) as [T1|e]; [|cbn [fst snd]; auto].
    rewrite Ep, Ef. destruct rc as [c|e]; [|cbn [fst snd]; auto].
    set (vs := if Nat.eqb (ncols A) 1 then _ else _). destruct vs as [vs|e]; [|cbn [fst snd]; auto].
    destruct (np_inv np (mm (pC p) R)) as [CR1|e]; [|cbn [fst snd]; auto].
    unfold pput, pret. cbn [fst snd]. split; [auto|]. right. eexists p1, _. repeat match goal with |- _ /\ _ => split end; eauto.
  - rewrite Ep, Ef. destruct rc as [c|e]; [|cbn [fst snd]; auto].
    set (vs := if Nat.eqb (ncols (pA p)) 1 then _ else _). destruct vs as [vs|e]; [|cbn [fst snd]; auto].
    unfold pput, pret. cbn [fst snd]. split; [auto|]. right. eexists p1, _. repeat match goal with |- _ /\ _ => split end; eauto.
Qed.

Lemma vertices_coh : coh (get_vertices np).
Proof.
  intros p H. destruct (p_vertices p) as [v|] eqn:Ev.
  { assert (X : get_vertices np p = (Ok (Some v), p)) by (rewrite vertices_eq; unfold pbind, pget; now rewrite Ev). rewrite X. cbn [fst snd]. split; [|auto]. symmetry. now apply H. }
  assert (X : fst (get_vertices np p) = fst (get_vertices np (fresh p)) /\
    ((fresh (snd (get_vertices np p)) = fresh p /\ cache_ok (snd (get_vertices np p))) \/
     exists p1 v, fresh p1 = fresh p /\ cache_ok p1 /\ snd (get_vertices np p) = set_vertices p1 (Some v) /\ fst (get_vertices np p) = Ok (Some v))).
  { destruct (bounded_coh p H) as (E1 & F1 & H1). destruct (bounded_coh (fresh p) (cache_fresh p)) as (_ & F2 & H2). rewrite fresh_fresh in F2.
    assert (U : forall q, p_vertices q = None -> get_vertices np q = (let! bnd := get_bounded np in
      if negb bnd then pret None else let! r := get_radius np in
        match r with None => praise TypeError | Some r => if Rltb r tol7 then pret None else vertices_body end) q).
    { intros q Hq. rewrite vertices_eq. unfold pbind at 1, pget. now rewrite Hq. }
    rewrite (U p Ev), (U (fresh p) eq_refl). unfold pbind.
    destruct (get_bounded np p) as [rb p1]. destruct (get_bounded np (fresh p)) as [rb' p2]. cbn [fst snd] in E1, F1, H1, F2, H2. subst rb'.
    destruct rb as [b|e]; [|cbn [fst snd]; auto]. destruct b; cbn [negb]; [|cbn [pret fst snd]; auto].
    destruct (radius_coh p1 H1) as (E3 & F3 & H3). destruct (radius_coh p2 H2) as (E4 & F4 & H4). rewrite F1 in E3, F3. rewrite F2 in E4, F4.
    destruct (get_radius np p1) as [rr p3]. destruct (get_radius np p2) as [rr' p4]. cbn [fst snd] in E3, E4, F3, F4, H3, H4.
    assert (EQ : rr' = rr) by congruence. clear E3 E4. rewrite EQ. clear EQ rr'.
    destruct rr as [[r|]|e]; [|cbn [praise fst snd]; auto|cbn [fst snd]; auto].
    destruct (Rltb r tol7); [cbn [pret fst snd]; auto|].
    destruct (body_coh p3 H3) as (E5 & C5). destruct (body_coh p4 H4) as (E6 & _). rewrite F3 in E5. rewrite F4 in E6.
    split; [congruence|]. rewrite <- F3. exact C5. }
  destruct X as (X1 & [X2|(p1 & v & F & Hp1 & X2 & X3)]); [auto|]. split; [auto|]. rewrite X2. split; [exact F|].
  apply cache_vertices; [auto|]. rewrite F. congruence.
Qed.

(** ** Histories *)
(** reading an attribute, or adding a constraint (the call may raise) *)
Inductive access : Type :=
| ReadEmpty | ReadBounded | ReadRadius | ReadCenter | ReadVertices
| Contains (tol : R) (x : vec) | Facets (tol : R)
| Add (o : pop).
Definition after (a : access) (p : poly) : poly :=
  match a with
  | ReadEmpty => snd (get_empty np p) | ReadBounded => snd (get_bounded np p)
  | ReadRadius => snd (get_radius np p) | ReadCenter => snd (get_center np p) | ReadVertices => snd (get_vertices np p)
  | Contains _ _ => p
  | Facets tol => snd (minimal_facets np tol p)
  | Add o => snd (call o p)
  end.

Lemma call_caches o p : snd (call o p) = p \/ fresh (snd (call o p)) = snd (call o p).
Proof.
  assert (I : forall A b idx q, snd (add_inequality A b idx q) = q \/ fresh (snd (add_inequality A b idx q)) = snd (add_inequality A b idx q)).
  { intros A b idx q. rewrite add_inequality_eq. destruct (Nat.eqb _ _); [|now left]. destruct (Nat.eqb _ _); [|right; reflexivity]. destruct b; right; reflexivity. }
  assert (I2 : forall A b idx q, fresh q = q -> fresh (snd (add_inequality A b idx q)) = snd (add_inequality A b idx q)).
  { intros A b idx q Hq. destruct (I A b idx q) as [->|]; auto. }
  destruct o as [A b idx|C d idx|lo idx|hi idx|lo hi idx]; cbn [call]; try apply I.
  - unfold add_equality, pbind, plift, pget, pput. destruct (same_number_rows C d); [|now left]. right.
    destruct (np_dot _ _); [|reflexivity]. destruct (np_vstack _ _); [|reflexivity]. destruct (np_concat _ _); reflexivity.
  - unfold add_bounds, pbind. unfold add_lower_bound, add_upper_bound, pbind, pget.
    destruct (I (mneg (selection_matrix p idx)) (nd_neg (bound_array lo)) None p) as [Q|Q];
      destruct (add_inequality (mneg (selection_matrix p idx)) (nd_neg (bound_array lo)) None p) as [r q]; cbn [snd] in Q; destruct r as [[]|e]; cbn [snd].
    + rewrite Q. apply I. + left. exact Q. + right. now apply I2. + right. exact Q.
Qed.

Lemma facets_coh tol p : cache_ok p -> cache_ok (snd (minimal_facets np tol p)).
Proof.
  intros H. destruct (empty_coh p H) as (_ & _ & H1). unfold minimal_facets, pbind. destruct (get_empty np p) as [r p1]. cbn [snd] in H1.
  destruct r as [[|]|e]; [exact H1| |exact H1]. unfold pget, plift.
  match goal with |- context [match ?x with Ok a => _ | Err e => _ end] => destruct x as [[E f]|e] end; [|exact H1].
  destruct (facets_loop _ _ _ _ _ _); exact H1.
Qed.

Lemma after_ok a p : cache_ok p -> cache_ok (after a p).
Proof.
  intros H. destruct a as [| | | | |tol x|tol|o]; cbn [after].
  - now apply empty_coh. - now apply bounded_coh. - now apply radius_coh. - now apply center_coh. - now apply vertices_coh.
  - exact H. - now apply facets_coh. - destruct (call_caches o p) as [->|E]; [auto|]. rewrite <- E. apply cache_fresh.
Qed.
End Cache.

(*@ Theorem C03_caches : After any history of attribute reads and of (accepted or rejected) add_* calls on a fresh object, every attribute read returns, or raises, exactly what it would on a polyhedron freshly built from the current constraints -- whatever the numerical library does. *)
Lemma caches np p h : let q := fold_left (fun p a => after np a p) h (fresh p) in
  fst (get_empty np q) = fst (get_empty np (fresh q)) /\
  fst (get_bounded np q) = fst (get_bounded np (fresh q)) /\
  fst (get_radius np q) = fst (get_radius np (fresh q)) /\
  fst (get_center np q) = fst (get_center np (fresh q)) /\
  fst (get_vertices np q) = fst (get_vertices np (fresh q)).
Proof.
  assert (G : forall h p, cache_ok np p -> cache_ok np (fold_left (fun p a => after np a p) h p)).
  { clear. induction h as [|a h IH]; intros p H; [exact H|]. cbn. apply IH. now apply after_ok. }
  intros q. assert (H : cache_ok np q) by (apply G, cache_fresh).
  split; [now apply empty_coh|]. split; [now apply bounded_coh|]. split; [now apply radius_coh|]. split; [now apply center_coh|]. now apply vertices_coh.
Qed.

(** ** Histories with normalizations and redundancy removals *)
(** the values are right for the set of points, although a fresh object might compute others *)
Definition entitled (p : poly) : Prop :=
  (forall e, p_empty p = Some e -> (e = true <-> ~ exists x, in_poly p x /\ near x)) /\
  (p_bounded p = Some false -> (exists x, in_poly p x) /\ ~ bounded_set (in_poly p)) /\
  (forall r, p_radius p = Some r -> (exists x, in_poly p x) -> radii_bounded p -> exists c, largest_ball p c r) /\
  (forall c, p_center p = Some c -> (exists x, in_poly p x) -> radii_bounded p -> exists r, largest_ball p c r).

(** steps of a history, starting from coherent objects *)
Inductive step (np : numpy) : poly -> poly -> Prop :=
| step_add o p p' : args_rect o -> call o p = (Ok tt, p') -> step np p p'
| step_rejected o e p p' : call o p = (Err e, p') -> same_constraints p p' -> step np p p'
| step_normalize tol p : 0 <= tol -> step np p (normalize tol p)
| step_remove p p' : redundancy_gap p (nrows (pA p)) tol7 -> remove_redundant_inequalities np p = (Ok tt, p') -> step np p p'
| step_empty p : step np p (snd (get_empty np p))
| step_bounded p : step np p (snd (get_bounded np p))
| step_radius p : step np p (snd (get_radius np p))
| step_center p : step np p (snd (get_center np p)).
Inductive steps (np : numpy) : poly -> poly -> Prop :=
| steps_nil p : steps np p p
| steps_cons p q r : step np p q -> steps np q r -> steps np p r.

(** same points, same dimension, same solutions of the equalities *)
Definition same_points (p q : poly) : Prop :=
  ncols (pA p) = ncols (pA q) /\ (forall x, in_poly p x <-> in_poly q x) /\
  (forall x, length x = ncols (pA p) -> eq_holds (pC p) (pd p) x <-> eq_holds (pC q) (pd q) x).
Lemma same_points_sym p q : same_points p q -> same_points q p.
Proof. intros (H1 & H2 & H3). split; [auto|]. split; [intros x; now rewrite H2|]. intros x Lx. rewrite H3; [tauto|congruence]. Qed.
Lemma same_points_trans p q r : same_points p q -> same_points q r -> same_points p r.
Proof. intros (H1 & H2 & H3) (G1 & G2 & G3). split; [congruence|]. split; [intros x; now rewrite H2|]. intros x Lx. rewrite H3 by auto. apply G3. congruence. Qed.
Lemma ball_in_same p q c r : same_points p q -> ball_in p c r -> ball_in q c r.
Proof.
  intros (H1 & H2 & H3) (B1 & B2 & B3). split; [congruence|]. split; [now apply H3|].
  intros y Ly Hy D. apply H2. apply B3; auto; [congruence|]. apply H3; auto. congruence.
Qed.
Lemma radii_same p q : same_points p q -> radii_bounded p -> radii_bounded q.
Proof. intros S (M & H). exists M. intros c r Hr B. apply (H c r Hr). apply (ball_in_same q p); auto. now apply same_points_sym. Qed.
Lemma largest_same p q c r : same_points p q -> largest_ball p c r -> largest_ball q c r.
Proof.
  intros S (B1 & B2 & B3). split; [auto|]. split; [now apply (ball_in_same p q)|].
  intros c' r' Hr' B'. apply (B3 c'); auto. apply (ball_in_same q p); auto. now apply same_points_sym.
Qed.
Lemma entitled_same p q : same_points p q -> p_empty q = p_empty p -> p_bounded q = p_bounded p -> p_radius q = p_radius p -> p_center q = p_center p ->
  entitled p -> entitled q.
Proof.
  intros S E1 E2 E3 E4 (H1 & H2 & H3 & H4). pose proof S as (S1 & S2 & S3).
  assert (S' := same_points_sym _ _ S).
  split; [|split; [|split]].
  - intros e He. rewrite E1 in He. rewrite (H1 e He). split; intros N (x & Hx & Nx); apply N; exists x; split; auto; now apply S2.
  - intros Hb. rewrite E2 in Hb. destruct (H2 Hb) as ((x & Hx) & U). split; [exists x; now apply S2|]. intros (M & B). apply U. exists M. intros y Hy. apply B. now apply S2.
  - intros r Hr (x & Hx) RB. rewrite E3 in Hr. destruct (H3 r Hr) as (c & B); [exists x; now apply S2|now apply (radii_same q p)|]. exists c. now apply (largest_same p q).
  - intros c Hc (x & Hx) RB. rewrite E4 in Hc. destruct (H4 c Hc) as (r & B); [exists x; now apply S2|now apply (radii_same q p)|]. exists r. now apply (largest_same p q).
Qed.
Lemma same_points_refl p : same_points p p. Proof. split; [auto|]. split; tauto. Qed.
Lemma entitled_fresh p : fresh p = p -> entitled p.
Proof. intros <-. split; [intros e H; discriminate H|]. split; [intros H; discriminate H|]. split; intros r H; discriminate H. Qed.

Lemma normalize_same p m me n tol : wf p m me n -> 0 <= tol -> same_points p (normalize tol p).
Proof.
  intros W Ht. destruct (normalize_ok p m me n tol W Ht) as (_ & H & _). split; [reflexivity|]. split; [intros x; symmetry; apply H|].
  intros x Lx. unfold eq_holds, normalize, normalize_with, normalize_lhs, normalize_rhs. cbn [pC pd rows].
  symmetry. apply (normalize_rows_iff' (fun a c => a = c)); auto.
  - intros k a c Hk. split; [|congruence]. intros E. apply Rmult_eq_reg_l in E; auto. lra.
  - destruct W as (_ & _ & (LC & _) & Ld). congruence.
Qed.

Lemma good_eqs_dec p me n : good_eqs p me n \/ ((0 < me)%nat /\ ~ ((me < n)%nat /\ indep_rows (pC p) me)).
Proof.
  destruct (Nat.eq_dec me 0) as [->|H]; [now left; left|].
  destruct (Classical_Prop.classic ((me < n)%nat /\ indep_rows (pC p) me)) as [G|G]; [left; right; auto|right; split; [lia|auto]].
Qed.
Lemma chebyshev_rejects np p m me n : exact_np np -> wf p m me n -> (0 < me)%nat -> ~ ((me < n)%nat /\ indep_rows (pC p) me) ->
  chebyshev np (pA p) (pb p) (pC p) (pd p) = Err ValueError.
Proof.
  intros Hnp W Hp Hn. unfold chebyshev. replace (nrows (pC p)) with me by (symmetry; apply W). destruct me; [lia|]. cbn [Nat.ltb Nat.leb].
  rewrite (elimination_rejects np p m (S me) n); auto; apply Hnp.
Qed.

Lemma set_empty_same p e : same_points p (set_empty p e).
Proof. split; [reflexivity|]. split; [intros x; unfold in_poly; tauto|]. intros x _. tauto. Qed.
Lemma wf_set_empty p e m me n : wf p m me n -> wf (set_empty p e) m me n.
Proof. auto. Qed.

Lemma empty_entitled np p m me n : exact_np np -> wf p m me n -> entitled p ->
  exists e q, get_empty np p = (Ok e, q) /\ wf q m me n /\ same_points p q /\ entitled q /\ p_empty q = Some e /\ p_bounded q = p_bounded p /\ (q = p \/ q = set_empty p e).
Proof.
  intros Hnp W En. destruct (p_empty p) as [e|] eqn:E.
  - exists e, p. split; [unfold get_empty, pbind, pget; now rewrite E|]. split; [auto|]. split; [apply same_points_refl|]. auto 10.
  - destruct (get_empty_ok np p m me n Hnp W E) as (e & Eq & He). exists e, (set_empty p e). split; [auto|]. split; [auto|]. split; [apply set_empty_same|]. split; [|cbn; auto].
    destruct En as (H1 & H2 & H3 & H4). split; [intros e' H; injection H as <-; exact He|]. auto.
Qed.

Lemma step_ok np p q m me n : exact_np np -> wf p m me n -> entitled p -> step np p q -> exists m' me', wf q m' me' n /\ entitled q.
Proof.
  intros Hnp W En St. inversion St as [o p0 p' Ho Hc|o e p0 p' Hc Hs|tol p0 Ht|p0 p' Hg Hr|p0|p0|p0|p0]; subst; clear St.
  - destruct (call_step o p m me n q W Ho Hc) as (m' & me' & W' & _). exists m', me'. split; [auto|].
    destruct (call_caches o p) as [E|E]; rewrite Hc in E; cbn [snd] in E; [now subst|]. now apply entitled_fresh.
  - exists m, me. destruct Hs as (E1 & E2 & E3 & E4). split; [unfold wf; rewrite <- E1, <- E2, <- E3, <- E4; exact W|].
    destruct (call_caches o p) as [E|E]; rewrite Hc in E; cbn [snd] in E; [now subst|]. now apply entitled_fresh.
  - exists m, me. split; [now apply normalize_ok|]. apply (entitled_same p); auto. eapply normalize_same; eauto.
  - (* removal *)
    destruct (empty_entitled np p m me n Hnp W En) as (e & q1 & Eq & W1 & S1 & En1 & Ee & _ & Q1).
    assert (He : e = false). { destruct e; [|reflexivity]. unfold remove_redundant_inequalities, minimal_facets, pbind in Hr. rewrite Eq in Hr. discriminate Hr. }
    subst e.
    assert (Near : exists x, in_poly p x /\ near x).
    { destruct En1 as (H1 & _). specialize (H1 false Ee). destruct (Classical_Prop.classic (exists x, in_poly q1 x /\ near x)) as [(x & Hx & Nx)|N].
      - exists x. split; [now apply S1|auto]. - exfalso. apply H1 in N. discriminate N. }
    assert (G : good_eqs p me n).
    { destruct (good_eqs_dec p me n) as [G|(Hp & Hn)]; [auto|exfalso].
      unfold remove_redundant_inequalities, minimal_facets, pbind in Hr. rewrite Eq in Hr. unfold pget, plift in Hr.
      replace (nrows (pC q1)) with me in Hr by (symmetry; apply W1). destruct me; [lia|]. cbn [Nat.ltb Nat.leb] in Hr.
      assert (EA : pA q1 = pA p /\ pb q1 = pb p /\ pC q1 = pC p /\ pd q1 = pd p) by (destruct Q1 as [->| ->]; auto). destruct EA as (EA1 & EA2 & EA3 & EA4). rewrite EA1, EA2, EA3, EA4 in Hr.
      rewrite (elimination_rejects np p m (S me) n) in Hr; auto; try apply Hnp. discriminate Hr. }
    assert (Pe : p_empty p <> Some true). { intros E. unfold get_empty, pbind, pget in Eq. rewrite E in Eq. discriminate Eq. }
    destruct (minimal_facets_ok np p m me n tol7 Hnp W ltac:(unfold tol7; lra) G Pe Near) as (mf & p1 & Emf & Hp1 & Rem & (kp & Ekp) & _).
    replace (nrows (pA p)) with m in Hg by (symmetry; apply W).
    assert (Hlt : forall j, In j mf -> (j < m)%nat). { intros j Hj. rewrite Ekp in Hj. apply filter_In in Hj. destruct Hj as (Hj & _). apply in_seq in Hj. lia. }
    unfold remove_redundant_inequalities, pbind in Hr. rewrite Emf in Hr. unfold pget, pput in Hr. injection Hr as <-.
    destruct (set_rows_poly p p1 m me n mf W Hp1 Hlt) as (W' & Hin). exists (length mf), me. split; [exact W'|].
    assert (En' : entitled p1).
    { assert (p1 = q1). { unfold minimal_facets, pbind in Emf. rewrite Eq in Emf. unfold pget, plift in Emf.
        destruct (if (0 <? nrows (pC q1))%nat then _ else _) as [[E f]|]; [|discriminate Emf]. destruct (facets_loop _ _ _ _ _ _); [|discriminate Emf]. injection Emf as _ <-. reflexivity. }
      now subst p1. }
    apply (entitled_same p1); try reflexivity; [|exact En'].
    assert (S2 : same_points p p1) by (destruct Hp1 as [->| ->]; [apply same_points_refl|apply set_empty_same]).
    apply (same_points_trans p1 p); [now apply same_points_sym|]. split; [|split].
    + destruct Hp1 as [->| ->]; reflexivity.
    + intros x. rewrite Hin. split; intros H.
      * apply (sat_all p m me n x W) in H. destruct H as (L & Q & H). split; [auto|]. split; [auto|]. intros j Hj. apply H. apply in_seq. specialize (Hlt j Hj). lia.
      * apply (sat_all p m me n x W). apply (removal_exact p m tol7 (seq 0 m) mf); auto. intros j Hj. apply in_seq in Hj. lia.
    + intros x _. destruct Hp1 as [->| ->]; tauto.
  - destruct (empty_entitled np p m me n Hnp W En) as (e & q1 & Eq & W1 & S1 & En1 & _). rewrite Eq. exists m, me. auto.
  - (* bounded *)
    exists m, me. destruct (p_bounded p) as [b|] eqn:Eb.
    { unfold get_bounded, pbind, pget. rewrite Eb. cbn. auto. }
    destruct (empty_entitled np p m me n Hnp W En) as (e & q1 & Eq & W1 & S1 & En1 & Ee & Hb & Q1).
    rewrite Eb in Hb. unfold get_bounded, pbind, pget. rewrite Eb, Eq. destruct e; [cbn; auto|].
    destruct (get_bounded_ok np (fresh q1) m me n Hnp W1 eq_refl eq_refl) as (r & p' & EB & HF & _).
    unfold get_bounded, pbind, pget in EB. cbn [p_bounded fresh] in EB. fold (fresh q1) in EB.
    destruct (get_empty_ok np (fresh q1) m me n Hnp W1 eq_refl) as (e & Ef & He). rewrite Ef in EB.
    assert (e = false). { destruct En1 as (H1 & _). specialize (H1 false Ee). destruct e; auto. exfalso.
      assert (false = true); [|discriminate]. apply H1. now apply He. }
    subst e. cbn [set_empty pA pC fresh] in EB. fold (allA q1) in EB. fold (allA q1).
    destruct (0 <? ncols (nullspace_basis np (allA q1)))%nat eqn:K; [cbn; auto|]. cbn zeta in EB |- *. unfold plift in EB |- *.
    destruct (lp np _ _ _ _ _) as [s|]; [|discriminate EB]. unfold pput, pret in EB |- *. cbn [snd]. injection EB as EB _.
    split; [exact W1|]. destruct En1 as (H1 & H2 & H3 & H4). split; [auto|]. split; [|auto].
    intros H. cbn in H. injection H as H. rewrite H in EB. destruct (HF ltac:(auto)) as (X & U). auto.
  - (* radius *)
    exists m, me. unfold get_radius, pbind, pget, plift, pput, pret. destruct (p_radius p) as [r|] eqn:Er; [cbn; auto|].
    destruct (chebyshev np (pA p) (pb p) (pC p) (pd p)) as [[r c]|e] eqn:Ech; [|cbn; auto]. cbn [snd fst]. split; [exact W|].
    destruct En as (H1 & H2 & _ & _). split; [auto|]. split; [auto|].
    assert (G : good_eqs p me n). { destruct (good_eqs_dec p me n) as [G|(Hp & Hn)]; [auto|]. rewrite (chebyshev_rejects np p m me n) in Ech; auto. discriminate Ech. }
    assert (L : (exists x, in_poly p x) -> radii_bounded p -> exists r' c', r = Some r' /\ c = Some c' /\ largest_ball p c' r').
    { intros X RB. destruct (chebyshev_ball np p m me n Hnp W G X RB) as (r' & c' & E' & B). rewrite Ech in E'. injection E' as -> ->. eauto. }
    split; cbn; intros v Hv X RB; destruct (L X RB) as (r' & c' & Er' & Ec' & B); rewrite Hv in *; [exists c'; injection Er' as ->|exists r'; injection Ec' as ->]; exact B.
  - (* center *)
    exists m, me. unfold get_center, pbind, pget, plift, pput, pret. destruct (p_center p) as [r|] eqn:Er; [cbn; auto|].
    destruct (chebyshev np (pA p) (pb p) (pC p) (pd p)) as [[r c]|e] eqn:Ech; [|cbn; auto]. cbn [snd fst]. split; [exact W|].
    destruct En as (H1 & H2 & _ & _). split; [auto|]. split; [auto|].
    assert (G : good_eqs p me n). { destruct (good_eqs_dec p me n) as [G|(Hp & Hn)]; [auto|]. rewrite (chebyshev_rejects np p m me n) in Ech; auto. discriminate Ech. }
    assert (L : (exists x, in_poly p x) -> radii_bounded p -> exists r' c', r = Some r' /\ c = Some c' /\ largest_ball p c' r').
    { intros X RB. destruct (chebyshev_ball np p m me n Hnp W G X RB) as (r' & c' & E' & B). rewrite Ech in E'. injection E' as -> ->. eauto. }
    split; cbn; intros v Hv X RB; destruct (L X RB) as (r' & c' & Er' & Ec' & B); rewrite Hv in *; [exists c'; injection Er' as ->|exists r'; injection Ec' as ->]; exact B.
Qed.

Lemma steps_ok np p q m me n : exact_np np -> wf p m me n -> entitled p -> steps np p q -> exists m' me', wf q m' me' n /\ entitled q.
Proof.
  intros Hnp W En St. revert m me W En. induction St as [|p q r S1 S2 IH]; intros m me W En; [eauto|].
  destruct (step_ok np p q m me n Hnp W En S1) as (m' & me' & W' & En'). eauto.
Qed.

(*@ Theorem C03_entitled_partial : The same with normalizations (floating-point arrays) and redundancy removals (no facet redundant by less than tol) in the history: empty tells whether the current set has a point of norm below 10^7, bounded = False that it is non-empty and unbounded, and radius and center belong to a largest ball of the current set (when there is one).
   Missing: bounded = True after normalize (see the refutation), and removals of facets that are redundant by less than tol (see the other refutation). *)
Lemma entitled_reads np p q m me n : exact_np np -> wf p m me n -> fresh p = p -> steps np p q ->
  (forall e q', get_empty np q = (Ok e, q') -> (e = true <-> ~ exists x, in_poly q x /\ near x)) /\
  (forall q', get_bounded np q = (Ok false, q') -> (exists x, in_poly q x) /\ ~ bounded_set (in_poly q)) /\
  (forall r q', get_radius np q = (Ok r, q') -> (exists x, in_poly q x) -> radii_bounded q -> exists r' c, r = Some r' /\ largest_ball q c r') /\
  (forall c q', get_center np q = (Ok c, q') -> (exists x, in_poly q x) -> radii_bounded q -> exists c' r, c = Some c' /\ largest_ball q c' r).
Proof.
  intros Hnp W Fr St. destruct (steps_ok np p q m me n Hnp W (entitled_fresh p Fr) St) as (m' & me' & Wq & En). clear Fr St W.
  split; [|split; [|split]].
  - intros e q' E. destruct (empty_entitled np q m' me' n Hnp Wq En) as (e1 & q1 & Eq & _ & S1 & (H1 & _) & Ee & _).
    rewrite E in Eq. injection Eq as <- <-. rewrite (H1 e Ee). pose proof S1 as (_ & S2 & _).
    split; intros N (x & Hx & Nx); apply N; exists x; split; auto; now apply S2.
  - intros q' E. destruct (step_ok np q q' m' me' n Hnp Wq En) as (m2 & me2 & W2 & En2). { replace q' with (snd (get_bounded np q)) by (rewrite E; reflexivity). apply step_bounded. }
    destruct (p_bounded q) as [b|] eqn:Eb.
    { unfold get_bounded, pbind, pget in E. rewrite Eb in E. injection E as -> _. apply En. exact Eb. }
    destruct (empty_entitled np q m' me' n Hnp Wq En) as (e & q1 & Eq & W1 & (_ & S1 & _) & En1 & Ee & Hb & Q1).
    destruct (get_bounded_ok np (fresh q) m' me' n Hnp Wq eq_refl eq_refl) as (r & p' & EB & HF & _).
    enough (r = false) by (apply HF; auto).
    unfold get_bounded, pbind, pget in E, EB. rewrite Eb, Eq in E. cbn [p_bounded fresh] in EB. fold (fresh q) in EB.
    destruct (get_empty_ok np (fresh q) m' me' n Hnp Wq eq_refl) as (e' & Ef & He). rewrite Ef in EB.
    destruct e; [discriminate E|].
    assert (e' = false). { destruct En1 as (H1 & _). specialize (H1 false Ee). destruct e'; auto. exfalso.
      assert (false = true); [|discriminate]. apply H1. intros (x & Hx & Nx). apply (proj1 He eq_refl). exists x. split; [|exact Nx]. exact (proj2 (S1 x) Hx). }
    subst e'. assert (EA : allA q1 = allA q) by (destruct Q1 as [->| ->]; reflexivity). fold (allA q1) in E. rewrite EA in E.
    cbn [set_empty pA pC fresh] in EB. fold (allA q) in EB. cbn zeta in E, EB.
    destruct (0 <? ncols (nullspace_basis np (allA q)))%nat; [unfold pret in EB; congruence|]. unfold plift, pput, pret in E, EB.
    destruct (lp np _ _ _ _ _) as [s|]; [|discriminate EB]. congruence.
  - intros r q' E X RB. destruct (step_ok np q q' m' me' n Hnp Wq En) as (m2 & me2 & W2 & (_ & _ & H3 & _)). { replace q' with (snd (get_radius np q)) by (rewrite E; reflexivity). apply step_radius. }
    unfold get_radius, pbind, pget, plift, pput, pret in E. destruct (p_radius q) as [r0|] eqn:Er.
    + injection E as <- <-. destruct (H3 r0 Er X RB) as (c & B). eauto.
    + destruct (chebyshev np (pA q) (pb q) (pC q) (pd q)) as [[r1 c1]|e] eqn:Ech; [|discriminate E]. injection E as <- <-. cbn [fst] in *.
      assert (G : good_eqs q me' n). { destruct (good_eqs_dec q me' n) as [G|(Hp & Hn)]; [auto|]. rewrite (chebyshev_rejects np q m' me' n) in Ech; auto. discriminate Ech. }
      destruct (chebyshev_ball np q m' me' n Hnp Wq G X RB) as (r' & c' & E' & B). rewrite Ech in E'. injection E' as -> ->. eauto.
  - intros c q' E X RB.
    unfold get_center, pbind, pget, plift, pput, pret in E. destruct (p_center q) as [r0|] eqn:Er.
    + injection E as <- <-. destruct En as (_ & _ & _ & H4). destruct (H4 r0 Er X RB) as (r & B). eauto.
    + destruct (chebyshev np (pA q) (pb q) (pC q) (pd q)) as [[r1 c1]|e] eqn:Ech; [|discriminate E]. injection E as <- <-. cbn [snd] in *.
      assert (G : good_eqs q me' n). { destruct (good_eqs_dec q me' n) as [G|(Hp & Hn)]; [auto|]. rewrite (chebyshev_rejects np q m' me' n) in Ech; auto. discriminate Ech. }
      destruct (chebyshev_ball np q m' me' n Hnp Wq G X RB) as (r' & c' & E' & B). rewrite Ech in E'. injection E' as -> ->. eauto.
Qed.

(*@ Theorem C03_normalize_bounded_refuted : bounded is read on {10^-9 x <= 1}, then the polyhedron is normalized (with tol = 10^-10): the cached value remains True, a fresh polyhedron with the current constraints {x <= 10^9} answers False. *)
Lemma normalize_bounded_refuted np : exact_np np ->
  exists p, wf p 1 0 1 /\ fresh p = p /\
    let q := normalize (/ 10000000000) (snd (get_bounded np p)) in
    fst (get_bounded np q) = Ok true /\ fst (get_bounded np (fresh q)) = Ok false.
Proof.
  intros Hnp. exists p_flat. split; [apply wf_p_flat|]. split; [reflexivity|].
  pose proof (proj2 (proj2 (proj2 (proj2 (proj2 Hnp))))) as Hs.
  destruct (get_empty_ok np p_flat 1 0 1 Hnp wf_p_flat eq_refl) as ([|] & Ee & He).
  { exfalso. apply (proj1 He eq_refl). exists [0]. split.
    - split; [reflexivity|]. split; [|constructor]. apply Forall2_cons; [cbn; lra|constructor].
    - unfold near. cbn. unfold tol7. lra. }
  assert (SA : shape (allA p_flat) 1 1) by (repeat split; repeat constructor).
  pose proof (kernel_basis np (allA p_flat) _ 1 Hs SA) as KB.
  destruct (0 <? ncols (nullspace_basis np (allA p_flat)))%nat eqn:Ek.
  { exfalso. apply Nat.ltb_lt in Ek. apply KB in Ek. destruct Ek as (d & Ld & Nd & Kd). apply Nd.
    destruct d as [|a [|]]; try discriminate Ld. cbn in Kd. injection Kd as Kd. cbn. f_equal. lra. }
  destruct (flat_lp np Hnp) as (s & x & mn & E & _ & Em).
  intros q. unfold q. rewrite (get_bounded_lp np p_flat s eq_refl Ee Ek E), Em. cbn [snd]. clear q. split; [reflexivity|].
  set (q := fresh _).
  assert (W : wf q 1 0 1) by apply (normalize_ok p_flat 1 0 1 (/ 10000000000) wf_p_flat ltac:(lra)).
  destruct (get_bounded_ok np q 1 0 1 Hnp W eq_refl eq_refl) as (r & p' & EB & _ & HT). rewrite EB. cbn [fst]. destruct r; [exfalso|reflexivity].
  assert (Nm : norm [/ 1000000000] = / 1000000000). { unfold norm. cbn. rewrite Rplus_0_r. apply sqrt_square. lra. }
  assert (RA : rows (pA q) = [[1]]).
  { unfold q, fresh, normalize, normalize_with, normalize_lhs. cbn [pA set_bounded set_empty p_flat rows map].
    replace (Rltb _ _) with true by (symmetry; apply Rltb_true; rewrite Nm; lra). rewrite Nm. do 2 f_equal. field. }
  assert (RB : pb q = [1000000000]).
  { unfold q, fresh, normalize, normalize_with, normalize_rhs. cbn [pA pb set_bounded set_empty p_flat rows map2].
    replace (Rltb _ _) with true by (symmetry; apply Rltb_true; rewrite Nm; lra). rewrite Nm. f_equal. field. }
  destruct (HT eq_refl) as [H|(_ & _ & H)].
  - apply (H [0]).
    + split; [reflexivity|]. split; [|constructor]. unfold ineq_holds. rewrite RA, RB. apply Forall2_cons; [cbn; lra|constructor].
    + unfold near. cbn. unfold tol7. lra.
  - assert (Rc : recession q [-1]).
    { split; [reflexivity|]. split; [|constructor]. rewrite RA. apply Forall_cons; [cbn; lra|constructor]. }
    specialize (H [-1] Rc 0%nat ltac:(lia)). unfold row in H. rewrite RA in H. cbn in H. unfold norm1 in H. cbn in H.
    replace (1 * -1 + 0) with (-1) in H by ring. rewrite (Rabs_left (-1)) in H by lra. unfold tol7 in H. lra.
Qed.

(** {x <= 1, x <= 1 + tol/2, -x <= 0} *)
Definition p_three : poly := Poly (Mat 1 [[1]; [1]; [-1]]) [1; 1 + tol7 / 2; 0] (Mat 1 []) [] None None None None None.
Lemma wf_p_three : wf p_three 3 0 1. Proof. unfold wf; simpl; repeat split; repeat constructor. Qed.

Lemma three_loop np : exact_np np ->
  facets_loop np tol7 (Mat 1 [[1]; [1]; [-1]]) [1; 1 + tol7 / 2; 0] [0%nat; 1%nat; 2%nat] [0%nat; 1%nat; 2%nat] = Ok [1%nat; 2%nat].
Proof.
  intros Hnp. pose proof tol7_pos as Tp.
  assert (HS : shape (Mat 1 [[1]; [1]; [-1]]) 3 1) by (repeat split; repeat constructor).
  cbn [facets_loop].
    destruct (facet_lp np Hnp _ [1; 1 + tol7 / 2; 0] 3 1 HS eq_refl [0%nat; 1%nat; 2%nat] 0 [0]) as (s & z & Es & Em & (Lz & Sz) & Bz & Oz).
    { simpl. intros j [<-|[<-|[<-|[]]]]; lia. } { now left. } { split; [reflexivity|]. intros j [<-|[<-|[<-|[]]]]; cbn; lra. }
    rewrite Es. cbn [bind]. rewrite Em. destruct z as [|z [|]]; try discriminate Lz.
    specialize (Sz 1%nat ltac:(simpl; auto)). cbn in Sz.
    replace (Rltb _ tol7) with true by (symmetry; apply Rltb_true; cbn; lra).
    destruct (facet_lp np Hnp _ [1; 1 + tol7 / 2; 0] 3 1 HS eq_refl [1%nat; 2%nat] 1 [0]) as (s' & z' & Es' & Em' & (Lz' & Sz') & Bz' & Oz').
    { simpl. intros j [<-|[<-|[]]]; lia. } { now left. } { split; [reflexivity|]. intros j [<-|[<-|[]]]; cbn; lra. }
    change (remove Nat.eq_dec 0 [0; 1; 2])%nat with [1%nat; 2%nat]. rewrite Es'. cbn [bind]. rewrite Em'. destruct z' as [|z' [|]]; try discriminate Lz'.
    specialize (Oz' [2 + tol7 / 2]). cbn in Oz'.
    assert (G : 1 * (2 + tol7 / 2) + 0 <= 1 * z' + 0). { apply Oz'; [|lra]. split; [reflexivity|]. intros j [<-|[]]; cbn; lra. }
    replace (Rltb _ tol7) with false by (symmetry; apply Rltb_false; cbn; unfold tol7 in *; lra).
    destruct (facet_lp np Hnp _ [1; 1 + tol7 / 2; 0] 3 1 HS eq_refl [1%nat; 2%nat] 2 [0]) as (s2 & z2 & Es2 & Em2 & (Lz2 & Sz2) & Bz2 & Oz2).
    { simpl. intros j [<-|[<-|[]]]; lia. } { simpl; auto. } { split; [reflexivity|]. intros j [<-|[<-|[]]]; cbn; lra. }
    rewrite Es2. cbn [bind]. rewrite Em2. destruct z2 as [|z2 [|]]; try discriminate Lz2.
    specialize (Oz2 [-1]). cbn in Oz2.
    assert (G2 : -1 * -1 + 0 <= -1 * z2 + 0). { apply Oz2; [|lra]. split; [reflexivity|]. intros j [<-|[]]; cbn; lra. }
    replace (Rltb _ tol7) with false by (symmetry; apply Rltb_false; cbn; unfold tol7 in *; lra). reflexivity.
Qed.

(** the radius of a segment [lo, hi] given by inequalities *)
Lemma segment_radius np p m lo hi : exact_np np -> wf p m 0 1 -> fresh p = p -> lo <= hi ->
  (forall a, in_poly p [a] <-> lo <= a <= hi) -> exists p', get_radius np p = (Ok (Some ((hi - lo) / 2)), p') /\ p_center p' = Some [(hi + lo) / 2].
Proof.
  intros Hnp W Fr Hlh Hin.
  assert (NA : ncols (pA p) = 1%nat) by apply W.
  assert (Heq : forall z, eq_holds (pC p) (pd p) z).
  { destruct W as (_ & _ & (LC & _) & Ld). intros z. unfold eq_holds. destruct (rows (pC p)); [|discriminate LC]. destruct (pd p); [|discriminate Ld]. constructor. }
  destruct (chebyshev_polytope np p m 0 1 Hnp W (or_introl eq_refl) ltac:(lia)) as (r & c & p' & E & Ec & (Hr & B & Opt)).
  - rewrite <- Fr. reflexivity.
  - exists [lo]. apply Hin. lra.
  - exists (Rmax (Rabs lo) (Rabs hi)). intros x Hx. pose proof Hx as (Lx & _). rewrite NA in Lx. destruct x as [|a [|]]; try discriminate Lx.
    apply Hin in Hx. pose proof (Rmax_l (Rabs lo) (Rabs hi)). pose proof (Rmax_r (Rabs lo) (Rabs hi)).
    assert (norm [a] = Rabs a) as ->. { unfold norm. cbn. rewrite Rplus_0_r. apply sqrt_Rsqr_abs. }
    pose proof (Rle_abs hi). pose proof (Rle_abs (- lo)). rewrite Rabs_Ropp in *. unfold Rabs at 1. destruct (Rcase_abs a); lra.
  - assert (B2 : ball_in p [(hi + lo) / 2] ((hi - lo) / 2)).
    { split; [auto|]. split; [auto|]. intros y Ly _ D. rewrite NA in Ly. destruct y as [|a [|]]; try discriminate Ly. unfold dist2 in D. cbn in D.
      apply Hin. split; nra. }
    specialize (Opt _ ((hi - lo) / 2) ltac:(lra) B2). destruct B as (Lc & _ & B). rewrite NA in Lc. destruct c as [|c0 [|]]; try discriminate Lc.
    assert (Bp : in_poly p [c0 + r]) by (apply B; [auto|auto|unfold dist2; cbn; nra]).
    assert (Bm : in_poly p [c0 - r]) by (apply B; [auto|auto|unfold dist2; cbn; nra]).
    apply Hin in Bp. apply Hin in Bm.
    assert (r = (hi - lo) / 2) by lra. assert (c0 = (hi + lo) / 2) by lra. subst r c0. exists p'. auto.
Qed.

(*@ Theorem C03_removal_radius_refuted : On {x <= 1, x <= 1 + tol/2, -x <= 0} the radius is read, then redundant inequalities are removed, which drops x <= 1: the cached radius remains 1/2, that of a fresh polyhedron is 1/2 + tol/4. *)
Lemma removal_radius_refuted np : exact_np np ->
  exists p q r1 r2, wf p 3 0 1 /\ fresh p = p /\ remove_redundant_inequalities np (snd (get_radius np p)) = (Ok tt, q) /\
    fst (get_radius np q) = Ok (Some r1) /\ fst (get_radius np (fresh q)) = Ok (Some r2) /\ r1 <> r2.
Proof.
  intros Hnp. pose proof tol7_pos as Tp.
  destruct (segment_radius np p_three 3 0 1 Hnp wf_p_three eq_refl ltac:(lra)) as (p' & Er & Ec).
  { intros a. split.
    - intros (_ & H & _). unfold ineq_holds in H. simpl in H. inv2 H. lra.
    - intros H. split; [reflexivity|]. split; [repeat (apply Forall2_cons; [cbn; lra|]); constructor|constructor]. }
  assert (Ep' : exists c, p' = set_chebyshev p_three (Some ((1 - 0) / 2)) c).
  { unfold get_radius, pbind, pget, plift, pput, pret in Er. cbn [p_three p_radius] in Er. fold p_three in Er.
    destruct (chebyshev np _ _ _ _) as [[r c]|]; [|discriminate Er]. injection Er as H1 H2. cbn [fst snd] in *. subst r. exists c. now rewrite <- H2. }
  destruct Ep' as (c & ->).
  set (p1 := set_chebyshev p_three (Some ((1 - 0) / 2)) c) in *.
  assert (W1 : wf p1 3 0 1) by exact wf_p_three.
  assert (N0 : in_poly p1 [0] /\ near [0]).
  { split; [split; [reflexivity|]; split; [repeat (apply Forall2_cons; [cbn; lra|]); constructor|constructor]|unfold near; cbn; unfold tol7; lra]. }
  destruct (get_empty_ok np p1 3 0 1 Hnp W1 eq_refl) as ([|] & Ee & He); [exfalso; apply (proj1 He eq_refl); eauto|].
  pose proof (three_loop np Hnp) as Loop.
  set (q := set_b (set_A (set_empty p1 false) (Mat 1 [[1]; [-1]])) [1 + tol7 / 2; 0]).
  destruct (segment_radius np (fresh q) 2 0 (1 + tol7 / 2) Hnp) as (q' & Er2 & _); [unfold wf; simpl; repeat split; repeat constructor|reflexivity|lra| |].
  { intros a. split.
    - intros (_ & H & _). unfold ineq_holds in H. simpl in H. inv2 H. lra.
    - intros H. split; [reflexivity|]. split; [repeat (apply Forall2_cons; [cbn; lra|]); constructor|constructor]. }
  exists p_three, q. do 2 eexists. split; [exact wf_p_three|]. split; [reflexivity|]. rewrite Er. cbn [snd]. split; [|split; [reflexivity|]].
  - unfold remove_redundant_inequalities, minimal_facets, pbind. rewrite Ee. unfold pget, plift.
    cbn [p1 p_three set_chebyshev set_empty pA pb pC pd nrows rows length Nat.ltb Nat.leb seq]. rewrite Loop. reflexivity.
  - rewrite Er2. split; [reflexivity|]. lra.
Qed.

(*@ Example C03_example : A history on {2 x <= 2, -x <= 0}: read radius (1/2), normalize, read radius (still 1/2), add x <= 1/2, read radius (1/4). *)
Lemma caches_example :
  let p := Poly (Mat 1 [[2]; [-1]]) [2; 0] (Mat 1 []) [] None None None None None in
  exists q1 q2 q3 q4 q5, get_radius np0 p = (Ok (Some (/ 2)), q1) /\ q2 = normalize tol7 q1 /\ get_radius np0 q2 = (Ok (Some (/ 2)), q3) /\
    add_upper_bound (BArr (D1 [/ 2])) None q3 = (Ok tt, q4) /\ get_radius np0 q4 = (Ok (Some (/ 4)), q5) /\ steps np0 p q5.
Proof.
  intros p. assert (W : wf p 2 0 1) by (unfold wf; simpl; repeat split; repeat constructor).
  destruct (segment_radius np0 p 2 0 1 np0_exact W eq_refl ltac:(lra)) as (q1 & E1 & C1).
  { intros a. split.
    - intros (_ & H & _). unfold ineq_holds in H. simpl in H. inv2 H. lra.
    - intros H. split; [reflexivity|]. split; [repeat (apply Forall2_cons; [cbn; lra|]); constructor|constructor]. }
  replace ((1 - 0) / 2) with (/ 2) in E1 by lra.
  assert (Eq1 : exists c, q1 = set_chebyshev p (Some (/ 2)) c).
  { unfold get_radius, pbind, pget, plift, pput, pret in E1. cbn [p p_radius] in E1. fold p in E1.
    destruct (chebyshev np0 _ _ _ _) as [[r c]|]; [|discriminate E1]. injection E1 as H1 H2. cbn [fst snd] in *. subst r. exists c. now rewrite <- H2. }
  destruct Eq1 as (c & ->).
  set (q2 := normalize tol7 (set_chebyshev p (Some (/ 2)) c)).
  assert (E2 : get_radius np0 q2 = (Ok (Some (/ 2)), q2)) by reflexivity.
  assert (T0 : 0 <= tol7) by (unfold tol7; lra).
  destruct (normalize_ok (set_chebyshev p (Some (/ 2)) c) 2 0 1 tol7 W T0) as (W2 & H2 & _). fold q2 in W2, H2.
  destruct (add_upper_bound_ok [/ 2] q2 2 0 1 W2 eq_refl) as (q4 & E4 & W4).
  destruct (add_upper_bound_step _ _ q2 2 0 1 q4 W2 E4) as (_ & _ & H4).
  assert (F4 : fresh q4 = q4).
  { destruct (call_caches (AddUpperBound (BArr (D1 [/ 2])) None) q2) as [E|E]; cbn [call] in E; rewrite E4 in E; cbn [snd] in E; [|exact E].
    exfalso. subst q4. destruct W2 as ((L2 & _) & _). destruct W4 as ((L4 & _) & _). rewrite L2 in L4. discriminate L4. }
  destruct (segment_radius np0 q4 3 0 (/ 2) np0_exact W4 F4 ltac:(lra)) as (q5 & E5 & _).
  { intros a. rewrite H4, H2. split.
    - intros ((_ & H & _) & G). unfold ineq_holds in H. simpl in H. inv2 H. simpl in G. inv2 G. lra.
    - intros H. split; [|apply Forall2_cons; [lra|constructor]].
      split; [reflexivity|]. split; [repeat (apply Forall2_cons; [cbn; lra|]); constructor|constructor]. }
  replace ((/ 2 - 0) / 2) with (/ 4) in E5 by lra.
  exists (set_chebyshev p (Some (/ 2)) c), q2, q2, q4, q5. repeat match goal with |- _ /\ _ => split end; auto.
  apply steps_cons with (set_chebyshev p (Some (/ 2)) c). { replace (set_chebyshev p (Some (/ 2)) c) with (snd (get_radius np0 p)) by (now rewrite E1). apply step_radius. }
  apply steps_cons with q2; [now apply step_normalize|].
  apply steps_cons with q4; [apply (step_add _ (AddUpperBound (BArr (D1 [/ 2])) None)); [exact Logic.I|exact E4]|].
  apply steps_cons with q5; [|apply steps_nil]. replace q5 with (snd (get_radius np0 q4)) by (now rewrite E5). apply step_radius.
Qed.
