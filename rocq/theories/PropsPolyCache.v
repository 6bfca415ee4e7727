(** * PropsPolyCache: the property theorems of this part, restated; proofs are in PolyCacheThms.
    Generated by tools/gen_props.py: this file contains only statements, [exact] and Print Assumptions. *)
From Coq Require Import ZArith.
From Verif Require Import Arr ArrFacts Spec Numpy Pnnls PnnlsFacts QpFacts GeomUtils Polyhedron PolyThms Oracle SolverThms NullFacts PolySolveThms PolySetThms PolyBoundThms PolyChebThms.
From Verif Require Import PolyCacheThms.

(** After any history of attribute reads and of (accepted or rejected) add_* calls on a fresh object, every attribute read returns, or raises, exactly what it would on a polyhedron freshly built from the current constraints -- whatever the numerical library does. *)
Theorem C03_caches np p h :
  let q := fold_left (fun p a => after np a p) h (fresh p) in
  fst (get_empty np q) = fst (get_empty np (fresh q)) /\
  fst (get_bounded np q) = fst (get_bounded np (fresh q)) /\
  fst (get_radius np q) = fst (get_radius np (fresh q)) /\
  fst (get_center np q) = fst (get_center np (fresh q)) /\
  fst (get_vertices np q) = fst (get_vertices np (fresh q)).
Proof. exact (caches np p h). Qed.
Print Assumptions C03_caches.

(** The same with normalizations (floating-point arrays) and redundancy removals (no facet redundant by less than tol) in the history: empty tells whether the current set has a point of norm below 10^7, bounded = False that it is non-empty and unbounded, and radius and center belong to a largest ball of the current set (when there is one).
   Missing: bounded = True after normalize (see the refutation), and removals of facets that are redundant by less than tol (see the other refutation). *)
Theorem C03_entitled_partial np p q m me n :
  exact_np np -> wf p m me n -> fresh p = p -> steps np p q ->
  (forall e q', get_empty np q = (Ok e, q') -> (e = true <-> ~ exists x, in_poly q x /\ near x)) /\
  (forall q', get_bounded np q = (Ok false, q') -> (exists x, in_poly q x) /\ ~ bounded_set (in_poly q)) /\
  (forall r q', get_radius np q = (Ok r, q') -> (exists x, in_poly q x) -> radii_bounded q -> exists r' c, r = Some r' /\ largest_ball q c r') /\
  (forall c q', get_center np q = (Ok c, q') -> (exists x, in_poly q x) -> radii_bounded q -> exists c' r, c = Some c' /\ largest_ball q c' r).
Proof. exact (entitled_reads np p q m me n). Qed.
Print Assumptions C03_entitled_partial.

(** bounded is read on {10^-9 x <= 1}, then the polyhedron is normalized (with tol = 10^-10): the cached value remains True, a fresh polyhedron with the current constraints {x <= 10^9} answers False. *)
Theorem C03_normalize_bounded_refuted np :
  exact_np np ->
  exists p, wf p 1 0 1 /\ fresh p = p /\
    let q := normalize (/ 10000000000) (snd (get_bounded np p)) in
    fst (get_bounded np q) = Ok true /\ fst (get_bounded np (fresh q)) = Ok false.
Proof. exact (normalize_bounded_refuted np). Qed.
Print Assumptions C03_normalize_bounded_refuted.

(** On {x <= 1, x <= 1 + tol/2, -x <= 0} the radius is read, then redundant inequalities are removed, which drops x <= 1: the cached radius remains 1/2, that of a fresh polyhedron is 1/2 + tol/4. *)
Theorem C03_removal_radius_refuted np :
  exact_np np ->
  exists p q r1 r2, wf p 3 0 1 /\ fresh p = p /\ remove_redundant_inequalities np (snd (get_radius np p)) = (Ok tt, q) /\
    fst (get_radius np q) = Ok (Some r1) /\ fst (get_radius np (fresh q)) = Ok (Some r2) /\ r1 <> r2.
Proof. exact (removal_radius_refuted np). Qed.
Print Assumptions C03_removal_radius_refuted.

(** A history on {2 x <= 2, -x <= 0}: read radius (1/2), normalize, read radius (still 1/2), add x <= 1/2, read radius (1/4). *)
Example C03_example :
  let p := Poly (Mat 1 [[2]; [-1]]) [2; 0] (Mat 1 []) [] None None None None None in
  exists q1 q2 q3 q4 q5, get_radius np0 p = (Ok (Some (/ 2)), q1) /\ q2 = normalize tol7 q1 /\ get_radius np0 q2 = (Ok (Some (/ 2)), q3) /\
    add_upper_bound (BArr (D1 [/ 2])) None q3 = (Ok tt, q4) /\ get_radius np0 q4 = (Ok (Some (/ 4)), q5) /\ steps np0 p q5.
Proof. exact (caches_example). Qed.
