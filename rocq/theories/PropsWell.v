(** * PropsWell: the property theorems of this part, restated; proofs are in WellThms.
    Generated by tools/gen_props.py: this file contains only statements, [exact] and Print Assumptions. *)
From Coq Require Import ZArith Classical.
From Verif Require Import Arr ArrFacts Spec SpecDyn Numpy Pnnls PnnlsFacts QpFacts GeomUtils Polyhedron PolyThms Oracle SolverThms NullFacts PolySolveThms PolySetThms PolyBoundThms PolyChebThms PolyMore Dynamics DynThms.
From Verif Require Import WellThms.

(** For domains described by inequalities (none with a zero row) no two of which have arbitrarily large balls in common, is_well_posed(tol) returns True iff no two distinct domains share a ball of radius larger than tol.
   Missing: pairs of domains that share arbitrarily large balls, for which an exception is raised (see the refutation), domains with equalities. *)
Theorem C29_well_posed_partial np n tol W d :
  exact_np np -> 0 <= tol -> Forall (plain n) (w_dom W) ->
  (forall i j, (i < j < length (w_dom W))%nat -> finite_overlap n (nth i (w_dom W) d) (nth j (w_dom W) d)) ->
  exists b, is_well_posed np tol W = Ok b /\
    (b = true <-> forall i j, (i < j < length (w_dom W))%nat -> ~ overlap n tol (nth i (w_dom W) d) (nth j (w_dom W) d)).
Proof. exact (well_posed_ok np n tol W d). Qed.
Print Assumptions C29_well_posed_partial.

(** In particular for bounded domains. *)
Theorem C29_bounded np n tol W d :
  exact_np np -> 0 <= tol -> (0 < n)%nat -> Forall (plain n) (w_dom W) ->
  Forall (fun D => bounded_set (in_poly D)) (w_dom W) ->
  exists b, is_well_posed np tol W = Ok b /\
    (b = true <-> forall i j, (i < j < length (w_dom W))%nat -> ~ overlap n tol (nth i (w_dom W) d) (nth j (w_dom W) d)).
Proof. exact (well_posed_bounded np n tol W d). Qed.
Print Assumptions C29_bounded.

(** Two copies of the half line {x >= 0}: instead of False, is_well_posed() raises TypeError (None > tol, Python 3). *)
Theorem C29_unbounded_refuted :
  exists W, Forall (plain 1) (w_dom W) /\ overlap 1 1 (nth 0 (w_dom W) halfline) (nth 1 (w_dom W) halfline) /\
  forall np, exact_np np -> is_well_posed np tol7 W = Err TypeError.
Proof. exact (unbounded_domains_refuted). Qed.
Print Assumptions C29_unbounded_refuted.

(** [-1,0] and [0,1] are well posed; [-1,0], [0,2] and [1,3] are not. *)
Example C29_example :
  is_well_posed np0 tol7 (PWA 1 0 nil [seg (-1) 0; seg 0 1]) = Ok true /\
  is_well_posed np0 tol7 (PWA 1 0 nil [seg (-1) 0; seg 0 2; seg 1 3]) = Ok false.
Proof. exact (well_posed_example). Qed.
