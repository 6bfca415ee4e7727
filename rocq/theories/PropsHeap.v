(** * PropsHeap: the property theorems of this part, restated; proofs are in HeapThms.
    Generated by tools/gen_props.py: this file contains only statements, [exact] and Print Assumptions. *)
From Coq Require Import ZArith.
From Verif Require Import Arr ArrFacts Spec Numpy Pnnls PnnlsFacts GeomUtils Polyhedron PolyThms Mpqp Heap.
From Verif Require Import HeapThms.

(** The value model of Polyhedron.v is exact on shared memory: whatever arrays are shared, views included, each method that adds constraints, copy followed by intersection, the facet of facet_center, the constructor, the cached queries and the removal of redundant rows return what the value model returns on the current contents of the arrays, and leave the object with the contents that the value model gives; so does normalize when the four arrays of the object do not overlap *)
Theorem C55_value_model np m o :
  exist_in m (addrs o) ->
  (forall A b indices, exist_in m (concat (a_rows A)) -> exist_in m (addrs_of b) ->
     let '(r, m', o') := h_add_inequality A b indices m o in add_inequality (rd2 m A) (rdn m b) indices (view m o) = (r, view m' o')) /\
  (forall C d indices, exist_in m (concat (a_rows C)) -> exist_in m (addrs_of d) ->
     let '(r, m', o') := h_add_equality C d indices m o in add_equality (rd2 m C) (rdn m d) indices (view m o) = (r, view m' o')) /\
  (forall x indices, exist_in m (addrs_bound x) ->
     let '(r, m', o') := h_add_lower_bound x indices m o in add_lower_bound (rdb m x) indices (view m o) = (r, view m' o')) /\
  (forall x indices, exist_in m (addrs_bound x) ->
     let '(r, m', o') := h_add_upper_bound x indices m o in add_upper_bound (rdb m x) indices (view m o) = (r, view m' o')) /\
  (forall x y indices, exist_in m (addrs_bound x) -> exist_in m (addrs_bound y) ->
     let '(r, m', o') := h_add_bounds x y indices m o in add_bounds (rdb m x) (rdb m y) indices (view m o) = (r, view m' o')) /\
  (forall q, let '(r, m', o') := h_query np q m o in ask np q (view m o) = (r, view m' o')) /\
  (let '(r, m', o') := h_remove_redundant_inequalities np m o in remove_redundant_inequalities np (view m o) = (r, view m' o')) /\
  (forall o2, exist_in m (addrs o2) -> let '(r, m', o3) := h_intersection o o2 m in
     intersection (view m o) (view m o2) = match r with Ok _ => Ok (view m' o3) | Err e => Err e end) /\
  (forall i, ncols (pA (view m o)) <> 1%nat -> let '(r, m', o3) := h_facet i o m in
     facet_center np (view m o) i = match r with Ok _ => fst (get_center np (view m' o3)) | Err e => Err e end) /\
  (forall A b C d, exist_in m (args (ONew A b C d)) -> let (ro, m') := h_Polyhedron m A b C d in
     Polyhedron (rd2 m A) (rdn m b) (option_map (rd2 m) C) (option_map (rdn m) d) = match ro with Ok o1 => Ok (view m' o1) | Err e => Err e end) /\
  (forall tol, NoDup (addrs o) -> length (a_rows (o_A o)) = length (o_b o) -> length (a_rows (o_C o)) = length (o_d o) ->
     let '(r, m', o') := h_normalize tol m o in r = Ok tt /\ view m' o' = normalize tol (view m o)).
Proof. exact (value_model np m o). Qed.
Print Assumptions C55_value_model.

(** In every history of calls -- copies, intersections, facets, new polyhedra that store arrays of the caller, queries, and additions or removals of constraints on objects created during the history, but no normalization -- every array that existed before keeps its contents, and every polyhedron that existed before keeps its arrays, their contents and its cached values, also when calls raise *)
Theorem C55_mutation np l :
  forall h, heap_ok h -> args_exist np h l -> (forall c, In c l -> normalizes c = false) ->
  (forall c k, In c l -> target c = Some k -> (length (objs h) <= k)%nat) ->
  let h' := execs np h l in
  (forall a, exist_in (mem h) a -> rd (mem h') a = rd (mem h) a) /\
  (forall j o, nth_error (objs h) j = Some o -> nth_error (objs h') j = Some o /\ view (mem h') o = view (mem h) o).
Proof. exact (mutation np l). Qed.
Print Assumptions C55_mutation.

(** Normalizing a polyhedron rebinds nothing, and changes no array and no polyhedron that has no entry in common with the four arrays of the normalized one *)
Theorem C55_visible tol m o :
  let '(_, m', o') := h_normalize tol m o in o' = o /\
  (forall a, ~ shares a (addrs o) -> rd m' a = rd m a) /\ (forall o2, ~ shares (addrs o2) (addrs o) -> view m' o2 = view m o2).
Proof. exact (visible tol m o). Qed.
Print Assumptions C55_visible.

(** The polyhedron returned by intersection has no entry in common with any array that existed before *)
Theorem C55_intersection_shares_nothing m p1 p2 :
  exist_in m (addrs p1) -> exist_in m (addrs p2) -> let '(r, m', p3) := h_intersection p1 p2 m in
  (r = Ok tt -> forall a, exist_in m a -> ~ shares (addrs p3) a) /\ forall a, exist_in m a -> rd m' a = rd m a.
Proof. exact (intersection_shares_nothing m p1 p2). Qed.
Print Assumptions C55_intersection_shares_nothing.

(** In every history of calls, normalizations included, on polyhedra made by intersection (or from new arrays, or by copying such polyhedra), nothing that existed before changes: arrays keep their contents, polyhedra their arrays, contents and cached values *)
Theorem C55_derived np l h :
  heap_ok h -> args_exist np h l ->
  (forall c k, In c l -> target c = Some k \/ base c = Some k -> (length (objs h) <= k)%nat) ->
  (forall A b C d a, In (ONew A b C d) l -> In a (args (ONew A b C d)) -> (length (mem h) <= a)%nat) ->
  let h' := execs np h l in
  (forall a, exist_in (mem h) a -> rd (mem h') a = rd (mem h) a) /\
  (forall j o, nth_error (objs h) j = Some o -> nth_error (objs h') j = Some o /\ view (mem h') o = view (mem h) o).
Proof. exact (derived np l h). Qed.
Print Assumptions C55_derived.

(** As long as polyhedra that share arrays share whole pairs (A, b) or (C, d) -- as copies do -- no history of calls on any polyhedra changes the set of points of a polyhedron, except the calls that add constraints to it or remove constraints from it; in particular normalizing a copy does not change the set of the original *)
Theorem C55_sets np l :
  forall h, heap_ok h -> tidy h -> tidy_calls np h l -> forall j o, nth_error (objs h) j = Some o -> (forall c, In c l -> edits c <> Some j) ->
  exists o', nth_error (objs (execs np h l)) j = Some o' /\ forall x, in_poly (view (mem (execs np h l)) o') x <-> in_poly (view (mem h) o) x.
Proof. exact (sets np l). Qed.
Print Assumptions C55_sets.

(** same_rows changes no array that has no entry in common with its two arguments; without normalize it changes nothing; with normalize, when the arguments do not overlap and no row is zero, it returns what the value model returns and leaves both arguments of the caller normalized *)
Theorem C55_same_rows m A B :
  (forall r m', h_same_rows m A B false = Some (r, m') -> m' = m /\ r = same_rows (rd2 m A) (rd2 m B) false) /\
  (forall r m' a, h_same_rows m A B true = Some (r, m') -> ~ shares a (concat (a_rows A) ++ concat (a_rows B)) -> rd m' a = rd m a) /\
  (length (a_rows A) = length (a_rows B) -> NoDup (concat (a_rows A) ++ concat (a_rows B)) -> exist_in m (concat (a_rows A) ++ concat (a_rows B)) ->
   (forall r, In r (a_rows A) \/ In r (a_rows B) -> norm (rd m r) <> 0) ->
   exists m', h_same_rows m A B true = Some (same_rows (rd2 m A) (rd2 m B) true, m') /\ rows (rd2 m' A) = map unit_row (rows (rd2 m A)) /\ rows (rd2 m' B) = map unit_row (rows (rd2 m B))).
Proof. exact (same_rows_heap m A B). Qed.
Print Assumptions C55_same_rows.

(** Two polyhedra made from the same matrix A and two vectors: normalizing the first changes the set of points of the second *)
Theorem C55_shared_matrix_refuted :
  exists h o1 o2 x, heap_ok h /\ nth_error (objs h) 0 = Some o1 /\ nth_error (objs h) 1 = Some o2 /\ o_A o1 = o_A o2 /\ ~ shares (o_b o1) (addrs o2) /\
  forall np, let h' := exec np h (ONormalize 0 tol7) in ~ in_poly (view (mem h) o2) x /\ nth_error (objs h') 1 = Some o2 /\ in_poly (view (mem h') o2) x.
Proof. exact (shared_matrix_refuted). Qed.
Print Assumptions C55_shared_matrix_refuted.

(** A polyhedron whose right-hand side is a column of its matrix (b = A[:,0]): normalize changes its own set of points *)
Theorem C55_view_refuted :
  exists m o x, exist_in m (addrs o) /\ length (a_rows (o_A o)) = length (o_b o) /\ in_poly (view m o) x /\
  let '(r, m', o') := h_normalize tol7 m o in r = Ok tt /\ ~ in_poly (view m' o') x.
Proof. exact (view_refuted). Qed.
Print Assumptions C55_view_refuted.

(** a polyhedron 2 x <= 2: the hypotheses of C55_mutation, C55_derived and C55_sets hold of histories that intersect, add, copy and normalize; the copy's normalization rewrites the arrays of the original to x <= 1, the set stays *)
Example C55_example np :
  let o := obj_ineqs (Arr2 1 [[0%nat]]) [1%nat] in let h := Hp [2; 2] [o] in
  let l1 := [OIntersection 0 0; OAddUpper 1 (HFloat (/ 2)) None; OCopy 0; OAddUpper 2 (HFloat (/ 2)) None] in
  let l2 := [OIntersection 0 0; OAddUpper 1 (HFloat (/ 2)) None; ONormalize 1 tol7] in
  let l3 := [OCopy 0; ONormalize 1 tol7; OAddUpper 1 (HFloat (/ 2)) None] in
  heap_ok h /\ tidy h /\ args_exist np h l1 /\ args_exist np h l2 /\ tidy_calls np h l3 /\
  (forall c, In c l1 -> normalizes c = false) /\ (forall c k, In c l1 -> target c = Some k -> (1 <= k)%nat) /\ (forall c k, In c l2 -> target c = Some k \/ base c = Some k -> (1 <= k)%nat) /\ (forall c, In c l3 -> edits c <> Some 0%nat) /\
  length (objs (execs np h l2)) = 2%nat /\ view (mem (execs np h l3)) o = Poly (Mat 1 [[1]]) [1] (Mat 1 []) [] None None None None None.
Proof. exact (heap_example np). Qed.
