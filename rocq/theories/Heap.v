(** * Heap: arrays shared between polyhedra and callers (numpy aliasing)

    Polyhedron.v treats arrays as values.  Here an array is a table of addresses in a memory of floats, so that views
    (slices, columns, transposes) and objects that hold the same array are described exactly;
    a Polyhedron object holds references to the four arrays A, b, C, d.
    Cached attributes are kept by value: callers that write into the array returned by [center], or into the list returned by
    [vertices], are not modelled.  Arrays of integers and read-only arrays are not modelled. *)
From Coq Require Import ZArith.
From Verif Require Import Arr Spec Numpy Pnnls GeomUtils Polyhedron.

Record arr2 : Type := Arr2 { a_cols : nat; a_rows : list (list nat) }.
Inductive harr : Type := H1 (a : list nat) | H2 (A : arr2).

(** reading arrays *)
Definition rd (m : list R) (a : list nat) : vec := map (fun k => nth k m 0) a.
Definition rd2 (m : list R) (A : arr2) : mat := Mat (a_cols A) (map (rd m) (a_rows A)).
Definition rdn (m : list R) (a : harr) : nd := match a with H1 a => D1 (rd m a) | H2 A => D2 (rd2 m A) end.

(** writing a vector into an array, one entry after the other *)
Fixpoint put (k : nat) (v : R) (m : list R) {struct m} : list R :=
  match m, k with
  | [], _ => []
  | _ :: m', 0 => v :: m'
  | x :: m', S k' => x :: put k' v m'
  end.
Definition wr (m : list R) (a : list nat) (v : vec) : list R := fold_left (fun m kv => put (fst kv) (snd kv) m) (combine a v) m.

(** new arrays: np.vstack, np.concatenate, A.dot(S), -S, A[list], np.zeros return arrays that share nothing *)
Definition new1 (m : list R) (v : vec) : list R * list nat := (m ++ v, seq (length m) (length v)).
Fixpoint new_rows (m : list R) (rs : list vec) : list R * list (list nat) :=
  match rs with
  | [] => (m, [])
  | r :: rs' => let (m1, a) := new1 m r in let (m2, l) := new_rows m1 rs' in (m2, a :: l)
  end.
Definition new2 (m : list R) (A : mat) : list R * arr2 := let (m1, l) := new_rows m (rows A) in (m1, Arr2 (ncols A) l).
Definition newn (m : list R) (a : nd) : list R * harr :=
  match a with
  | D1 v => let (m, a) := new1 m v in (m, H1 a)
  | D2 M => let (m, A) := new2 m M in (m, H2 A)
  end.

Record obj : Type := Obj {
  o_A : arr2; o_b : list nat; o_C : arr2; o_d : list nat;
  o_empty : option bool; o_bounded : option bool; o_radius : option R; o_center : option vec; o_vertices : option (list vec)
}.
(** the object as the value that Polyhedron.v works on *)
Definition view (m : list R) (o : obj) : poly :=
  Poly (rd2 m (o_A o)) (rd m (o_b o)) (rd2 m (o_C o)) (rd m (o_d o)) (o_empty o) (o_bounded o) (o_radius o) (o_center o) (o_vertices o).
Definition o_set_A (o : obj) (A : arr2) : obj := Obj A (o_b o) (o_C o) (o_d o) (o_empty o) (o_bounded o) (o_radius o) (o_center o) (o_vertices o).
Definition o_set_b (o : obj) (b : list nat) : obj := Obj (o_A o) b (o_C o) (o_d o) (o_empty o) (o_bounded o) (o_radius o) (o_center o) (o_vertices o).
Definition o_set_C (o : obj) (C : arr2) : obj := Obj (o_A o) (o_b o) C (o_d o) (o_empty o) (o_bounded o) (o_radius o) (o_center o) (o_vertices o).
Definition o_set_d (o : obj) (d : list nat) : obj := Obj (o_A o) (o_b o) (o_C o) d (o_empty o) (o_bounded o) (o_radius o) (o_center o) (o_vertices o).
(** keep the arrays, take the cached attributes of p *)
Definition o_caches (o : obj) (p : poly) : obj :=
  Obj (o_A o) (o_b o) (o_C o) (o_d o) (p_empty p) (p_bounded p) (p_radius p) (p_center p) (p_vertices p).
(** polyhedron.py:201-211 *)
Definition o_delete (o : obj) : obj := Obj (o_A o) (o_b o) (o_C o) (o_d o) None None None None None.

(** methods: memory and object before, result, memory and object after *)
Definition om (T : Type) : Type := list R -> obj -> res T * list R * obj.
Definition oraise {T} (e : err) : om T := fun m o => (Err e, m, o).

(** polyhedron.py:20-61: the arrays of the caller are stored, not copied *)
Definition h_Polyhedron (m : list R) (A : arr2) (b : harr) (C : option arr2) (d : option harr) : res obj * list R :=
  match b with
  | H2 _ => (Err ValueError, m)
  | H1 b1 =>
      match same_number_rows (rd2 m A) (rdn m b) with
      | Err e => (Err e, m)
      | Ok _ =>
          match C, d with
          | None, None =>
              let (m1, C1) := new2 m (zmat 0 (a_cols A)) in
              let (m2, d1) := new1 m1 (zeros 0) in
              (Ok (Obj A b1 C1 d1 None None None None None), m2)
          | Some C1, Some (H1 d1) =>
              match same_number_rows (rd2 m C1) (D1 (rd m d1)) with
              | Err e => (Err e, m)
              | Ok _ => (Ok (Obj A b1 C1 d1 None None None None None), m)
              end
          | _, _ => (Err ValueError, m)
          end
      end
  end.

(** polyhedron.py:63-86: A and b are rebound to new arrays *)
Definition h_add_inequality (A : arr2) (b : harr) (indices : option (list Z)) : om Datatypes.unit := fun m o =>
  match same_number_rows (rd2 m A) (rdn m b) with
  | Err e => (Err e, m, o)
  | Ok _ =>
      let o1 := o_delete o in
      match np_dot (rd2 m A) (selection_matrix (view m o1) indices) with
      | Err e => (Err e, m, o1)
      | Ok AS =>
          match np_vstack (rd2 m (o_A o1)) AS with
          | Err e => (Err e, m, o1)
          | Ok A' =>
              let (m1, A1) := new2 m A' in
              let o2 := o_set_A o1 A1 in
              match np_concat (rd m1 (o_b o2)) (rdn m1 b) with
              | Err e => (Err e, m1, o2)
              | Ok b' => let (m2, b1) := new1 m1 b' in (Ok tt, m2, o_set_b o2 b1)
              end
          end
      end
  end.
(** polyhedron.py:102-125 *)
Definition h_add_equality (C : arr2) (d : harr) (indices : option (list Z)) : om Datatypes.unit := fun m o =>
  match same_number_rows (rd2 m C) (rdn m d) with
  | Err e => (Err e, m, o)
  | Ok _ =>
      let o1 := o_delete o in
      match np_dot (rd2 m C) (selection_matrix (view m o1) indices) with
      | Err e => (Err e, m, o1)
      | Ok CS =>
          match np_vstack (rd2 m (o_C o1)) CS with
          | Err e => (Err e, m, o1)
          | Ok C' =>
              let (m1, C1) := new2 m C' in
              let o2 := o_set_C o1 C1 in
              match np_concat (rd m1 (o_d o2)) (rdn m1 d) with
              | Err e => (Err e, m1, o2)
              | Ok d' => let (m2, d1) := new1 m1 d' in (Ok tt, m2, o_set_d o2 d1)
              end
          end
      end
  end.

(** bounds: a float or an array of the caller *)
Inductive hbound : Type := HFloat (x : R) | HArr (a : harr).
Definition rdb (m : list R) (x : hbound) : bound := match x with HFloat r => BFloat r | HArr a => BArr (rdn m a) end.
(** polyhedron.py:155-156, 176-177: an array of the caller is used as it is *)
Definition h_bound_array (m : list R) (x : hbound) : list R * harr :=
  match x with HFloat r => newn m (D1 [r]) | HArr a => (m, a) end.
(** polyhedron.py:141-160 *)
Definition h_add_lower_bound (x_min : hbound) (indices : option (list Z)) : om Datatypes.unit := fun m o =>
  let (m1, a) := h_bound_array m x_min in
  let (m2, S) := new2 m1 (mneg (selection_matrix (view m1 o) indices)) in
  let (m3, b) := newn m2 (nd_neg (rdn m2 a)) in
  h_add_inequality S b None m3 o.
(** polyhedron.py:162-181 *)
Definition h_add_upper_bound (x_max : hbound) (indices : option (list Z)) : om Datatypes.unit := fun m o =>
  let (m1, a) := h_bound_array m x_max in
  let (m2, S) := new2 m1 (selection_matrix (view m1 o) indices) in
  h_add_inequality S a None m2 o.
(** polyhedron.py:183-199 *)
Definition h_add_bounds (x_min x_max : hbound) (indices : option (list Z)) : om Datatypes.unit := fun m o =>
  match h_add_lower_bound x_min indices m o with
  | (Ok _, m1, o1) => h_add_upper_bound x_max indices m1 o1
  | (Err e, m1, o1) => (Err e, m1, o1)
  end.

(** polyhedron.py:391-394 and 398-401: in place, one row after the other.  [bs] are the addresses of b[0], b[1], ...;
    IndexError if there are fewer than needed, after the row of A has been written. *)
Fixpoint normalize_loop (tol : R) (m : list R) (rs : list (list nat)) (bs : list nat) : res Datatypes.unit * list R :=
  match rs with
  | [] => (Ok tt, m)
  | a :: rs' =>
      let r := norm (rd m a) in
      if Rltb tol r then
        let m1 := wr m a (map (fun x => x / r) (rd m a)) in
        match bs with
        | [] => (Err IndexError, m1)
        | k :: bs' => normalize_loop tol (put k (nth k m1 0 / r) m1) rs' bs'
        end
      else normalize_loop tol m rs' (tl bs)
  end.
(** polyhedron.py:379-401 *)
Definition h_normalize (tol : R) : om Datatypes.unit := fun m o =>
  match normalize_loop tol m (a_rows (o_A o)) (o_b o) with
  | (Ok _, m1) => match normalize_loop tol m1 (a_rows (o_C o)) (o_d o) with (r, m2) => (r, m2, o) end
  | (Err e, m1) => (Err e, m1, o)
  end.

(** the methods and properties that only read the arrays and may set cached attributes:
    empty (polyhedron.py:505-526), bounded (528-576), radius (687-705), center (707-725), vertices (770-824), minimal_facets (403-450) *)
Inductive query : Type := QEmpty | QBounded | QRadius | QCenter | QVertices | QFacets (tol : R).
Definition ask (np : numpy) (q : query) : pm Datatypes.unit :=
  match q with
  | QEmpty => get_empty np ;! pret tt
  | QBounded => get_bounded np ;! pret tt
  | QRadius => get_radius np ;! pret tt
  | QCenter => get_center np ;! pret tt
  | QVertices => get_vertices np ;! pret tt
  | QFacets tol => minimal_facets np tol ;! pret tt
  end.
Definition h_query (np : numpy) (q : query) : om Datatypes.unit := fun m o =>
  let (r, p) := ask np q (view m o) in (r, m, o_caches o p).
(** polyhedron.py:452-466: self.A[minimal_facets] is a new array *)
Definition h_remove_redundant_inequalities (np : numpy) : om Datatypes.unit := fun m o =>
  match minimal_facets np tol7 (view m o) with
  | (Err e, p) => (Err e, m, o_caches o p)
  | (Ok None, p) => (Err ValueError, m, o_caches o p)
  | (Ok (Some mf), p) =>
      let o1 := o_caches o p in
      let (m1, A1) := new2 m (mtake (rd2 m (o_A o1)) mf) in
      let o2 := o_set_A o1 A1 in
      let (m2, b1) := new1 m1 (vtake (rd m1 (o_b o2)) mf) in
      (Ok tt, m2, o_set_b o2 b1)
  end.

(** polyhedron.py:643-663: [copy] gives an object with the same references *)
Definition h_intersection (p1 p2 : obj) (m : list R) : res Datatypes.unit * list R * obj :=
  match h_add_inequality (o_A p1) (H1 (o_b p1)) None m p2 with
  | (Ok _, m1, p3) => h_add_equality (o_C p1) (H1 (o_d p1)) None m1 p3
  | (Err e, m1, p3) => (Err e, m1, p3)
  end.
(** parametric_programs.py:337-347: the arguments of add_equality are views of A and b *)
Definition h_facet (i : nat) (p : obj) (m : list R) : res Datatypes.unit * list R * obj :=
  h_add_equality (Arr2 (a_cols (o_A p)) (slice i (S i) (a_rows (o_A p)))) (H1 (slice i (S i) (o_b p))) None m p.

(** geometry/utils.py:119-122.  None: a row of norm zero is filled with nan, which this memory does not hold.
    IndexError cannot occur since the numbers of rows have been compared. *)
Fixpoint same_rows_loop (m : list R) (A B : list (list nat)) : option (list R) :=
  match A, B with
  | a :: A', b :: B' =>
      let ra := norm (rd m a) in
      if Reqb ra 0 then None
      else
        let m1 := wr m a (map (fun x => x / ra) (rd m a)) in
        let rb := norm (rd m1 b) in
        if Reqb rb 0 then None
        else same_rows_loop (wr m1 b (map (fun x => x / rb) (rd m1 b))) A' B'
  | _, _ => Some m
  end.
(** geometry/utils.py:94-131 *)
Definition h_same_rows (m : list R) (A B : arr2) (normalize : bool) : option (res bool * list R) :=
  if negb (Nat.eqb (length (a_rows A)) (length (a_rows B))) then Some (Ok false, m)
  else if normalize then
    match same_rows_loop m (a_rows A) (a_rows B) with
    | None => None
    | Some m1 => Some (same_rows (rd2 m1 A) (rd2 m1 B) false, m1)
    end
  else Some (same_rows (rd2 m A) (rd2 m B) false, m).

(** ** Programs: histories of calls *)
Record heap : Type := Hp { mem : list R; objs : list obj }.
Inductive op : Type :=
| ONew (A : arr2) (b : harr) (C : option arr2) (d : option harr)  (* Polyhedron(A, b, C, d) *)
| OArray (v : vec)                                                (* the caller makes an array *)
| OCopy (k : nat)                                                 (* copy(objs[k]) *)
| OIntersection (k1 k2 : nat)                                     (* objs[k1].intersection(objs[k2]) *)
| OFacet (k i : nat)                                              (* the copy made by facet_center *)
| OAddInequality (k : nat) (A : arr2) (b : harr) (indices : option (list Z))
| OAddEquality (k : nat) (C : arr2) (d : harr) (indices : option (list Z))
| OAddLower (k : nat) (x : hbound) (indices : option (list Z))
| OAddUpper (k : nat) (x : hbound) (indices : option (list Z))
| OAddBounds (k : nat) (x y : hbound) (indices : option (list Z))
| ORemove (k : nat)
| OQuery (k : nat) (q : query)
| ONormalize (k : nat) (tol : R).

(** call a method of an existing object; NameError if there is no such object *)
Definition put_obj (k : nat) (o : obj) (l : list obj) : list obj := firstn k l ++ o :: skipn (S k) l.
Definition on {T} (k : nat) (c : om T) (h : heap) : heap :=
  match nth_error (objs h) k with
  | None => h
  | Some o => match c (mem h) o with (_, m, o') => Hp m (put_obj k o' (objs h)) end
  end.
(** make a new object; when the call raises, the object is dropped *)
Definition made (h : heap) (r : res Datatypes.unit * list R * obj) : heap :=
  match r with
  | (Ok _, m, o) => Hp m (objs h ++ [o])
  | (Err _, m, _) => Hp m (objs h)
  end.
(** one call; exceptions are caught by the caller, who carries on *)
Definition exec (np : numpy) (h : heap) (c : op) : heap :=
  match c with
  | ONew A b C d => match h_Polyhedron (mem h) A b C d with
                    | (Ok o, m) => Hp m (objs h ++ [o])
                    | (Err _, m) => Hp m (objs h)
                    end
  | OArray v => Hp (mem h ++ v) (objs h)
  | OCopy k => match nth_error (objs h) k with None => h | Some o => Hp (mem h) (objs h ++ [o]) end
  | OIntersection k1 k2 => match nth_error (objs h) k1, nth_error (objs h) k2 with
                           | Some p1, Some p2 => made h (h_intersection p1 p2 (mem h))
                           | _, _ => h
                           end
  | OFacet k i => match nth_error (objs h) k with None => h | Some p => made h (h_facet i p (mem h)) end
  | OAddInequality k A b indices => on k (h_add_inequality A b indices) h
  | OAddEquality k C d indices => on k (h_add_equality C d indices) h
  | OAddLower k x indices => on k (h_add_lower_bound x indices) h
  | OAddUpper k x indices => on k (h_add_upper_bound x indices) h
  | OAddBounds k x y indices => on k (h_add_bounds x y indices) h
  | ORemove k => on k (h_remove_redundant_inequalities np) h
  | OQuery k q => on k (h_query np q) h
  | ONormalize k tol => on k (h_normalize tol) h
  end.
Definition execs (np : numpy) (h : heap) (l : list op) : heap := fold_left (exec np) l h.
