(** * Mpqp: model of pympc/optimization/parametric_programs.py:1-532 (multi-parametric quadratic programs)

    The dictionaries H, f, A of a program are the fields of the record [mpqp].
    The blocks are assumed to have coherent shapes (the constructor does not check them; numpy raises ValueError
    at the first incoherent product).  Indices of active sets are nonnegative. *)
From Verif Require Import Arr Spec Numpy Pnnls GeomUtils Polyhedron.

(** parametric_programs.py:34-40 (the attributes) *)
Record mpqp : Type := MPQP {
  q_Huu : mat; q_Hux : mat; q_Hxx : mat;
  q_fu : vec; q_fx : vec; q_g : R;
  q_Au : mat; q_Ax : mat; q_b : vec;
  q_Huu_inv : mat
}.

(** parametric_programs.py:262-290 *)
Record critical_region : Type := CR {
  cr_active : list nat;
  cr_ux : mat; cr_u0 : vec;
  cr_px : mat; cr_p0 : vec;
  cr_Vxx : mat; cr_Vx : vec; cr_V0 : R;
  cr_poly : poly
}.

(** [l[idx] = vals] for a list l and a list of distinct or repeated indices (the last assignment wins) *)
Fixpoint upd {A} (i : nat) (v : A) (l : list A) : list A :=
  match l, i with
  | [], _ => []
  | _ :: l', O => v :: l'
  | a :: l', S i' => a :: upd i' v l'
  end.
Definition scatter {A} (l : list A) (idx : list nat) (vals : list A) : list A :=
  fold_left (fun l iv => upd (fst iv) (snd iv) l) (combine idx vals) l.

(** parametric_programs.py:349-364: CriticalRegion.u; 366-381: CriticalRegion.p; 383-400: CriticalRegion.V *)
Definition cr_u (c : critical_region) (x : vec) : vec := vadd (mv (cr_ux c) x) (cr_u0 c).
Definition cr_p (c : critical_region) (x : vec) : vec := vadd (mv (cr_px c) x) (cr_p0 c).
Definition cr_V (c : critical_region) (x : vec) : R := / 2 * dot x (mv (cr_Vxx c) x) + dot (cr_Vx c) x + cr_V0 c.
(** parametric_programs.py:292-306 *)
Definition cr_contains (c : critical_region) (x : vec) : res bool := contains tol7 (cr_poly c) x.

Section Mpqp.
Variable np : numpy.

(** parametric_programs.py:18-40 *)
Definition MultiParametricQuadraticProgram (Huu Hux Hxx : mat) (fu fx : vec) (g : R) (Au Ax : mat) (b : vec) : res mpqp :=
  Hi <- np_inv np Huu ;; Ok (MPQP Huu Hux Hxx fu fx g Au Ax b Hi).

(** parametric_programs.py:42-116.  None when the rows of Au in the active set are not independent. *)
Definition explicit_solve_given_active_set (q : mpqp) (active_set : list nat) : res (option critical_region) :=
  let m := nrows (q_Ax q) in
  if negb (forallb (fun i => Nat.ltb i (nrows (q_Au q))) active_set) then Err IndexError else
  let Aua := mtake (q_Au q) active_set in
  if ((0 <? length active_set)%nat && (np_rank np Aua <? nrows Aua)%nat)%bool then Ok None else
  let inactive_set := filter (fun i => negb (existsb (Nat.eqb i) active_set)) (seq 0 m) in
  let Aui := mtake (q_Au q) inactive_set in
  let Axa := mtake (q_Ax q) active_set in
  let Axi := mtake (q_Ax q) inactive_set in
  let ba := vtake (q_b q) active_set in
  let bi := vtake (q_b q) inactive_set in
  let Hi := q_Huu_inv q in
  M <- np_inv np (mm (mm Aua Hi) (tr Aua)) ;;
  let pax := mm M (msub Axa (mm (mm Aua Hi) (q_Hux q))) in
  let pa0 := vneg (mv M (vadd ba (mv (mm Aua Hi) (q_fu q)))) in
  let px := Mat (ncols (q_Ax q)) (scatter (rows (zmat m (ncols (q_Ax q)))) active_set (rows pax)) in
  let p0 := scatter (zeros m) active_set pa0 in
  let ux := mneg (mm Hi (madd (q_Hux q) (mm (tr Aua) pax))) in
  let u0 := vneg (mv Hi (vadd (q_fu q) (mv (tr Aua) pa0))) in
  let Acr := vstack (mneg pax) (madd (mm Aui ux) Axi) in
  let bcr := pa0 ++ vsub bi (mv Aui u0) in
  cr <- Polyhedron Acr (D1 bcr) None None ;;
  let Vxx := madd (madd (mm (mm (tr ux) (q_Huu q)) ux) (mscale 2 (mm (tr (q_Hux q)) ux))) (q_Hxx q) in
  let Vx := vadd (vadd (mv (madd (mm (tr ux) (tr (q_Huu q))) (tr (q_Hux q))) u0) (mv (tr ux) (q_fu q))) (q_fx q) in
  let V0 := / 2 * dot u0 (mv (q_Huu q) u0) + dot (q_fu q) u0 + q_g q in
  Ok (Some (CR active_set ux u0 px p0 Vxx Vx V0 (normalize tol7 cr))).

(** parametric_programs.py:155-179 *)
Definition mpqp_solve (q : mpqp) (x : vec) : res sol :=
  let f := vadd (mv (q_Hux q) x) (q_fu q) in
  let b := vsub (q_b q) (mv (q_Ax q) x) in
  s <- qp np (q_Huu q) f (q_Au q) b None None ;;
  Ok match s_min s with
     | Some v => Sol (Some (v + (/ 2 * dot x (mv (q_Hxx q) x) + dot (q_fx q) x + q_g q)))
                     (s_argmin s) (s_active_set s) (s_multiplier_inequality s) (s_multiplier_equality s)
     | None => s
     end.

(** parametric_programs.py:118-153 *)
Definition explicit_solve_given_point (q : mpqp) (x : vec) (active_set_guess : option (list nat)) : res (option critical_region) :=
  let by_qp := s <- mpqp_solve q x ;;
               match s_active_set s with
               | None => Ok None
               | Some act => explicit_solve_given_active_set q act
               end in
  match active_set_guess with
  | None => by_qp
  | Some guess =>
      c <- explicit_solve_given_active_set q guess ;;
      match c with
      | None => by_qp
      | Some cr => b <- cr_contains cr x ;; if b : bool then Ok (Some cr) else by_qp
      end
  end.

(** parametric_programs.py:320-347.  In one dimension the result is the float b[i]/A[i][0], here a vector with one
    entry (adding the float to an array of size one gives the same array). *)
Definition facet_center (p : poly) (i : nat) : res (option vec) :=
  if Nat.eqb (ncols (pA p)) 1 then Ok (Some [nth i (pb p) 0 / nth 0 (row (pA p) i) 0])
  else
    facet <- run_on (Ok p) (add_equality (Mat (ncols (pA p)) (slice i (S i) (rows (pA p)))) (D1 (slice i (S i) (pb p))) None) ;;
    fst (get_center np facet).

(** [any([cr.contains(x) for cr in crs])]: the list is built first *)
Definition covered (crs : list critical_region) (x : vec) : res bool :=
  bs <- mapM (fun c => cr_contains c x) crs ;; Ok (existsb (fun b => b) bs).
(** [[x for x in x_buffer if not any(..)]] *)
Fixpoint uncovered (crs : list critical_region) (buf : list (vec * list nat)) : res (list (vec * list nat)) :=
  match buf with
  | [] => Ok []
  | xg :: buf' =>
      c <- covered crs (fst xg) ;;
      buf'' <- uncovered crs buf' ;;
      Ok (if c : bool then buf'' else xg :: buf'')
  end.
(** [sorted(list(set(active_set).symmetric_difference({i})))] *)
Fixpoint insert (i : nat) (l : list nat) : list nat :=
  match l with [] => [i] | a :: l' => if (i <=? a)%nat then i :: l else a :: insert i l' end.
Definition sort (l : list nat) : list nat := fold_right insert [] l.
Definition flip (act : list nat) (i : nat) : list nat :=
  let s := nodup Nat.eq_dec act in
  sort (if existsb (Nat.eqb i) s then remove Nat.eq_dec i s else i :: s).

(** parametric_programs.py:202-236; [fuel] bounds the number of iterations of the [while] loop *)
Fixpoint explicit_loop (fuel : nat) (step : R) (q : mpqp) (buf : list (vec * list nat)) (crs : list critical_region) : res (list critical_region) :=
  match fuel with
  | O => Err OutOfFuel
  | S fuel' =>
      match buf with
      | [] => Ok crs
      | _ =>
          buf' <- uncovered crs buf ;;
          match buf' with
          | [] => Ok crs
          | (x, guess) :: rest =>
              c <- explicit_solve_given_point q x (Some guess) ;;
              match c with
              | None => explicit_loop fuel' step q rest crs
              | Some cr =>
                  match minimal_facets np tol7 (cr_poly cr) with
                  | (Err e, _) => Err e
                  | (Ok None, _) => Err TypeError
                  | (Ok (Some mf), p') =>
                      new <- mapM (fun i =>
                               ctr <- facet_center p' i ;;
                               match ctr with
                               | None => Err TypeError
                               | Some ctr => Ok (vadd ctr (vscale step (row (pA p') i)), flip (cr_active cr) i)
                               end) mf ;;
                      let cr' := CR (cr_active cr) (cr_ux cr) (cr_u0 cr) (cr_px cr) (cr_p0 cr) (cr_Vxx cr) (cr_Vx cr) (cr_V0 cr) p' in
                      explicit_loop fuel' step q (rest ++ new) (crs ++ [cr'])
                  end
              end
          end
      end
  end.
(** parametric_programs.py:181-241; the default step is 1.e-5 *)
Definition explicit_solve (fuel : nat) (step : R) (q : mpqp) : res (list critical_region) :=
  explicit_loop fuel step q [(zeros (length (q_fx q)), [])] [].
End Mpqp.

(** parametric_programs.py:426-463: an ExplicitSolution is its list of regions *)
Fixpoint get_critical_region (crs : list critical_region) (x : vec) : res (option critical_region) :=
  match crs with
  | [] => Ok None
  | c :: crs' => b <- cr_contains c x ;; if b : bool then Ok (Some c) else get_critical_region crs' x
  end.
(** parametric_programs.py:465-532 *)
Definition es_eval {A} (ev : critical_region -> vec -> A) (crs : list critical_region) (x : vec) : res (option A) :=
  c <- get_critical_region crs x ;; Ok (match c with Some c => Some (ev c x) | None => None end).
Definition es_u := es_eval cr_u.
Definition es_p := es_eval cr_p.
Definition es_V := es_eval cr_V.
