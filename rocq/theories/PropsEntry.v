(** * PropsEntry: the property theorems of this part, restated; proofs are in EntryThms.
    Generated by tools/gen_props.py: this file contains only statements, [exact] and Print Assumptions. *)
From Coq Require Import Lra Lia.
From Verif Require Import Arr ArrFacts Spec SpecMpc Numpy Pnnls PnnlsFacts GeomUtils Polyhedron PolyThms SolverThms PolySolveThms PolyMore ExampleCtrl.
From Verif Require Import EntryThms.
Local Open Scope list_scope.

(** the big-M constant of row k of one graph over another graph (non-empty, and the row bounded on it) is the greatest violation of the row there, replaced by 0 when its magnitude is below 1e-6 *)
Theorem C57_entry np Pi Pj k m p n x0 M :
  exact_np np -> shape (pA Pi) p n -> (k < p)%nat -> shape (pA Pj) m n -> length (pb Pj) = m ->
  length x0 = n -> vle (mv (pA Pj) x0) (pb Pj) -> (forall x, length x = n -> vle (mv (pA Pj) x) (pb Pj) -> dot (row (pA Pi) k) x <= M) ->
  exists v, greatest (fun x => length x = n /\ vle (mv (pA Pj) x) (pb Pj)) (fun x => dot (row (pA Pi) k) x - nth k (pb Pi) 0) v /\
    (/ 1000000 <= Rabs v -> big_m_entry np Pi Pj k = Ok v) /\ (Rabs v < / 1000000 -> big_m_entry np Pi Pj k = Ok 0).
Proof. exact (entry_value np Pi Pj k m p n x0 M). Qed.
Print Assumptions C57_entry.

(** a big-M constant below 1e-6 does not relax its row: of the graphs x <= 1 and x <= 1 + 5e-7, the point 1 + 5e-7 of the second violates the first row relaxed by its constant, which is 0 *)
Theorem C57_small_refuted np :
  exact_np np -> exists Pi Pj v x, big_m_entry np Pi Pj 0 = Ok v /\ vle (mv (pA Pj) x) (pb Pj) /\ nth 0 (pb Pi) 0 + v < dot (row (pA Pi) 0) x.
Proof. exact (entry_small np). Qed.
Print Assumptions C57_small_refuted.

(** a big-M constant of 2e-6 is kept *)
Example C57_kept_example np :
  exact_np np -> big_m_entry np (half_line 1) (half_line (1 + / 500000)) 0 = Ok (/ 500000).
Proof. exact (entry_kept np). Qed.
