(** * PropsMcaisProd: the property theorems of this part, restated; proofs are in McaisProdThms.
    Generated by tools/gen_props.py: this file contains only statements, [exact] and Print Assumptions. *)
From Coq Require Import ZArith Classical.
From Verif Require Import Arr ArrFacts Spec SpecDyn Numpy Pnnls PnnlsFacts QpFacts GeomUtils Polyhedron PolyThms Oracle SolverThms NullFacts PolySolveThms PolySetThms PolyBoundThms PolyMore Dynamics DynThms McaisThms McaisLawThms.
From Verif Require Import McaisProdThms.

(** Two systems side by side (block-diagonal A, cartesian product of the polytopes): mcais ends within the larger of the two numbers of iterations, and returns the cartesian product of the results, if no redundancy of the two factors is within the tolerance (then none of the product is). *)
Theorem C106_product np A B X Y m1 m2 n1 n2 :
  exact_np np -> accepted np A X m1 n1 -> accepted np B Y m2 n2 -> np_eig_max np (block_diag [A; B]) <= 1 -> exists Z, cartesian_product X Y = Ok Z /\ accepted np (block_diag [A; B]) Z (m1 + m2) (n1 + n2) /\
  forall f1 f2 O1 O2 X' Y', mcais np f1 A X = (Ok O1, X') -> mcais np f2 B Y = (Ok O2, Y') ->
    exists O Z', mcais np (Nat.max f1 f2) (block_diag [A; B]) Z = (Ok O, Z') /\
      (clear_cut A X m1 n1 -> clear_cut B Y m2 n2 -> forall x y, length x = n1 -> in_poly O (x ++ y) <-> in_poly O1 x /\ in_poly O2 y).
Proof. exact (product_law np A B X Y m1 m2 n1 n2). Qed.
Print Assumptions C106_product.

(** x+ = x/2 with [-1, 1] beside x+ = x/2 with [-2, 2]: the hypotheses hold, mcais ends after one iteration for the product, and (x, y) is in the result iff |x| <= 1 and |y| <= 2. *)
Example C106_product_example np :
  exact_np np -> np_eig_max np A_half <= 1 -> np_eig_max np (block_diag [A_half; A_half]) <= 1 ->
  exists Z O Z', cartesian_product X_box1 X_box2 = Ok Z /\ accepted np (block_diag [A_half; A_half]) Z 4 2 /\ mcais np 1 (block_diag [A_half; A_half]) Z = (Ok O, Z') /\
    forall x y, in_poly O [x; y] <-> -1 <= x <= 1 /\ -2 <= y <= 2.
Proof. exact (product_example np). Qed.
