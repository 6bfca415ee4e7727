(** * PropsContract: the property theorems of this part, restated; proofs are in ContractThms.
    Generated by tools/gen_props.py: this file contains only statements, [exact] and Print Assumptions. *)
From Coq Require Import ZArith Classical.
From Verif Require Import Arr ArrFacts Spec SpecProg Numpy Pnnls PnnlsFacts QpFacts Oracle NullFacts SolverThms Gurobi Programs ProgThms GeomThms.
From Verif Require Import ContractThms.

(** the contract of qr assumed by the theorems of C53 can be met for every matrix: it has a factorization with orthonormal columns Q and upper triangular R *)
Theorem C53_contract np M n m :
  shape M n m -> exists Rm, qr_ok (np_qr np Rm) M n m.
Proof. exact (qr_contract np M n m). Qed.
Print Assumptions C53_contract.

(** what C60 assumes of Gurobi can be met for every program, with any arrays: some optimizer gives, on the model built for it, a minimizer with its prices and a consistent basis, or reports failure if there is no minimizer *)
Theorem C60_contract H f A b Co d_o :
  exists grb, gurobi_exact grb H f A b Co d_o.
Proof. exact (gurobi_contract H f A b Co d_o). Qed.
Print Assumptions C60_contract.

(** and what it assumes of Gurobi on mixed-integer programs can be met for every program *)
Theorem C60_integer_contract nc H f A b Co d_o :
  exists grb, forall M, build_model H f A b Co d_o = Ok M -> gsol_ok (set_binary nc M) (grb (set_binary nc M)).
Proof. exact (gurobi_integer_contract nc H f A b Co d_o). Qed.
Print Assumptions C60_integer_contract.
