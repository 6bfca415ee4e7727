(** * PropsRows: the property theorems of this part, restated; proofs are in RowsThms.
    Generated by tools/gen_props.py: this file contains only statements, [exact] and Print Assumptions. *)
From Coq Require Import Permutation.
From Verif Require Import Arr ArrFacts Spec SpecGeom Numpy PnnlsFacts GeomUtils GeomThms.
From Verif Require Import RowsThms.

(** same_rows on two matrices with the same number m > 0 of rows and different numbers of columns n, p >= 1: if neither has one column it raises ValueError, if one has a single column its entries are stretched along the rows of the other and the rows matched as in C52_same_rows_partial, so the answer may be True *)
Theorem C52_widths A B m n p nz :
  shape A m n -> shape B m p -> (0 < m)%nat -> (0 < n)%nat -> (0 < p)%nat -> n <> p ->
  ((n <> 1)%nat -> (p <> 1)%nat -> same_rows A B nz = Err ValueError) /\
  (n = 1%nat -> exists b, same_rows A B nz = Ok b /\ (b = true <-> matched_in_order [] (wide_left p nz) (rows A) (rows B))) /\
  (p = 1%nat -> exists b, same_rows A B nz = Ok b /\ (b = true <-> matched_in_order [] (wide_right n nz) (rows A) (rows B))).
Proof. exact (same_rows_widths A B m n p nz). Qed.
Print Assumptions C52_widths.

(** a matrix with one column and a matrix with two columns are reported to have the same rows, in both orders, although no row of one is close to a row of the other *)
Theorem C52_widths_refuted :
  same_rows (Mat 1 [[1]]) (Mat 2 [[1; 1]]) false = Ok true /\ same_rows (Mat 2 [[1; 1]]) (Mat 1 [[1]]) false = Ok true /\
  ~ matched close [[1]] [[1; 1]] /\ ~ matched close [[1; 1]] [[1]].
Proof. exact (same_rows_broadcast). Qed.
Print Assumptions C52_widths_refuted.
