(** * PropsFta: the property theorems of this part, restated; proofs are in FtaThms.
    Generated by tools/gen_props.py: this file contains only statements, [exact] and Print Assumptions. *)
From Coq Require Import Reals Lra Lia List Classical Ring.
From Verif Require Import FtaThms.
Local Open Scope R_scope.
