(** * Round64: float64 arithmetic

    IEEE 754 binary64, rounding to nearest, ties to even, gradual underflow, as defined by the Flocq library; no overflow. *)
From Flocq Require Import Core.
From Coq Require Import Reals.

(** numpy's float64: the result of one operation whose exact value is x *)
Definition binary64 (x : R) : R := round radix2 (FLT_exp (-1074) 53) ZnearestE x.
(** x is the value of a float64 *)
Definition float64 (x : R) : Prop := binary64 x = x.
(** unit roundoff and half of the least positive float *)
Definition u64 : R := / 2 ^ 53.
Definition eta64 : R := / 2 ^ 1075.
