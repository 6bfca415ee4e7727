(** * Programs: model of pympc/optimization/programs.py

    The drake wrappers are not imported (programs.py:7 is a comment), so that naming them raises NameError;
    pympc/optimization/solvers/drake.py is in [Drake]. *)
From Coq Require Import String.
From Verif Require Import Arr Numpy Pnnls Gurobi.

Section Programs.
Variable np : numpy.
Variable grb : gmodel -> gsol.

(** programs.py:9-55, default solver 'pnnls' *)
Definition linear_program (f : vec) (A : mat) (b : vec) (C : option mat) (d : option vec) (solver : string) : res sol :=
  if String.eqb solver "pnnls" then Pnnls.linear_program np tol7 f A b C d
  else if String.eqb solver "gurobi" then Gurobi.linear_program grb f A b C d
  else if String.eqb solver "drake" then Err NameError
  else Err ValueError.

(** programs.py:57-105, default solver 'pnnls' *)
Definition quadratic_program (H : mat) (f : vec) (A : mat) (b : vec) (C : option mat) (d : option vec) (solver : string) : res sol :=
  if String.eqb solver "pnnls" then Pnnls.quadratic_program np tol7 H f A b C d
  else if String.eqb solver "gurobi" then Gurobi.quadratic_program grb tol5 H f A b C d
  else if String.eqb solver "drake" then Err NameError
  else Err ValueError.

(** programs.py:107-150, default solver 'gurobi' *)
Definition mixed_integer_quadratic_program (nc : nat) (H : mat) (f : vec) (A : mat) (b : vec)
  (C : option mat) (d : option vec) (solver : string) : res (option R * option vec) :=
  if String.eqb solver "gurobi" then Gurobi.mixed_integer_quadratic_program grb nc H f A b C d
  else if String.eqb solver "drake" then Err NameError
  else Err ValueError.
End Programs.
