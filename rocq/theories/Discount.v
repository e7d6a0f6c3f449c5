(** * Cost over years in double precision (src/structure.cpp 150-153)

    [Structure::E_cost] as in [Group.v], but with the operations of IEEE binary64. The exponential
    of the C library is an argument; the mean of the annual cost is given. *)
From Coq Require Import ZArith Floats.SpecFloat.
From Verif Require Import Num.

(** [Structure::E_cost] (structure.cpp 150-153): the year is an [int], converted to [double]. *)
Definition cost_over (exp : F64 -> F64) (mean : F64) (year : Z) (rate : F64) : F64 :=
  nmul F64 (ndiv F64 (nsub F64 (nofZ F64 1) (exp (nmul F64 (SFopp rate) (nofZ F64 year)))) rate) mean.
