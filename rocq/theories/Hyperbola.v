(** * Hazard curves in double precision (src/functions.cpp 140-158)

    [NonLinearHyperbolicLaw] as in [Functions.v], but with the operations of IEEE binary64. The
    logarithm and the exponential of the C library are arguments. *)
From Coq Require Import ZArith Floats.SpecFloat.
From Verif Require Import Num.

(** [NonLinearHyperbolicLaw::Evaluate] (functions.cpp 151-158). *)
Definition hyperbola (log exp : F64 -> F64) (v_asy im_asy alpha x : F64) : F64 :=
  if nleb F64 im_asy x then nofZ F64 0
  else nmul F64 v_asy (exp (ndiv F64 alpha (log (ndiv F64 x im_asy)))).
