(** * Power laws in double precision (src/functions.cpp 160-169)

    [PowerLawParametricCurve] as in [Functions.v], but with the operations of IEEE binary64. The
    power function of the C library is an argument. *)
From Coq Require Import ZArith Floats.SpecFloat.
From Verif Require Import Num.

(** [PowerLawParametricCurve::Evaluate] (functions.cpp 166-169). *)
Definition power (pow : F64 -> F64 -> F64) (a b x : F64) : F64 := nmul F64 a (pow x b).
