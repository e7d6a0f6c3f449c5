(** * What is expected of costs over years in double precision (C100) *)
From Coq Require Import ZArith Reals Floats.SpecFloat.
From Flocq Require Import Core BinarySingleNaN.
From Verif Require Import Num Double_spec Totals Totals_spec Spread_spec Hyperbola_spec.
Local Open Scope R_scope.

(** The present value of an annual cost [m] paid continuously for [y] years, discounted at the
    rate [r]. *)
Definition present_value (m y r : R) : R := (1 - exp (- r * y)) / r * m.

(** Rates of discount: positive, within wide bounds. *)
Definition discount (r : F64) : Prop := between (bpow radix2 (-600)) (bpow radix2 400) r.

(** Numbers of years an [int] can hold, not negative. *)
Definition years (y : Z) : Prop := (0 <= y < 2 ^ 31)%Z.

(** An exponential that is rounded correctly near zero. *)
Definition correct_exp (ex : F64 -> F64) : Prop :=
  forall x, double x -> finite x -> Rabs (real x) <= 600 -> double (ex x) /\ finite (ex x) /\
    forall z, double z -> finite z -> Rabs (real (ex x) - exp (real x)) <= Rabs (real z - exp (real x)).
