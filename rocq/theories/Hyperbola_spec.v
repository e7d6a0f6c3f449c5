(** * What is expected of hazard curves in double precision (C99) *)
From Coq Require Import ZArith Reals Floats.SpecFloat.
From Flocq Require Import Core BinarySingleNaN.
From Verif Require Import Num Double_spec Totals Totals_spec Spread_spec.
Local Open Scope R_scope.

(** A logarithm that is accurate, never falls, and is infinite at zero. *)
Definition rising_log (log : F64 -> F64) : Prop :=
  accurate log /\ (forall s, log (S754_zero s) = S754_infinity true) /\
  forall x y, double x -> finite x -> double y -> finite y -> 0 < real x <= real y -> real (log x) <= real (log y).

(** An exponential that is accurate, and for arguments that are not positive never falls and is
    between zero and one. *)
Definition rising_exp (ex : F64 -> F64) : Prop :=
  exponential ex /\
  (forall x, double x -> finite x -> real x <= 0 -> double (ex x) /\ finite (ex x) /\ 0 <= real (ex x) <= 1) /\
  forall x y, double x -> finite x -> double y -> finite y -> real x <= real y <= 0 -> real (ex x) <= real (ex y).

(** A positive finite double. *)
Definition positive (x : F64) : Prop := double x /\ finite x /\ 0 < real x.

(** A finite double that is not negative. *)
Definition natural (x : F64) : Prop := double x /\ finite x /\ 0 <= real x.

(** The curve: nothing from [im] on, [v] at zero, hyperbolic in the logarithm between. *)
Definition curve (v im alpha x r : R) : Prop :=
  (im <= x /\ r = 0) \/ (x = 0 /\ r = v) \/ (0 < x < im /\ r = v * exp (alpha / ln (x / im))).
