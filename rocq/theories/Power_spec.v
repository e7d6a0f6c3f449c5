(** * What is expected of power laws in double precision (C102) *)
From Coq Require Import ZArith Reals Floats.SpecFloat.
From Flocq Require Import Core BinarySingleNaN.
From Verif Require Import Num Double_spec Totals Totals_spec Spread_spec Hyperbola_spec.
Local Open Scope R_scope.

(** A finite double. *)
Definition number (x : F64) : Prop := double x /\ finite x.

(** Powers far from the smallest and the greatest doubles. *)
Definition reached (r : R) : Prop := bpow radix2 (-600) <= r <= bpow radix2 500.

(** A power function as C libraries have it: right to [2^-50], and one exactly at one; infinite
    where the power is beyond the doubles; zero at zero; and, as a function of the base, never
    falling or never rising, as the exponent has it. *)
Definition lawful (pow : F64 -> F64 -> F64) : Prop :=
  (forall x b, positive x -> number b -> reached (Rpower (real x) (real b)) ->
    double (pow x b) /\ finite (pow x b) /\
    Rabs (real (pow x b) - Rpower (real x) (real b)) <= bpow radix2 (-50) * Rpower (real x) (real b)) /\
  (forall x b, positive x -> number b -> real x = 1 -> real (pow x b) = 1) /\
  (forall x b, positive x -> number b -> bpow radix2 1024 <= Rpower (real x) (real b) -> pow x b = S754_infinity false) /\
  (forall b, number b -> 0 < real b -> pow (S754_zero false) b = S754_zero false) /\
  (forall x x' b, positive x -> positive x' -> number b -> real x <= real x' ->
    reached (Rpower (real x) (real b)) -> reached (Rpower (real x') (real b)) ->
    (0 <= real b -> real (pow x b) <= real (pow x' b)) /\ (real b <= 0 -> real (pow x' b) <= real (pow x b))).
