(** * What is expected of a group's figures in double precision (C96) *)
From Coq Require Import ZArith Reals List Floats.SpecFloat.
From Flocq Require Import Core BinarySingleNaN.
From Verif Require Import Num Double_spec Totals Totals_spec.
Import ListNotations.
Local Open Scope R_scope.

(** A sum of doubles as real numbers. *)
Fixpoint total_of (l : list F64) : R := match l with [] => 0 | x :: r => real x + total_of r end.

(** Probabilities in order: of reaching worse and worse states. *)
Fixpoint falling (l : list F64) : Prop :=
  match l with
  | x :: ((y :: _) as r) => real y <= real x /\ falling r
  | _ => True
  end.

(** What is expected of an exponential: right to nearly the last digit where it does not
    overflow, not below one from zero on, and one at zero. *)
Definition exponential (ex : F64 -> F64) : Prop :=
  forall x, double x -> finite x -> Rabs (real x) <= 600 ->
    double (ex x) /\ finite (ex x) /\ Rabs (real (ex x) - exp (real x)) <= bpow radix2 (-50) * exp (real x) /\
    (0 <= real x -> 1 <= real (ex x)) /\ (real x = 0 -> real (ex x) = 1).

(** Two levels that are the same, or differ by something. *)
Definition apart (x y : F64) : Prop := real x = real y \/ bpow radix2 (-1000) <= Rabs (real x - real y).
