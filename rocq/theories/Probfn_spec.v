(** * What is expected of probabilistic functions in double precision (C103) *)
From Coq Require Import ZArith Reals Floats.SpecFloat.
From Flocq Require Import Core BinarySingleNaN.
From Verif Require Import Num Double_spec Lognormal Totals Totals_spec Spread_spec.
Local Open Scope R_scope.

(** Means and medians; deviations; deviations of the logarithm. *)
Definition location (x : F64) : Prop := between (bpow radix2 (-60)) (bpow radix2 400) x.
Definition width (x : F64) : Prop := between 0 (bpow radix2 400) x.
Definition log_width (x : F64) : Prop := between 0 32 x.

(** A figure that calls give whatever the stack, once it suffices. *)
Definition gives (f : nat -> option F64) (y : F64) : Prop := exists n, forall fuel, (n <= fuel)%nat -> f fuel = Some y.

(** The same but for one part in [2^39]. *)
Definition nearly (y x : F64) : Prop := double y /\ finite y /\ Rabs (real y - real x) <= bpow radix2 (-39) * real x.
