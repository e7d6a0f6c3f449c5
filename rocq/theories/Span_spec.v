(** * What is expected of linear ranges in double precision (C105) *)
From Coq Require Import ZArith Reals List Floats.SpecFloat.
From Flocq Require Import Core BinarySingleNaN.
From Verif Require Import Num Double_spec Totals Totals_spec Ranges.
Import ListNotations.
Local Open Scope R_scope.

(** The ends of a rising range, of which neither is more than [M] from zero and which are at least
    an [M/1024] apart. *)
Definition spans (M : R) (start stop : F64) : Prop :=
  between (- M) M start /\ between (- M) M stop /\ bpow radix2 (-900) <= M <= bpow radix2 900 /\ M / 1024 <= real stop - real start.

(** The [i]th of [count] evenly spaced values. *)
Definition ideal (start stop : F64) (count : Z) (i : nat) : R :=
  real start + INR i * ((real stop - real start) / IZR (count - 1)).

(** [count] values, the first as given, and the [i]th within [6 i M 2^-52] of the ideal. *)
Definition nearly_even (M : R) (start stop : F64) (count : Z) (l : list F64) : Prop :=
  Z.of_nat (length l) = count /\ nth_error l 0 = Some start /\
  forall i x, nth_error l i = Some x -> double x /\ finite x /\ Rabs (real x - ideal start stop count i) <= 6 * INR i * (bpow radix2 (-52) * M).

(** Every value is greater than the one before. *)
Definition climbing (l : list F64) : Prop :=
  forall i x y, nth_error l i = Some x -> nth_error l (S i) = Some y -> real x < real y.

(** Every value is less than the one before. *)
Definition descending (l : list F64) : Prop :=
  forall i x y, nth_error l i = Some x -> nth_error l (S i) = Some y -> real y < real x.

(** What the generator gives once it is asked for values often enough. *)
Definition yields (run : nat -> generated F64) (l : list F64) : Prop := exists enough, forall fuel, (enough <= fuel)%nat -> run fuel = Values l.

(** The [i]th of [count] values in geometric progression. *)
Definition ideal_log (start stop : F64) (count : Z) (i : nat) : R :=
  real start * Rpower (real stop / real start) (INR i / IZR (count - 1)).

(** [count] values, each right to a [2^-39]th. *)
Definition nearly_geometric (start stop : F64) (count : Z) (l : list F64) : Prop :=
  Z.of_nat (length l) = count /\
  forall i x, nth_error l i = Some x -> double x /\ finite x /\
    Rabs (real x - ideal_log start stop count i) <= bpow radix2 (-39) * ideal_log start stop count i.

(** Ends that [m] steps go from one to the other, but for a quarter of a step; none is more than
    [M] from zero, and the step is not too small beside [M]. *)
Definition strides (M : R) (start stop step : F64) (m : nat) : Prop :=
  between (- M) M start /\ between (- M) M stop /\ between (bpow radix2 (-26) * M) (2 * M) step /\ bpow radix2 (-900) <= M <= bpow radix2 900 /\
  (Z.of_nat m <= 65536)%Z /\ Rabs (real start + INR m * real step - real stop) <= real step / 4.

(** [m + 1] values, the first as given, and the [i]th within [3 i M 2^-52] of [i] steps beyond it. *)
Definition nearly_stepped (M : R) (start step : F64) (m : nat) (l : list F64) : Prop :=
  length l = S m /\ nth_error l 0 = Some start /\
  forall i x, nth_error l i = Some x -> double x /\ finite x /\ Rabs (real x - (real start + INR i * real step)) <= 3 * INR i * (bpow radix2 (-52) * M).
