(** * C100: costs over years in double precision *)
From Coq Require Import ZArith Reals Lra Lia Floats.SpecFloat.
From Flocq Require Import Core BinarySingleNaN.
From Verif Require Import Num Double_spec Totals Totals_spec Totals_proofs4 Totals_proofs7 Spread_spec Spread_proofs4
  Hyperbola_spec Hyperbola_proofs3 Discount Discount_spec Discount_proofs.
Local Open Scope R_scope.

(** Costs are numbers, not negative; no years cost nothing. *)
Theorem C100_number :
  forall (ex : F64 -> F64) (mean rate : F64) (y : Z), rising_exp ex -> amount mean -> discount rate -> years y ->
    let c := cost_over ex mean y rate in double c /\ finite c /\ 0 <= real c /\ (y = 0%Z -> real c = 0).
Proof. exact cost_number. Qed.
Print Assumptions C100_number.

(** More years never cost less, not even in the last bit; nor does a greater annual cost. *)
Theorem C100_rises :
  forall (ex : F64 -> F64) (mean mean' rate : F64) (y y' : Z), rising_exp ex -> amount mean -> amount mean' -> discount rate ->
    years y -> years y' -> real mean <= real mean' -> (y <= y')%Z ->
    real (cost_over ex mean y rate) <= real (cost_over ex mean' y' rate).
Proof. exact cost_both. Qed.
Print Assumptions C100_rises.

(** They are the present values, to nearly all digits of the cost of all years to come. *)
Theorem C100_right :
  forall (ex : F64 -> F64) (mean rate : F64) (y : Z), rising_exp ex -> amount mean -> discount rate -> years y ->
    Rabs (real (cost_over ex mean y rate) - present_value (real mean) (IZR y) (real rate))
      <= bpow radix2 (-48) * (real mean / real rate) + bpow radix2 (-1074).
Proof. exact (fun ex mean rate y LE Pm Pr Y => cost_right ex mean rate LE Pm Pr y Y). Qed.
Print Assumptions C100_right.

(** Full statement: they are the present values to nearly all of their own digits. False: where
    rate times years is small the digits cancel, and below [2^-55] the cost is nothing, with an
    exponential rounded correctly. *)
Theorem C100_lost_fails :
  forall (ex : F64 -> F64) (mean rate : F64) (y : Z), rising_exp ex -> correct_exp ex -> amount mean -> discount rate -> years y ->
    real rate * IZR y <= bpow radix2 (-55) -> real (cost_over ex mean y rate) = 0.
Proof. exact (fun ex mean rate y LE CE Pm Pr => cost_lost ex mean rate LE Pm Pr y CE). Qed.
Print Assumptions C100_lost_fails.

Theorem C100_digits_refuted :
  exists (ex : F64 -> F64) (mean : F64) (y : Z) (rate : F64), rising_exp ex /\ amount mean /\ discount rate /\ years y /\
    real (cost_over ex mean y rate) = 0 /\
    real mean * IZR y / 2 <= present_value (real mean) (IZR y) (real rate) /\ 0 < real mean * IZR y.
Proof. exact refute_years. Qed.
Print Assumptions C100_digits_refuted.

(** What holds: 47 digits, less one for every digit that rate times years is below one. *)
Theorem C100_digits_partial :
  forall (ex : F64 -> F64) (mean rate : F64) (y k : Z), rising_exp ex -> amount mean -> discount rate -> years y ->
    (0 <= k)%Z -> bpow radix2 (- k) <= real rate * IZR y ->
    Rabs (real (cost_over ex mean y rate) - present_value (real mean) (IZR y) (real rate))
      <= bpow radix2 (k - 47) * present_value (real mean) (IZR y) (real rate) + bpow radix2 (-1074).
Proof. exact cost_digits. Qed.
Print Assumptions C100_digits_partial.

(** Without discount the cost, which should be the annual one times the years, is no number. *)
Theorem C100_undiscounted_fails :
  forall (ex : F64 -> F64) (mean : F64) (y : Z) (s : bool), exponential ex -> amount mean -> years y ->
    cost_over ex mean y (S754_zero s) = S754_nan.
Proof. exact cost_zero_rate. Qed.
Print Assumptions C100_undiscounted_fails.

(** Non-vacuity: exponentials rounded correctly meet the laws; 6% for 50 years is well within. *)
Definition six : F64 := ndiv F64 (nofZ F64 6) (nofZ F64 100).
Example C100_laws : rising_exp rounded_exp /\ correct_exp rounded_exp /\ exponential rounded_exp.
Proof. exact (conj rounded_rising_exp (conj rounded_correct (proj1 rounded_rising_exp))). Qed.
Example C100_case : discount six /\ years 50 /\ years 0 /\ amount (nofZ F64 7) /\ bpow radix2 (- 0) <= real six * IZR 50.
Proof. exact six_case. Qed.
Example C100_small : discount slow /\ years 12 /\ real slow * IZR 12 <= bpow radix2 (-55).
Proof. exact slow_case. Qed.
