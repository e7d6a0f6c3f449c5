(** * C102: power laws in double precision *)
From Coq Require Import ZArith Reals Floats.SpecFloat.
From Flocq Require Import Core BinarySingleNaN.
From Verif Require Import Num Double_spec Totals Totals_spec Spread_spec Hyperbola_spec Power Power_spec Power_proofs.
Local Open Scope R_scope.

(** Full statement: the value at a positive number is a number. False, whatever the power function:
    beyond the greatest double it is infinite, and not a number if the factor is zero. *)
Theorem C102_beyond_fails :
  forall (pow : F64 -> F64 -> F64) (a b x : F64), lawful pow -> amount a -> number b -> positive x ->
    bpow radix2 1024 <= Rpower (real x) (real b) ->
    (0 < real a -> power pow a b x = S754_infinity false) /\ (real a = 0 -> power pow a b x = S754_nan).
Proof. exact (fun pow a b x LP Pa Nb => p_beyond pow LP a b Pa Nb x). Qed.
Print Assumptions C102_beyond_fails.

Theorem C102_number_refuted :
  forall pow : F64 -> F64 -> F64, lawful pow -> exists a b x, amount a /\ number b /\ positive x /\ ~ finite (power pow a b x).
Proof. exact refute_power_number. Qed.
Print Assumptions C102_number_refuted.

(** What holds: it is where the power is from [2^-600] to [2^500]. *)
Theorem C102_number_partial :
  forall (pow : F64 -> F64 -> F64) (a b x : F64), lawful pow -> amount a -> number b -> positive x ->
    reached (Rpower (real x) (real b)) ->
    let y := power pow a b x in double y /\ finite y /\ 0 <= real y.
Proof. exact (fun pow a b x LP Pa Nb => p_number pow LP a b Pa Nb x). Qed.
Print Assumptions C102_number_partial.

(** At one it is the factor; at zero, for positive exponents, zero. *)
Theorem C102_ends :
  forall (pow : F64 -> F64 -> F64) (a b x : F64), lawful pow -> amount a -> number b ->
    (positive x -> real x = 1 -> real (power pow a b x) = real a) /\
    (0 < real b -> real (power pow a b (S754_zero false)) = 0).
Proof. exact (fun pow a b x LP Pa Nb => conj (p_one pow LP a b Pa Nb x) (p_zero pow LP a b Pa Nb)). Qed.
Print Assumptions C102_ends.

(** It never falls with the argument if the exponent is not negative, and never rises if it is not
    positive: not even in the last bit. *)
Theorem C102_order :
  forall (pow : F64 -> F64 -> F64) (a b x x' : F64), lawful pow -> amount a -> number b -> positive x -> positive x' -> real x <= real x' ->
    reached (Rpower (real x) (real b)) -> reached (Rpower (real x') (real b)) ->
    (0 <= real b -> real (power pow a b x) <= real (power pow a b x')) /\
    (real b <= 0 -> real (power pow a b x') <= real (power pow a b x)).
Proof. exact (fun pow a b x x' LP Pa Nb => p_order pow LP a b Pa Nb x x'). Qed.
Print Assumptions C102_order.

(** It is the power law to 49 binary digits. *)
Theorem C102_right :
  forall (pow : F64 -> F64 -> F64) (a b x : F64), lawful pow -> amount a -> number b -> positive x ->
    reached (Rpower (real x) (real b)) -> bpow radix2 (-400) <= real a ->
    Rabs (real (power pow a b x) - real a * Rpower (real x) (real b)) <= bpow radix2 (-49) * (real a * Rpower (real x) (real b)).
Proof. exact (fun pow a b x LP Pa Nb => p_right pow LP a b Pa Nb x). Qed.
Print Assumptions C102_right.

(** A power function that meets the hypotheses, and the square of three; and a power beyond the
    doubles. *)
Example C102_law_ok :
  lawful rounded_pow /\ amount (nofZ F64 7) /\ number (nofZ F64 2) /\ positive (nofZ F64 3) /\ real (nofZ F64 3) = 3 /\
  bpow radix2 (-400) <= real (nofZ F64 7) /\ Rpower (real (nofZ F64 3)) (real (nofZ F64 2)) = 9 /\ reached 9.
Proof. exact (conj rounded_pow_lawful power_example). Qed.

Example C102_beyond_ok :
  amount (nofZ F64 0) /\ amount (nofZ F64 1) /\ number (nofZ F64 1024) /\ positive (nofZ F64 2) /\
  bpow radix2 1024 <= Rpower (real (nofZ F64 2)) (real (nofZ F64 1024)).
Proof. exact beyond_example. Qed.
