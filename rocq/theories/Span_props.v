(** * C105: ranges for recorders in double precision *)
From Coq Require Import ZArith Reals List Lra Floats.SpecFloat.
From Flocq Require Import Core BinarySingleNaN.
From Verif Require Import Num Double_spec Totals Totals_spec Totals_proofs7 Spread_spec Spread_proofs4 Loglog_spec Ranges Span Span_spec Span_proofs Span_proofs2 Span_proofs3 Span_proofs4.
Import ListNotations.
Local Open Scope R_scope.

(** A linear range has the number of values asked for, rises, and each value is right but for the
    rounding of the additions before it; if it is not too narrow, and of at most 65537 values. For
    one that is too narrow see [C50_rounding_refuted]. *)
Theorem C105_linear :
  forall (M : R) (start stop : F64) (count : Z), spans M start stop -> (2 <= count <= 65537)%Z ->
    exists l, yields (fun fuel => linrange F64 fuel start stop count) l /\ nearly_even M start stop count l /\ climbing l.
Proof. exact linear_span. Qed.
Print Assumptions C105_linear.

(** A linear range that falls is empty, whatever the count; one with equal ends never ends. *)
Theorem C105_falling_fails :
  forall (start stop : F64) (count : Z), between (- bpow radix2 900) (bpow radix2 900) start -> between (- bpow radix2 900) (bpow radix2 900) stop ->
    (2 <= count < 2 ^ 31)%Z ->
    (real stop < real start -> yields (fun fuel => linrange F64 fuel start stop count) []) /\
    (real stop = real start -> forall fuel, linrange F64 fuel start stop count = Unfinished).
Proof. exact falling_all. Qed.
Print Assumptions C105_falling_fails.

(** A stepped range whose steps end within a quarter of a step of its end has exactly these steps,
    and each value is right but for the rounding of the additions before it. *)
Theorem C105_stepped :
  forall (M : R) (start stop step : F64) (m : nat), strides M start stop step m ->
    exists l, yields (fun fuel => frange F64 fuel start stop step) l /\ nearly_stepped M start step m l /\ climbing l.
Proof. exact stepped_double. Qed.
Print Assumptions C105_stepped.

(** A logarithmic range has the number of values asked for, and each is right to a [2^-39]th; they
    rise or fall if the ends are a [2^-20]th apart. *)
Theorem C105_log :
  forall (log ex : F64 -> F64) (start stop : F64) (count : Z), accurate log -> exponential ex -> ordinary start -> ordinary stop ->
    (2 <= count <= 65537)%Z ->
    exists l, logrange64 log ex start stop count = Values l /\ nearly_geometric start stop count l /\
      (real start * (1 + bpow radix2 (-20)) <= real stop -> climbing l) /\
      (real stop * (1 + bpow radix2 (-20)) <= real start -> descending l).
Proof. exact log_double. Qed.
Print Assumptions C105_log.

(** One that starts at zero or below is refused. *)
Theorem C105_log_refused :
  forall (log ex : F64 -> F64) (start stop : F64) (count : Z), nleb F64 start (nofZ F64 0) = true -> logrange64 log ex start stop count = Raised.
Proof. exact log_unusable. Qed.
Print Assumptions C105_log_refused.

(** Ends that meet the hypotheses; from zero to one, and from one to three. *)
Example C105_ok : spans 1 (nofZ F64 0) (nofZ F64 1) /\ (2 <= 11 <= 65537)%Z.
Proof. exact span_example. Qed.

Example C105_falling_ok :
  between (- bpow radix2 900) (bpow radix2 900) (nofZ F64 3) /\ between (- bpow radix2 900) (bpow radix2 900) (nofZ F64 1) /\
  real (nofZ F64 1) < real (nofZ F64 3) /\ (2 <= 5 < 2 ^ 31)%Z.
Proof. exact falling_example. Qed.

Example C105_stepped_ok : strides 12 (nofZ F64 0) (nofZ F64 12) (nofZ F64 3) 4.
Proof. exact stepped_example. Qed.

Example C105_log_ok :
  accurate rounded_log /\ exponential rounded_exp /\ ordinary (nofZ F64 1) /\ ordinary (nofZ F64 3) /\
  real (nofZ F64 1) * (1 + bpow radix2 (-20)) <= real (nofZ F64 3) /\ nleb F64 (SFopp (nofZ F64 1)) (nofZ F64 0) = true.
Proof. exact log_example. Qed.
