(** * What a range found in double precision is, and integrands of moderate size

    Independent of the model's searches. *)
From Coq Require Import ZArith Floats.SpecFloat.
From Verif Require Import Num Maq Double_spec.

(** The transformed range starts at 0 (x infinite) and ends at 1 (x = 0). *)
Definition zero : F64 := S754_zero false.
Definition one : F64 := S754_finite false 4503599627370496 (-52).

(** The integrand at the point [t] of the transformed range. *)
Definition at_point (f : F64 -> F64) (t : F64) : F64 :=
  f (if neqb F64 t zero then S754_infinity false else nsub F64 (ndiv F64 one t) one).

(** The threshold below which integrands count as nothing, 2^-52. *)
Definition threshold : F64 := S754_finite false 4503599627370496 (-104).

(** What each method promises of some point of the range. *)
Definition promised (f : F64 -> F64) (m : method) (t : F64) : Prop :=
  match m with
  | BINARY_SUBDIVISION | REVERSE_BINARY_SUBDIVISION | LOW_FIRST_REVERSE_BINARY_SUBDIVISION =>
      nltb F64 threshold (at_point f t) = true
  | SCATTERED => nleb F64 (at_point f t) threshold = false
  | DIRECTED => (forall x, double x -> nleb F64 zero (f x) = true) -> neqb F64 (at_point f t) zero = false
  end.

(** [a] and [b] are finite doubles, in order; the range is the whole one or has a point
    with the property promised. *)
Definition range_found (f : F64 -> F64) (m : method) (a b : F64) : Prop :=
  double a /\ double b /\ finite a /\ finite b /\ nleb F64 a b = true /\
  ((neqb F64 a zero = true /\ neqb F64 b one = true) \/
   exists t, double t /\ nleb F64 a t = true /\ nleb F64 t b = true /\ promised f m t).

(** At most 2^1000 in size; or not a number, as where zero is divided by a square that
    underflows. *)
Definition moderate (v : F64) : Prop :=
  v = S754_nan \/ nleb F64 (nabs F64 v) (S754_finite false 4503599627370496 948) = true.

(** The integrand, and its image under the substitution x = 1/t - 1, are moderate. *)
Definition moderate_integrand (f : F64 -> F64) : Prop :=
  moderate (f (S754_infinity false)) /\
  forall t, double t -> finite t -> double (at_point f t) /\ moderate (ndiv F64 (at_point f t) (nmul F64 t t)).
