(** * What is expected of distributions and functions with the same parameters (C104) *)
From Coq Require Import ZArith Floats.SpecFloat.
From Verif Require Import Num Lognormal.

(** The kinds of parameters that make a distribution. *)
Definition usable (mt : mu_type) (st : sigma_type) : Prop := st = SD_LN_X \/ mt = MEAN_X.

(** Not zero, of either sign. *)
Definition some_mean (x : F64) : Prop := forall b, x <> S754_zero b.

(** Not a negative number; perhaps not a number. *)
Definition no_negative (x : F64) : Prop := match x with S754_finite true _ _ | S754_infinity true => False | _ => True end.
