(** * Double precision numbers

    Independent of the model's functions. *)
From Coq Require Import ZArith Floats.SpecFloat.
From Verif Require Import Num.

(** One of the numbers a [double] can hold: [SpecFloat]'s type has others, such as
    mantissas of more than 53 bits. *)
Definition double (x : F64) : Prop := valid_binary 53 1024 x = true.

(** Not below zero: zero of either sign, positive, infinite or not a number. *)
Definition not_negative (x : F64) : Prop := nltb F64 x (S754_zero false) = false.

(** Zero or finite. *)
Definition finite (x : F64) : Prop :=
  match x with S754_zero _ | S754_finite _ _ _ => True | _ => False end.
