(** * Numbers

    SLAT computes with C++ [double]s (and, inside the searches of maq.cpp, with
    [float] casts).  The model is written against a record of operations, with no laws
    attached, so that what is proved for every [Num] holds whatever the arithmetic does.
    [F64] is IEEE binary64 from the standard library's [SpecFloat]; [ER.v] gives the
    extended reals. *)
From Coq Require Import ZArith Bool.
From Coq Require Import Floats.SpecFloat.

(** The operations on [double] used by /repo/src/maq.cpp:141-147 and 176-762. *)
Record Num : Type := mkNum {
  num :> Type;
  nadd : num -> num -> num;            (* a + b *)
  nsub : num -> num -> num;            (* a - b *)
  nmul : num -> num -> num;            (* a * b *)
  ndiv : num -> num -> num;            (* a / b *)
  nabs : num -> num;                   (* std::abs *)
  nltb : num -> num -> bool;           (* a < b; false if either is NaN *)
  nleb : num -> num -> bool;           (* a <= b; false if either is NaN *)
  neqb : num -> num -> bool;           (* a == b; false if either is NaN *)
  nisnan : num -> bool;                (* std::isnan *)
  nofZ : Z -> num;                     (* conversion of an integer to double *)
  nfloat : Z -> num;                   (* double(float(i)): maq.cpp:211,212,253,254 *)
  nfdiv : Z -> Z -> num;               (* double(float(i)/n): maq.cpp:205,247,290,307,352 *)
  ninf : num;                          (* INFINITY *)
  nnan : num;                          (* NAN *)
  neps : num                           (* std::numeric_limits<double>::epsilon() *)
}.

(** ** IEEE binary64 *)

(** Format of the C++ [double] (/repo/src/maq.cpp 176-762; IEEE binary64). *)
Definition f64_prec : Z := 53.
(** As above (/repo/src/maq.cpp 176-762). *)
Definition f64_emax : Z := 1024.
(** Format of the C++ [float] (the casts at /repo/src/maq.cpp 205, 247; IEEE binary32). *)
Definition f32_prec : Z := 24.
(** As above (/repo/src/maq.cpp 205, 247). *)
Definition f32_emax : Z := 128.

(** Conversion of an integer to binary64, round to nearest even.
    Implicit in [/ intervals], /repo/src/maq.cpp 211. *)
Definition f64_ofZ (z : Z) : spec_float := binary_normalize f64_prec f64_emax z 0 false.

(** Conversion of an integer to binary32 (the C++ cast [float(i)]).
    /repo/src/maq.cpp 205. *)
Definition f32_ofZ (z : Z) : spec_float := binary_normalize f32_prec f32_emax z 0 false.

(** Promotion of a binary32 value to binary64 (exact).
    [c = float(i)/intervals], /repo/src/maq.cpp 205. *)
Definition f64_promote (x : spec_float) : spec_float :=
  match x with
  | S754_finite s m e =>
      binary_normalize f64_prec f64_emax (if s then Zneg m else Zpos m) e s
  | _ => x
  end.

(** [std::isnan]. /repo/src/maq.cpp 623. *)
Definition f64_isnan (x : spec_float) : bool :=
  match x with S754_nan => true | _ => false end.

(** The operations of /repo/src/maq.cpp 176-762 as IEEE 754 defines them, rounding to
    nearest even; the payload and sign of NaN are left out. *)
Definition F64 : Num := {|
  num := spec_float;
  nadd := SFadd f64_prec f64_emax;
  nsub := SFsub f64_prec f64_emax;
  nmul := SFmul f64_prec f64_emax;
  ndiv := SFdiv f64_prec f64_emax;
  nabs := SFabs;
  nltb := SFltb;
  nleb := SFleb;
  neqb := SFeqb;
  nisnan := f64_isnan;
  nofZ := f64_ofZ;
  nfloat := fun i => f64_promote (f32_ofZ i);
  nfdiv := fun i n => f64_promote (SFdiv f32_prec f32_emax (f32_ofZ i) (f32_ofZ n));
  ninf := S754_infinity false;
  nnan := S754_nan;
  neps := S754_finite false 4503599627370496 (-104)
|}.
