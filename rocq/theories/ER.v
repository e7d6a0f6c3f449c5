(** * Extended reals: exact arithmetic with infinities and NaN

    Used for statements about what the numerical code computes when rounding is left out.
    Differences from IEEE: no rounding, no overflow or underflow, a single zero (so
    [1/0] is always [+inf]); infinities and NaN propagate as in IEEE. *)
From Coq Require Import ZArith Reals Bool.
From Verif Require Import Num.
Local Open Scope R_scope.

(** Values of a C++ [double] (/repo/src/maq.cpp 176-762 and the other numerical files),
    simplified as said above. *)
Inductive er : Type := NaN | PInf | MInf | Fin (r : R).

(** [<] on finite values (as at maq.cpp 385). *)
Definition Rltb (a b : R) : bool := if Rlt_dec a b then true else false.
(** [<=] on finite values (as at maq.cpp 203). *)
Definition Rleb (a b : R) : bool := if Rle_dec a b then true else false.
(** [==] on finite values (as at maq.cpp 176). *)
Definition Reqb (a b : R) : bool := if Req_EM_T a b then true else false.

(** Unary minus; used for subtraction (as at maq.cpp 176). *)
Definition er_opp (a : er) : er :=
  match a with NaN => NaN | PInf => MInf | MInf => PInf | Fin x => Fin (- x) end.

(** [+] on [double] (as at maq.cpp 192). *)
Definition er_add (a b : er) : er :=
  match a, b with
  | NaN, _ | _, NaN => NaN
  | PInf, MInf | MInf, PInf => NaN
  | PInf, _ | _, PInf => PInf
  | MInf, _ | _, MInf => MInf
  | Fin x, Fin y => Fin (x + y)
  end.

(** [-] on [double] (as at maq.cpp 176). *)
Definition er_sub (a b : er) : er := er_add a (er_opp b).

(** [x] times plus infinity. Part of [*] on [double] (as at maq.cpp 387). *)
Definition er_inf_times (x : R) : er :=
  if Rltb 0 x then PInf else if Rltb x 0 then MInf else NaN.

(** [*] on [double] (as at maq.cpp 387). *)
Definition er_mul (a b : er) : er :=
  match a, b with
  | NaN, _ | _, NaN => NaN
  | PInf, PInf | MInf, MInf => PInf
  | PInf, MInf | MInf, PInf => MInf
  | PInf, Fin x | Fin x, PInf => er_inf_times x
  | MInf, Fin x | Fin x, MInf => er_opp (er_inf_times x)
  | Fin x, Fin y => Fin (x * y)
  end.

(** [/] on [double] (as at maq.cpp 176). *)
Definition er_div (a b : er) : er :=
  match a, b with
  | NaN, _ | _, NaN => NaN
  | PInf, (PInf | MInf) | MInf, (PInf | MInf) => NaN
  | Fin _, (PInf | MInf) => Fin 0
  | PInf, Fin y => if Rltb y 0 then MInf else PInf
  | MInf, Fin y => if Rltb y 0 then PInf else MInf
  | Fin x, Fin y => if Reqb y 0 then er_inf_times x else Fin (x / y)
  end.

(** [fabs], [std::abs] (as at maq.cpp 736). *)
Definition er_abs (a : er) : er :=
  match a with NaN => NaN | PInf | MInf => PInf | Fin x => Fin (Rabs x) end.

(** [<] on [double]: false if either side is NaN (as at maq.cpp 385). *)
Definition er_ltb (a b : er) : bool :=
  match a, b with
  | NaN, _ | _, NaN => false
  | MInf, MInf => false | MInf, _ => true
  | PInf, _ => false
  | Fin _, PInf => true | Fin _, MInf => false
  | Fin x, Fin y => Rltb x y
  end.

(** [==] on [double]: false if either side is NaN (as at maq.cpp 176). *)
Definition er_eqb (a b : er) : bool :=
  match a, b with
  | PInf, PInf | MInf, MInf => true
  | Fin x, Fin y => Reqb x y
  | _, _ => false
  end.

(** [<=] on [double]: false if either side is NaN (as at maq.cpp 203). *)
Definition er_leb (a b : er) : bool :=
  match a, b with
  | NaN, _ | _, NaN => false
  | MInf, _ => true
  | PInf, PInf => true | PInf, _ => false
  | Fin _, PInf => true | Fin _, MInf => false
  | Fin x, Fin y => Rleb x y
  end.

(** [std::isnan] (as at maq.cpp 623). *)
Definition er_isnan (a : er) : bool := match a with NaN => true | _ => false end.

(** The operations of /repo/src/maq.cpp 176-762 on extended reals; the casts to [float]
    are exact. *)
Definition ER : Num := {|
  num := er;
  nadd := er_add;
  nsub := er_sub;
  nmul := er_mul;
  ndiv := er_div;
  nabs := er_abs;
  nltb := er_ltb;
  nleb := er_leb;
  neqb := er_eqb;
  nisnan := er_isnan;
  nofZ := fun z => Fin (IZR z);
  nfloat := fun z => Fin (IZR z);
  nfdiv := fun i n => er_div (Fin (IZR i)) (Fin (IZR n));
  ninf := PInf;
  nnan := NaN;
  neps := Fin (/ 4503599627370496)
|}.
