(** * Log-log tables in double precision (src/functions.cpp 229-278; GSL interpolation/interp.c)

    [LogLogInterpolatedFn] as in [Functions.v], but with the operations of IEEE binary64. The
    logarithm and the exponential of the C library are arguments. The search and the formula are
    those of [Tabled.v].

    Simplifications: those of [Tabled.v]. *)
From Coq Require Import List ZArith Bool Floats.SpecFloat.
From Verif Require Import Num Tabled.
Import ListNotations.

(** The check of [gsl_interp_init] (GSL interpolation/interp.c; called from functions.cpp 247):
    arguments that do not increase strictly are an error, at which the GSL's handler ends the
    program. *)
Fixpoint increasing (l : list F64) : bool :=
  match l with
  | a :: ((b :: _) as r) => nltb F64 a b && increasing r
  | _ => true
  end.

(** [LogLogInterpolatedFn::LogLogInterpolatedFn] (functions.cpp 234-248): the logarithms of the
    points; [None]: the program ends. *)
Definition loglog_new (log : F64 -> F64) (xs ys : list F64) : option (list F64 * list F64) :=
  if increasing (map log xs) then Some (map log xs, map log ys) else None.

(** [gsl_spline_eval_e] (GSL interpolation/interp.c, [gsl_interp_eval_e]; called from functions.cpp
    273): not a number outside the table; else value and new state of the accelerator. *)
Definition spline_eval (lx ly : list F64) (x : F64) (cache : nat) : option (F64 * nat) :=
  if nltb F64 x (at_ lx 0) || nltb F64 (at_ lx (length lx - 1)) x then Some (nnan F64, cache)
  else match accel_find lx x cache with
       | None => None
       | Some i => Some (segment (at_ lx i) (at_ lx (S i)) (at_ ly i) (at_ ly (S i)) x, i)
       end.

(** [LogLogInterpolatedFn::Evaluate] (functions.cpp 265-278) of the table made by [loglog_new], from
    an accelerator state: value and new state. *)
Definition loglog_at (log exp : F64 -> F64) (xs ys lx ly : list F64) (x : F64) (cache : nat) : option (F64 * nat) :=
  let n := (length xs - 1)%nat in
  if nltb F64 x (at_ xs 0) then Some (at_ ys 0, cache)
  else if nltb F64 (at_ xs n) x then Some (at_ ys n, cache)
  else match spline_eval lx ly (log x) cache with
       | None => None
       | Some (y, c) => Some (exp y, c)
       end.
