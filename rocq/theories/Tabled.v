(** * Tables in double precision (src/functions.cpp 177-227; GSL interpolation/accel.c, bsearch.c,
    linear.c)

    [LinearInterpolatedFn] as in [Functions.v], but with the operations of IEEE binary64, each of
    which rounds.

    Simplifications: those of [Functions.v]: one thread; the counters of the accelerator are left
    out. *)
From Coq Require Import List ZArith Bool Floats.SpecFloat.
From Verif Require Import Num.
Import ListNotations.

(** Reading an array; never beyond its end (functions.cpp 217-224). *)
Definition at_ (l : list F64) (i : nat) : F64 := nth i l (nnan F64).

(** [gsl_interp_bsearch] (GSL interpolation/bsearch.c; used through functions.cpp 224). [None]:
    out of fuel. *)
Fixpoint bsearch (fuel : nat) (xs : list F64) (x : F64) (lo hi : nat) : option nat :=
  match fuel with
  | O => None
  | S fuel =>
      if (S lo <? hi)%nat then
        let i := ((hi + lo) / 2)%nat in
        if nltb F64 x (at_ xs i) then bsearch fuel xs x lo i else bsearch fuel xs x i hi
      else Some lo
  end.

(** [gsl_interp_accel_find] (GSL interpolation/accel.c; called from functions.cpp 224): the index
    of the interval, remembered for the next call. *)
Definition accel_find (xs : list F64) (x : F64) (cache : nat) : option nat :=
  if nltb F64 x (at_ xs cache) then bsearch (length xs) xs x 0 cache
  else if nleb F64 (at_ xs (S cache)) x then bsearch (length xs) xs x cache (length xs - 1)
  else Some cache.

(** The formula of [linear_eval] (GSL interpolation/linear.c; called from functions.cpp 224). *)
Definition segment (x_lo x_hi y_lo y_hi x : F64) : F64 :=
  let dx := nsub F64 x_hi x_lo in
  if nltb F64 (nofZ F64 0) dx
  then nadd F64 y_lo (nmul F64 (ndiv F64 (nsub F64 x x_lo) dx) (nsub F64 y_hi y_lo))
  else nofZ F64 0.

(** [LinearInterpolatedFn::Evaluate] (functions.cpp 213-227) from an accelerator state: value and
    new state. *)
Definition evaluate (xs ys : list F64) (x : F64) (cache : nat) : option (F64 * nat) :=
  let n := (length xs - 1)%nat in
  if nltb F64 x (at_ xs 0) then Some (at_ ys 0, cache)
  else if nltb F64 (at_ xs n) x then Some (at_ ys n, cache)
  else match accel_find xs x cache with
       | None => None
       | Some i => Some (segment (at_ xs i) (at_ xs (S i)) (at_ ys i) (at_ ys (S i)) x, i)
       end.
