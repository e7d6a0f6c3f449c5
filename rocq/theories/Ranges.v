(** * Ranges of values for recorders

    Source: /repo/src/pyslat.py 70-94 and /repo/src/SlatInterpreter.py 623-648.  The
    stepped and linear ranges are written for any arithmetic, so that they can be
    studied with rounding and without; the logarithmic one with exact arithmetic. *)
From Coq Require Import Reals List ZArith Bool.
From Verif Require Import Num ER ERmath.
Import ListNotations.

(** What a call gives: the values, an exception, or (when the generator is asked for
    [fuel] values) [Unfinished] (pyslat.py 74-94). *)
Inductive generated (A : Type) := Values (l : list A) | Raised | Unfinished.
Arguments Values {A} l.
Arguments Raised {A}.
Arguments Unfinished {A}.

(** The loop of [frange] (pyslat.py 75-78) from [i] on: the values yielded before
    the loop ends, at most [fuel]. *)
Fixpoint frange_from (A : Num) (stop step : A) (fuel : nat) (i : A) : generated A :=
  match fuel with
  | O => Unfinished
  | S n => if nleb A i (nadd A stop (ndiv A step (nofZ A 2)))
           then match frange_from A stop step n (nadd A i step) with
                | Values l => Values (i :: l)
                | r => r
                end
           else Values []
  end.

(** [frange] (pyslat.py 74-78); a Python generator, here run to its end. *)
Definition frange (A : Num) (fuel : nat) (start stop step : A) : generated A :=
  frange_from A stop step fuel start.

(** [linrange] (pyslat.py 93-94): a division by the integer zero raises. *)
Definition linrange (A : Num) (fuel : nat) (start end_ : A) (count : Z) : generated A :=
  if Z.eqb (count - 1) 0 then Raised
  else frange A fuel start end_ (ndiv A (nsub A end_ start) (nofZ A (count - 1))).

(** [math.log] (called at pyslat.py 86, 87), which raises for zero, negative
    arguments and minus infinity. *)
Definition math_log (x : er) : option er :=
  match x with
  | NaN => Some NaN
  | PInf => Some PInf
  | MInf => None
  | Fin r => if Rltb 0 r then Some (er_log x) else None
  end.

(** [math.exp] (called at pyslat.py 85); simplified: it raises on overflow, which
    exact arithmetic does not have. *)
Definition math_exp (x : er) : er := er_exp x.

(** [np.arange(0, count, 1)] (pyslat.py 86). *)
Definition arange (count : Z) : list Z := map Z.of_nat (seq 0 (Z.to_nat count)).

(** [logrange] (pyslat.py 84-87): the division by [count - 1] is one of a numpy
    array, which does not raise; [end/start] is only reached if [start] is positive
    or not a number. *)
Definition logrange (start end_ : er) (count : Z) : generated er :=
  match math_log start, math_log (er_div end_ start) with
  | Some a, Some b =>
      Values (map (fun k => math_exp (er_add a (er_div (er_mul (Fin (IZR k)) b) (Fin (IZR (count - 1))))))
                  (arange count))
  | _, _ => Raised
  end.
