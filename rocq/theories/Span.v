(** * Logarithmic ranges in double precision (src/pyslat.py 84-87)

    As in [Ranges.v], with the operations of IEEE binary64, which Python and numpy use. [math.log]
    and [math.exp] of positive arguments are arguments. *)
From Coq Require Import List ZArith Floats.SpecFloat.
From Verif Require Import Num Ranges.
Import ListNotations.

(** [math.log] (called at pyslat.py 86, 87), which raises for arguments that are not above zero. *)
Definition checked_log (log : F64 -> F64) (x : F64) : option F64 :=
  if nleb F64 x (nofZ F64 0) then None else Some (log x).

(** An element of the array that [math.exp] is mapped over (pyslat.py 86, 87): numpy's operations on
    whole numbers and doubles. *)
Definition element (a b : F64) (count k : Z) : F64 :=
  nadd F64 a (ndiv F64 (nmul F64 (nofZ F64 k) b) (nofZ F64 (count - 1))).

(** [logrange] (pyslat.py 84-87). Simplified: [math.exp] raises on overflow, which is left out. *)
Definition logrange64 (log exp : F64 -> F64) (start end_ : F64) (count : Z) : generated F64 :=
  match checked_log log start, checked_log log (ndiv F64 end_ start) with
  | Some a, Some b => Values (map (fun k => exp (element a b count k)) (arange count))
  | _, _ => Raised
  end.
