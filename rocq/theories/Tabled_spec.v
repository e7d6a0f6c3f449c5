(** * What is expected of tables in double precision (C98) *)
From Coq Require Import ZArith Reals List Floats.SpecFloat.
From Flocq Require Import Core BinarySingleNaN.
From Verif Require Import Num Double_spec Totals Totals_spec Spread_spec.
Import ListNotations.
Local Open Scope R_scope.

(** A point of a table, as two real numbers. *)
Definition point (xs ys : list F64) (i : nat) (a b : R) : Prop :=
  exists x y, nth_error xs i = Some x /\ nth_error ys i = Some y /\ a = real x /\ b = real y.

(** The points of a table: arguments below [2^400] in size and in increasing order, ordinates
    from 0 to [2^400]; neighbours are not closer than [2^-1000], but ordinates may be equal. *)
Definition fitted (xs ys : list F64) : Prop :=
  List.length xs = List.length ys /\ (2 <= List.length xs)%nat /\
  Forall (between (- bpow radix2 400) (bpow radix2 400)) xs /\ Forall amount ys /\
  (forall i x x', nth_error xs i = Some x -> nth_error xs (S i) = Some x' -> real x + bpow radix2 (-1000) <= real x') /\
  (forall i y y', nth_error ys i = Some y -> nth_error ys (S i) = Some y' -> apart y y').

(** An interval of a table with [x] in it: it ends before the next point, unless that is the
    last. *)
Definition interval (xs ys : list F64) (x x0 x1 y0 y1 : R) : Prop :=
  exists i, point xs ys i x0 y0 /\ point xs ys (S i) x1 y1 /\ x0 <= x /\ (x < x1 \/ x = x1 /\ S (S i) = List.length xs).

(** The straight line through two points. *)
Definition line (x0 x1 y0 y1 x : R) : R := y0 + (x - x0) / (x1 - x0) * (y1 - y0).

(** Before the last bit of an interval. *)
Definition clear (x0 x1 x : R) : Prop := x <= x1 - bpow radix2 (-50) * (x1 - x0).

(** An argument before the last bit of its interval, or with another in the same interval. *)
Definition undisturbed (xs ys : list F64) (x x' : R) : Prop :=
  forall x0 x1 y0 y1, interval xs ys x x0 x1 y0 y1 -> clear x0 x1 x \/ interval xs ys x' x0 x1 y0 y1.

(** Ordinates that rise; those that fall are [falling]. *)
Fixpoint rising (l : list F64) : Prop :=
  match l with
  | x :: ((y :: _) as r) => real x <= real y /\ rising r
  | _ => True
  end.
