(** * What is expected of log-log tables in double precision (C101) *)
From Coq Require Import ZArith Reals List Floats.SpecFloat.
From Flocq Require Import Core BinarySingleNaN.
From Verif Require Import Num Double_spec Totals Totals_spec Spread_spec Tabled_spec.
Import ListNotations.
Local Open Scope R_scope.

(** Positive arguments and ordinates within wide bounds. *)
Definition ordinary (x : F64) : Prop := between (bpow radix2 (-400)) (bpow radix2 400) x.

(** The points of a log-log table: ordinary, and in strictly increasing order. *)
Definition plotted (xs ys : list F64) : Prop :=
  List.length xs = List.length ys /\ (2 <= List.length xs)%nat /\ Forall ordinary xs /\ Forall ordinary ys /\
  forall i x x', nth_error xs i = Some x -> nth_error xs (S i) = Some x' -> real x < real x'.

(** Every argument is greater than the last by a [2^-38]th part, at least. *)
Definition spaced (xs : list F64) : Prop :=
  forall i x x', nth_error xs i = Some x -> nth_error xs (S i) = Some x' -> real x * (1 + bpow radix2 (-38)) <= real x'.

(** Two neighbouring points with [x] between them. *)
Definition inside (xs ys : list F64) (x x0 x1 y0 y1 : R) : Prop :=
  exists i, point xs ys i x0 y0 /\ point xs ys (S i) x1 y1 /\ x0 <= x <= x1.

(** The power of [x] through two points, in logarithms: its slope. *)
Definition slope (x0 x1 y0 y1 : R) : R := (ln y1 - ln y0) / (ln x1 - ln x0).
(** Its value, in logarithms. *)
Definition power_line (x0 x1 y0 y1 x : R) : R := ln y0 + slope x0 x1 y0 y1 * (ln x - ln x0).
