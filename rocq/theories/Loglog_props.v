(** * C101: log-log tables in double precision *)
From Coq Require Import ZArith Reals List Floats.SpecFloat.
From Flocq Require Import Core BinarySingleNaN.
From Verif Require Import Num Double_spec Totals Totals_spec Totals_proofs7 Spread_spec Spread_proofs4 Tabled Tabled_spec Hyperbola_spec
  Hyperbola_proofs3 Loglog Loglog_spec Loglog_proofs2 Loglog_proofs4.
Import ListNotations.
Local Open Scope R_scope.

(** Full statement: every table of positive points with strictly increasing arguments can be made.
    False, whatever the logarithm: for two neighbouring doubles it is the same, and the program
    ends. *)
Theorem C101_accepted_refuted :
  forall log : F64 -> F64, rising_log log -> exists xs ys, plotted xs ys /\ loglog_new log xs ys = None.
Proof. exact refute_accepted. Qed.
Print Assumptions C101_accepted_refuted.

(** What holds: it can if neighbouring arguments differ by a [2^-38]th part. *)
Theorem C101_accepted_partial :
  forall (log : F64 -> F64) (xs ys : list F64), rising_log log -> plotted xs ys -> spaced xs ->
    exists lx ly, loglog_new log xs ys = Some (lx, ly).
Proof. exact (fun log xs ys LL PL SP => ex_intro _ _ (ex_intro _ _ (accepted log xs ys LL PL (spaced_steps log xs ys LL PL SP)))). Qed.
Print Assumptions C101_accepted_partial.

(** Once a table is made, spaced or not: the value at any number is a positive number, and the accelerator is left within the table. *)
Theorem C101_number :
  forall (log ex : F64 -> F64) (xs ys lx ly : list F64), rising_log log -> exponential ex -> plotted xs ys ->
    loglog_new log xs ys = Some (lx, ly) ->
    forall (x : F64) (cache : nat), (S cache < List.length xs)%nat -> double x -> finite x ->
    exists y c, loglog_at log ex xs ys lx ly x cache = Some (y, c) /\ (S c < List.length xs)%nat /\ double y /\ finite y /\ 0 < real y.
Proof. exact made_number. Qed.
Print Assumptions C101_number.

(** It does not depend on earlier calls. *)
Theorem C101_history :
  forall (log ex : F64 -> F64) (xs ys lx ly : list F64), rising_log log -> plotted xs ys ->
    loglog_new log xs ys = Some (lx, ly) ->
    forall (x : F64) (c1 c2 : nat) (y1 y2 : F64) (c1' c2' : nat), (S c1 < List.length xs)%nat -> (S c2 < List.length xs)%nat -> double x -> finite x ->
    loglog_at log ex xs ys lx ly x c1 = Some (y1, c1') -> loglog_at log ex xs ys lx ly x c2 = Some (y2, c2') -> y1 = y2.
Proof. exact made_history. Qed.
Print Assumptions C101_history.

(** Before the first and after the last point: the ordinate of that point, in every bit. *)
Theorem C101_outside :
  forall (log ex : F64 -> F64) (xs ys lx ly : list F64), rising_log log -> plotted xs ys ->
    loglog_new log xs ys = Some (lx, ly) ->
    forall (x : F64) (cache : nat) (y : F64) (c : nat), (S cache < List.length xs)%nat -> double x -> finite x ->
    loglog_at log ex xs ys lx ly x cache = Some (y, c) ->
    (forall a b, nth_error xs 0 = Some a -> nth_error ys 0 = Some b -> real x < real a -> y = b) /\
    (forall a b, nth_error xs (List.length xs - 1) = Some a -> nth_error ys (List.length xs - 1) = Some b -> real a < real x -> y = b).
Proof. exact made_outside. Qed.
Print Assumptions C101_outside.

(** Between two points: between their ordinates, but for a [2^-39]th part; and, if arguments are
    spaced, near the power of the argument through both, the nearer the less steep it is. *)
Theorem C101_between :
  forall (log ex : F64 -> F64) (xs ys lx ly : list F64), rising_log log -> exponential ex -> plotted xs ys ->
    loglog_new log xs ys = Some (lx, ly) ->
    forall (x : F64) (cache : nat) (y : F64) (c : nat) (x0 x1 y0 y1 : R), (S cache < List.length xs)%nat -> double x -> finite x ->
    loglog_at log ex xs ys lx ly x cache = Some (y, c) -> inside xs ys (real x) x0 x1 y0 y1 ->
    Rmin y0 y1 * (1 - bpow radix2 (-39)) <= real y <= Rmax y0 y1 * (1 + bpow radix2 (-39)) /\
    (spaced xs -> Rabs (ln (real y) - power_line x0 x1 y0 y1 (real x)) <= bpow radix2 (-38) * (1 + Rabs (slope x0 x1 y0 y1))).
Proof. exact made_between. Qed.
Print Assumptions C101_between.

(** Full statement: at the points, the ordinates. False, whatever the logarithm and the
    exponential: some table gives something else at its first point. *)
Theorem C101_points_refuted :
  forall log ex : F64 -> F64, rising_log log -> rising_exp ex ->
    exists xs ys lx ly x y z c, plotted xs ys /\ spaced xs /\ loglog_new log xs ys = Some (lx, ly) /\
      nth_error xs 0 = Some x /\ nth_error ys 0 = Some y /\ loglog_at log ex xs ys lx ly x 0 = Some (z, c) /\ real z <> real y.
Proof. exact refute_made. Qed.
Print Assumptions C101_points_refuted.

(** What holds: they are, but for a [2^-39]th part. *)
Theorem C101_points_partial :
  forall (log ex : F64 -> F64) (xs ys lx ly : list F64), rising_log log -> exponential ex -> plotted xs ys ->
    loglog_new log xs ys = Some (lx, ly) ->
    forall (x : F64) (cache : nat) (y : F64) (c i : nat) (xi yi : F64), (S cache < List.length xs)%nat -> double x -> finite x ->
    loglog_at log ex xs ys lx ly x cache = Some (y, c) ->
    nth_error xs i = Some xi -> nth_error ys i = Some yi -> real x = real xi ->
    Rabs (real y - real yi) <= bpow radix2 (-39) * real yi.
Proof. exact made_point. Qed.
Print Assumptions C101_points_partial.

(** A logarithm, an exponential and a table that meet the hypotheses, and a number between its
    points, which the table joins by a steep line. *)
Example C101_table_ok :
  rising_log rounded_log /\ rising_exp rounded_exp /\ plotted one_two [nofZ F64 12; nofZ F64 1] /\ spaced one_two /\
  exists x, double x /\ finite x /\ inside one_two [nofZ F64 12; nofZ F64 1] (real x) 1 2 12 1 /\ 1 < real x < 2 /\ slope 1 2 12 1 < -2.
Proof. exact example_table. Qed.
