(** * Properties of ranges: C50 *)
From Coq Require Import Reals List ZArith Lra Lia.
From Verif Require Import Num ER Ranges Ranges_spec Ranges_proofs.
Import ListNotations.
Local Open Scope R_scope.

(** Full statement: a counted range has the requested number of values, the first
    and last of which are those given; a stepped range has no values beyond its end.
    False, even in exact arithmetic: a falling linear range is empty; one with equal
    ends never ends; a logarithmic range with one value is not a number; a stepped
    range may go past its end. *)
Theorem C50_range_refuted :
  (forall start stop count fuel, stop < start -> (2 <= count)%Z ->
     linrange ER (S fuel) (Fin start) (Fin stop) count = Values []) /\
  (forall start count fuel, (2 <= count)%Z -> linrange ER fuel (Fin start) (Fin start) count = Unfinished) /\
  (forall start stop, 0 < start -> 0 < stop -> logrange (Fin start) (Fin stop) 1 = Values [NaN]) /\
  (exists start stop step l x fuel, 0 < step /\
     frange ER fuel (Fin start) (Fin stop) (Fin step) = Values (map Fin l) /\ In x l /\ stop < x).
Proof. exact (conj linear_falling (conj linear_constant (conj log_single overshoot))). Qed.
Print Assumptions C50_range_refuted.

(** With rounding also for rising ranges: eleven values from 0 to 1 end before 1,
    and five values from 2^53 to 2^53 + 4, all of them whole numbers, never end. *)
Theorem C50_rounding_refuted :
  (exists l x, linrange F64 20 (nofZ F64 0) (nofZ F64 1) 11 = Values (l ++ [x]) /\
     length l = 10%nat /\ nltb F64 x (nofZ F64 1) = true) /\
  (forall fuel, linrange F64 fuel (nofZ F64 (2 ^ 53)) (nofZ F64 (2 ^ 53 + 4)) 5 = Unfinished).
Proof. exact (conj last_rounded never_ends). Qed.
Print Assumptions C50_rounding_refuted.

(** In exact arithmetic a rising linear range has the requested number of values,
    starts and ends as given, and rises evenly. *)
Theorem C50_linear_partial : forall start stop count, start < stop -> (2 <= count)%Z -> exists l,
  (exists fuel, linrange ER fuel (Fin start) (Fin stop) count = Values (map Fin l)) /\
  from_to start stop count l /\ ascending l /\ evenly l.
Proof. exact linear_range. Qed.
Print Assumptions C50_linear_partial.

(** A logarithmic range of at least two values has the requested number of values,
    starts and ends as given, and is geometric, rising or falling. *)
Theorem C50_log_partial : forall start stop count, 0 < start -> 0 < stop -> (2 <= count)%Z -> exists l,
  logrange (Fin start) (Fin stop) count = Values (map Fin l) /\
  from_to start stop count l /\ geometric l /\ (start < stop -> ascending l) /\ (stop < start -> descending l).
Proof. exact log_range. Qed.
Print Assumptions C50_log_partial.

(** One with an end that is not positive is refused. *)
Theorem C50_log_refused : forall start stop count, start <= 0 \/ stop <= 0 /\ 0 < start ->
  logrange (Fin start) (Fin stop) count = Raised.
Proof. exact log_refused. Qed.
Print Assumptions C50_log_refused.

(** A stepped range consists of the steps up to half a step beyond its end; if they
    hit the end, of those up to and including the end. *)
Theorem C50_stepped_partial : forall start stop step, 0 < step -> exists l,
  (exists fuel, frange ER fuel (Fin start) (Fin stop) (Fin step) = Values (map Fin l)) /\
  steps_up_to start step (stop + step / 2) l /\
  (forall m, stop = start + INR m * step -> steps_up_to start step stop l).
Proof. exact stepped. Qed.
Print Assumptions C50_stepped_partial.

(** In any arithmetic, if it ends, each value is the one before plus the step, all
    are at most half a step beyond the end, and the next would not be. *)
Theorem C50_chain : forall (A : Num) fuel start stop step l, frange A fuel start stop step = Values l ->
  chain A step start l /\ Forall (fun x => nleb A x (nadd A stop (ndiv A step (nofZ A 2))) = true) l /\
  nleb A (after A step start (length l)) (nadd A stop (ndiv A step (nofZ A 2))) = false.
Proof. exact frange_chain. Qed.
Print Assumptions C50_chain.

Example C50_case : (2 <= 199)%Z /\ 0 < 1 / 100 < 3 /\ 3 = 0 + INR 3 * 1 /\
  exists l, frange F64 9 (nofZ F64 0) (nofZ F64 1) (ndiv F64 (nofZ F64 1) (nofZ F64 4)) = Values l /\ length l = 5%nat.
Proof.
  refine (conj _ (conj _ (conj _ _))); [lia|lra|cbn; lra|]. eexists. split; [vm_compute; reflexivity|reflexivity].
Qed.
