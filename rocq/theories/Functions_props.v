(** * Properties of deterministic and lognormal functions

    C41 (interpolation), C42 (lognormal functions), C54 (hazard curves), C59
    (evaluation by several threads), C60 (unsuitable parameters). *)
From Coq Require Import Reals List Lra.
From Verif Require Import ER ERmath Lognormal Lognormal_spec Damage.
From Verif Require Import Functions Functions_spec Functions_proofs Functions_proofs2.
Import ListNotations.
Local Open Scope R_scope.

(** ** C41 *)

(** A function interpolated linearly can be built from every table, and has at
    every argument, whatever index the accelerator remembers, the value found by
    interpolation. *)
Theorem C41_linear : forall us vs, tabled us vs -> exists t, new_linear (map Fin us) (map Fin vs) = Some t /\
  forall x cache, (S cache < length us)%nat ->
    exists y i, linear t (Fin x) cache = Some (Fin y, i) /\ (S i < length us)%nat /\ interpolates us vs x y.
Proof. exact linear_value. Qed.
Print Assumptions C41_linear.

(** That value is the given one at a given point, between the neighbouring ones
    elsewhere, the nearest end value outside the table, and there is only one. *)
Theorem C41_meaning : forall us vs x y, tabled us vs -> interpolates us vs x y ->
  (forall i, (i < length us)%nat -> x = nth i us 0 -> y = nth i vs 0) /\
  (forall i, (S i < length us)%nat -> nth i us 0 <= x <= nth (S i) us 0 ->
     Rmin (nth i vs 0) (nth (S i) vs 0) <= y <= Rmax (nth i vs 0) (nth (S i) vs 0)) /\
  (x <= hd 0 us -> y = hd 0 vs) /\ (last us 0 <= x -> y = last vs 0) /\
  (forall y', interpolates us vs x y' -> y' = y).
Proof. exact interpolation_meaning. Qed.
Print Assumptions C41_meaning.

(** The values do not depend on the arguments evaluated before. *)
Theorem C41_history : forall us vs xs, tabled us vs -> exists t ys,
  new_linear (map Fin us) (map Fin vs) = Some t /\
  evaluate_all (linear t) (map Fin xs) 0 = Some (map Fin ys) /\ Forall2 (interpolates us vs) xs ys.
Proof. exact linear_history. Qed.
Print Assumptions C41_history.

(** Infinite arguments give the end values, an undefined one an undefined
    value. *)
Theorem C41_special : forall us vs t cache, tabled us vs -> new_linear (map Fin us) (map Fin vs) = Some t ->
  (S cache < length us)%nat ->
  linear t PInf cache = Some (Fin (last vs 0), cache) /\ linear t MInf cache = Some (Fin (hd 0 vs), cache) /\
  linear t NaN cache = Some (NaN, cache).
Proof. exact linear_special. Qed.
Print Assumptions C41_special.

Example C41_case : tabled [1; 2; 4] [10; 20; 5] /\ exists t i,
  new_linear (map Fin [1; 2; 4]) (map Fin [10; 20; 5]) = Some t /\ linear t (Fin 3) 0 = Some (Fin (25 / 2), i).
Proof. split; [apply table_case|exact linear_case]. Qed.

(** Full statement: the same for log-log interpolation and every table with
    increasing points.  False: with a zero value in the table the function is not a
    number, even at a given point where the given value is positive. *)
Theorem C41_loglog_refuted : exists us vs t i y, tabled us vs /\ positive us /\
  new_loglog (map Fin us) (map Fin vs) = Some t /\
  nth 0 us 0 = 1 /\ nth 0 vs 0 = 1 /\ loglog t (Fin 1) 0 = Some (y, i) /\ y = NaN.
Proof. exact refute_loglog. Qed.
Print Assumptions C41_loglog_refuted.

(** It holds for tables of positive numbers. *)
Theorem C41_loglog_partial : forall us vs, tabled us vs -> positive us -> positive vs ->
  exists t, new_loglog (map Fin us) (map Fin vs) = Some t /\
  forall x cache, (S cache < length us)%nat ->
    exists y i, loglog t (Fin x) cache = Some (Fin y, i) /\ (S i < length us)%nat /\ log_interpolates us vs x y.
Proof. exact loglog_value. Qed.
Print Assumptions C41_loglog_partial.

(** Again the given value at given points, no overshoot, end values outside. *)
Theorem C41_loglog_meaning_partial : forall us vs x y, tabled us vs -> positive us -> positive vs ->
  log_interpolates us vs x y ->
  (forall i, (i < length us)%nat -> x = nth i us 0 -> y = nth i vs 0) /\
  (forall i, (S i < length us)%nat -> nth i us 0 <= x <= nth (S i) us 0 ->
     Rmin (nth i vs 0) (nth (S i) vs 0) <= y <= Rmax (nth i vs 0) (nth (S i) vs 0)) /\
  (x < hd 0 us -> y = hd 0 vs) /\ (last us 0 < x -> y = last vs 0).
Proof. exact log_meaning. Qed.
Print Assumptions C41_loglog_meaning_partial.

(** And the values do not depend on the arguments evaluated before. *)
Theorem C41_loglog_history_partial : forall us vs xs, tabled us vs -> positive us -> positive vs -> exists t ys,
  new_loglog (map Fin us) (map Fin vs) = Some t /\
  evaluate_all (loglog t) (map Fin xs) 0 = Some (map Fin ys) /\ Forall2 (log_interpolates us vs) xs ys.
Proof. exact loglog_history. Qed.
Print Assumptions C41_loglog_history_partial.

Example C41_loglog_case : tabled [1; 2; 4] [10; 20; 5] /\ positive [1; 2; 4] /\ positive [10; 20; 5] /\
  log_interpolates [1; 2; 4] [10; 20; 5] (sqrt 2) (10 * sqrt 2).
Proof. split; [apply table_case|]. split; [apply table_case|]. split; [apply table_case|exact loglog_case]. Qed.

(** ** C42 *)

(** Full statement: a response function built from any advertised pair of
    interpretations gives back its location and spread.  False: a median (or mean
    logarithm) with the standard deviation of X never returns. *)
Theorem C42_refuted : exists mt st mu sigma, 0 < mu /\ 0 < sigma /\
  forall fuel, distribution fuel mt st (Fin mu) (Fin sigma) = None.
Proof. exact refute_function. Qed.
Print Assumptions C42_refuted.

(** This is so for every value of the two functions. *)
Theorem C42_diverges_refuted : forall mt mu sigma, mt <> MEAN_X ->
  forall fuel, distribution fuel mt SD_X mu sigma = None.
Proof. exact function_diverges. Qed.
Print Assumptions C42_diverges_refuted.

(** The other pairs return, with the location and spread given and figures of
    one lognormal distribution. *)
Theorem C42_partial : forall mt st a b, supported mt st -> (mt = MEAN_LN_X \/ 0 < a) -> 0 <= b ->
  forall fuel, (5 <= fuel)%nat -> exists d, distribution fuel mt st (Fin a) (Fin b) = Some d /\
    location mt d = Fin a /\ spread st d = Fin b /\ consistent d.
Proof. exact function_value. Qed.
Print Assumptions C42_partial.

Example C42_case : supported MEAN_X SD_X /\ 0 < 2 /\ 0 <= 1.
Proof. split; [right; reflexivity|lra]. Qed.

(** ** C54 *)

(** Full statement: the hyperbolic hazard curve is non-negative, non-increasing,
    zero from the asymptote on and never greater than one.  The last is false: for
    each asymptotic rate above one there are intensities where the curve exceeds it;
    the clipping the comment in the source announces is not there. *)
Theorem C54_refuted : forall v im alpha, 1 < v -> 0 < im -> 0 <= alpha ->
  exists x y, 0 < x /\ hyperbolic (Fin v) (Fin im) (Fin alpha) (Fin x) = Fin y /\ 1 < y.
Proof. exact refute_hazard. Qed.
Print Assumptions C54_refuted.

(** It is between zero and its asymptotic rate, positive below the asymptote and
    zero from there on. *)
Theorem C54_range_partial : forall v im alpha x, 0 <= v -> 0 < im -> 0 <= alpha -> 0 <= x ->
  exists y, hyperbolic (Fin v) (Fin im) (Fin alpha) (Fin x) = Fin y /\ 0 <= y <= v /\
    (im <= x -> y = 0) /\ (x < im -> 0 < v -> 0 < y).
Proof. exact hazard_range. Qed.
Print Assumptions C54_range_partial.

(** It does not increase. *)
Theorem C54_monotone_partial : forall v im alpha x x', 0 <= v -> 0 < im -> 0 <= alpha -> 0 <= x <= x' ->
  exists y y', hyperbolic (Fin v) (Fin im) (Fin alpha) (Fin x) = Fin y /\
    hyperbolic (Fin v) (Fin im) (Fin alpha) (Fin x') = Fin y' /\ y' <= y.
Proof. exact hazard_monotone. Qed.
Print Assumptions C54_monotone_partial.

(** The power law is non-negative and, for a negative exponent, non-increasing,
    and a straight line in logarithms. *)
Theorem C54_power_partial : forall a b x x', 0 <= a -> b <= 0 -> 0 < x <= x' ->
  exists y y', power_law (Fin a) (Fin b) (Fin x) = Fin y /\ power_law (Fin a) (Fin b) (Fin x') = Fin y' /\
    0 <= y' <= y /\ (0 < a -> ln y = ln a + b * ln x).
Proof. exact power_law_curve. Qed.
Print Assumptions C54_power_partial.

Example C54_case : 1 < 1221 /\ 0 < 29 /\ 0 <= 62 /\ 0 <= 1 <= 2 /\ -3 <= 0.
Proof. lra. Qed.

(** ** C59 *)

(** Full statement: an interpolated function evaluated by several threads at
    once gives each of them the interpolated value.  False: the threads share the
    accelerator's index, and one can return a negative rate although all rates in
    the table are non-negative. *)
Theorem C59_refuted : exists us vs xs sched es c e y,
  tabled us vs /\ within us xs /\ Forall (fun v => 0 <= v) vs /\
  interleave (map Fin us) sched (threads_at (map Fin xs)) 0 = Some (es, c) /\ In e es /\
  outcome_of (map Fin us) (map Fin vs) e = Some (Fin y) /\ y < 0.
Proof. exact refute_threads. Qed.
Print Assumptions C59_refuted.

(** In every interleaving the index stays within the table, so that a thread
    returns a number on the line through some two neighbouring points. *)
Theorem C59_safe_partial : forall us vs xs sched cache, tabled us vs -> within us xs -> (S cache < length us)%nat ->
  exists es c, interleave (map Fin us) sched (threads_at (map Fin xs)) cache = Some (es, c) /\ map arg es = map Fin xs /\
    forall e y, In e es -> outcome_of (map Fin us) (map Fin vs) e = Some y ->
      exists x z, arg e = Fin x /\ y = Fin z /\ on_line us vs x z.
Proof. exact threads_safe. Qed.
Print Assumptions C59_safe_partial.

(** A thread that runs alone returns the interpolated value. *)
Theorem C59_alone_partial : forall us vs x cache, tabled us vs -> hd 0 us <= x <= last us 0 -> (S cache < length us)%nat ->
  exists e y c, interleave (map Fin us) [0; 0; 0]%nat (threads_at [Fin x]) cache = Some ([e], c) /\
    outcome_of (map Fin us) (map Fin vs) e = Some (Fin y) /\ interpolates us vs x y.
Proof. exact thread_alone. Qed.
Print Assumptions C59_alone_partial.

Example C59_case : tabled [1; 2; 4] [10; 20; 5] /\ within [1; 2; 4] [3 / 2; 3].
Proof. split; [apply table_case|]. repeat (constructor; [cbn; lra|]). constructor. Qed.

(** ** C60 *)

(** Full statement: a definition with parameters that do not suit the type of
    function raises an error.  False: too few numbers are read past their end, too
    short a table gives a function whose evaluation calls through a null pointer, and
    a table out of order ends the program. *)
Theorem C60_refuted :
  (detfn NLH (Numbers [Fin 1]) = Undefined) /\
  (exists f, detfn LIN (Lists [[Fin 1]; [Fin 1]]) = Returns f /\ forall x cache, value_at f x cache = Undefined) /\
  (detfn LIN (Lists [[Fin 2; Fin 1]; [Fin 0; Fin 1]]) = Undefined).
Proof. exact refute_detfn. Qed.
Print Assumptions C60_refuted.

(** Suitable parameters give the function they define, usable everywhere. *)
Theorem C60_partial : forall t p, suitable t p -> exists f, detfn t p = Returns f /\
  match t, p with
  | LIN, Lists (xs :: ys :: _) => forall us vs x cache, xs = map Fin us -> ys = map Fin vs -> (S cache < length us)%nat ->
      exists y, value_at f (Fin x) cache = Returns (Fin y) /\ interpolates us vs x y
  | LOGLOG, Lists (xs :: ys :: _) => forall us vs x cache, xs = map Fin us -> ys = map Fin vs -> (S cache < length us)%nat ->
      exists y, value_at f (Fin x) cache = Returns (Fin y) /\ log_interpolates us vs x y
  | PLC, Numbers (a :: b :: _) => forall x cache, value_at f x cache = Returns (power_law a b x)
  | NLH, Numbers (alpha :: im_asy :: v_asy :: _) =>
      forall x cache, value_at f x cache = Returns (hyperbolic v_asy im_asy alpha x)
  | _, _ => False
  end.
Proof. exact detfn_usable. Qed.
Print Assumptions C60_partial.

(** Parameters of the wrong kind are refused. *)
Theorem C60_kind_partial : forall t p,
  match t, p with
  | (LIN | LOGLOG), Numbers _ | (PLC | NLH), Lists _ | (LIN | LOGLOG), Lists ([] | [_]) => True
  | _, _ => False
  end -> detfn t p = Throws.
Proof. exact detfn_kind. Qed.
Print Assumptions C60_kind_partial.

Example C60_case : suitable LOGLOG (Lists [map Fin [1; 2; 4]; map Fin [10; 20; 5]]).
Proof. exists [1; 2; 4], [10; 20; 5], []. split; [reflexivity|]. exact table_case. Qed.
