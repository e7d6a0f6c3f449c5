(** * C21, C23 and C86: integration in double precision, as computed *)
From Coq Require Import ZArith Floats.SpecFloat.
From Verif Require Import Num Maq Maq_spec Double_spec Maq_double_spec Maq_double_proofs2 Maq_double_proofs3.

(** ** C21.  In double precision, with every rounding made as the processor makes it: the
    range searched out is bounded by finite doubles in order, and is the whole range or
    contains a point with the property the method promises: the integrand is above the
    threshold there (subdivision searches), above it or not a number (scattered), or,
    if the integrand is a non-negative number everywhere, not zero (directed).  If the search limit is
    at most 4194304, the range lies within [0,1].  Full statement: the last for every
    limit; missing because indices above 2^24 are rounded when they are converted to
    [float]. *)
Theorem C21_range_double_partial : forall (f : F64 -> F64) (s : settings F64) fuel r a b,
  limits_ok s -> MAQ F64 f fuel s = Done r -> mr_range r = Some (a, b) ->
  range_found f (set_method s) a b /\
  ((set_search_limit s <= 4194304)%Z -> nleb F64 zero a = true /\ nleb F64 b one = true).
Proof. exact range_double. Qed.
Print Assumptions C21_range_double_partial.

Example C21_double_case : exists r a b,
  MAQ F64 inverse_square 4200 reverse_settings = Done r /\ mr_range r = Some (a, b).
Proof. exact range_case. Qed.

(** ** C23 in double precision.  Full statement: with the default settings a successful
    integral of an integrand that is finite and not negative everywhere is a number, as
    it is in exact arithmetic ([C23_success_number_partial]).  False: an integrand with
    large enough peaks overflows its estimates, and the successful integral is NaN. *)
Theorem C23_double_refuted : exists (f : F64 -> F64) r,
  (forall x, double x -> double (f x) /\ finite (f x) /\ nleb F64 zero (f x) = true) /\
  MAQ F64 f 4200 (default_settings F64) = Done r /\
  mr_successful r = true /\ nisnan F64 (mr_integral r) = true.
Proof. exact refute_double. Qed.
Print Assumptions C23_double_refuted.

(** It is true of all integrands, of either sign, that stay below 2^1000 or are not
    numbers, before and after the substitution; for all methods, limits and
    tolerances. *)
Theorem C23_success_double_partial : forall (f : F64 -> F64), moderate_integrand f ->
  forall (s : settings F64) fuel r, limits_ok s -> MAQ F64 f fuel s = Done r ->
  mr_successful r = true -> nisnan F64 (mr_integral r) = false.
Proof. exact success_number. Qed.
Print Assumptions C23_success_double_partial.

(** 1 between 0 and 2 is moderate, and is integrated successfully. *)
Example C23_double_case : moderate_integrand box /\ limits_ok (default_settings F64) /\
  exists r, MAQ F64 box 4200 (default_settings F64) = Done r /\ mr_successful r = true /\
    nltb F64 one (mr_integral r) = true.
Proof. refine (conj box_moderate (conj _ box_case)). split; split; cbn; (reflexivity || discriminate). Qed.

(** ** C86.  Full statement: an integrand that is never negative, as evaluated in double
    precision, has an integral that is not negative.  False: tolerances above 1 are
    accepted, and with a tolerance of 100 an integrand whose one-panel estimate
    overflows while the two-panel estimate does not is integrated, successfully, to
    minus infinity. *)
Theorem C86_not_negative_refuted : exists (f : F64 -> F64) (s : settings F64) fuel r,
  limits_ok s /\ double (set_tolerance s) /\ nltb F64 zero (set_tolerance s) = true /\
  (forall x, double x -> double (f x) /\ nleb F64 zero (f x) = true) /\
  MAQ F64 f fuel s = Done r /\ mr_successful r = true /\ nltb F64 (mr_integral r) zero = true.
Proof. exact refute_not_negative. Qed.
Print Assumptions C86_not_negative_refuted.

(** It is true of all tolerances up to 1, for all five methods and all limits, whatever
    the roundings, overflows and underflows do. *)
Theorem C86_not_negative_partial : forall (f : F64 -> F64) (s : settings F64) fuel r,
  limits_ok s -> double (set_tolerance s) -> nltb F64 zero (set_tolerance s) = true ->
  nleb F64 (set_tolerance s) one = true ->
  (forall x, double x -> double (f x) /\ not_negative (f x)) ->
  MAQ F64 f fuel s = Done r -> not_negative (mr_integral r).
Proof. exact integral_not_negative. Qed.
Print Assumptions C86_not_negative_partial.

(** So annual figures, which integrate a cost, a delay or a probability times the
    absolute value of the slope of a hazard curve, are never negative, whatever the
    slopes are. *)
Theorem C86_weighted_partial : forall (w d : F64 -> F64) (s : settings F64) fuel r,
  limits_ok s -> double (set_tolerance s) -> nltb F64 zero (set_tolerance s) = true ->
  nleb F64 (set_tolerance s) one = true ->
  (forall x, double x -> double (w x) /\ not_negative (w x)) -> (forall x, double x -> double (d x)) ->
  MAQ F64 (fun x => nmul F64 (w x) (nabs F64 (d x))) fuel s = Done r ->
  not_negative (mr_integral r).
Proof. exact weighted_not_negative. Qed.
Print Assumptions C86_weighted_partial.

(** The default settings and 1/(1+x)^2 meet the hypotheses; the integral is positive. *)
Example C86_case :
  limits_ok (default_settings F64) /\ double (set_tolerance (default_settings F64)) /\
  nltb F64 zero (set_tolerance (default_settings F64)) = true /\
  nleb F64 (set_tolerance (default_settings F64)) one = true /\
  (forall x, double x -> double (inverse_square x) /\ not_negative (inverse_square x)) /\
  exists r, MAQ F64 inverse_square 4200 (default_settings F64) = Done r /\
    mr_successful r = true /\ nltb F64 zero (mr_integral r) = true.
Proof.
  refine (conj _ (conj _ (conj _ (conj _ (conj inverse_square_good integral_case)))));
    try (vm_compute; reflexivity).
  split; split; cbn; (reflexivity || discriminate).
Qed.
