(** * Properties of the integrator: C17-C29, C55 *)
From Coq Require Import ZArith List Bool Reals.
From Coq Require Import Floats.SpecFloat Permutation.

From Verif Require Import Num Maq Maq_spec Maq_search_proofs Maq_proofs ER ER_proofs Maq_ER_spec
  Maq_ER_proofs Maq_ER_proofs2 Maq_ER_proofs3 Maq_extreme_proofs Stats_conc Stats_conc_proofs
  Maq_witness Maq_claims_proofs.
Import ListNotations.
Local Open Scope Z_scope.

(** ** C17.  For every history of settings calls, in binary64. *)
Theorem C17_settings : forall ops : list (settings_op F64),
  let s := settings_run F64 ops in
  (nltb F64 (nofZ F64 0) (set_tolerance s) = true /\ nisnan F64 (set_tolerance s) = false /\
   1 <= set_eval_limit s < 2 ^ 32 /\ 1 <= set_search_limit s < 2 ^ 32) /\
  set_tolerance s = last_event (tolerance_event F64) (ndiv F64 (nofZ F64 1) (nofZ F64 1000)) ops /\
  set_eval_limit s = last_event (eval_limit_event F64) 2048 ops /\
  set_search_limit s = last_event (search_limit_event F64) 2048 ops /\
  set_method s = last_event (method_event F64) DIRECTED ops.
Proof. exact settings_claim. Qed.
Print Assumptions C17_settings.

(** A history with accepted and rejected calls: -1 is converted to 2^32 - 1, 0 and a NaN
    tolerance are rejected. *)
Example C17_example :
  let s := settings_run F64 [OpSetEvalLimit F64 7; OpSetEvalLimit F64 0;
             OpSetSearchLimit F64 (-1); OpSetTolerance F64 S754_nan; OpSetMethod F64 SCATTERED] in
  set_eval_limit s = 7 /\ set_search_limit s = 4294967295 /\
  neqb F64 (nmul F64 (nofZ F64 1000) (set_tolerance s)) (nofZ F64 1) = true /\
  set_method s = SCATTERED.
Proof. vm_compute. repeat split. Qed.

(** ** C18.  Whatever the arithmetic does (subject to x < y excluding y <= x), every
    integration ends normally, without undefined behaviour, after a number of integrand
    calls bounded by the settings. *)
Theorem C18_terminates : forall (N : Num) (f : N -> N) (s : settings N),
  order_ok N -> limits_ok s ->
  exists r n, (forall fuel, (n <= fuel)%nat -> MAQ N f fuel s = Done r) /\
    Z.of_nat (length (mr_trace r)) <=
      search_bound (set_method s) (set_search_limit s) + 3 + 2 * set_eval_limit s.
Proof. exact terminates_claim. Qed.
Print Assumptions C18_terminates.

(** Both arithmetics have the law, and the defaults are within the limits. *)
Example C18_example : order_ok F64 /\ order_ok ER /\ limits_ok (default_settings F64).
Proof.
  split; [exact F64_order_ok|]. split; [exact ER_order_ok|].
  split; split; vm_compute; discriminate || reflexivity.
Qed.

(** ** C55 is false: limits the settings API accepts make the code overflow an [int], or
    never return. *)
Theorem C55_extreme_limits_refuted :
  (exists (f : F64 -> F64) s, 1 <= set_search_limit s < 2 ^ 32 /\ 1 <= set_eval_limit s < 2 ^ 32 /\
     forall fuel, (40 <= fuel)%nat -> MAQ F64 f fuel s = Ub) /\
  (exists (f : F64 -> F64) s, 1 <= set_search_limit s < 2 ^ 32 /\ 1 <= set_eval_limit s < 2 ^ 32 /\
     forall fuel, MAQ F64 f fuel s = OutOfFuel).
Proof. exact extreme_claim. Qed.
Print Assumptions C55_extreme_limits_refuted.

(** After every history of settings calls that leaves a search limit of at most 2^30 and
    an evaluation limit below 2^32 - 1, every integration returns, in double precision
    and with one result however long it is given.  Missing: the limits for which this is
    false; Maq_return_props.v has the exact set. *)
Theorem C55_accepted_partial : forall (ops : list (settings_op F64)) (f : F64 -> F64),
  set_search_limit (settings_run F64 ops) <= 2 ^ 30 -> set_eval_limit (settings_run F64 ops) < 2 ^ 32 - 1 ->
  exists r n, forall fuel, (n <= fuel)%nat -> MAQ F64 f fuel (settings_run F64 ops) = Done r.
Proof. exact accepted_claim. Qed.
Print Assumptions C55_accepted_partial.

Example C55_case :
  let s := settings_run F64 [OpSetSearchLimit F64 1073741824; OpSetEvalLimit F64 0; OpSetEvalLimit F64 (-2)] in
  set_search_limit s <= 2 ^ 30 /\ set_eval_limit s < 2 ^ 32 - 1 /\ set_eval_limit s = 2 ^ 32 - 2.
Proof. vm_compute. repeat split; discriminate. Qed.

(** ** C19 is false: the count reported is not the number of calls, and the limits can be
    exceeded. *)
Theorem C19_count_refuted :
  (exists f s r, limits_ok s /\ MAQ F64 f 3000 s = Done r /\ mr_successful r = true /\
     mr_evaluations r = 20 /\ Z.of_nat (length (mr_trace r)) = 35) /\
  (exists f s r, limits_ok s /\ MAQ F64 f 3000 s = Done r /\
     set_search_limit s + set_eval_limit s < mr_evaluations r /\
     set_search_limit s + set_eval_limit s < Z.of_nat (length (mr_trace r))).
Proof. exact counts_refuted_claim. Qed.
Print Assumptions C19_count_refuted.

(** What holds instead: with [n] calls made by the search and [k] bisections, both the
    number of calls and the number reported are known exactly (up to one, when a NaN is
    met at once). *)
Theorem C19_count_partial : forall (N : Num) (f : N -> N) (s : settings N) fuel r,
  order_ok N -> limits_ok s -> MAQ N f fuel s = Done r ->
  let called := Z.of_nat (length (mr_trace r)) in
  let n := mr_search_evals r in
  2 <= n <= search_bound (set_method s) (set_search_limit s) /\
  ((mr_exit r = ExSearchFail /\ mr_evaluations r = n /\ called = n) \/
   exists k, 0 <= k <= Z.max 0 (set_eval_limit s - n - 3) /\
     ((mr_exit r = ExOk /\ mr_evaluations r = n + 3 + k /\ called = n + 3 + 2 * k) \/
      (mr_exit r = ExLimit /\ mr_evaluations r = n + 4 + k /\ called = n + 3 + 2 * k) \/
      (mr_exit r = ExNan /\ mr_evaluations r = n /\ n + 2 <= called <= n + 3) \/
      (mr_exit r = ExNan /\ mr_evaluations r = n + 3 + k /\ called = n + 3 + 2 * k))).
Proof. exact counts_claim. Qed.
Print Assumptions C19_count_partial.

(** ** C20 is false for four of the five methods (but see the bound below). *)
Theorem C20_search_limit_refuted :
  exists f g : F64 -> F64, exists r1 r2 r3 r4,
    search F64 f BINARY_SUBDIVISION 100 3 = Done r1 /\ sr_evals r1 = 4 /\
    search F64 f REVERSE_BINARY_SUBDIVISION 100 3 = Done r2 /\ sr_evals r2 = 4 /\
    search F64 f LOW_FIRST_REVERSE_BINARY_SUBDIVISION 100 4 = Done r3 /\ sr_evals r3 = 5 /\
    search F64 g DIRECTED 100 3 = Done r4 /\ sr_evals r4 = 4.
Proof. exact search_over_claim. Qed.
Print Assumptions C20_search_limit_refuted.

(** The count reported by a search is exact; the scattered search respects the limit, the
    directed one exceeds it by at most one, the subdivision searches by less than a factor
    two. *)
Theorem C20_search_limit_partial : forall (N : Num) (f : N -> N),
  order_ok N -> forall (m : method) fuel limit,
  1 <= limit <= 1073741824 -> limit + 1 < Z.of_nat fuel ->
  exists r, search N f m fuel limit = Done r /\
    sr_evals r = Z.of_nat (length (sr_trace r)) /\
    2 <= sr_evals r <=
      match m with
      | SCATTERED => Z.max 2 limit
      | DIRECTED => Z.max 2 (limit + 1)
      | _ => Z.max 2 (2 * (limit - 1))
      end.
Proof. exact search_bound_claim. Qed.
Print Assumptions C20_search_limit_partial.

(** ** C21 is false of the directed search: it can return a proper sub-interval although
    the integrand is below the threshold everywhere. *)
Theorem C21_range_refuted :
  exists (f : F64 -> F64) r a b, directed_search F64 f 3000 2048 = Done r /\
    sr_range r = Some (a, b) /\ neqb F64 a (nofZ F64 0) = false /\
    forall x, gt_eps F64 (f x) = false.
Proof. exact range_refuted_claim. Qed.
Print Assumptions C21_range_refuted.

(** In exact arithmetic: a range is a proper sub-interval of [0,1], and is the whole
    interval or has a mid point where the integrand is above the threshold (binary,
    reverse, low-first), above it or NaN (scattered), or, if the integrand is a
    non-negative number everywhere, positive (directed). *)
Theorem C21_range_partial : forall (f : er -> er) (s : settings ER) fuel r ab,
  limits_ok s -> MAQ ER f fuel s = Done r -> mr_range r = Some ab ->
  good_range (range_promise f (set_method s)) ab.
Proof. exact range_claim. Qed.
Print Assumptions C21_range_partial.

(** ** C22 is false of the directed (default), scattered and low-first searches: an
    integrand equal to 1 throughout more than 31/limit (160/limit for low-first) of the
    transformed range is reported as a successful integration with value zero. *)
Theorem C22_feature_refuted :
  (31 / 2048 < / 32 - / 63)%R /\ (160 / 2052 < 2 / 9 - / 7)%R /\
  (exists r, MAQ F64 far_box 4200 (with_method DIRECTED 2048) = Done r /\
     mr_successful r = true /\ neqb F64 (mr_integral r) (nofZ F64 0) = true) /\
  (exists r, MAQ F64 far_box 4200 (with_method SCATTERED 2048) = Done r /\
     mr_successful r = true /\ neqb F64 (mr_integral r) (nofZ F64 0) = true) /\
  (exists r, MAQ F64 near_box 4200 (with_method LOW_FIRST_REVERSE_BINARY_SUBDIVISION 2052) = Done r /\
     mr_successful r = true /\ neqb F64 (mr_integral r) (nofZ F64 0) = true).
Proof. exact misses_claim2. Qed.
Print Assumptions C22_feature_refuted.

(** It holds of the binary and reverse binary searches, and of the low-first search for
    features in the upper half. *)
Theorem C22_feature_partial : forall (f : er -> er) (s : settings ER) fuel r u v,
  limits_ok s -> MAQ ER f fuel s = Done r ->
  (0 <= u)%R -> (v <= 1)%R -> (4 / IZR (set_search_limit s) <= v - u)%R -> feature f u v ->
  set_method s = BINARY_SUBDIVISION \/ set_method s = REVERSE_BINARY_SUBDIVISION \/
    (set_method s = LOW_FIRST_REVERSE_BINARY_SUBDIVISION /\ (1 / 2 <= u)%R) ->
  mr_exit r <> ExSearchFail /\ mr_range r <> None.
Proof. exact complete_claim. Qed.
Print Assumptions C22_feature_partial.

(** ** C23 is false: an integral over opposite infinities is a successful NaN. *)
Theorem C23_failure_refuted : exists (f : F64 -> F64) r,
  MAQ F64 f 3000 (default_settings F64) = Done r /\
  mr_successful r = true /\ nisnan F64 (mr_integral r) = true.
Proof. exact (ex_intro _ opposite success_nan). Qed.
Print Assumptions C23_failure_refuted.

(** Failure is flagged exactly when the limit was exceeded or a NaN was met, and then the
    value is NaN. *)
Theorem C23_failure_partial : forall (N : Num) (f : N -> N) (s : settings N) fuel r,
  order_ok N -> limits_ok s -> MAQ N f fuel s = Done r ->
  (mr_successful r = false <-> (mr_exit r = ExLimit \/ mr_exit r = ExNan)) /\
  (mr_successful r = false -> mr_integral r = nnan N).
Proof. exact failure_claim. Qed.
Print Assumptions C23_failure_partial.

(** In exact arithmetic a success is finite for finite integrands, and a number (possibly
    infinite) for non-negative ones. *)
Theorem C23_success_finite_partial : forall (f : ER -> er) (s : settings ER) fuel r,
  limits_ok s -> (forall x, exists v, f x = Fin v) -> MAQ ER f fuel s = Done r ->
  mr_successful r = true -> exists v, mr_integral r = Fin v.
Proof. exact integral_finite. Qed.
Print Assumptions C23_success_finite_partial.

Theorem C23_success_number_partial : forall (f : ER -> er) (s : settings ER) fuel r,
  limits_ok s -> (forall x, proper_nonneg (f x)) -> MAQ ER f fuel s = Done r ->
  mr_successful r = true -> proper_nonneg (mr_integral r).
Proof. exact integral_nonneg. Qed.
Print Assumptions C23_success_number_partial.

(** ** C24.  The accepted intervals tile the range; each carries a two-panel Simpson
    estimate within the tolerance of the one-panel one, relative to itself or to the sum so
    far; the result is the sum of the estimates and their corrections. *)
Theorem C24_tiling : forall (N : Num) (f : N -> N) (s : settings N) fuel r a b,
  order_ok N -> limits_ok s -> MAQ N f fuel s = Done r ->
  mr_range r = Some (a, b) -> mr_successful r = true ->
  covers a b (map acc_interval (mr_accepted r)) /\
  Forall (fun x => good_estimate N (transformed N f) (set_tolerance s) (ac_before x)
                     (fst (acc_interval x)) (snd (acc_interval x)) (ac_q2 x) (ac_corr x))
         (mr_accepted r) /\
  sums_recorded N (mr_accepted r) /\ mr_integral r = running_sum N (mr_accepted r).
Proof. exact tiling_claim. Qed.
Print Assumptions C24_tiling.

(** In exact arithmetic the tiles are proper intervals, so there is no overlap. *)
Theorem C24_tiling_proper : forall (f : er -> er) (s : settings ER) fuel r,
  limits_ok s -> MAQ ER f fuel s = Done r -> mr_successful r = true -> mr_range r <> None ->
  exists a b, mr_range r = Some (Fin a, Fin b) /\ (0 <= a < b)%R /\ (b <= 1)%R /\
    exists l : list (R * R),
      tiles a b l /\ Forall (fun uv => a <= fst uv < snd uv /\ snd uv <= b)%R l /\
      Permutation (map (fun uv => (Fin (fst uv), Fin (snd uv))) l)
                  (map acc_interval (mr_accepted r)).
Proof. exact tiling_exact_claim. Qed.
Print Assumptions C24_tiling_proper.

(** ** C25 *)
Theorem C25_polynomial : forall (f : er -> er) (s : settings ER) fuel r a b cs,
  limits_ok s -> (0 <= a < b)%R -> (length cs <= 6)%nat ->
  (forall t, (a <= t <= b)%R -> image f t = Fin (poly cs t)) ->
  MAQ ER f fuel s = Done r -> mr_range r = Some (Fin a, Fin b) -> mr_successful r = true ->
  exists v, mr_integral r = Fin v /\ is_integral (poly cs) a b v.
Proof. exact integral_poly. Qed.
Print Assumptions C25_polynomial.

(** Degree three or less: success with a single bisection. *)
Theorem C25_cubic : forall (f : ER -> ER) (s : settings ER) fuel r a b cs tol,
  limits_ok s -> (2 <= fuel)%nat -> set_tolerance s = Fin tol -> (length cs <= 4)%nat ->
  MAQ ER f fuel s = Done r -> mr_range r = Some (Fin a, Fin b) ->
  (forall t, (a <= t <= b)%R -> image f t = Fin (poly cs t)) ->
  mr_search_evals r + 4 <= set_eval_limit s ->
  mr_successful r = true /\ mr_evaluations r = mr_search_evals r + 4.
Proof. exact MAQ_cubic. Qed.
Print Assumptions C25_cubic.

(** ** C26 *)
Theorem C26_bounds : forall (f : er -> er) (s : settings ER) fuel r a b (p : R -> R) m M,
  limits_ok s -> (0 <= a < b)%R ->
  (forall t, (a <= t <= b)%R -> image f t = Fin (p t)) ->
  (forall t, (a <= t <= b)%R -> (m <= p t <= M)%R) ->
  MAQ ER f fuel s = Done r -> mr_range r = Some (Fin a, Fin b) -> mr_successful r = true ->
  exists v, mr_integral r = Fin v /\ (m * (b - a) <= v <= M * (b - a))%R.
Proof. exact integral_bounds. Qed.
Print Assumptions C26_bounds.

(** Non-negative integrands, finite or not, over any range found, give no negative result. *)
Theorem C26_sign : forall (f : ER -> er) (s : settings ER) fuel r,
  limits_ok s -> (forall x, proper_nonneg (f x)) -> MAQ ER f fuel s = Done r ->
  mr_successful r = true -> proper_nonneg (mr_integral r).
Proof. exact integral_nonneg. Qed.
Print Assumptions C26_sign.

(** ** C27 *)
Theorem C27_scale : forall (k : R) (f : er -> er) (s : settings ER) fuel r1 r2 ab,
  k <> 0%R -> limits_ok s ->
  MAQ ER f fuel s = Done r1 -> MAQ ER (fun x => er_mul (Fin k) (f x)) fuel s = Done r2 ->
  mr_range r1 = Some ab -> mr_range r2 = Some ab -> mr_search_evals r1 = mr_search_evals r2 ->
  mr_integral r2 = er_mul (Fin k) (mr_integral r1) /\
  mr_successful r2 = mr_successful r1 /\ mr_evaluations r2 = mr_evaluations r1 /\
  mr_exit r2 = mr_exit r1.
Proof. exact scale_claim. Qed.
Print Assumptions C27_scale.

(** One integration meeting the hypotheses of C21-C27: 1/(1+x)^2, whose image is the
    constant 1, is found, succeeds and is finite; so is its double. *)
Example C21_C27_example :
  exists (f : er -> er) (s : settings ER) fuel r r2 a b tol,
    limits_ok s /\ (2 <= fuel)%nat /\ set_tolerance s = Fin tol /\
    MAQ ER f fuel s = Done r /\ MAQ ER (fun x => er_mul (Fin 2) (f x)) fuel s = Done r2 /\
    mr_range r = Some (Fin a, Fin b) /\ mr_range r2 = Some (Fin a, Fin b) /\
    mr_search_evals r = mr_search_evals r2 /\ (0 <= a < b)%R /\
    mr_successful r = true /\ mr_search_evals r + 4 <= set_eval_limit s /\
    set_method s = BINARY_SUBDIVISION /\ feature f (1 / 2) 1 /\
    (4 / IZR (set_search_limit s) <= 1 - 1 / 2)%R /\
    (forall x, exists v, f x = Fin v) /\ (forall x, proper_nonneg (f x)) /\
    (forall t, (a <= t <= b)%R -> image f t = Fin (poly [1%R] t)).
Proof. exact integration_example. Qed.

(** ** C28 is false as regards the maxima: calls that failed set them. *)
Theorem C28_statistics_refuted :
  (exists ops st, session_run F64 (session_start F64) ops = Done st /\
     st_successes (se_stats st) = 0 /\ 0 < st_max_integration (se_stats st)) /\
  (exists ops st, session_run F64 (session_start F64) ops = Done st /\
     st_search_fails (se_stats st) = st_calls (se_stats st) /\ 0 < st_max_search (se_stats st)).
Proof. exact session_refuted_claim. Qed.
Print Assumptions C28_statistics_refuted.

(** Everything else holds: every counter, total and maximum is the one computed from the
    results since the last reset ([stats_are]), and the four outcomes add up. *)
Theorem C28_statistics_partial : forall (ops : list (session_op F64)) (st : session F64),
  session_run F64 (session_start F64) ops = Done st ->
  (exists rs, results_since F64 (rev ops) (se_settings st) rs /\ stats_are F64 (se_stats st) rs) /\
  st_calls (se_stats st) =
    (st_successes (se_stats st) + st_integration_fails (se_stats st) +
     st_search_fails (se_stats st) + st_nans (se_stats st)) mod 2 ^ 32.
Proof. exact session_claim. Qed.
Print Assumptions C28_statistics_partial.

(** ** C29 is false as regards the maxima: an update can be lost. *)
Theorem C29_concurrent_refuted :
  exists (r1 r2 : maq_result F64) st' ps,
    csteps (stats_zero, map actions [r1; r2]) (st', ps) /\ finished (st', ps) /\
    st_max_search st' <> st_max_search (fold_left stats_step [r1; r2] stats_zero).
Proof. exact max_lost_claim. Qed.
Print Assumptions C29_concurrent_refuted.

(** Counters and totals are those of running the integrations one after another, and a
    maximum is never larger than it would then be. *)
Theorem C29_concurrent_partial : forall (N : Num) (rs : list (maq_result N)) st' ps,
  csteps (stats_zero, map actions rs) (st', ps) -> finished (st', ps) ->
  (forall c, get_counter c st' = get_counter c (fold_left stats_step rs stats_zero)) /\
  (forall m, get_max m st' <= get_max m (fold_left stats_step rs stats_zero)).
Proof. exact concurrent_claim. Qed.
Print Assumptions C29_concurrent_partial.

(** The sequential order is one of the interleavings. *)
Example C29_example : forall (N : Num) (rs : list (maq_result N)),
  exists ps, csteps (stats_zero, map actions rs) (fold_left stats_step rs stats_zero, ps) /\
             finished (fold_left stats_step rs stats_zero, ps).
Proof. exact sequential_claim. Qed.
