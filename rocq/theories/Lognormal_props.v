(** Properties C30-C34: lognormal distributions, in exact arithmetic. *)
From Coq Require Import Reals List Lra Permutation.
From Verif Require Import ER ERmath Lognormal Lognormal_spec Lognormal_proofs Lognormal_proofs2 Gauss_proofs.
Import ListNotations.
Local Open Scope R_scope.

(** The assumptions on the normal distribution function in this file hold of
    the normal distribution. *)
Theorem normal_laws_hold : normal_ok gauss.
Proof. exact gauss_ok. Qed.
Print Assumptions normal_laws_hold.

(** ** C30 *)

(** A distribution made from an advertised combination reports back what it
    was made from, and its five figures are those of one distribution. *)
Theorem C30_round_trip : forall mt st a b,
  supported mt st -> (mt = MEAN_LN_X \/ 0 < a) -> 0 <= b ->
  let d := make (Fin a) mt (Fin b) st in
  location mt d = Fin a /\ spread st d = Fin b /\ consistent d.
Proof. exact round_trip. Qed.
Print Assumptions C30_round_trip.

Example C30_case : supported MEAN_X SD_X /\ (MEAN_X = MEAN_LN_X \/ 0 < 100) /\ 0 <= 35.
Proof. unfold supported. repeat split; auto; lra. Qed.

(** Other combinations give NaN throughout. *)
Theorem C30_unsupported : forall mt st mu sigma, ~ supported mt st -> all_nan (make mu mt sigma st).
Proof. exact no_combination. Qed.
Print Assumptions C30_unsupported.

Example C30_unsupported_case : ~ supported MEDIAN_X SD_X.
Proof. intros [H|H]; discriminate. Qed.

(** ** C31 *)

(** Full statement: for every distribution and amount the probabilities of at
    least and at most that amount are complementary.  It is false: *)
Theorem C31_refuted : forall N, normal_ok N ->
  exists m s x, 0 <= s /\ 0 <= x /\
    let d := LND (Fin m) (Fin s) in ~ complementary (p_at_least N d (Fin x)) (p_at_most N d (Fin x)).
Proof. exact refute_probabilities. Qed.
Print Assumptions C31_refuted.

(** Where: without spread, at the value itself; at negative values; for a
    certain zero, at zero; and without spread the quantile is not inverse. *)
Theorem C31_where_refuted : forall N, normal_ok N ->
  (exists m x, 0 < x /\ p_at_most N (LND (Fin m) (Fin 0)) (Fin x) = NaN /\
               p_at_least N (LND (Fin m) (Fin 0)) (Fin x) = NaN) /\
  (exists m s x, 0 < s /\ x < 0 /\ p_at_most N (LND (Fin m) (Fin s)) (Fin x) = NaN) /\
  (exists d, certain_zero d /\ p_at_most N d (Fin 0) = NaN) /\
  (exists m p, 0 < p < 1 /\ forall x, x_at_p N (LND (Fin m) (Fin 0)) (Fin p) = Fin x ->
     p_at_most N (LND (Fin m) (Fin 0)) (Fin x) <> Fin p).
Proof. exact no_probability. Qed.
Print Assumptions C31_where_refuted.

(** Everywhere else (proper, certain, certainly zero or infinite) the
    probabilities are complementary ... *)
Theorem C31_probabilities_partial : forall N, normal_ok N -> forall d x, comparable d x ->
  complementary (p_at_least N d x) (p_at_most N d x).
Proof. exact probabilities. Qed.
Print Assumptions C31_probabilities_partial.

(** ... and monotone. *)
Theorem C31_monotone_partial : forall N, normal_ok N -> forall d x y,
  comparable d x -> comparable d y -> up_to x y ->
  exists p q, p_at_most N d x = Fin p /\ p_at_most N d y = Fin q /\ p <= q.
Proof. exact at_most_monotone. Qed.
Print Assumptions C31_monotone_partial.

Example C31_case :
  comparable (LND (Fin 0) (Fin 1)) (Fin 0) /\ comparable (LND (Fin 0) (Fin 1)) (Fin 2) /\
  comparable (LND (Fin 0) (Fin 1)) PInf /\ up_to (Fin 0) (Fin 2) /\
  comparable (LND (Fin 0) (Fin 0)) (Fin 0) /\ comparable (LND MInf (Fin 0)) (Fin 2) /\
  comparable (LND PInf (Fin 0)) (Fin 2).
Proof.
  assert (A : forall r, 0 <= r -> amount (Fin r)) by (intros r H; right; exists r; auto).
  pose proof (exp_pos 0) as E.
  repeat split; try (apply A; lra); try (left; reflexivity);
    try (eexists; split; [reflexivity|]; cbn; split; [lra|]; try discriminate; intros; try lra).
  - right. exists 0, 2. repeat split; lra.
  - intros Q. inversion Q. lra.
  - intros Q. inversion Q. lra.
Qed.

(** With spread, the quantile function and the distribution function are
    inverse to each other over all probabilities and amounts. *)
Theorem C31_quantiles_partial : forall N, normal_ok N -> forall m s, 0 < s ->
  let d := LND (Fin m) (Fin s) in
  (forall p, 0 < p < 1 -> exists x, x_at_p N d (Fin p) = Fin x /\ 0 < x /\ p_at_most N d (Fin x) = Fin p) /\
  (forall x p, 0 < x -> p_at_most N d (Fin x) = Fin p -> x_at_p N d (Fin p) = Fin x) /\
  x_at_p N d (Fin 0) = Fin 0 /\ p_at_most N d (Fin 0) = Fin 0 /\
  x_at_p N d (Fin 1) = PInf /\ p_at_most N d PInf = Fin 1.
Proof. exact quantiles. Qed.
Print Assumptions C31_quantiles_partial.

(** Without, the distribution is that of the certain value, except there. *)
Theorem C31_certain_partial : forall N, normal_ok N -> forall m x, 0 <= x ->
  let d := LND (Fin m) (Fin 0) in
  (x < exp m -> p_at_most N d (Fin x) = Fin 0) /\ (exp m < x -> p_at_most N d (Fin x) = Fin 1) /\
  (forall p, 0 < p < 1 -> x_at_p N d (Fin p) = Fin (exp m)).
Proof. exact certain_value. Qed.
Print Assumptions C31_certain_partial.

Example C31_quantiles_case : normal_ok gauss /\ 0 < 1 /\ 0 < 9 / 10 < 1.
Proof. split; [exact gauss_ok|lra]. Qed.

(** ** C32 *)

(** Applying a factor multiplies mean, variance (squared), median and
    quantiles, and leaves the log standard deviation alone; factors compose. *)
Theorem C32_adjust : forall N d a v f, normal_ok N -> moments d a v -> 0 < f ->
  moments (adjust d (Fin f)) (f * a) (f * f * v) /\
  get_sigma_lnX (adjust d (Fin f)) = get_sigma_lnX d /\
  get_median_X (adjust d (Fin f)) = er_mul (Fin f) (get_median_X d) /\
  (forall p, 0 <= p <= 1 -> x_at_p N (adjust d (Fin f)) (Fin p) = er_mul (Fin f) (x_at_p N d (Fin p))) /\
  (forall g, 0 < g -> adjust (adjust d (Fin f)) (Fin g) = adjust d (Fin (g * f))) /\
  adjust d (Fin 1) = d.
Proof. exact adjusted. Qed.
Print Assumptions C32_adjust.

(** The reported mean and standard deviation are those of [moments]. *)
Theorem C32_reported : forall d a v, moments d a v ->
  get_mean_X d = Fin a /\ get_sigma_X d = Fin (sqrt v) /\ 0 <= a /\ 0 <= v.
Proof. exact moments_reported. Qed.
Print Assumptions C32_reported.

Example C32_case : moments (LND (Fin 3) (Fin 1)) (exp (3 + 1 * 1 / 2)) ((exp (1 * 1) - 1) * exp (2 * 3 + 1 * 1)) /\ 0 < 2.
Proof. split; [|lra]. left. exists 3, 1. repeat split; lra. Qed.

(** ** C33 *)

Theorem C33_sum : forall l mv, all_moments l mv ->
  moments (add_dists l) (total (map fst mv)) (total (map snd mv)).
Proof. exact sum_moments. Qed.
Print Assumptions C33_sum.

Theorem C33_order : forall l l', Forall cost l -> Permutation l l' -> add_dists l = add_dists l'.
Proof. exact sum_order. Qed.
Print Assumptions C33_order.

Theorem C33_grouping : forall ls, Forall (Forall cost) ls -> add_dists (map add_dists ls) = add_dists (concat ls).
Proof. exact sum_grouping. Qed.
Print Assumptions C33_grouping.

Theorem C33_zero : forall l1 l2 z, Forall cost l1 -> Forall cost l2 -> certain_zero z ->
  add_dists (l1 ++ z :: l2) = add_dists (l1 ++ l2).
Proof. exact sum_zero. Qed.
Print Assumptions C33_zero.

(** A single summand is returned as it is (up to what a certain zero looks
    like). *)
Theorem C33_single : forall d, cost d -> same_cost (add_dists [d]) d.
Proof. exact sum_single. Qed.
Print Assumptions C33_single.

Example C33_case :
  all_moments [LND (Fin 3) (Fin 1); LND MInf (Fin 0)]
              [(exp (3 + 1 * 1 / 2), (exp (1 * 1) - 1) * exp (2 * 3 + 1 * 1)); (0, 0)] /\
  Forall cost [LND (Fin 3) (Fin 1); LND MInf (Fin 0)] /\ certain_zero (LND MInf (Fin 0)).
Proof.
  assert (A : moments (LND (Fin 3) (Fin 1)) (exp (3 + 1 * 1 / 2)) ((exp (1 * 1) - 1) * exp (2 * 3 + 1 * 1))).
  { left. exists 3, 1. repeat split; lra. }
  assert (Z : certain_zero (LND MInf (Fin 0))) by (exists 0; split; [reflexivity|lra]).
  assert (B : moments (LND MInf (Fin 0)) 0 0) by (right; auto).
  split; [|split; auto].
  - constructor; [exact A|]. constructor; [exact B|constructor].
  - constructor; [exists (exp (3 + 1 * 1 / 2)), ((exp (1 * 1) - 1) * exp (2 * 3 + 1 * 1)); exact A|].
    constructor; [exists 0, 0; exact B|constructor].
Qed.

(** ** C34 *)

(** Weights that are probabilities: mean and variance of the mixture, and the
    variance is not negative. *)
Theorem C34_mixture : forall l mv ws, all_moments l mv -> length l = length ws ->
  Forall (fun w => 0 <= w) ws -> total ws <= 1 ->
  0 <= mix_var ws mv /\
  exists d, add_weighted l (map Fin ws) = Some d /\ moments d (mix_mean ws mv) (mix_var ws mv).
Proof. exact mixture. Qed.
Print Assumptions C34_mixture.

(** Any other weights that are not negative: the mean is right, and the
    variance is taken without its sign. *)
Theorem C34_weights : forall l mv ws, all_moments l mv -> length l = length ws ->
  Forall (fun w => 0 <= w) ws ->
  exists d, add_weighted l (map Fin ws) = Some d /\ moments d (mix_mean ws mv) (Rabs (mix_var ws mv)).
Proof. exact mixture_any. Qed.
Print Assumptions C34_weights.

Theorem C34_lengths : forall l w, length l <> length w -> add_weighted l w = None.
Proof. exact mixture_rejected. Qed.
Print Assumptions C34_lengths.

Example C34_case : Forall (fun w => 0 <= w) [1 / 4; 1 / 2] /\ total [1 / 4; 1 / 2] <= 1 /\
  length [LND (Fin 3) (Fin 1); LND MInf (Fin 0)] = length [1 / 4; 1 / 2] /\
  mix_mean [1 / 4; 1 / 2] [(8, 1); (0, 0)] = 2 /\ mix_var [1 / 4; 1 / 2] [(8, 1); (0, 0)] = 49 / 4.
Proof.
  split; [repeat constructor; lra|]. unfold mix_var, mix_mean, total. cbn. repeat split; lra.
Qed.
