(** * C104: distributions and functions with the same parameters, in double precision *)
From Coq Require Import ZArith Reals Floats.SpecFloat.
From Flocq Require Import Core BinarySingleNaN.
From Verif Require Import Num Double_spec Lognormal Functions Totals Totals_spec Spread Spread_spec Totals_proofs7 Spread_proofs4 Probfn Probfn_spec Probfn_proofs Make Make_spec Make_proofs Make_proofs2.

(** Full statement: where its two functions have some values, a probabilistic function gives the
    figures of the distribution made of these values. False for a mean and a deviation of zero, for
    which the mean of the function is not a number and that of the distribution is zero. *)
Theorem C104_same_refuted :
  forall log ex : F64 -> F64, (forall b, log (S754_zero b) = S754_infinity true) -> log S754_nan = S754_nan -> ex S754_nan = S754_nan ->
    exists mu s m, gives (fun n => fn_mean log ex n MEAN_X SD_X mu s) m /\ m <> mean_of ex (made_by log mu MEAN_X s SD_X).
Proof. exact refute_same. Qed.
Print Assumptions C104_same_refuted.

(** What holds: it does, in every bit and whatever the libraries' functions, if the mean is not zero
    or the deviation that of the logarithm. *)
Theorem C104_same_partial :
  forall (log ex : F64 -> F64) (Q Pinv : F64 -> F64 -> F64 -> F64) (mu s : F64) (mt : mu_type) (st : sigma_type),
    usable mt st -> (st = SD_LN_X \/ some_mean mu) ->
    let d := made_by log mu mt s st in
    gives (fun n => fn_mean log ex n mt st mu s) (mean_of ex d) /\ gives (fun n => fn_sd log ex n mt st mu s) (sd_of ex d) /\
    gives (fun n => fn_median log ex n mt st mu s) (ex (fst d)) /\
    gives (fun n => fn_mean_ln log ex n mt st mu s) (fst d) /\ gives (fun n => fn_sd_ln log ex n mt st mu s) (snd d) /\
    (forall y, gives (fun n => exceedence log ex Q n mt st mu s y) (at_least Q d y)) /\
    (forall p, gives (fun n => x_at_exceedence log ex Pinv n mt st mu s p) (at_chance Pinv d p)).
Proof. exact same_figures. Qed.
Print Assumptions C104_same_partial.

(** With other kinds of parameters the distribution has no numbers, and the function never returns. *)
Theorem C104_other_fails :
  forall (log ex : F64 -> F64) (mu s : F64) (mt : mu_type) (st : sigma_type), ~ usable mt st ->
    made_by log mu mt s st = (S754_nan, S754_nan) /\ forall fuel, dist_at log ex fuel mt st mu s = None.
Proof. exact unusable. Qed.
Print Assumptions C104_other_fails.

(** Probabilities and quantiles are never negative, whatever the GSL computes. *)
Theorem C104_never_negative :
  forall (Q P Pinv : F64 -> F64 -> F64 -> F64) (d : F64 * F64) (x : F64),
    no_negative (at_least Q d x) /\ no_negative (at_most P d x) /\ no_negative (at_chance Pinv d x).
Proof. exact never_negative. Qed.
Print Assumptions C104_never_negative.

(** Otherwise a probability or quantile is the one the GSL computes. *)
Theorem C104_chance :
  forall (Q P Pinv : F64 -> F64 -> F64 -> F64) (d : F64 * F64) (x : F64),
    (fst d <> S754_nan -> no_negative (Q x (fst d) (snd d)) -> at_least Q d x = Q x (fst d) (snd d)) /\
    (fst d <> S754_nan -> no_negative (P x (fst d) (snd d)) -> at_most P d x = P x (fst d) (snd d)) /\
    (no_negative (Pinv x (fst d) (snd d)) -> at_chance Pinv d x = Pinv x (fst d) (snd d)).
Proof. exact same_chance. Qed.
Print Assumptions C104_chance.

(** A distribution without numbers has no probabilities; where only the mean is missing, nothing is
    ever exceeded. *)
Theorem C104_missing :
  forall (Q P : F64 -> F64 -> F64 -> F64) (v x : F64),
    at_least Q (S754_nan, S754_nan) x = S754_nan /\ at_most P (S754_nan, S754_nan) x = S754_nan /\
    (v <> S754_nan -> at_least Q (S754_nan, v) x = S754_zero false).
Proof. exact missing. Qed.
Print Assumptions C104_missing.

(** What a distribution is made of comes back: parameters of the logarithm in every bit; means and
    medians, and variances beside the second moment, but for rounding. *)
Theorem C104_back :
  forall log ex : F64 -> F64, accurate log -> exponential ex ->
    (forall mu s, made_by log mu MEAN_LN_X s SD_LN_X = (mu, s)) /\
    (forall mu mt s, snd (made_by log mu mt s SD_LN_X) = s) /\
    (forall mu s, location mu -> nearly (ex (fst (made_by log mu MEDIAN_X s SD_LN_X))) mu) /\
    (forall mu s, location mu -> log_width s -> nearly (mean_of ex (made_by log mu MEAN_X s SD_LN_X)) mu) /\
    (forall mu s, location mu -> width s -> let d := made_by log mu MEAN_X s SD_X in
      nearly (mean_of ex d) mu /\
      ((real s <= bpow radix2 300 * real mu)%R -> double (sd_of ex d) /\ finite (sd_of ex d) /\ (0 <= real (sd_of ex d))%R /\
        (Rabs (real (sd_of ex d) * real (sd_of ex d) - real s * real s) <= bpow radix2 (-34) * (real mu * real mu + real s * real s))%R)).
Proof. exact made_back_all. Qed.
Print Assumptions C104_back.

(** With a mean of zero and any deviation, both are zero. *)
Theorem C104_zero :
  forall (log ex : F64 -> F64) (z : bool) (s : F64), (forall b, log (S754_zero b) = S754_infinity true) ->
    let d := made_by log (S754_zero z) MEAN_X s SD_X in mean_of ex d = S754_zero false /\ sd_of ex d = S754_zero false.
Proof. exact made_zero. Qed.
Print Assumptions C104_zero.

(** Kinds of both sorts, means that are not zero, and a logarithm and an exponential that meet the
    hypotheses. *)
Example C104_ok :
  usable MEAN_X SD_X /\ usable MEDIAN_X SD_LN_X /\ ~ usable MEDIAN_X SD_X /\ some_mean (nofZ F64 3) /\
  no_negative (nofZ F64 1) /\ ~ no_negative (SFopp (nofZ F64 1)).
Proof.
  split; [now right |]. split; [now left |]. split; [intros [H | H]; discriminate H |]. split; [intros b H; discriminate H |].
  split; [exact I | intros []].
Qed.

Example C104_ends_ok :
  (forall b, rounded_log (S754_zero b) = S754_infinity true) /\ rounded_log S754_nan = S754_nan /\ rounded_exp S754_nan = S754_nan.
Proof. exact probfn_ends. Qed.

Example C104_back_ok :
  accurate rounded_log /\ exponential rounded_exp /\ location (nofZ F64 3) /\ width (nofZ F64 2) /\ log_width (nofZ F64 2) /\
  real (nofZ F64 3) = 3%R /\ real (nofZ F64 2) = 2%R /\ (real (nofZ F64 2) <= bpow radix2 300 * real (nofZ F64 3))%R.
Proof. exact probfn_example. Qed.
