(** * C103: probabilistic functions in double precision *)
From Coq Require Import ZArith Reals Floats.SpecFloat.
From Flocq Require Import Core BinarySingleNaN.
From Verif Require Import Num Double_spec Lognormal Functions Totals Totals_spec Totals_proofs7 Spread_spec Spread_proofs4 Hyperbola_spec
  Probfn Probfn_spec Probfn_proofs.
Local Open Scope R_scope.

(** Given by the mean and the deviation of the logarithm: these, in every bit. *)
Theorem C103_logs :
  forall (log ex : F64 -> F64) (mu s : F64),
    gives (fun n => fn_mean_ln log ex n MEAN_LN_X SD_LN_X mu s) mu /\ gives (fun n => fn_sd_ln log ex n MEAN_LN_X SD_LN_X mu s) s.
Proof. exact given_ln. Qed.
Print Assumptions C103_logs.

(** Given by the mean itself and the deviation of the logarithm: the latter in every bit, the mean
    but for one part in [2^39]. *)
Theorem C103_mean :
  forall (log ex : F64 -> F64) (mu s : F64), accurate log -> exponential ex -> location mu -> log_width s ->
    gives (fun n => fn_sd_ln log ex n MEAN_X SD_LN_X mu s) s /\
    exists m, gives (fun n => fn_mean log ex n MEAN_X SD_LN_X mu s) m /\ nearly m mu.
Proof. exact given_mean. Qed.
Print Assumptions C103_mean.

(** A mean of zero gives a mean and a deviation of zero. *)
Theorem C103_zero :
  forall (log ex : F64 -> F64) (z : bool) (s : F64), (forall b, log (S754_zero b) = S754_infinity true) -> log_width s ->
    gives (fun n => fn_mean log ex n MEAN_X SD_LN_X (S754_zero z) s) (nofZ F64 0) /\
    gives (fun n => fn_sd log ex n MEAN_X SD_LN_X (S754_zero z) s) (nofZ F64 0).
Proof. exact zero_mean. Qed.
Print Assumptions C103_zero.

(** Full statement: given by the median, that median. False in the last bits, whatever the logarithm
    and the exponential. *)
Theorem C103_median_refuted :
  forall log ex : F64 -> F64, rising_log log -> rising_exp ex -> exists mu m, location mu /\
    (forall s, gives (fun n => fn_median log ex n MEDIAN_X SD_LN_X mu s) m) /\ real m <> real mu.
Proof. exact refute_median. Qed.
Print Assumptions C103_median_refuted.

(** What holds: it is but for one part in [2^39]. *)
Theorem C103_median_partial :
  forall (log ex : F64 -> F64) (mu s : F64), accurate log -> exponential ex -> location mu ->
    gives (fun n => fn_sd_ln log ex n MEDIAN_X SD_LN_X mu s) s /\
    exists m, gives (fun n => fn_median log ex n MEDIAN_X SD_LN_X mu s) m /\ nearly m mu.
Proof. exact given_median. Qed.
Print Assumptions C103_median_partial.

(** Full statement: given by the mean and the deviation, these to most digits. False: a deviation
    below [2^-27] of the mean is lost; *)
Theorem C103_small_fails :
  forall (log ex : F64 -> F64) (mu s : F64), accurate log -> exponential ex -> location mu -> width s ->
    real s <= bpow radix2 (-27) * real mu -> exists d, gives (fun n => fn_sd log ex n MEAN_X SD_X mu s) d /\ real d = 0.
Proof. exact small_both. Qed.
Print Assumptions C103_small_fails.

(** with both zero, as at an intensity of zero, they are not numbers; *)
Theorem C103_nothing_fails :
  forall (log ex : F64 -> F64) (z z' : bool), (forall b, log (S754_zero b) = S754_infinity true) -> log S754_nan = S754_nan -> ex S754_nan = S754_nan ->
    let mu := S754_zero z in let s := S754_zero z' in
    gives (fun n => fn_mean log ex n MEAN_X SD_X mu s) S754_nan /\ gives (fun n => fn_sd log ex n MEAN_X SD_X mu s) S754_nan.
Proof. exact zero_both. Qed.
Print Assumptions C103_nothing_fails.

(** and given by the deviation but not the mean, they are never computed. *)
Theorem C103_endless_fails :
  forall (log ex : F64 -> F64) (mt : mu_type) (mu s : F64), mt <> MEAN_X -> forall fuel, dist_at log ex fuel mt SD_X mu s = None.
Proof. exact endless. Qed.
Print Assumptions C103_endless_fails.

(** What holds: for positive means the mean is right but for one part in [2^39], and the variance to
    [2^-34] of the second moment. *)
Theorem C103_both_partial :
  forall (log ex : F64 -> F64) (mu s : F64), accurate log -> exponential ex -> location mu -> width s ->
    (exists m, gives (fun n => fn_mean log ex n MEAN_X SD_X mu s) m /\ nearly m mu) /\
    (real s <= bpow radix2 300 * real mu -> exists d, gives (fun n => fn_sd log ex n MEAN_X SD_X mu s) d /\ double d /\ finite d /\ 0 <= real d /\
      Rabs (real d * real d - real s * real s) <= bpow radix2 (-34) * (real mu * real mu + real s * real s)).
Proof. exact given_both. Qed.
Print Assumptions C103_both_partial.

(** A logarithm, an exponential, a location and a spread that meet the hypotheses. *)
Example C103_ok :
  accurate rounded_log /\ exponential rounded_exp /\ location (nofZ F64 3) /\ width (nofZ F64 2) /\ log_width (nofZ F64 2) /\
  real (nofZ F64 3) = 3 /\ real (nofZ F64 2) = 2 /\ real (nofZ F64 2) <= bpow radix2 300 * real (nofZ F64 3).
Proof. exact probfn_example. Qed.

Example C103_ends_ok :
  (forall b, rounded_log (S754_zero b) = S754_infinity true) /\ rounded_log S754_nan = S754_nan /\ rounded_exp S754_nan = S754_nan.
Proof. exact probfn_ends. Qed.

Example C103_small_ok :
  location (nofZ F64 (2 ^ 30)) /\ width (nofZ F64 1) /\ 0 < real (nofZ F64 1) <= bpow radix2 (-27) * real (nofZ F64 (2 ^ 30)).
Proof. exact probfn_small. Qed.
