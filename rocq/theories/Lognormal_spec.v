(** * What lognormal distributions should report

    Textbook formulas, independent of the model's functions. *)
From Coq Require Import Reals List.
From Verif Require Import ER ERmath Lognormal.
Local Open Scope R_scope.

(** What is assumed of the standard normal distribution function and its
    inverse. *)
Record normal_ok (N : normal) : Prop := {
  cdf_range : forall x, 0 < cdf N x < 1;
  cdf_increasing : forall x y, x < y -> cdf N x < cdf N y;
  cdf_symmetric : forall x, cdf N (- x) = 1 - cdf N x;
  cdf_quantile : forall p, 0 < p < 1 -> cdf N (quantile N p) = p
}.

(** A proper distribution: ln X has mean [m] and standard deviation [s]. *)
Definition proper (d : lnd) (m s : R) : Prop := d = LND (Fin m) (Fin s) /\ 0 <= s.

(** A cost that is certainly zero. *)
Definition certain_zero (d : lnd) : Prop := exists s, d = LND MInf (Fin s) /\ 0 <= s.

(** [X] has mean [mean] and variance [var]. *)
Definition moments (d : lnd) (mean var : R) : Prop :=
  (exists m s, proper d m s /\ mean = exp (m + s * s / 2) /\
               var = (exp (s * s) - 1) * exp (2 * m + s * s)) \/
  (certain_zero d /\ mean = 0 /\ var = 0).

(** A cost: proper or certainly zero. *)
Definition cost (d : lnd) : Prop := exists mean var, moments d mean var.

(** Two costs report the same figures: the same distribution, or both
    certainly zero. *)
Definition same_cost (d e : lnd) : Prop := d = e \/ (certain_zero d /\ certain_zero e).

(** Sum of a list. *)
Definition total (l : list R) : R := fold_right Rplus 0 l.

(** The getter for each way of giving a location or a spread. *)
Definition location (mt : mu_type) (d : lnd) : er :=
  match mt with MEAN_LN_X => get_mu_lnX d | MEAN_X => get_mean_X d | MEDIAN_X => get_median_X d end.
Definition spread (st : sigma_type) (d : lnd) : er :=
  match st with SD_LN_X => get_sigma_lnX d | SD_X => get_sigma_X d end.

(** The advertised combinations. *)
Definition supported (mt : mu_type) (st : sigma_type) : Prop := st = SD_LN_X \/ mt = MEAN_X.

(** The five figures are those of one lognormal distribution. *)
Definition consistent (d : lnd) : Prop := exists m s, 0 <= s /\
  get_mu_lnX d = Fin m /\ get_sigma_lnX d = Fin s /\ get_median_X d = Fin (exp m) /\
  get_mean_X d = Fin (exp (m + s * s / 2)) /\
  get_sigma_X d = Fin (sqrt ((exp (s * s) - 1) * exp (2 * m + s * s))).

(** All five are NaN. *)
Definition all_nan (d : lnd) : Prop :=
  get_mu_lnX d = NaN /\ get_sigma_lnX d = NaN /\ get_median_X d = NaN /\
  get_mean_X d = NaN /\ get_sigma_X d = NaN.

(** [a] and [b] are complementary probabilities. *)
Definition complementary (a b : er) : Prop :=
  exists p q, a = Fin p /\ b = Fin q /\ 0 <= p <= 1 /\ 0 <= q <= 1 /\ p + q = 1.

(** A value a cost can take: zero, a positive number or infinity. *)
Definition amount (x : er) : Prop := x = PInf \/ exists r, x = Fin r /\ 0 <= r.

(** The order on amounts. *)
Definition up_to (x y : er) : Prop := y = PInf \/ exists a b, x = Fin a /\ y = Fin b /\ a <= b.

(** The distributions of [l] have the means and variances [mv]. *)
Definition all_moments (l : list lnd) (mv : list (R * R)) : Prop :=
  Forall2 (fun d p => moments d (fst p) (snd p)) l mv.

(** The expectation of [f] in a mixture of weights [ws]. *)
Fixpoint mix (f : R -> R -> R) (ws : list R) (mv : list (R * R)) : R :=
  match ws, mv with
  | w :: ws, (a, v) :: mv => w * f a v + mix f ws mv
  | _, _ => 0
  end.

(** Mean and variance of the mixture in which the remaining probability costs
    nothing. *)
Definition mix_mean (ws : list R) (mv : list (R * R)) : R := mix (fun a _ => a) ws mv.
Definition mix_var (ws : list R) (mv : list (R * R)) : R :=
  mix (fun a v => v + a * a) ws mv - mix_mean ws mv * mix_mean ws mv.

(** When the probabilities are defined: a spread, and a value an amount; with
    no spread the value is not the median, and a certain zero or infinite
    variable is not compared with itself. *)
Definition comparable (d : lnd) (x : er) : Prop :=
  amount x /\ exists s, sigma_lnX d = Fin s /\ 0 <= s /\
  match mu_lnX d with
  | NaN => False
  | MInf => x <> Fin 0
  | PInf => x <> PInf
  | Fin m => s = 0 -> x <> Fin (exp m)
  end.
