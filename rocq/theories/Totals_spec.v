(** * Costs as numbers: what is expected of double precision (C94) *)
From Coq Require Import ZArith Reals List Floats.SpecFloat.
From Flocq Require Import Core BinarySingleNaN.
From Verif Require Import Num Double_spec Totals.
Import ListNotations.
Local Open Scope R_scope.

(** The real number a finite double is. *)
Definition real (x : F64) : R := SF2R radix2 x.

(** A finite double in a range. *)
Definition between (a b : R) (x : F64) : Prop := double x /\ finite x /\ a <= real x <= b.

(** Probabilities; costs not beyond [2^400], which no currency reaches. *)
Definition chance (x : F64) : Prop := between 0 1 x.
Definition amount (x : F64) : Prop := between 0 (bpow radix2 400) x.
Definition known (x : cost) : Prop := amount (c_mean x) /\ amount (c_sd x).

(** Neither curve gives anything but probabilities, and buildings that collapse count as
    beyond use, so that the curve of demolition is not below that of collapse. *)
Definition sound (c : chances) : Prop :=
  match ch_collapse c, ch_demolition c with
  | None, None => True
  | Some p, None => chance p
  | None, Some q => chance q
  | Some p, Some q => chance p /\ chance q /\ real p <= real q
  end.

(** How likely collapse is, and being beyond use, by the curves; without a curve for
    demolition only collapse is beyond use, without one for collapse nothing collapses. *)
Definition collapse_chance (c : chances) : R := match ch_collapse c with Some p => real p | None => 0 end.
Definition beyond_use (c : chances) : R := match ch_demolition c with Some q => real q | None => collapse_chance c end.

(** A mixture: probability, mean and deviation of each case; its mean, its expected square
    and its variance. *)
Fixpoint mixture_mean (l : list (R * R * R)) : R :=
  match l with [] => 0 | (p, m, s) :: r => p * m + mixture_mean r end.
Fixpoint mixture_square (l : list (R * R * R)) : R :=
  match l with [] => 0 | (p, m, s) :: r => p * (m * m + s * s) + mixture_square r end.
Definition mixture_variance (l : list (R * R * R)) : R := mixture_square l - mixture_mean l * mixture_mean l.

(** The three fates as a mixture. *)
Definition three (c : chances) (repair demolition collapse : cost) : list (R * R * R) :=
  [(real (p_repair c), real (c_mean repair), real (c_sd repair));
   (real (p_demolition c), real (c_mean demolition), real (c_sd demolition));
   (real (p_collapse c), real (c_mean collapse), real (c_sd collapse))].

(** Two fates as a mixture: repaired unless collapsed. *)
Definition two (c : chances) (repair collapse : cost) : list (R * R * R) :=
  [(1 - collapse_chance c, real (c_mean repair), real (c_sd repair));
   (collapse_chance c, real (c_mean collapse), real (c_sd collapse))].

(** Distributions with weights as a mixture. *)
Definition cases (l : list (cost * F64)) : list (R * R * R) :=
  map (fun '(x, w) => (real w, real (c_mean x), real (c_sd x))) l.

(** Sums of costs that do not depend on each other: of the means and of the variances. *)
Fixpoint sum_means (l : list cost) : R := match l with [] => 0 | x :: r => real (c_mean x) + sum_means r end.
Fixpoint sum_squares (l : list cost) : R := match l with [] => 0 | x :: r => real (c_sd x) * real (c_sd x) + sum_squares r end.

(** A number that is not negative: finite or infinite. *)
Definition counts (x : F64) : Prop := double x /\ nleb F64 (nofZ F64 0) x = true.

(** A cost that is two finite numbers, neither negative. *)
Definition plain (x : cost) : Prop := counts (c_mean x) /\ finite (c_mean x) /\ counts (c_sd x) /\ finite (c_sd x).

(** A cost with a probability as its weight. *)
Definition usable (y : cost * F64) : Prop := known (fst y) /\ chance (snd y).

(** The two numbers of a distribution: both finite, the second not negative. *)
Definition fine (x : F64 * F64) : Prop :=
  (double (fst x) /\ finite (fst x)) /\ double (snd x) /\ finite (snd x) /\ 0 <= real (snd x).

(** What is expected of a logarithm: finite for positive finite doubles, not negative from
    one on. *)
Definition logarithm (log : F64 -> F64) : Prop :=
  forall x, double x -> finite x -> 0 < real x ->
    double (log x) /\ finite (log x) /\ Rabs (real (log x)) <= 1000 /\ (1 <= real x -> 0 <= real (log x)).

(** A logarithm that is right to nearly the last digit. *)
Definition accurate (log : F64 -> F64) : Prop :=
  logarithm log /\ forall x, double x -> finite x -> 0 < real x ->
    Rabs (real (log x) - ln (real x)) <= bpow radix2 (-50) * Rabs (ln (real x)).
