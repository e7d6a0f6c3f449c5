(** * Distributions by kinds of parameters, in double precision (src/pyslatcore.cpp 533-551;
    src/lognormaldist.cpp 26-131; src/functions.cpp 364-372)

    As in [Lognormal.v], but with the operations of IEEE binary64. The logarithm of the C library
    and the GSL's lognormal distribution functions are arguments. *)
From Coq Require Import ZArith Floats.SpecFloat.
From Verif Require Import Num Lognormal Functions Totals Spread Probfn.

(** [MakeLogNormalDist] (pyslatcore.cpp 533-551; lognormaldist.cpp 40-43, 50-80): [mu_lnX] and
    [sigma_lnX]. The message on standard output is left out. *)
Definition made_by (log : F64 -> F64) (mu : F64) (mt : mu_type) (sigma : F64) (st : sigma_type) : F64 * F64 :=
  match mt, st with
  | MEAN_LN_X, SD_LN_X => (mu, sigma)
  | MEAN_X, SD_LN_X => with_spread log mu sigma
  | MEDIAN_X, SD_LN_X => (log mu, sigma)
  | MEAN_X, SD_X => made log (Cost mu sigma)
  | _, _ => (nnan F64, nnan F64)
  end.

(** Results below zero are clipped (lognormaldist.cpp 97-101, 114-119, 126-130). *)
Definition not_below (r : F64) : F64 := if nltb F64 r (nofZ F64 0) then nofZ F64 0 else r.

(** [p_at_least] (lognormaldist.cpp 82-103). *)
Definition at_least (Q : F64 -> F64 -> F64 -> F64) (d : F64 * F64) (x : F64) : F64 :=
  if andb (nisnan F64 (fst d)) (nisnan F64 (snd d)) then nnan F64
  else if nisnan F64 (fst d) then nofZ F64 0
  else not_below (Q x (fst d) (snd d)).

(** [p_at_most] (lognormaldist.cpp 105-121). *)
Definition at_most (P : F64 -> F64 -> F64 -> F64) (d : F64 * F64) (x : F64) : F64 :=
  if andb (nisnan F64 (fst d)) (nisnan F64 (snd d)) then nnan F64 else not_below (P x (fst d) (snd d)).

(** [LogNormalFn::P_exceedence] (functions.cpp 364-367). *)
Definition exceedence (log exp : F64 -> F64) (Q : F64 -> F64 -> F64 -> F64) (fuel : nat) mt st mu sigma (y : F64) : option F64 :=
  option_map (fun d => at_least Q d y) (dist_at log exp fuel mt st mu sigma).

(** [x_at_p] (lognormaldist.cpp 123-131). *)
Definition at_chance (Pinv : F64 -> F64 -> F64 -> F64) (d : F64 * F64) (p : F64) : F64 := not_below (Pinv p (fst d) (snd d)).

(** [LogNormalFn::X_at_exceedence] (functions.cpp 369-372). *)
Definition x_at_exceedence (log exp : F64 -> F64) (Pinv : F64 -> F64 -> F64 -> F64) (fuel : nat) mt st mu sigma (p : F64) : option F64 :=
  option_map (fun d => at_chance Pinv d p) (dist_at log exp fuel mt st mu sigma).
