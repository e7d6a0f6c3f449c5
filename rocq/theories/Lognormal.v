(** * Lognormal distributions

    Source: /repo/src/lognormaldist.cpp, lognormaldist.h, and
    [MakeLogNormalDist] in pyslatcore.cpp.  Exact arithmetic on the extended
    reals: rounding, overflow and underflow are left out. *)
From Coq Require Import Reals List Bool.
From Verif Require Import Num ER ERmath.
Import ListNotations.
Local Open Scope R_scope.

(** [LogNormalDist] (lognormaldist.h 57-60). *)
Record lnd := LND { mu_lnX : er; sigma_lnX : er }.

(** The default constructor (lognormaldist.cpp 40-43). *)
Definition nodist : lnd := LND NaN NaN.

(** lognormaldist.cpp 26-29. *)
Definition mu_from_mean (mean_X sigma : er) : er :=
  er_sub (er_log mean_X) (er_div (er_mul sigma sigma) (Fin 2)).

(** lognormaldist.cpp 31-38. *)
Definition sigma_from_sd (mean_X sigma_X : er) : er :=
  if er_eqb mean_X (Fin 0) then Fin 0
  else er_sqrt (er_log (er_add (Fin 1) (er_div (er_mul sigma_X sigma_X) (er_mul mean_X mean_X)))).

(** [LogNormalDist_from_mean_X_and_sigma_lnX] (lognormaldist.cpp 50-56). *)
Definition from_mean_sdln (mean_X sigma : er) : lnd := LND (mu_from_mean mean_X sigma) sigma.

(** [LogNormalDist_from_mean_X_and_sigma_X] (lognormaldist.cpp 58-64). *)
Definition from_mean_sd (mean_X sigma_X : er) : lnd :=
  let s := sigma_from_sd mean_X sigma_X in LND (mu_from_mean mean_X s) s.

(** [LogNormalDist_from_median_X_and_sigma_lnX] (lognormaldist.cpp 66-72). *)
Definition from_median_sdln (median_X sigma : er) : lnd := LND (er_log median_X) sigma.

(** [LogNormalDist_from_mu_lnX_and_sigma_lnX] (lognormaldist.cpp 74-80). *)
Definition from_mu_sdln (mu sigma : er) : lnd := LND mu sigma.

(** [LOGNORMAL_MU_TYPE], [LOGNORMAL_SIGMA_TYPE] (pyslatcore.h). *)
Inductive mu_type := MEAN_LN_X | MEAN_X | MEDIAN_X.
(** As above. pyslatcore.h. *)
Inductive sigma_type := SD_LN_X | SD_X.

(** [MakeLogNormalDist] (pyslatcore.cpp 533-551); the message on standard output
    is left out. *)
Definition make (mu : er) (mt : mu_type) (sigma : er) (st : sigma_type) : lnd :=
  match mt, st with
  | MEAN_LN_X, SD_LN_X => from_mu_sdln mu sigma
  | MEAN_X, SD_LN_X => from_mean_sdln mu sigma
  | MEDIAN_X, SD_LN_X => from_median_sdln mu sigma
  | MEAN_X, SD_X => from_mean_sd mu sigma
  | _, _ => nodist
  end.

(** lognormaldist.cpp 134-137. *)
Definition get_mu_lnX (d : lnd) : er := mu_lnX d.
(** lognormaldist.cpp 139-142. *)
Definition get_median_X (d : lnd) : er := er_exp (mu_lnX d).
(** lognormaldist.cpp 144-151. *)
Definition get_mean_X (d : lnd) : er :=
  if er_eqb (mu_lnX d) MInf then Fin 0
  else er_exp (er_add (mu_lnX d) (er_div (er_mul (sigma_lnX d) (sigma_lnX d)) (Fin 2))).
(** lognormaldist.cpp 153-156. *)
Definition get_sigma_lnX (d : lnd) : er := sigma_lnX d.
(** lognormaldist.cpp 158-166. *)
Definition get_sigma_X (d : lnd) : er :=
  if er_eqb (mu_lnX d) MInf then Fin 0
  else er_mul (get_mean_X d)
         (er_sqrt (er_sub (er_exp (er_mul (get_sigma_lnX d) (get_sigma_lnX d))) (Fin 1))).

(** lognormaldist.cpp 82-103. *)
Definition p_at_least (N : normal) (d : lnd) (x : er) : er :=
  if er_isnan (mu_lnX d) && er_isnan (sigma_lnX d) then NaN
  else if er_isnan (mu_lnX d) then Fin 0
  else let r := gsl_lognormal_Q N x (mu_lnX d) (sigma_lnX d) in
       if er_ltb r (Fin 0) then Fin 0 else r.

(** lognormaldist.cpp 105-121. *)
Definition p_at_most (N : normal) (d : lnd) (x : er) : er :=
  if er_isnan (mu_lnX d) && er_isnan (sigma_lnX d) then NaN
  else let r := gsl_lognormal_P N x (mu_lnX d) (sigma_lnX d) in
       if er_ltb r (Fin 0) then Fin 0 else r.

(** lognormaldist.cpp 123-131. *)
Definition x_at_p (N : normal) (d : lnd) (p : er) : er :=
  let r := gsl_lognormal_Pinv N p (mu_lnX d) (sigma_lnX d) in
  if er_ltb r (Fin 0) then Fin 0 else r.

(** [ApplyAdjustmentFactor] (lognormaldist.cpp 201-206). *)
Definition adjust (d : lnd) (f : er) : lnd :=
  from_mean_sdln (er_mul f (get_mean_X d)) (get_sigma_lnX d).
(** [ScaleDistributionByProbability] (lognormaldist.cpp 191-194). *)
Definition scale_prob (d : lnd) (p : er) : lnd := adjust d p.
(** [ScaleDistributionByNumComponents] (lognormaldist.cpp 196-199). *)
Definition scale_count (d : lnd) (n : er) : lnd := adjust d n.

(** The loop of [AddWeightedDistributions] (lognormaldist.cpp 176-185): the
    running mean and second moment. *)
Fixpoint weigh (l : list lnd) (w : list er) (m v : er) : er * er :=
  match l, w with
  | d :: l, p :: w =>
      let mean := get_mean_X d in
      let sd := get_sigma_X d in
      weigh l w (er_add m (er_mul mean p))
                (er_add v (er_mul (er_add (er_mul mean mean) (er_mul sd sd)) p))
  | _, _ => (m, v)
  end.

(** [AddWeightedDistributions] (lognormaldist.cpp 168-189); [None] is the
    exception. *)
Definition add_weighted (l : list lnd) (w : list er) : option lnd :=
  if Nat.eqb (length l) (length w) then
    let (m, v) := weigh l w (Fin 0) (Fin 0) in
    Some (from_mean_sd m (er_sqrt (er_abs (er_sub v (er_mul m m)))))
  else None.

(** The inner loop of [AddDistributions] after its first round
    (lognormaldist.cpp 221-227). *)
Fixpoint cross (sd : er) (l : list lnd) (v : er) : er :=
  match l with
  | [] => v
  | d :: l => cross sd l (er_add v (er_mul (er_mul (Fin 0) sd) (get_sigma_X d)))
  end.

(** The outer loop (lognormaldist.cpp 214-228). *)
Fixpoint accumulate (l : list lnd) (m v : er) : er * er :=
  match l with
  | [] => (m, v)
  | d :: l =>
      let sd := get_sigma_X d in
      accumulate l (er_add m (get_mean_X d)) (cross sd l (er_add v (er_mul sd sd)))
  end.

(** [AddDistributions] (lognormaldist.cpp 208-230). *)
Definition add_dists (l : list lnd) : lnd :=
  let (m, v) := accumulate l (Fin 0) (Fin 0) in from_mean_sd m (er_sqrt v).
