(** * Figures of a group in double precision (src/fragility.cpp 63-73;
    src/loss_functions.cpp 104-115; src/lognormaldist.cpp 26-29, 50-56, 144-166, 201-206;
    src/comp_group.cpp 265-280, 326-385)

    Continues [Totals.v], with its simplifications; [exp], too, is a parameter. The probabilities
    that [pExceeded] gives, and what the integrations of a group give, are any doubles. *)
From Coq Require Import List ZArith Bool Floats.SpecFloat.
From Verif Require Import Num Totals.
Import ListNotations.

(** What remains of a difference (fragility.cpp 67-70). *)
Definition clipped (d : F64) : F64 := if nltb F64 d (nofZ F64 0) then nofZ F64 0 else d.

(** [pHighest], of what [pExceeded] gives (fragility.cpp 63-73). *)
Fixpoint highest (p : list F64) : list F64 :=
  match p with
  | [] => []
  | x :: r =>
      match r with
      | [] => [x]
      | y :: _ => clipped (nsub F64 x y) :: highest r
      end
  end.

(** The mean of a loss with two levels (loss_functions.cpp 104-115). The differences of counts
    are those of integers; overflow is left out. *)
Definition level (count_min count_max count : Z) (at_min at_max : F64) : F64 :=
  if (count <=? count_min)%Z then at_min
  else if (count_max <=? count)%Z then at_max
  else nadd F64 at_min (nmul F64 (ndiv F64 (nofZ F64 (count - count_min)) (nofZ F64 (count_max - count_min)))
                                 (nsub F64 at_max at_min)).

(** [get_mean_X] (lognormaldist.cpp 144-151). *)
Definition mean_of (exp : F64 -> F64) (d : F64 * F64) : F64 :=
  let '(mu, sigma) := d in
  if neqb F64 mu (S754_infinity true) then nofZ F64 0
  else exp (nadd F64 mu (ndiv F64 (nmul F64 sigma sigma) (nofZ F64 2))).

(** [get_sigma_X] (lognormaldist.cpp 158-166). *)
Definition sd_of (exp : F64 -> F64) (d : F64 * F64) : F64 :=
  let '(mu, sigma) := d in
  if neqb F64 mu (S754_infinity true) then nofZ F64 0
  else nmul F64 (mean_of exp d) (root (nsub F64 (exp (nmul F64 sigma sigma)) (nofZ F64 1))).

(** [LogNormalDist_from_mean_X_and_sigma_lnX] (lognormaldist.cpp 26-29, 50-56). *)
Definition with_spread (log : F64 -> F64) (mean sigma : F64) : F64 * F64 :=
  (nsub F64 (log mean) (ndiv F64 (nmul F64 sigma sigma) (nofZ F64 2)), sigma).

(** [ApplyAdjustmentFactor] (lognormaldist.cpp 201-206). *)
Definition scaled (log exp : F64 -> F64) (factor : F64) (d : F64 * F64) : F64 * F64 :=
  with_spread log (nmul F64 factor (mean_of exp d)) (snd d).

(** [sigma_x] of [SD_ln_cost_IM_calc] (comp_group.cpp 370-374). *)
Definition deviation (mean square : F64) : F64 :=
  let s := root (nsub F64 square (nmul F64 mean mean)) in
  if nisnan F64 s then nofZ F64 0 else s.

(** What [SD_ln_cost_IM_calc] makes of the mean and of its integral (comp_group.cpp 367-376). *)
Definition spread (log : F64 -> F64) (mean square : F64) : F64 :=
  let s := deviation mean square in
  if neqb F64 mean (nofZ F64 0) then nofZ F64 0
  else root (log (nadd F64 (nofZ F64 1) (ndiv F64 (nmul F64 s s) (nmul F64 mean mean)))).

(** [CostDist_IM] (comp_group.cpp 265-280), from the two integrals. *)
Definition conditional (log : F64 -> F64) (mean square : F64) : F64 * F64 :=
  with_spread log mean (spread log mean square).

(** The distribution of cost or delay at a demand, for simple losses (comp_group.cpp 52-69;
    loss_functions.cpp 18-21, 57-62; lognormaldist.cpp 196-199): of what [pExceeded] gives and the
    means and deviations of the losses. The count, an [int], becomes a [double]. *)
Definition loss_at (log exp : F64 -> F64) (p : list F64) (losses : list cost) (count : Z) (factor : F64) : F64 * F64 :=
  scaled log exp factor (scaled log exp (nofZ F64 count) (made log (weighted (combine losses (highest p))))).
