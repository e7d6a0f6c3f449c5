(** * C99: hazard curves in double precision *)
From Coq Require Import ZArith Reals List Lra Lia Floats.SpecFloat.
From Flocq Require Import Core BinarySingleNaN.
From Verif Require Import Num Double_spec Totals Totals_spec Totals_proofs4 Totals_proofs7 Spread_spec Spread_proofs4
  Hyperbola Hyperbola_spec Hyperbola_proofs Hyperbola_proofs2 Hyperbola_proofs3.
Local Open Scope R_scope.

(** Rates are numbers from 0 to the asymptotic rate. *)
Theorem C99_number :
  forall (log ex : F64 -> F64) (v im alpha x : F64), rising_log log -> rising_exp ex ->
    natural v -> positive im -> amount alpha -> natural x ->
    let r := hyperbola log ex v im alpha x in double r /\ finite r /\ 0 <= real r <= real v.
Proof. exact (fun log ex v im alpha x LL LE Pv Pi Pa => h_number log ex im alpha LL LE Pi Pa v Pv x). Qed.
Print Assumptions C99_number.

(** At zero the asymptotic rate, exactly; from the asymptotic intensity on, nothing. *)
Theorem C99_ends :
  forall (log ex : F64 -> F64) (v im alpha x : F64), rising_log log -> rising_exp ex ->
    natural v -> positive im -> amount alpha -> natural x ->
    (real x = 0 -> real (hyperbola log ex v im alpha x) = real v) /\
    (real im <= real x -> real (hyperbola log ex v im alpha x) = 0).
Proof.
  exact (fun log ex v im alpha x LL LE Pv Pi Pa N => conj (h_zero log ex im alpha LL LE Pi Pa v Pv x N)
    (fun H => f_equal real (h_high log ex im alpha Pi v x (proj1 N) (proj1 (proj2 N)) H))).
Qed.
Print Assumptions C99_ends.

(** Rates never rise with the intensity: not even in the last bit. *)
Theorem C99_falls :
  forall (log ex : F64 -> F64) (v im alpha x x' : F64), rising_log log -> rising_exp ex ->
    natural v -> positive im -> amount alpha -> natural x -> natural x' -> real x <= real x' ->
    real (hyperbola log ex v im alpha x') <= real (hyperbola log ex v im alpha x).
Proof. exact (fun log ex v im alpha x x' LL LE Pv Pi Pa => h_falls log ex im alpha LL LE Pi Pa v Pv x x'). Qed.
Print Assumptions C99_falls.

(** Full statement: rates are those of the curve, to nearly all digits of the asymptotic rate.
    False: an intensity below [2^-1080] of the asymptotic one counts as none, whatever the curve
    says. *)
Theorem C99_tiny_fails :
  forall (log ex : F64 -> F64) (v im alpha x : F64), rising_log log -> rising_exp ex ->
    natural v -> positive im -> amount alpha -> natural x -> real x <= bpow radix2 (-1080) * real im ->
    real (hyperbola log ex v im alpha x) = real v.
Proof. exact h_tiny. Qed.
Print Assumptions C99_tiny_fails.

Theorem C99_right_refuted :
  exists (log ex : F64 -> F64) (v im alpha x : F64) (r : R), rising_log log /\ rising_exp ex /\
    natural v /\ positive im /\ amount alpha /\ natural x /\ curve (real v) (real im) (real alpha) (real x) r /\ 1 <= real alpha /\
    1 / 2 * real v <= Rabs (real (hyperbola log ex v im alpha x) - r).
Proof. exact refute_right. Qed.
Print Assumptions C99_right_refuted.

(** What holds: from [2^-1000] of the asymptotic intensity on they are, up to and beyond the
    asymptotic intensity, for curves with [alpha] not below [2^-20]; where [alpha] is below one,
    with an error greater by as much. *)
Theorem C99_right_partial :
  forall (log ex : F64 -> F64) (v im alpha x : F64) (r : R), rising_log log -> rising_exp ex ->
    natural v -> positive im -> amount alpha -> natural x ->
    bpow radix2 (-20) <= real alpha -> bpow radix2 (-1000) <= real v -> real x = 0 \/ bpow radix2 (-1000) * real im <= real x ->
    curve (real v) (real im) (real alpha) (real x) r ->
    Rabs (real (hyperbola log ex v im alpha x) - r) <= bpow radix2 (-48) * real v * Rmax 1 (/ real alpha).
Proof. exact h_curve. Qed.
Print Assumptions C99_right_partial.

(** A logarithm, an exponential and a curve that meet the hypotheses, and an intensity between
    the ends. *)
Example C99_curve_ok :
  rising_log rounded_log /\ rising_exp rounded_exp /\ natural (nofZ F64 1) /\ positive thousand /\ amount much /\
  1 <= real much /\ bpow radix2 (-20) <= real much /\ bpow radix2 (-1000) <= real (nofZ F64 1) /\ natural (nofZ F64 2) /\
  bpow radix2 (-1000) * real thousand <= real (nofZ F64 2) /\
  curve (real (nofZ F64 1)) (real thousand) (real much) (real (nofZ F64 2)) (1 * exp (1048576 / ln (2 / bpow radix2 10))) /\
  natural least /\ real least <= bpow radix2 (-1080) * real thousand.
Proof.
  destruct least_is as [Nl El]. destruct thousand_is as [Pt Et]. destruct much_is as [Am Em]. destruct one_is as [N1 E1].
  destruct (small_int 2 ltac:(lia)) as [(V & F & _) E2].
  split; [exact rounded_rising_log |]. split; [exact rounded_rising_exp |]. split; [exact N1 |]. split; [exact Pt |]. split; [exact Am |].
  rewrite Em, E1, Et, E2, El. split; [lra |]. split; [apply Rle_trans with (bpow radix2 0); [apply bpow_le; lia | change (bpow radix2 0) with 1; lra] |]. split; [change 1 with (bpow radix2 0); apply bpow_le; lia |].
  split; [split; [exact V |]; split; [exact F | rewrite E2; lra] |].
  split; [rewrite <- bpow_plus; change 2 with (bpow radix2 1); apply bpow_le; lia |].
  split; [right; right; split; [split; [lra | change 2 with (bpow radix2 1); apply bpow_lt; lia] | reflexivity] |].
  split; [exact Nl |]. rewrite <- bpow_plus. apply bpow_le. lia.
Qed.
