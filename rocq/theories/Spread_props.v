(** * C96: a group's figures in double precision *)
From Coq Require Import ZArith Reals List Lra Lia Floats.SpecFloat.
From Flocq Require Import Core BinarySingleNaN.
From Verif Require Import Num Double_spec Totals Totals_spec Totals_proofs Totals_proofs4 Totals_proofs7 Totals_props
  Spread Spread_spec Spread_proofs Spread_proofs2 Spread_proofs3 Spread_proofs4 Spread_proofs5 Spread_proofs6.
Import ListNotations.
Local Open Scope R_scope.

(** The chances of being in each damage state are probabilities, one for each; each is that of
    reaching the state without reaching the next, zero if the next is likelier; the last is that
    of reaching it. *)
Theorem C96_states :
  forall p : list F64, Forall chance p ->
    Forall chance (highest p) /\ List.length (highest p) = List.length p /\
    (forall i x y, nth_error p i = Some x -> nth_error p (S i) = Some y ->
       exists d, nth_error (highest p) i = Some d /\ Rabs (real d - Rmax 0 (real x - real y)) <= bpow radix2 (-54)) /\
    (forall q x, p = q ++ [x] -> nth_error (highest p) (List.length q) = Some x).
Proof.
  exact (fun p H => conj (highest_fair p H) (conj (highest_length p) (conj (highest_each p H)
    (fun q x E => eq_ind_r (fun p => nth_error (highest p) (List.length q) = Some x) (highest_last q x) E)))).
Qed.
Print Assumptions C96_states.

(** If the states get worse, the chances add up to that of reaching the first, but for half a
    unit in the last place each. *)
Theorem C96_states_sum :
  forall (a : F64) (r : list F64), Forall chance (a :: r) -> falling (a :: r) ->
    Rabs (total_of (highest (a :: r)) - real a) <= INR (List.length (a :: r)) * bpow radix2 (-54).
Proof. exact (fun a r C F => highest_total (a :: r) C F a r eq_refl). Qed.
Print Assumptions C96_states_sum.

Example C96_states_ok :
  Forall chance [C94_half; C94_quarter] /\ falling [C94_half; C94_quarter] /\ highest [C94_half; C94_quarter] = [C94_quarter; C94_quarter].
Proof.
  split; [constructor; [apply C94_half_is | constructor; [apply C94_quarter_is | constructor]] |].
  split; [| vm_compute; reflexivity]. cbn [falling]. rewrite (proj2 C94_half_is), (proj2 C94_quarter_is). split; [lra | exact I].
Qed.

(** The mean of a loss with two levels lies between the levels, rounding included, and, but for
    rounding, on the line between them. *)
Theorem C96_level :
  forall (count_min count_max count : Z) (at_min at_max : F64),
    (0 <= count_min)%Z -> (count_min <= count_max)%Z -> (count_max < 2 ^ 31)%Z -> amount at_min -> amount at_max -> apart at_min at_max ->
    let m := level count_min count_max count at_min at_max in
    amount m /\ Rmin (real at_min) (real at_max) <= real m <= Rmax (real at_min) (real at_max) /\
    ((count <= count_min)%Z -> m = at_min) /\ ((count_min < count)%Z -> (count_max <= count)%Z -> m = at_max) /\
    ((count_min < count < count_max)%Z ->
     Rabs (real m - (real at_min + IZR (count - count_min) / IZR (count_max - count_min) * (real at_max - real at_min))) <=
       bpow radix2 (-50) * Rmax (real at_min) (real at_max)).
Proof. exact level_right. Qed.
Print Assumptions C96_level.

Example C96_level_ok :
  amount (nofZ F64 12) /\ amount (nofZ F64 4) /\ apart (nofZ F64 12) (nofZ F64 4) /\
  level 1 5 3 (nofZ F64 12) (nofZ F64 4) = nofZ F64 8.
Proof.
  split; [apply small_int; lia |]. split; [apply small_int; lia |]. split; [| vm_compute; reflexivity].
  right. rewrite (proj2 (small_int 12 ltac:(lia))), (proj2 (small_int 4 ltac:(lia))). rewrite Rabs_pos_eq by lra.
  apply Rle_trans with (bpow radix2 0); [apply bpow_le; lia | cbn; lra].
Qed.

(** A distribution made from a mean and a deviation, or a dispersion, gives back the mean to
    nearly all digits, and the deviation as far as the two together allow. *)
Theorem C96_mean :
  forall (log ex : F64 -> F64) (m sigma : F64), accurate log -> exponential ex ->
    between (bpow radix2 (-60)) (bpow radix2 430) m -> between 0 32 sigma ->
    let d := with_spread log m sigma in
    fine d /\ double (mean_of ex d) /\ finite (mean_of ex d) /\ Rabs (real (mean_of ex d) - real m) <= bpow radix2 (-39) * real m.
Proof. exact spread_back. Qed.
Print Assumptions C96_mean.

Theorem C96_back_partial :
  forall (log ex : F64 -> F64) (x : cost), accurate log -> exponential ex ->
    between (bpow radix2 (-60)) (bpow radix2 430) (c_mean x) -> between 0 (bpow radix2 420) (c_sd x) ->
    let m := real (c_mean x) in let s := real (c_sd x) in let d := made log x in
    (double (mean_of ex d) /\ finite (mean_of ex d) /\ Rabs (real (mean_of ex d) - m) <= bpow radix2 (-39) * m) /\
    (s <= bpow radix2 300 * m ->
     double (sd_of ex d) /\ finite (sd_of ex d) /\ 0 <= real (sd_of ex d) /\
     Rabs (real (sd_of ex d) * real (sd_of ex d) - s * s) <= bpow radix2 (-34) * (m * m + s * s)).
Proof. exact (fun log ex x A X M S => conj (made_back log ex x A X M S) (made_deviation log ex x A X M S)). Qed.
Print Assumptions C96_back_partial.

(** Full statement: the deviation given back is the one given, to most digits. False: one below
    [2^-27] of the mean, whichever it is, comes back as none. *)
Theorem C96_small_fails :
  forall (log ex : F64 -> F64) (x : cost), accurate log -> exponential ex ->
    between (bpow radix2 (-60)) (bpow radix2 430) (c_mean x) -> between 0 (bpow radix2 420) (c_sd x) ->
    real (c_sd x) <= bpow radix2 (-27) * real (c_mean x) ->
    real (snd (made log x)) = 0 /\ real (sd_of ex (made log x)) = 0.
Proof. exact small_lost. Qed.
Print Assumptions C96_small_fails.

Theorem C96_back_refuted :
  exists (log ex : F64 -> F64) (x : cost), accurate log /\ exponential ex /\ known x /\ 1 <= real (c_mean x) /\
    0 < real (c_sd x) /\ real (sd_of ex (made log x)) = 0.
Proof. exact refute_back. Qed.
Print Assumptions C96_back_refuted.

Lemma C96_range n : (1 <= n <= 12)%Z -> between (bpow radix2 (-60)) (bpow radix2 430) (nofZ F64 n).
Proof.
  intros H. destruct (small_int n ltac:(lia)) as [(V & F & _) E]. split; [exact V |]. split; [exact F |]. rewrite E.
  assert (1 <= IZR n <= 12) by (split; apply IZR_le; lia).
  assert (bpow radix2 (-60) <= bpow radix2 0) by (apply bpow_le; lia). assert (bpow radix2 10 <= bpow radix2 430) by (apply bpow_le; lia).
  change (bpow radix2 0) with 1 in *. change (bpow radix2 10) with 1024 in *. lra.
Qed.
Example C96_back_partial_ok :
  accurate rounded_log /\ exponential rounded_exp /\ between (bpow radix2 (-60)) (bpow radix2 430) (nofZ F64 8) /\
  between 0 (bpow radix2 420) (nofZ F64 2) /\ real (nofZ F64 2) <= bpow radix2 300 * real (nofZ F64 8) /\ between 0 32 (nofZ F64 2).
Proof.
  split; [exact rounded_accurate |]. split; [exact rounded_exponential |]. split; [apply C96_range; lia |].
  destruct (small_int 2 ltac:(lia)) as [(V & F & B) E]. destruct (small_int 8 ltac:(lia)) as [_ E8].
  split; [split; [exact V |]; split; [exact F |]; assert (bpow radix2 400 <= bpow radix2 420) by (apply bpow_le; lia); lra |].
  split; [rewrite E, E8; pose proof (one_big 300 ltac:(lia)); lra |]. split; [exact V |]. split; [exact F |]. rewrite E. lra.
Qed.

(** Scaled by a factor, a distribution keeps its dispersion, and its mean is multiplied; by
    nothing, it is none. *)
Theorem C96_scaled :
  forall (log ex : F64 -> F64) (f : F64) (d : F64 * F64), accurate log -> exponential ex ->
    between (bpow radix2 (-30)) (bpow radix2 30) f -> between (bpow radix2 (-30)) (bpow radix2 400) (mean_of ex d) -> between 0 32 (snd d) ->
    let d' := scaled log ex f d in
    fine d' /\ snd d' = snd d /\ double (mean_of ex d') /\ finite (mean_of ex d') /\
    Rabs (real (mean_of ex d') - real f * real (mean_of ex d)) <= bpow radix2 (-38) * (real f * real (mean_of ex d)).
Proof. exact scaled_right. Qed.
Print Assumptions C96_scaled.

Theorem C96_scaled_nothing :
  forall (log ex : F64 -> F64) (f : F64) (d : F64 * F64), (forall b, log (S754_zero b) = S754_infinity true) ->
    real f = 0 -> finite f -> finite (mean_of ex d) -> between 0 32 (snd d) ->
    let d' := scaled log ex f d in mean_of ex d' = nofZ F64 0 /\ sd_of ex d' = nofZ F64 0 /\ snd d' = snd d.
Proof. exact scaled_nothing. Qed.
Print Assumptions C96_scaled_nothing.

(** The loss at a demand: its mean is the count times the factor times the sum of the means,
    each as likely as its state; its dispersion is that of the mixture. *)
Theorem C96_demand :
  forall (log ex : F64 -> F64) (p : list F64) (losses : list cost) (count : Z) (factor : F64),
    accurate log -> exponential ex -> Forall chance p -> Forall known losses -> (List.length losses <= 2 ^ 8)%nat ->
    let l := cases (combine losses (highest p)) in
    let M := mixture_mean l in
    bpow radix2 (-20) <= M <= bpow radix2 360 -> (1 <= count <= 2 ^ 29)%Z -> between (bpow radix2 (-30)) (bpow radix2 30) factor ->
    let d := loss_at log ex p losses count factor in
    (fine d /\ double (mean_of ex d) /\ finite (mean_of ex d) /\
     Rabs (real (mean_of ex d) - real factor * (IZR count * M)) <= bpow radix2 (-36) * (real factor * (IZR count * M))) /\
    (between 0 32 (snd d) /\ Rabs (real (snd d) * real (snd d) - ln (1 + Rabs (mixture_variance l) / (M * M))) <= bpow radix2 (-37)).
Proof.
  exact (fun log ex p losses count factor A X P K N BM BC BF =>
    conj (loss_right log ex p losses count factor A X P K N BM BC BF) (loss_spread log ex p losses count factor A P K N BM)).
Qed.
Print Assumptions C96_demand.

Example C96_demand_ok :
  let p := [C94_half; C94_quarter] in
  let losses := [C94_repair; C94_demolition] in
  let M := mixture_mean (cases (combine losses (highest p))) in
  M = 3 /\ Forall chance p /\ Forall known losses /\ bpow radix2 (-20) <= M <= bpow radix2 360 /\
  between (bpow radix2 (-30)) (bpow radix2 30) (nofZ F64 2) /\ mean_of rounded_exp (S754_infinity true, nofZ F64 0) = nofZ F64 0.
Proof.
  assert (H : highest [C94_half; C94_quarter] = [C94_quarter; C94_quarter]) by (vm_compute; reflexivity).
  cbn zeta. rewrite H. cbn [combine]. unfold cases. cbn [map mixture_mean]. unfold C94_repair, C94_demolition. cbn [c_mean c_sd].
  rewrite (proj2 C94_quarter_is), (proj2 (small_int 4 ltac:(lia))), (proj2 (small_int 8 ltac:(lia))).
  assert (M3 : / 4 * 4 + (/ 4 * 8 + 0) = 3) by lra. rewrite M3. split; [reflexivity |].
  split; [exact (proj1 C96_states_ok) |].
  split; [constructor; [exact (proj1 C94_known) | constructor; [exact (proj1 (proj2 C94_known)) | constructor]] |].
  assert (bpow radix2 (-20) <= bpow radix2 0) by (apply bpow_le; lia). assert (bpow radix2 (-30) <= bpow radix2 0) by (apply bpow_le; lia).
  assert (bpow radix2 2 <= bpow radix2 360) by (apply bpow_le; lia). assert (bpow radix2 2 <= bpow radix2 30) by (apply bpow_le; lia).
  change (bpow radix2 0) with 1 in *. change (bpow radix2 2) with 4 in *. split; [lra |]. split; [| reflexivity].
  destruct (small_int 2 ltac:(lia)) as [(V & F & B) E]. split; [exact V |]. split; [exact F |]. rewrite E. lra.
Qed.

(** Full statement: given intensity, too, the distribution of a cost has finite parameters,
    whatever the mean and the expected square that were found. False: the square of a mean below
    [2^-538] is zero, and the dispersion is a quotient of nothing by nothing. *)
Theorem C96_intensity_refuted :
  exists (log : F64 -> F64) (mean square : F64), accurate log /\ amount mean /\ amount square /\ 0 < real mean /\
    ~ fine (conditional log mean square).
Proof. exact refute_conditional. Qed.
Print Assumptions C96_intensity_refuted.

(** Not for any such mean. *)
Theorem C96_tiny_fails :
  forall (log : F64 -> F64) (mean square : F64), (forall x, ~ finite x -> ~ finite (log x)) ->
    double mean -> finite mean -> 0 < real mean < bpow radix2 (-538) -> ~ finite (snd (conditional log mean square)).
Proof. exact tiny_lost. Qed.
Print Assumptions C96_tiny_fails.

Example C96_tiny_ok : (forall x, ~ finite x -> ~ finite (rounded_log x)) /\ double tiny /\ finite tiny /\ 0 < real tiny < bpow radix2 (-538).
Proof. exact (conj rounded_ends tiny_range). Qed.

(** What holds: for means from [2^-60] on, it has, and they are right; the variance counts as
    none where rounding has made it negative. Of nothing, it is none. *)
Theorem C96_intensity_partial :
  forall (log : F64 -> F64) (mean square : F64), accurate log ->
    between (bpow radix2 (-60)) (bpow radix2 400) mean -> between 0 (bpow radix2 800) square ->
    let d := conditional log mean square in
    let v := ln (1 + Rmax 0 (real square - real mean * real mean) / (real mean * real mean)) in
    fine d /\ between 0 32 (snd d) /\ Rabs (real (snd d) * real (snd d) - v) <= bpow radix2 (-37) /\
    Rabs (real (fst d) - (ln (real mean) - v / 2)) <= bpow radix2 (-36).
Proof. exact conditional_right. Qed.
Print Assumptions C96_intensity_partial.

Theorem C96_intensity_nothing :
  forall (log : F64 -> F64) (mean square : F64), real mean = 0 -> finite mean -> (forall b, log (S754_zero b) = S754_infinity true) ->
    conditional log mean square = (S754_infinity true, nofZ F64 0).
Proof. exact conditional_nothing. Qed.
Print Assumptions C96_intensity_nothing.

Example C96_intensity_partial_ok :
  between (bpow radix2 (-60)) (bpow radix2 400) (nofZ F64 2) /\ between 0 (bpow radix2 800) (nofZ F64 8) /\
  deviation (nofZ F64 2) (nofZ F64 8) = nofZ F64 2 /\ deviation (nofZ F64 3) (nofZ F64 8) = nofZ F64 0 /\
  (forall b, rounded_log (S754_zero b) = S754_infinity true).
Proof.
  destruct (small_int 2 ltac:(lia)) as [(V & F & B) E]. destruct (small_int 8 ltac:(lia)) as [(V8 & F8 & B8) E8].
  split; [split; [exact V |]; split; [exact F |]; rewrite E in *; assert (bpow radix2 (-60) <= bpow radix2 0) by (apply bpow_le; lia); change (bpow radix2 0) with 1 in *; lra |].
  split; [split; [exact V8 |]; split; [exact F8 |]; assert (bpow radix2 400 <= bpow radix2 800) by (apply bpow_le; lia); lra |].
  split; [vm_compute; reflexivity |]. split; [vm_compute; reflexivity |]. reflexivity.
Qed.
