(** * C94: total costs in double precision *)
From Coq Require Import ZArith Reals List Lra Lia Floats.SpecFloat.
From Flocq Require Import Core BinarySingleNaN.
From Verif Require Import Num Double_spec Double_proofs Totals Totals_spec Totals_proofs Totals_proofs2 Totals_proofs3 Totals_proofs4
  Totals_proofs5 Totals_proofs6 Totals_proofs7.
Import ListNotations.
Local Open Scope R_scope.

(** As calculated, the chances of repair, demolition and collapse are probabilities, follow
    the curves, and add up to one but for rounding. *)
Theorem C94_fates :
  forall c : chances, sound c ->
    chance (p_repair c) /\ chance (p_demolition c) /\ chance (p_collapse c) /\
    real (p_collapse c) = collapse_chance c /\
    Rabs (real (p_demolition c) - (beyond_use c - collapse_chance c)) <= bpow radix2 (-54) /\
    Rabs (real (p_repair c) - (1 - beyond_use c)) <= bpow radix2 (-51) /\
    Rabs (real (p_repair c) + real (p_demolition c) + real (p_collapse c) - 1) <= bpow radix2 (-52).
Proof. exact fates_right. Qed.
Print Assumptions C94_fates.

Definition C94_quarter : F64 := S754_finite false 4503599627370496 (-54).
Definition C94_half : F64 := S754_finite false 4503599627370496 (-53).
Definition C94_chances : chances := Chances (Some C94_quarter) (Some C94_half).
Lemma C94_quarter_is : chance C94_quarter /\ real C94_quarter = / 4.
Proof.
  assert (E : real C94_quarter = / 4).
  { unfold real, C94_quarter, SF2R, F2R. cbn [cond_Zopp Fnum Fexp]. change (IZR (Z.pos 4503599627370496)) with (bpow radix2 52).
    rewrite <- bpow_plus. reflexivity. }
  split; [| exact E]. split; [reflexivity |]. split; [reflexivity |]. rewrite E. lra.
Qed.
Lemma C94_half_is : chance C94_half /\ real C94_half = / 2.
Proof.
  assert (E : real C94_half = / 2).
  { unfold real, C94_half, SF2R, F2R. cbn [cond_Zopp Fnum Fexp]. change (IZR (Z.pos 4503599627370496)) with (bpow radix2 52).
    rewrite <- bpow_plus. reflexivity. }
  split; [| exact E]. split; [reflexivity |]. split; [reflexivity |]. rewrite E. lra.
Qed.
Example C94_fates_ok : sound C94_chances /\ p_repair C94_chances = C94_half /\ p_demolition C94_chances = C94_quarter.
Proof.
  split; [| vm_compute; auto]. split; [apply C94_quarter_is |]. split; [apply C94_half_is |].
  rewrite (proj2 C94_quarter_is), (proj2 C94_half_is). lra.
Qed.

(** Full statement: the total cost at an intensity is a distribution, with a mean and a
    deviation, if the costs it is made of are and do vary. False: if collapse is nearly certain,
    rounding makes the variance negative; its root is not a number, and not even the mean
    survives in the distribution made from the two. *)
Theorem C94_total_refuted :
  exists c r b, sound c /\ known r /\ known b /\
    forall d, known d ->
      4 <= mixture_mean (three c r d b) /\ 0 < mixture_variance (three c r d b) /\
      forall log : F64 -> F64, log S754_nan = S754_nan -> made log (total c r d b) = (S754_nan, S754_nan).
Proof. exact total_lost. Qed.
Print Assumptions C94_total_refuted.

(** What holds: the mean handed on is right but for rounding; so is the deviation, and a
    number, unless the variance is below [2^-47] of the expected square. *)
Theorem C94_total_partial :
  forall (c : chances) (r d b : cost), sound c -> known r -> known d -> known b ->
    let l := three c r d b in
    let x := total c r d b in
    (double (c_mean x) /\ finite (c_mean x) /\ 0 <= real (c_mean x) /\
     Rabs (real (c_mean x) - mixture_mean l) <= bpow radix2 (-49) * mixture_mean l + bpow radix2 (-1070)) /\
    (bpow radix2 (-47) * mixture_square l + bpow radix2 (-570) <= mixture_variance l ->
     double (c_sd x) /\ finite (c_sd x) /\ 0 <= real (c_sd x) /\
     Rabs (real (c_sd x) * real (c_sd x) - mixture_variance l) <= bpow radix2 (-47) * mixture_square l + bpow radix2 (-570)).
Proof. exact total_right. Qed.
Print Assumptions C94_total_partial.

(** Then the distribution made of them has finite parameters, with every logarithm. *)
Theorem C94_made_partial :
  forall (log : F64 -> F64) (c : chances) (r d b : cost), logarithm log -> sound c -> known r -> known d -> known b ->
    let l := three c r d b in
    bpow radix2 (-50) <= mixture_mean l -> bpow radix2 (-47) * mixture_square l + bpow radix2 (-570) <= mixture_variance l ->
    fine (made log (total c r d b)).
Proof. exact total_made. Qed.
Print Assumptions C94_made_partial.

Definition C94_repair : cost := Cost (nofZ F64 4) (nofZ F64 1).
Definition C94_demolition : cost := Cost (nofZ F64 8) (nofZ F64 2).
Definition C94_rebuild : cost := Cost (nofZ F64 12) (nofZ F64 3).
Lemma C94_known : known C94_repair /\ known C94_demolition /\ known C94_rebuild.
Proof. repeat apply conj; apply small_int; lia. Qed.

Example C94_total_partial_ok :
  let l := three C94_chances C94_repair C94_demolition C94_rebuild in
  mixture_mean l = 7 /\ mixture_variance l = 59 / 4 /\ c_mean (total C94_chances C94_repair C94_demolition C94_rebuild) = nofZ F64 7 /\
  bpow radix2 (-50) <= mixture_mean l /\ bpow radix2 (-47) * mixture_square l + bpow radix2 (-570) <= mixture_variance l.
Proof.
  assert (E1 : real (p_repair C94_chances) = / 2) by (replace (p_repair C94_chances) with C94_half by (vm_compute; reflexivity); apply C94_half_is).
  assert (E2 : real (p_demolition C94_chances) = / 4)
    by (replace (p_demolition C94_chances) with C94_quarter by (vm_compute; reflexivity); apply C94_quarter_is).
  assert (E3 : real (p_collapse C94_chances) = / 4) by apply C94_quarter_is.
  assert (M : mixture_mean (three C94_chances C94_repair C94_demolition C94_rebuild) = 7).
  { unfold three, mixture_mean. rewrite E1, E2, E3. unfold C94_repair, C94_demolition, C94_rebuild. cbn [c_mean c_sd].
    rewrite (proj2 (small_int 4 ltac:(lia))), (proj2 (small_int 8 ltac:(lia))), (proj2 (small_int 12 ltac:(lia))). lra. }
  assert (Q : mixture_square (three C94_chances C94_repair C94_demolition C94_rebuild) = 255 / 4).
  { unfold three, mixture_square. rewrite E1, E2, E3. unfold C94_repair, C94_demolition, C94_rebuild. cbn [c_mean c_sd].
    rewrite (proj2 (small_int 4 ltac:(lia))), (proj2 (small_int 8 ltac:(lia))), (proj2 (small_int 12 ltac:(lia))),
      (proj2 (small_int 1 ltac:(lia))), (proj2 (small_int 2 ltac:(lia))), (proj2 (small_int 3 ltac:(lia))). lra. }
  cbn zeta. unfold mixture_variance. rewrite M, Q. split; [reflexivity |]. split; [lra |]. split; [vm_compute; reflexivity |].
  assert (B1 : bpow radix2 (-50) <= bpow radix2 0) by (apply bpow_le; lia).
  assert (B2 : bpow radix2 (-47) <= bpow radix2 (-10)) by (apply bpow_le; lia).
  assert (B3 : bpow radix2 (-570) <= bpow radix2 0) by (apply bpow_le; lia).
  change (bpow radix2 0) with 1 in *. change (bpow radix2 (-10)) with (/ 1024) in *. lra.
Qed.

(** The cost with collapse, which takes the absolute value before the root, always is two
    numbers, and they are right but for rounding. *)
Theorem C94_with_collapse :
  forall (c : chances) (r b : cost), sound c -> known r -> known b ->
    let l := two c r b in
    let x := with_collapse c r b in
    let M := mixture_mean l + real (c_mean r) in
    let Q := mixture_square l + real (c_mean r) * real (c_mean r) + real (c_sd r) * real (c_sd r) in
    double (c_mean x) /\ finite (c_mean x) /\ 0 <= real (c_mean x) /\
    Rabs (real (c_mean x) - mixture_mean l) <= bpow radix2 (-49) * M + bpow radix2 (-1000) /\
    double (c_sd x) /\ finite (c_sd x) /\ 0 <= real (c_sd x) /\
    Rabs (real (c_sd x) * real (c_sd x) - mixture_variance l) <= bpow radix2 (-46) * Q + bpow radix2 (-570).
Proof. exact with_collapse_right. Qed.
Print Assumptions C94_with_collapse.
Example C94_with_collapse_ok :
  sound C94_chances /\ known C94_repair /\ known C94_rebuild /\ c_mean (with_collapse C94_chances C94_repair C94_rebuild) = nofZ F64 6.
Proof. split; [apply C94_fates_ok |]. split; [apply C94_known |]. split; [apply C94_known |]. vm_compute. reflexivity. Qed.

(** Any number of weighted distributions. *)
Theorem C94_weighted :
  forall l : list (cost * F64), Forall usable l -> (List.length l <= 2 ^ 20)%nat ->
    let n := INR (List.length l) in
    let M := mixture_mean (cases l) in
    let Q := mixture_square (cases l) in
    let x := weighted l in
    double (c_mean x) /\ finite (c_mean x) /\ 0 <= real (c_mean x) /\
    Rabs (real (c_mean x) - M) <= (n + 3) * bpow radix2 (-52) * M + bpow radix2 (-1000) /\
    double (c_sd x) /\ finite (c_sd x) /\ 0 <= real (c_sd x) /\
    Rabs (real (c_sd x) * real (c_sd x) - Rabs (mixture_variance (cases l))) <=
      (3 * n + 14) * bpow radix2 (-52) * (Q + M * M) + bpow radix2 (-570).
Proof. exact weighted_right. Qed.
Print Assumptions C94_weighted.

(** The distribution made of them has finite parameters, with every logarithm. *)
Theorem C94_weighted_made :
  forall (log : F64 -> F64) (l : list (cost * F64)), logarithm log -> Forall usable l -> (List.length l <= 2 ^ 8)%nat ->
    bpow radix2 (-50) <= mixture_mean (cases l) -> fine (made log (weighted l)).
Proof. exact weighted_made. Qed.
Print Assumptions C94_weighted_made.

Definition C94_parts : list (cost * F64) := [(C94_repair, C94_half); (C94_demolition, C94_quarter); (C94_rebuild, C94_quarter)].
Example C94_weighted_ok :
  Forall usable C94_parts /\ (List.length C94_parts <= 2 ^ 8)%nat /\ mixture_mean (cases C94_parts) = 7 /\ c_mean (weighted C94_parts) = nofZ F64 7.
Proof.
  split; [repeat apply Forall_cons; try apply Forall_nil; split; first [apply C94_known | apply C94_half_is | apply C94_quarter_is] |].
  split; [cbn; lia |]. split; [| vm_compute; reflexivity].
  unfold C94_parts, cases. cbn [map mixture_mean]. rewrite (proj2 C94_quarter_is), (proj2 C94_half_is).
  unfold C94_repair, C94_demolition, C94_rebuild. cbn [c_mean c_sd].
  rewrite (proj2 (small_int 4 ltac:(lia))), (proj2 (small_int 8 ltac:(lia))), (proj2 (small_int 12 ltac:(lia))). lra.
Qed.

(** The distribution made of a mean and a deviation is the one that has them, with a
    logarithm that is right: the parameters are those of a lognormal variable with this mean and
    deviation. *)
Theorem C94_made :
  forall (log : F64 -> F64) (x : cost), accurate log ->
    between (bpow radix2 (-60)) (bpow radix2 430) (c_mean x) -> between 0 (bpow radix2 420) (c_sd x) ->
    let v := ln (1 + real (c_sd x) * real (c_sd x) / (real (c_mean x) * real (c_mean x))) in
    fine (made log x) /\
    Rabs (real (snd (made log x)) * real (snd (made log x)) - v) <= bpow radix2 (-38) /\
    Rabs (real (fst (made log x)) - (ln (real (c_mean x)) - v / 2)) <= bpow radix2 (-37).
Proof. exact made_right. Qed.
Print Assumptions C94_made.

(** A mean of nothing is kept: the logarithm of the median is minus infinity. *)
Theorem C94_made_nothing :
  forall (log : F64 -> F64) (x : cost), real (c_mean x) = 0 -> finite (c_mean x) ->
    (forall b, log (S754_zero b) = S754_infinity true) -> made log x = (S754_infinity true, nofZ F64 0).
Proof. exact made_nothing. Qed.
Print Assumptions C94_made_nothing.

(** The logarithm rounded to the nearest double is one. *)
Example C94_made_ok :
  accurate rounded_log /\ rounded_log S754_nan = S754_nan /\ (forall b, rounded_log (S754_zero b) = S754_infinity true) /\
  between (bpow radix2 (-60)) (bpow radix2 430) (c_mean C94_repair) /\ between 0 (bpow radix2 420) (c_sd C94_repair).
Proof.
  split; [exact rounded_accurate |]. split; [reflexivity |]. split; [reflexivity |].
  destruct (proj1 C94_known) as [(A1 & A2 & A3 & A4) (B1 & B2 & B3 & B4)].
  split; (split; [assumption |]; split; [assumption |]).
  - split; [| eapply Rle_trans; [exact A4 | apply bpow_le; lia]]. unfold C94_repair. cbn [c_mean]. rewrite (proj2 (small_int 4 ltac:(lia))).
    apply Rle_trans with (bpow radix2 0); [apply bpow_le; lia | change (bpow radix2 0) with 1; lra].
  - split; [assumption |]. eapply Rle_trans; [exact B4 | apply bpow_le; lia].
Qed.

(** Costs added up are numbers, however large: a sum may be infinite, but is never less than
    nothing and never no number. *)
Theorem C94_added :
  forall l : list cost, Forall plain l -> counts (c_mean (added l)) /\ counts (c_sd (added l)).
Proof. exact added_right. Qed.
Print Assumptions C94_added.

(** Within the range of money they are right but for rounding. *)
Theorem C94_added_value :
  forall l : list cost, Forall known l -> (List.length l <= 2 ^ 20)%nat ->
    let n := INR (List.length l) in
    let x := added l in
    double (c_mean x) /\ finite (c_mean x) /\ 0 <= real (c_mean x) /\
    Rabs (real (c_mean x) - sum_means l) <= (n + 1) * bpow radix2 (-52) * sum_means l + bpow radix2 (-1000) /\
    double (c_sd x) /\ finite (c_sd x) /\ 0 <= real (c_sd x) /\
    Rabs (real (c_sd x) * real (c_sd x) - sum_squares l) <= (n + 4) * bpow radix2 (-52) * sum_squares l + bpow radix2 (-570).
Proof. exact added_value. Qed.
Print Assumptions C94_added_value.

Definition C94_costs : list cost := [C94_rebuild; Cost (nofZ F64 2) (nofZ F64 4); C94_repair].
Example C94_added_ok :
  Forall plain C94_costs /\ Forall known C94_costs /\ c_mean (added C94_costs) = nofZ F64 18 /\
  c_sd (added (firstn 2 C94_costs)) = nofZ F64 5.
Proof.
  split; [repeat apply Forall_cons; try apply Forall_nil; repeat split; reflexivity |].
  split; [| vm_compute; auto]. repeat apply Forall_cons; try apply Forall_nil; split; apply small_int; lia.
Qed.

(** The annual cost is made of two integrals; whatever they come to, the deviation is a
    number, the root of the difference but for rounding. *)
Theorem C94_annual :
  forall mu beta : F64, between 0 (bpow radix2 400) mu -> between 0 (bpow radix2 800) beta ->
    let s := c_sd (annual mu beta) in
    c_mean (annual mu beta) = mu /\ double s /\ finite s /\ 0 <= real s /\
    Rabs (real s * real s - Rabs (real beta - real mu * real mu)) <=
      bpow radix2 (-49) * (real beta + real mu * real mu) + bpow radix2 (-570).
Proof. exact (fun mu beta A B => conj eq_refl (annual_right mu beta A B)). Qed.
Print Assumptions C94_annual.
Example C94_annual_ok :
  between 0 (bpow radix2 400) (nofZ F64 3) /\ between 0 (bpow radix2 800) (nofZ F64 5) /\ c_sd (annual (nofZ F64 3) (nofZ F64 5)) = nofZ F64 2.
Proof.
  split; [apply small_int; lia |]. split; [| vm_compute; reflexivity].
  destruct (small_int 5 ltac:(lia)) as [(A & B & C1 & C2) _]. split; [exact A |]. split; [exact B |]. split; [exact C1 |].
  apply Rle_trans with (bpow radix2 400); [exact C2 | apply bpow_le; lia].
Qed.
