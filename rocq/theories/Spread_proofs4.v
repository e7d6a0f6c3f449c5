(** * The distribution given intensity, and the rounded exponential (C96) *)
From Coq Require Import ZArith Reals List Lra Lia Floats.SpecFloat.
From Flocq Require Import Core Relative BinarySingleNaN.
From Verif Require Import Num Double_spec Double_proofs Double_proofs2 Maq_return_proofs Group Totals Totals_spec
  Totals_proofs Totals_proofs2 Totals_proofs3 Totals_proofs4 Totals_proofs6 Totals_proofs7 Spread Spread_spec Spread_proofs2 Spread_proofs3.
Local Open Scope R_scope.
Local Instance p53i : Prec_gt_0 53 := eq_refl.
Local Instance e1024i : Prec_lt_emax 53 1024 := eq_refl.

Lemma conditional_made log mean square : conditional log mean square = made log (Cost mean (deviation mean square)).
Proof. reflexivity. Qed.

(** The deviation, squared: what the expected square exceeds the square of the mean by. *)
Lemma deviation_right mean square : between (bpow radix2 (-60)) (bpow radix2 400) mean -> between 0 (bpow radix2 800) square ->
  let m := real mean in let q := real square in let s := real (deviation mean square) in
  between 0 (bpow radix2 420) (deviation mean square) /\ Rabs (s * s - Rmax 0 (q - m * m)) <= 4 * e * (m * m + q).
Proof.
  intros (Vm & Fm & Bm) (Vq & Fq & Bq). cbn zeta. set (m := real mean) in *. set (q := real square) in *.
  apply finite_same in Fm. apply finite_same in Fq. pose proof (bpow_gt_0 radix2 (-60)) as P60.
  pose proof e_pos. pose proof e_small. pose proof tau_pos.
  assert (MM : bpow radix2 (-120) <= m * m <= bpow radix2 800).
  { change (-120)%Z with (-60 + -60)%Z. change 800%Z with (400 + 400)%Z. rewrite !bpow_plus. split; apply Rmult_le_compat; lra. }
  pose proof (bpow_gt_0 radix2 (-120)) as P120.
  destruct (mul_value 53 1024 p53 e1024 mean mean Vm Vm Fm Fm) as [F1 E1].
  { apply (small_top 800); [lia |]. change (value mean) with m. rewrite Rabs_pos_eq; lra. }
  pose proof (valid_mul 53 1024 p53 e1024 mean mean Vm Vm) as V1. change (value mean) with m in E1.
  pose proof (rnd_err (m * m)) as R1. rewrite <- E1 in R1. rewrite (Rabs_pos_eq (m * m)) in R1 by lra. apply Rabs_le_inv in R1.
  assert (B1 : 0 <= value (SFmul 53 1024 mean mean) <= bpow radix2 800).
  { rewrite E1. split; [apply rnd_nonneg; lra |]. rewrite <- (rnd_bpow 800) by lia. apply rnd_le; [exact p53 | lra]. }
  unfold deviation. change (nmul F64 mean mean) with (SFmul 53 1024 mean mean). set (mm := SFmul 53 1024 mean mean) in *.
  destruct (sub_value 53 1024 p53 e1024 square mm Vq V1 Fq F1) as [F2 E2].
  { apply (small_top 800); [lia |]. change (value square) with q. apply Rabs_le. lra. }
  pose proof (valid_sub 53 1024 p53 e1024 square mm Vq V1) as V2. change (value square) with q in E2.
  change (nsub F64 square mm) with (SFsub 53 1024 square mm). set (w := SFsub 53 1024 square mm) in *.
  set (b := m * m) in *.
  assert (tM : tau <= e * e * b).
  { apply Rle_trans with (e * e * bpow radix2 (-120)); [rewrite <- !bpow_plus; apply bpow_le; lia |].
    apply Rmult_le_compat_l; [apply Rmult_le_pos; lra | lra]. }
  assert (eb : 0 <= e * b) by (apply Rmult_le_pos; lra).
  assert (eeb : e * e * b <= 1 / 1000000 * (e * b)) by (replace (e * e * b) with (e * (e * b)) by ring; apply Rmult_le_compat_r; lra).
  assert (eq : 0 <= e * q) by (apply Rmult_le_pos; lra).
  pose proof (rnd_err (q - value mm)) as R2. rewrite <- E2 in R2.
  assert (Aq : Rabs (q - value mm) <= q + value mm) by (apply Rabs_le; lra).
  assert (e / 2 * Rabs (q - value mm) <= e / 2 * (q + value mm)) by (apply Rmult_le_compat_l; lra).
  assert (e * value mm <= e * (b + e * b)) by (apply Rmult_le_compat_l; lra).
  assert (BW : - (3 / 2 * (e * (b + q))) <= value w - (q - b) <= 3 / 2 * (e * (b + q))) by (apply Rabs_le_inv; apply Rabs_le_inv in R2; apply Rabs_le; lra).
  destruct (Rle_or_lt 0 (value w)) as [P | N].
  - destruct (root_near w V2 F2 P) as (Vr & Fr & Pr & Rr).
    assert (Tw : value w <= bpow radix2 800).
    { rewrite E2. rewrite <- (rnd_bpow 800) by lia. apply rnd_le; [exact p53 | lra]. }
    specialize (Rr ltac:(apply Rle_trans with (bpow radix2 800); [lra | apply bpow_le; lia])). apply Rabs_le_inv in Rr.
    replace (nisnan F64 (root w)) with false by (destruct (root w); try discriminate Fr; reflexivity).
    set (r := root w) in *. change (real r) with (value r).
    assert (g : bpow radix2 (-580) <= 1 / 1000000 * (e * b)).
    { apply Rle_trans with (e * e * b); [| lra]. apply Rle_trans with (e * e * bpow radix2 (-120)); [rewrite <- !bpow_plus; apply bpow_le; lia |].
      apply Rmult_le_compat_l; [apply Rmult_le_pos; lra | lra]. }
    assert (Wq : value w <= q + 1 / 100 * (b + q)).
    { assert (3 / 2 * (e * (b + q)) <= 1 / 100 * (b + q)); [| lra]. rewrite <- Rmult_assoc. apply Rmult_le_compat_r; lra. }
    assert (ew : e * value w <= e * (q + 1 / 100 * (b + q))) by (apply Rmult_le_compat_l; lra). assert (0 <= e * value w) by (apply Rmult_le_pos; lra).
    split.
    + split; [exact Vr |]. split; [apply finite_same; exact Fr |]. change (real r) with (value r). split; [exact Pr |].
      apply root_bound; [exact Pr | apply bpow_ge_0 |]. rewrite <- bpow_plus. change (420 + 420)%Z with 840%Z.
      apply Rle_trans with (bpow radix2 802); [| apply bpow_le; lia]. change 802%Z with (800 + 1 + 1)%Z. rewrite <- !big_double.
      pose proof (bpow_gt_0 radix2 800).
      assert (2 * e * value w <= 1 / 100 * value w) by (apply Rmult_le_compat_r; lra).
      assert (bpow radix2 (-580) <= bpow radix2 800) by (apply bpow_le; lia). lra.
    + unfold Rmax. destruct (Rle_dec 0 (q - b)); apply Rabs_le; lra.
  - assert (S : root w = S754_nan).
    { destruct w as [b0|b0| |[] pm pk]; try discriminate F2; [cbn in N; lra | reflexivity |]. exfalso. pose proof (value_pos pm pk). lra. }
    rewrite S. change (nisnan F64 S754_nan) with true. cbn iota. split.
    + split; [reflexivity |]. split; [reflexivity |]. change (real (nofZ F64 0)) with 0. pose proof (bpow_gt_0 radix2 420). lra.
    + change (real (nofZ F64 0)) with 0. unfold Rmax. destruct (Rle_dec 0 (q - b)); apply Rabs_le; lra.
Qed.

Lemma conditional_right log mean square : accurate log -> between (bpow radix2 (-60)) (bpow radix2 400) mean -> between 0 (bpow radix2 800) square ->
  let d := conditional log mean square in
  let v := ln (1 + Rmax 0 (real square - real mean * real mean) / (real mean * real mean)) in
  fine d /\ between 0 32 (snd d) /\ Rabs (real (snd d) * real (snd d) - v) <= bpow radix2 (-37) /\
  Rabs (real (fst d) - (ln (real mean) - v / 2)) <= bpow radix2 (-36).
Proof.
  intros A BM BQ. cbn zeta. rewrite conditional_made. destruct (deviation_right mean square BM BQ) as [BS E].
  set (x := Cost mean (deviation mean square)).
  assert (BM' : between (bpow radix2 (-60)) (bpow radix2 430) (c_mean x)).
  { destruct BM as (V & F & B). split; [exact V |]. split; [exact F |]. cbn [c_mean x]. assert (bpow radix2 400 <= bpow radix2 430) by (apply bpow_le; lia). lra. }
  destruct (made_right log x A BM' BS) as (Fi & E1 & E2). split; [exact Fi |]. split; [now apply made_variance |].
  cbn [c_mean c_sd x] in E1, E2. destruct BM as (_ & _ & Bm). destruct BQ as (_ & _ & Bq).
  set (m := real mean) in *. set (q := real square) in *. set (s := real (deviation mean square)) in *.
  pose proof e_pos. pose proof e_small. pose proof (bpow_gt_0 radix2 (-60)) as P60.
  assert (PM2 : 0 < m * m) by (apply Rmult_lt_0_compat; lra). set (b := m * m) in *.
  set (A0 := 1 + Rmax 0 (q - b) / b).
  assert (MX : b * A0 = Rmax b q).
  { unfold A0, Rmax. destruct (Rle_dec 0 (q - b)), (Rle_dec b q); try lra; field; lra. }
  assert (HA : 1 <= A0).
  { unfold A0. assert (0 <= Rmax 0 (q - b) / b); [| lra]. apply Rmult_le_pos; [apply Rmax_l | apply Rlt_le, Rinv_0_lt_compat; lra]. }
  assert (BQ2 : b + q <= 2 * (b * A0)) by (rewrite MX; pose proof (Rmax_l b q); pose proof (Rmax_r b q); lra).
  assert (C : Rabs (1 + s * s / b - A0) <= 8 * e * A0).
  { replace (1 + s * s / b - A0) with ((s * s - Rmax 0 (q - b)) / b) by (unfold A0; field; lra).
    unfold Rdiv. rewrite Rabs_mult, (Rabs_pos_eq (/ b)) by (apply Rlt_le, Rinv_0_lt_compat; lra).
    apply Rmult_le_reg_r with b; [exact PM2 |]. rewrite Rmult_assoc, Rinv_l, Rmult_1_r by lra.
    eapply Rle_trans; [exact E |]. apply Rle_trans with (4 * e * (2 * (b * A0))); [apply Rmult_le_compat_l; lra |]. lra. }
  pose proof (ln_close _ A0 (8 * e) HA ltac:(lra) C) as LC. apply Rabs_le_inv in LC.
  assert (E38 : 16384 * e = bpow radix2 (-38)) by (change (-38)%Z with (14 + -52)%Z; rewrite bpow_plus; reflexivity).
  assert (E37 : 32768 * e = bpow radix2 (-37)) by (change (-37)%Z with (15 + -52)%Z; rewrite bpow_plus; reflexivity).
  assert (E36 : 65536 * e = bpow radix2 (-36)) by (change (-36)%Z with (16 + -52)%Z; rewrite bpow_plus; reflexivity).
  rewrite <- E38 in E1. rewrite <- E37 in E2. rewrite <- E37, <- E36. apply Rabs_le_inv in E1. apply Rabs_le_inv in E2.
  split; apply Rabs_le; lra.
Qed.

(** ** Nothing given for nothing *)
Lemma conditional_nothing log mean square : real mean = 0 -> finite mean -> (forall b, log (S754_zero b) = S754_infinity true) ->
  conditional log mean square = (S754_infinity true, nofZ F64 0).
Proof. intros Z F L. rewrite conditional_made. now apply made_nothing. Qed.

(** ** Means next to nothing *)
Lemma square_zero m : double m -> finite m -> 0 < real m < bpow radix2 (-538) -> exists b, nmul F64 m m = S754_zero b.
Proof.
  intros V F B. apply finite_same in F. change (real m) with (value m) in B.
  pose proof (bpow_gt_0 radix2 (-538)).
  assert (Q : 0 <= value m * value m < bpow radix2 (-1076)).
  { split; [apply Rmult_le_pos; lra |]. change (-1076)%Z with (-538 + -538)%Z. rewrite bpow_plus. apply Rmult_le_0_lt_compat; lra. }
  assert (bpow radix2 (-1076) <= 1) by (change 1 with (bpow radix2 0); apply bpow_le; lia).
  destruct (mul_value 53 1024 p53 e1024 m m V V F F) as [F1 E1]; [apply small_ok'; lra |].
  assert (Z : rnd 53 1024 (value m * value m) = 0).
  { apply Rle_antisym; [| apply rnd_nonneg; lra].
    assert (G : generic_format radix2 (SpecFloat.fexp 53 1024) 0) by apply generic_format_0.
    apply (round_N_le_midp radix2 (SpecFloat.fexp 53 1024) (fun n => negb (Z.even n)) 0 _ G).
    assert (S : succ radix2 (SpecFloat.fexp 53 1024) 0 = tau) by (rewrite succ_0; apply (ulp_FLT_0 radix2 (-1074) 53)).
    rewrite S. assert (bpow radix2 (-1076) <= tau / 2) by (rewrite <- tau_half; apply bpow_le; lia). lra. }
  change (nmul F64 m m) with (SFmul 53 1024 m m). rewrite Z in E1. destruct (SFmul 53 1024 m m) as [b|b| |[] pm pk]; try discriminate F1.
  - now exists b.
  - pose proof (value_neg pm pk). lra.
  - pose proof (value_pos pm pk). lra.
Qed.

Lemma tiny_lost log mean square : (forall x, ~ finite x -> ~ finite (log x)) -> double mean -> finite mean -> 0 < real mean < bpow radix2 (-538) ->
  ~ finite (snd (conditional log mean square)).
Proof.
  intros L V F B. destruct (square_zero mean V F B) as [b Z]. cbn [conditional with_spread snd]. unfold spread. rewrite Z.
  replace (neqb F64 mean (nofZ F64 0)) with false.
  2: { destruct mean as [|[]| |[] ? ?]; try easy; cbn in B; lra. }
  set (s := deviation mean square). set (a := nadd F64 (nofZ F64 1) (ndiv F64 (nmul F64 s s) (S754_zero b))).
  assert (N : ~ finite a).
  { unfold a. destruct (nmul F64 s s) as [c|c| |c pm pk]; destruct b; try destruct c; intros K; exact K || discriminate K || now inversion K. }
  specialize (L a N). destruct (log a) as [c|[]| |c pm pk]; intros K; try (now apply L); try exact K; try discriminate K; now inversion K.
Qed.

Definition tiny : F64 := S754_finite false 4503599627370496 (-652).
Lemma tiny_range : double tiny /\ finite tiny /\ 0 < real tiny < bpow radix2 (-538).
Proof.
  split; [reflexivity |]. split; [reflexivity |].
  assert (E : real tiny = bpow radix2 (-600)).
  { unfold real, tiny, SF2R, F2R. cbn [cond_Zopp Fnum Fexp]. change 4503599627370496%positive with (2 ^ 52)%positive.
    change (IZR (Z.pos (2 ^ 52))) with (bpow radix2 52). rewrite <- bpow_plus. reflexivity. }
  rewrite E. split; [apply bpow_gt_0 | apply bpow_lt; lia].
Qed.

Lemma rounded_ends x : ~ finite x -> ~ finite (rounded_log x).
Proof. intros H. destruct x as [b|[]| |b m k]; try (now destruct H); intros K; try discriminate K; now inversion K. Qed.

Lemma refute_conditional : exists log mean square, accurate log /\ amount mean /\ amount square /\ 0 < real mean /\ ~ fine (conditional log mean square).
Proof.
  exists rounded_log, tiny, (nofZ F64 0). split; [exact rounded_accurate |]. destruct tiny_range as (V & F & B).
  assert (bpow radix2 (-538) <= bpow radix2 400) by (apply bpow_le; lia).
  split; [split; [exact V | split; [exact F | lra]] |]. split; [split; [reflexivity | split; [reflexivity |]] |].
  { change (real (nofZ F64 0)) with 0. pose proof (bpow_gt_0 radix2 400). lra. }
  split; [lra |]. intros (_ & _ & K & _). exact (tiny_lost rounded_log tiny (nofZ F64 0) rounded_ends V F B K).
Qed.

(** ** A rounded exponential *)
Definition rounded_exp (x : F64) : F64 :=
  match x with
  | S754_nan => S754_nan
  | S754_infinity true => S754_zero false
  | S754_infinity false => x
  | _ => nearest (exp (real x))
  end.

Lemma exp_range r : Rabs r <= 600 -> bpow radix2 (-1000) <= exp r <= bpow radix2 1000.
Proof.
  intros H. apply Rabs_le_inv in H.
  assert (L2 : 6 / 10 <= ln 2).
  { assert (P : 0 < sqrt 2) by (apply sqrt_lt_R0; lra). assert (P2 : 0 < sqrt (sqrt 2)) by (apply sqrt_lt_R0; exact P).
    assert (E : ln 2 = 4 * ln (sqrt (sqrt 2))).
    { transitivity (ln (sqrt 2) + ln (sqrt 2)); [rewrite <- ln_mult by exact P; rewrite sqrt_sqrt by lra; reflexivity |].
      assert (E2 : ln (sqrt 2) = ln (sqrt (sqrt 2)) + ln (sqrt (sqrt 2))) by (rewrite <- ln_mult by exact P2; rewrite sqrt_sqrt by lra; reflexivity).
      rewrite E2. ring. }
    assert (S1 : 14 / 10 <= sqrt 2) by (apply root_bound; [lra | lra |]; rewrite sqrt_sqrt by lra; lra).
    assert (S2 : 118 / 100 <= sqrt (sqrt 2)) by (apply root_bound; [lra | lra |]; rewrite sqrt_sqrt by lra; lra).
    set (z := sqrt (sqrt 2)) in *. assert (I : 0 < / z) by (apply Rinv_0_lt_compat; exact P2).
    pose proof (ln_top _ I) as T. rewrite ln_Rinv in T by exact P2.
    assert (/ z <= / (118 / 100)) by (apply Rinv_le; lra). lra. }
  split.
  - rewrite <- (exp_ln (bpow radix2 (-1000))) by apply bpow_gt_0. rewrite ln_bpow. destruct (Rle_lt_or_eq_dec (IZR (-1000) * ln 2) r) as [K | <-]; [lra | left; apply exp_increasing; exact K | right; reflexivity].
  - rewrite <- (exp_ln (bpow radix2 1000)) by apply bpow_gt_0. rewrite ln_bpow. destruct (Rle_lt_or_eq_dec r (IZR 1000 * ln 2)) as [K | <-]; [lra | left; apply exp_increasing; exact K | right; reflexivity].
Qed.

Lemma rounded_exponential : exponential rounded_exp.
Proof.
  intros x V F B. assert (E : rounded_exp x = nearest (exp (real x))) by (destruct x; try easy; discriminate F).
  rewrite E. pose proof (exp_range _ B) as R. pose proof (bpow_gt_0 radix2 (-1000)). pose proof e_pos.
  destruct (nearest_value (exp (real x))) as (V1 & F1 & E1); [rewrite Rabs_pos_eq; lra |].
  split; [exact V1 |]. split; [exact F1 |]. rewrite E1. split; [| split].
  - pose proof (rnd_err (exp (real x))) as Er. rewrite (Rabs_pos_eq (exp (real x))) in Er by lra. rewrite e50.
    assert (tau <= e * exp (real x)).
    { apply Rle_trans with (e * bpow radix2 (-1000)); [rewrite <- bpow_plus; apply bpow_le; lia | apply Rmult_le_compat_l; lra]. }
    assert (0 <= e * exp (real x)) by (apply Rmult_le_pos; lra). lra.
  - intros P. pose proof (rnd_bpow 0 ltac:(lia)) as O. change (bpow radix2 0) with 1 in O. rewrite <- O. apply rnd_le; [exact p53 |].
    pose proof (exp_ineq1_le (real x)). lra.
  - intros ->. rewrite exp_0. exact (rnd_bpow 0 ltac:(lia)).
Qed.

(** ** A deviation that is lost *)
Definition slight : cost := Cost (nofZ F64 1) (S754_finite false 4503599627370496 (-80)).

Lemma refute_back : exists log ex x, accurate log /\ exponential ex /\ known x /\ 1 <= real (c_mean x) /\
  0 < real (c_sd x) /\ real (sd_of ex (made log x)) = 0.
Proof.
  exists rounded_log, rounded_exp, slight. split; [exact rounded_accurate |]. split; [exact rounded_exponential |].
  assert (S : real (c_sd slight) = bpow radix2 (-28)).
  { unfold real, slight, c_sd, SF2R, F2R. cbn [cond_Zopp Fnum Fexp]. change (IZR (Z.pos 4503599627370496)) with (bpow radix2 52).
    rewrite <- bpow_plus. reflexivity. }
  destruct (small_int 1 ltac:(lia)) as [K1 E1]. change (nofZ F64 1) with (c_mean slight) in K1, E1.
  assert (B28 : bpow radix2 (-28) <= bpow radix2 (-27)) by (apply bpow_le; lia). assert (B1 : bpow radix2 (-27) <= bpow radix2 400) by (apply bpow_le; lia).
  pose proof (bpow_gt_0 radix2 (-28)) as P.
  split; [split; [exact K1 | split; [reflexivity | split; [reflexivity | rewrite S; lra]]] |]. split; [rewrite E1; lra |]. split; [rewrite S; exact P |].
  apply (small_lost rounded_log rounded_exp slight rounded_accurate rounded_exponential).
  - destruct K1 as (V & F & _). split; [exact V |]. split; [exact F |]. rewrite E1.
    assert (bpow radix2 (-60) <= bpow radix2 0) by (apply bpow_le; lia). assert (bpow radix2 0 <= bpow radix2 430) by (apply bpow_le; lia).
    change (bpow radix2 0) with 1 in *. lra.
  - split; [reflexivity |]. split; [reflexivity |]. rewrite S. assert (bpow radix2 400 <= bpow radix2 420) by (apply bpow_le; lia). lra.
  - rewrite S, E1. lra.
Qed.
