(** * Distributions give back what they were made of (C96) *)
From Coq Require Import ZArith Reals List Lra Lia Floats.SpecFloat.
From Flocq Require Import Core Relative BinarySingleNaN.
From Verif Require Import Num Double_spec Double_proofs Double_proofs2 Maq_return_proofs Group Totals Totals_spec
  Totals_proofs Totals_proofs2 Totals_proofs3 Totals_proofs4 Totals_proofs6 Totals_proofs7 Spread Spread_spec.
Local Open Scope R_scope.
Local Instance p53i : Prec_gt_0 53 := eq_refl.
Local Instance e1024i : Prec_lt_emax 53 1024 := eq_refl.

Lemma exp_close d : Rabs d <= 1 / 2 -> Rabs (exp d - 1) <= 2 * Rabs d.
Proof.
  intros H. apply Rabs_le_inv in H. pose proof (exp_ineq1_le d) as L. pose proof (exp_pos d) as P.
  destruct (Rle_or_lt 0 d) as [D | D].
  - rewrite (Rabs_pos_eq d) by lra. pose proof (exp_ineq1_le (- d)) as U. rewrite exp_Ropp in U.
    assert (exp d * (1 - d) <= 1).
    { apply Rle_trans with (exp d * / exp d); [apply Rmult_le_compat_l; lra | rewrite Rinv_r; lra]. }
    assert (exp d <= 1 + 2 * d).
    { apply Rmult_le_reg_r with (1 - d); [lra |]. assert (0 <= d * (1 - 2 * d)) by (apply Rmult_le_pos; lra).
      replace ((1 + 2 * d) * (1 - d)) with (1 + d * (1 - 2 * d)) by ring. lra. }
    rewrite Rabs_pos_eq by lra. lra.
  - rewrite (Rabs_left d) by lra. assert (exp d <= 1) by (rewrite <- exp_0; apply Rlt_le, exp_increasing; exact D).
    rewrite Rabs_left1 by lra. lra.
Qed.

Lemma ln_mean m : bpow radix2 (-60) <= m <= bpow radix2 430 -> Rabs (ln m) <= 387.
Proof.
  intros [L U]. pose proof (bpow_gt_0 radix2 (-60)). pose proof ln2_top. pose proof ln_lt_2.
  assert (A : ln (bpow radix2 (-60)) <= ln m) by (destruct L as [L | <-]; [left; apply ln_increasing; lra | right; reflexivity]).
  assert (B : ln m <= ln (bpow radix2 430)) by (destruct U as [U | ->]; [left; apply ln_increasing; lra | right; reflexivity]).
  rewrite ln_bpow in A, B. apply Rabs_le. lra.
Qed.

Lemma tau_e : tau <= 1 / 1000000 * e.
Proof.
  pose proof e_pos. pose proof e_small. assert (tau <= e * e) by (rewrite <- bpow_plus; apply bpow_le; lia).
  assert (e * e <= 1 / 1000000 * e) by (apply Rmult_le_compat_r; lra). lra.
Qed.

Lemma e50 : bpow radix2 (-50) = 4 * e.
Proof. change (-50)%Z with (2 + -52)%Z. rewrite bpow_plus. reflexivity. Qed.

Lemma sigma_bpow : bpow radix2 5 = 32.
Proof. reflexivity. Qed.

(** Half of the square of a dispersion. *)
Lemma half_square sigma : between 0 32 sigma ->
  let gg := nmul F64 sigma sigma in let h := ndiv F64 gg (nofZ F64 2) in
  double gg /\ finite_ gg /\ double h /\ finite_ h /\
  value gg = rnd 53 1024 (value sigma * value sigma) /\ Rabs (value gg - value sigma * value sigma) <= 513 * e /\
  0 <= value gg <= 1025 /\ 0 <= value h <= 513.
Proof.
  intros (V & F & B) gg h. apply finite_same in F. change (real sigma) with (value sigma) in *.
  pose proof e_pos. pose proof e_small. pose proof tau_e. pose proof tau_pos.
  assert (Q : 0 <= value sigma * value sigma <= 1024).
  { split; [apply Rmult_le_pos; lra |]. replace 1024 with (32 * 32) by ring. apply Rmult_le_compat; lra. }
  assert (K : 1025 <= bpow radix2 1000).
  { apply Rle_trans with (bpow radix2 11); [change (bpow radix2 11) with 2048; lra | apply bpow_le; lia]. }
  destruct (mul_value 53 1024 p53 e1024 sigma sigma V V F F) as [F1 E1]; [apply small_ok; rewrite Rabs_pos_eq; lra |].
  pose proof (valid_mul 53 1024 p53 e1024 sigma sigma V V) as V1.
  change (SFmul 53 1024 sigma sigma) with gg in *.
  pose proof (rnd_err (value sigma * value sigma)) as R1. rewrite <- E1 in R1. rewrite (Rabs_pos_eq (value sigma * value sigma)) in R1 by lra.
  assert (e * (value sigma * value sigma) <= e * 1024) by (apply Rmult_le_compat_l; lra).
  assert (R1' : Rabs (value gg - value sigma * value sigma) <= 513 * e) by lra.
  assert (P1 : 0 <= value gg) by (rewrite E1; apply rnd_nonneg; lra).
  pose proof (Rabs_le_inv _ _ R1') as R1''.
  assert (B1 : value gg <= 1025) by lra.
  assert (Two : value (nofZ F64 2) = 2) by (cbn; unfold F2R; cbn; lra).
  destruct (div_value 53 1024 p53 e1024 gg (nofZ F64 2) V1 eq_refl F1) as [F2 E2].
  { rewrite Two. lra. } { rewrite Two. apply small_ok. rewrite Rabs_pos_eq; lra. }
  pose proof (valid_div 53 1024 p53 e1024 gg (nofZ F64 2) V1 eq_refl) as V2.
  change (SFdiv 53 1024 gg (nofZ F64 2)) with h in *. rewrite Two in E2.
  pose proof (rnd_err (value gg / 2)) as R2. rewrite <- E2 in R2. rewrite (Rabs_pos_eq (value gg / 2)) in R2 by lra. apply Rabs_le_inv in R2.
  assert (e * value gg <= e * 1025) by (apply Rmult_le_compat_l; lra).
  split; [exact V1 |]. split; [exact F1 |]. split; [exact V2 |]. split; [exact F2 |]. split; [exact E1 |]. split; [exact R1' |].
  split; [lra |]. split; [rewrite E2; apply rnd_nonneg; lra | lra].
Qed.

(** The mean given back. *)
Lemma spread_back log ex m sigma : accurate log -> exponential ex -> between (bpow radix2 (-60)) (bpow radix2 430) m -> between 0 32 sigma ->
  let d := with_spread log m sigma in
  fine d /\ double (mean_of ex d) /\ finite (mean_of ex d) /\ Rabs (real (mean_of ex d) - real m) <= bpow radix2 (-39) * real m.
Proof.
  intros [L Acc] X BM BS d. destruct (half_square sigma BS) as (Vg & Fg & Vh & Fh & _ & _ & Bg & Bh).
  destruct BM as (Vm & Fm & Bm). destruct BS as (Vs & Fs & Bs). pose proof (ln_mean _ Bm) as LM.
  assert (Pm : 0 < real m) by (pose proof (bpow_gt_0 radix2 (-60)); lra).
  destruct (L m Vm Fm Pm) as (Vl & Fl & _ & _). pose proof (Acc m Vm Fm Pm) as A. rewrite e50 in A. apply finite_same in Fl.
  pose proof e_pos. pose proof e_small. pose proof tau_e. pose proof tau_pos.
  unfold d, with_spread. set (g := nmul F64 sigma sigma) in *. set (h := ndiv F64 g (nofZ F64 2)) in *. cbn [fst snd].
  change (real (log m)) with (value (log m)) in *.
  assert (A' : Rabs (value (log m) - ln (real m)) <= 1548 * e).
  { eapply Rle_trans; [exact A |]. replace (1548 * e) with (4 * e * 387) by ring. apply Rmult_le_compat_l; lra. }
  apply Rabs_le_inv in A'. apply Rabs_le_inv in LM.
  destruct (sub_value 53 1024 p53 e1024 (log m) h Vl Vh Fl Fh) as [F1 E1]; [apply small_ok'; lra |].
  pose proof (valid_sub 53 1024 p53 e1024 (log m) h Vl Vh) as V1.
  change (nsub F64 (log m) h) with (SFsub 53 1024 (log m) h). set (mu := SFsub 53 1024 (log m) h) in *.
  pose proof (rnd_err (value (log m) - value h)) as R1. rewrite <- E1 in R1.
  assert (B1 : Rabs (value (log m) - value h) <= 902) by (apply Rabs_le; lra).
  assert (C1 : e / 2 * Rabs (value (log m) - value h) <= e / 2 * 902) by (apply Rmult_le_compat_l; lra).
  assert (D1 : Rabs (value mu - (value (log m) - value h)) <= 452 * e) by lra. apply Rabs_le_inv in D1.
  destruct (add_value 53 1024 p53 e1024 mu h V1 Vh F1 Fh) as [F2 E2]; [apply small_ok'; lra |].
  pose proof (valid_add 53 1024 p53 e1024 mu h V1 Vh) as V2.
  split; [split; [split; [exact V1 | apply finite_same; exact F1] | split; [exact Vs | split; [exact Fs | cbn; apply Bs]]] |].
  unfold mean_of. fold g. fold h. change (nadd F64 mu h) with (SFadd 53 1024 mu h). set (t := SFadd 53 1024 mu h) in *.
  replace (neqb F64 mu (S754_infinity true)) with false by (destruct mu as [|[]| |[] ? ?]; try discriminate; reflexivity).
  pose proof (rnd_err (value mu + value h)) as R2. rewrite <- E2 in R2.
  assert (B2 : Rabs (value mu + value h) <= 389) by (apply Rabs_le; lra).
  assert (C2 : e / 2 * Rabs (value mu + value h) <= e / 2 * 389) by (apply Rmult_le_compat_l; lra).
  assert (D2 : Rabs (value t - (value mu + value h)) <= 195 * e) by lra. apply Rabs_le_inv in D2.
  destruct (X t V2) as (Vx & Fx & Ex & _); [apply finite_same; exact F2 | change (real t) with (value t); apply Rabs_le; lra |].
  split; [exact Vx |]. split; [exact Fx |]. rewrite e50 in Ex. change (real t) with (value t) in Ex.
  assert (EE : exp (value t) = real m * exp (value t - ln (real m))).
  { rewrite <- (exp_ln (real m)) at 1 by exact Pm. rewrite <- exp_plus. f_equal. ring. }
  assert (DT : Rabs (value t - ln (real m)) <= 2195 * e) by (apply Rabs_le; lra).
  pose proof (exp_close (value t - ln (real m)) ltac:(lra)) as XC. set (x := exp (value t - ln (real m))) in *.
  assert (XC' : Rabs (x - 1) <= 4390 * e) by lra. apply Rabs_le_inv in XC'.
  rewrite EE in Ex. apply Rabs_le_inv in Ex. set (M := real m) in *.
  assert (T1 : M * x <= M * (1 + 4390 * e)) by (apply Rmult_le_compat_l; lra).
  assert (T2 : M * (1 - 4390 * e) <= M * x) by (apply Rmult_le_compat_l; lra).
  assert (T3 : e * (M * x) <= e * (M * 2)) by (apply Rmult_le_compat_l; [lra |]; apply Rmult_le_compat_l; lra).
  replace (bpow radix2 (-39)) with (8192 * e) by (change (-39)%Z with (13 + -52)%Z; rewrite bpow_plus; reflexivity).
  assert (0 <= e * M) by (apply Rmult_le_pos; lra). apply Rabs_le. lra.
Qed.

(** Numbers of distributions that were made. *)
Lemma made_spread log x : made log x = with_spread log (c_mean x) (snd (made log x)).
Proof. reflexivity. Qed.

Lemma made_variance log x : accurate log -> between (bpow radix2 (-60)) (bpow radix2 430) (c_mean x) -> between 0 (bpow radix2 420) (c_sd x) ->
  between 0 32 (snd (made log x)).
Proof.
  intros A BM BS. destruct (made_right log x A BM BS) as ((_ & V & F & P) & E & _). split; [exact V |]. split; [exact F |]. split; [exact P |].
  destruct BM as (_ & _ & Bm). destruct BS as (_ & _ & Bs). set (m := real (c_mean x)) in *. set (s := real (c_sd x)) in *.
  pose proof (bpow_gt_0 radix2 (-60)). pose proof ln2_top. pose proof ln_lt_2.
  assert (MM : bpow radix2 (-120) <= m * m) by (change (-120)%Z with (-60 + -60)%Z; rewrite bpow_plus; apply Rmult_le_compat; lra).
  assert (SS : 0 <= s * s <= bpow radix2 840).
  { change 840%Z with (420 + 420)%Z. rewrite bpow_plus. split; [apply Rmult_le_pos; lra | apply Rmult_le_compat; lra]. }
  pose proof (bpow_gt_0 radix2 (-120)).
  assert (Q : 0 <= s * s / (m * m) <= bpow radix2 960).
  { split; [apply Rmult_le_pos; [lra | apply Rlt_le, Rinv_0_lt_compat; lra] |].
    apply Rle_trans with (bpow radix2 840 * bpow radix2 120); [| rewrite <- bpow_plus; apply bpow_le; lia].
    apply Rmult_le_compat; [lra | apply Rlt_le, Rinv_0_lt_compat; lra | lra |]. change 120%Z with (- (-120))%Z. rewrite bpow_opp. apply Rinv_le; lra. }
  pose proof (one_big 960 ltac:(lia)).
  assert (Lv : ln (1 + s * s / (m * m)) <= ln (bpow radix2 961)).
  { assert (K : 1 + s * s / (m * m) <= bpow radix2 961) by (change 961%Z with (960 + 1)%Z; rewrite <- big_double; lra).
    destruct K as [K | ->]; [left; apply ln_increasing; lra | right; reflexivity]. }
  rewrite ln_bpow in Lv. apply Rabs_le_inv in E.
  assert (bpow radix2 (-38) <= 1) by (change 1 with (bpow radix2 0); apply bpow_le; lia).
  apply root_bound; [exact P | lra |]. lra.
Qed.

Lemma made_back log ex x : accurate log -> exponential ex -> between (bpow radix2 (-60)) (bpow radix2 430) (c_mean x) ->
  between 0 (bpow radix2 420) (c_sd x) ->
  double (mean_of ex (made log x)) /\ finite (mean_of ex (made log x)) /\
  Rabs (real (mean_of ex (made log x)) - real (c_mean x)) <= bpow radix2 (-39) * real (c_mean x).
Proof.
  intros A X BM BS. rewrite made_spread. apply (spread_back log ex (c_mean x)); try assumption. now apply made_variance.
Qed.

(** Scaled by a factor. *)
Lemma scaled_right log ex f d : accurate log -> exponential ex -> between (bpow radix2 (-30)) (bpow radix2 30) f ->
  between (bpow radix2 (-30)) (bpow radix2 400) (mean_of ex d) -> between 0 32 (snd d) ->
  let d' := scaled log ex f d in
  fine d' /\ snd d' = snd d /\ double (mean_of ex d') /\ finite (mean_of ex d') /\
  Rabs (real (mean_of ex d') - real f * real (mean_of ex d)) <= bpow radix2 (-38) * (real f * real (mean_of ex d)).
Proof.
  intros A X (Vf & Ff & Bf) (Vm & Fm & Bm) BS d'. set (m := mean_of ex d) in *.
  change (real f) with (value f) in *. change (real m) with (value m) in *. apply finite_same in Ff. apply finite_same in Fm.
  pose proof (bpow_gt_0 radix2 (-30)) as P30.
  assert (FM : bpow radix2 (-60) <= value f * value m <= bpow radix2 430).
  { change (-60)%Z with (-30 + -30)%Z. change 430%Z with (30 + 400)%Z. rewrite !bpow_plus. split; apply Rmult_le_compat; lra. }
  pose proof (bpow_gt_0 radix2 (-60)) as P60.
  destruct (mul_value 53 1024 p53 e1024 f m Vf Vm Ff Fm) as [F1 E1]; [apply (small_top 430); [lia | rewrite Rabs_pos_eq; lra] |].
  pose proof (valid_mul 53 1024 p53 e1024 f m Vf Vm) as V1.
  assert (BM : between (bpow radix2 (-60)) (bpow radix2 430) (nmul F64 f m)).
  { split; [exact V1 |]. split; [apply finite_same; exact F1 |]. change (bpow radix2 (-60) <= value (SFmul 53 1024 f m) <= bpow radix2 430). rewrite E1.
    apply rnd_range; [lia | lia | exact FM]. }
  destruct (spread_back log ex _ _ A X BM BS) as (Fi & V2 & F2 & E2).
  split; [exact Fi |]. split; [reflexivity |]. split; [exact V2 |]. split; [exact F2 |].
  change (with_spread log (nmul F64 f m) (snd d)) with d' in E2. change (real (nmul F64 f m)) with (value (SFmul 53 1024 f m)) in E2. rewrite E1 in E2.
  set (r := rnd 53 1024 (value f * value m)) in *. pose proof (rnd_err (value f * value m)) as R. fold r in R. set (p := value f * value m) in *.
  rewrite (Rabs_pos_eq p) in R by lra. pose proof e_pos. pose proof e_small. pose proof tau_pos.
  assert (tau <= e * p).
  { apply Rle_trans with (e * bpow radix2 (-60)); [rewrite <- bpow_plus; apply bpow_le; lia | apply Rmult_le_compat_l; lra]. }
  replace (bpow radix2 (-39)) with (8192 * e) in E2 by (change (-39)%Z with (13 + -52)%Z; rewrite bpow_plus; reflexivity).
  replace (bpow radix2 (-38)) with (16384 * e) by (change (-38)%Z with (14 + -52)%Z; rewrite bpow_plus; reflexivity).
  apply Rabs_le_inv in E2. apply Rabs_le_inv in R.
  assert (r <= 2 * p) by (assert (e * p <= 1 / 1000000 * p) by (apply Rmult_le_compat_r; lra); lra).
  assert (e * (e * p) <= 1 / 1000000 * (e * p)) by (apply Rmult_le_compat_r; lra).
  assert (0 <= e * p) by lra.
  assert (e * r <= e * (p + e * p)) by (apply Rmult_le_compat_l; lra).
  apply Rabs_le. lra.
Qed.

(** Scaled to nothing. *)
Lemma scaled_nothing log ex f d : (forall b, log (S754_zero b) = S754_infinity true) -> real f = 0 -> finite f ->
  finite (mean_of ex d) -> between 0 32 (snd d) ->
  let d' := scaled log ex f d in mean_of ex d' = nofZ F64 0 /\ sd_of ex d' = nofZ F64 0 /\ snd d' = snd d.
Proof.
  intros L Z Ff Fm BS d'. destruct (half_square _ BS) as (_ & _ & Vh & Fh & _).
  assert (M : exists b, nmul F64 f (mean_of ex d) = S754_zero b).
  { destruct f as [b|b| |[] p k]; try easy; [destruct (mean_of ex d); try easy; eexists; reflexivity | |].
    - pose proof (value_neg p k). unfold real, value in *. lra.
    - pose proof (value_pos p k). unfold real, value in *. lra. }
  destruct M as [b M]. unfold d', scaled. rewrite M. unfold with_spread. rewrite L.
  set (h := ndiv F64 (nmul F64 (snd d) (snd d)) (nofZ F64 2)) in *.
  assert (S : nsub F64 (S754_infinity true) h = S754_infinity true) by (destruct h; try discriminate Fh; reflexivity).
  rewrite S. repeat split.
Qed.
