(** * Log-log tables in double precision (C101): one interval *)
From Coq Require Import ZArith Reals List Lra Lia Floats.SpecFloat.
From Flocq Require Import Core Relative BinarySingleNaN.
From Verif Require Import Num Double_spec Double_proofs Double_proofs2 Maq_double_proofs Deriv_proofs3 Totals Totals_spec
  Totals_proofs Totals_proofs2 Totals_proofs4 Totals_proofs6 Totals_proofs7 Spread Spread_spec Spread_proofs Spread_proofs4
  Tabled Tabled_spec Tabled_proofs Tabled_proofs2 Hyperbola_spec Hyperbola_proofs Hyperbola_proofs2 Hyperbola_proofs3 Loglog Loglog_spec.
Import ListNotations.
Local Open Scope R_scope.
Local Instance p53i : Prec_gt_0 53 := eq_refl.
Local Instance e1024i : Prec_lt_emax 53 1024 := eq_refl.
Local Instance fx : Valid_exp (SpecFloat.fexp 53 1024) := fexp_correct 53 1024 p53i.

Lemma ln_le a b : 0 < a -> a <= b -> ln a <= ln b.
Proof. intros P [H | ->]; [left; now apply ln_increasing | right; reflexivity]. Qed.

(** Logarithms of ordinary numbers are such. *)
Definition logged (y : F64) : Prop := between (-361) 361 y.

Lemma te : tau <= 1 / 1000000 * e.
Proof.
  pose proof e_pos. pose proof e_small. assert (tau <= e * e) by (rewrite <- bpow_plus; apply bpow_le; lia).
  assert (e * e <= 1 / 1000000 * e) by (apply Rmult_le_compat_r; lra). lra.
Qed.

(** Logarithms of ordinary numbers. *)
Lemma log_ordinary log x : rising_log log -> ordinary x ->
  logged (log x) /\ Rabs (real (log x) - ln (real x)) <= 1440 * e /\ 0 < real x /\ Rabs (ln (real x)) <= 360.
Proof.
  intros ((LG & AC) & _) (V & F & B). pose proof (bpow_gt_0 radix2 (-400)) as P. assert (P0 : 0 < real x) by lra.
  assert (L : Rabs (ln (real x)) <= 360).
  { pose proof ln2_top. pose proof ln_lt_2. apply Rabs_le. split.
    - apply Rle_trans with (ln (bpow radix2 (-400))); [rewrite ln_bpow; lra | apply ln_le; lra].
    - apply Rle_trans with (ln (bpow radix2 400)); [apply ln_le; lra | rewrite ln_bpow; lra]. }
  destruct (LG x V F P0) as (Vl & Fl & _). pose proof (AC x V F P0) as A. rewrite e50 in A.
  pose proof e_pos. pose proof e_small. assert (4 * e * Rabs (ln (real x)) <= 4 * e * 360) by (apply Rmult_le_compat_l; lra).
  assert (A' : Rabs (real (log x) - ln (real x)) <= 1440 * e) by lra.
  split; [| repeat split; assumption]. split; [exact Vl |]. split; [exact Fl |]. apply Rabs_le_inv in A'. apply Rabs_le_inv in L. lra.
Qed.

(** The formula with logarithms. *)
Lemma on_abs y0 y1 t : -361 <= y0 <= 361 -> -361 <= y1 <= 361 -> 0 <= t <= 1 ->
  Rabs (rd (y1 - y0)) <= 723 /\ Rabs (rd (t * rd (y1 - y0))) <= 724 /\ Rabs (on y0 y1 t - (y0 + t * (y1 - y0))) <= 1300 * e.
Proof.
  intros B0 B1 T. pose proof e_pos as E. pose proof e_small as Es. pose proof te as TE. pose proof tau_pos.
  set (d := y1 - y0). assert (Hd : Rabs d <= 722) by (apply Rabs_le; unfold d; lra).
  pose proof (rnd_err d) as R1. assert (e / 2 * Rabs d <= e / 2 * 722) by (apply Rmult_le_compat_l; lra).
  set (d' := rd d) in *. assert (R1' : Rabs (d' - d) <= 362 * e) by lra. apply Rabs_le_inv in Hd. pose proof R1' as R1b. apply Rabs_le_inv in R1b.
  assert (Hd' : Rabs d' <= 723) by (apply Rabs_le; lra). split; [exact Hd' |].
  assert (Hp : Rabs (t * d') <= 723).
  { rewrite Rabs_mult, (Rabs_pos_eq t) by lra. apply Rle_trans with (1 * Rabs d'); [apply Rmult_le_compat_r; [apply Rabs_pos | lra] | lra]. }
  pose proof (rnd_err (t * d')) as R2. assert (e / 2 * Rabs (t * d') <= e / 2 * 723) by (apply Rmult_le_compat_l; lra).
  set (p := rd (t * d')) in *. assert (R2' : Rabs (p - t * d') <= 363 * e) by lra. apply Rabs_le_inv in R2'. apply Rabs_le_inv in Hp.
  split; [apply Rabs_le; lra |].
  assert (D : Rabs (t * d' - t * d) <= 362 * e).
  { rewrite <- Rmult_minus_distr_l, Rabs_mult, (Rabs_pos_eq t) by lra. apply Rle_trans with (1 * Rabs (d' - d)); [apply Rmult_le_compat_r; [apply Rabs_pos | lra] | lra]. }
  unfold on. fold d. fold d'. fold p. pose proof (rnd_err (y0 + p)) as R3. assert (Hs : Rabs (y0 + p) <= 1086) by (apply Rabs_le; lra).
  assert (e / 2 * Rabs (y0 + p) <= e / 2 * 1086) by (apply Rmult_le_compat_l; lra).
  assert (R3' : Rabs (rd (y0 + p) - (y0 + p)) <= 544 * e) by lra.
  apply Rabs_le_inv in R3'. apply Rabs_le_inv in D. apply Rabs_le. lra.
Qed.

Lemma segment_log a b c d x : logged a -> logged b -> logged c -> logged d -> double x -> finite x ->
  real a + bpow radix2 (-1000) <= real b -> real a <= real x <= real b ->
  let y := segment a b c d x in
  double y /\ finite y /\ real y = on (real c) (real d) (part (real a) (real b) (real x)).
Proof.
  intros (Va & Fa & Ba) (Vb & Fb & Bb) (Vc & Fc & Bc) (Vd & Fd & Bd) Vx Fx W X. cbv zeta.
  apply finite_same in Fa, Fb, Fc, Fd, Fx.
  change (real a) with (value a) in *. change (real b) with (value b) in *. change (real c) with (value c) in *.
  change (real d) with (value d) in *. change (real x) with (value x) in *.
  pose proof (bpow_gt_0 radix2 (-1000)) as P.
  destruct (sub_value 53 1024 p53i e1024i b a Vb Va Fb Fa) as [Fw Ew]; [apply small_ok'; lra |].
  pose proof (valid_sub 53 1024 p53i e1024i b a Vb Va) as Vw.
  destruct (sub_value 53 1024 p53i e1024i x a Vx Va Fx Fa) as [Fv Ev]; [apply small_ok'; lra |].
  pose proof (valid_sub 53 1024 p53i e1024i x a Vx Va) as Vv.
  destruct (sub_value 53 1024 p53i e1024i d c Vd Vc Fd Fc) as [Fh Eh]; [apply small_ok'; lra |].
  pose proof (valid_sub 53 1024 p53i e1024i d c Vd Vc) as Vh.
  pose proof (width _ _ W) as Ww. pose proof (quotient _ _ _ W X) as Q. pose proof (part_range _ _ _ W X) as PR.
  destruct (div_value 53 1024 p53i e1024i _ _ Vv Vw Fv) as [Ft Et]; [rewrite Ew; apply Rgt_not_eq; lra | rewrite Ev, Ew; apply small_ok'; lra |].
  pose proof (valid_div 53 1024 p53i e1024i _ _ Vv Vw) as Vt. rewrite Ev, Ew in Et.
  fold (part (value a) (value b) (value x)) in Et. set (t := part (value a) (value b) (value x)) in *.
  destruct (on_abs (value c) (value d) t Bc Bd PR) as (Hv & Hq & _).
  assert (Hp : Rabs (t * rd (value d - value c)) <= 723).
  { rewrite Rabs_mult, (Rabs_pos_eq t) by lra. apply Rle_trans with (1 * Rabs (rd (value d - value c))); [apply Rmult_le_compat_r; [apply Rabs_pos | lra] | lra]. }
  apply Rabs_le_inv in Hp. apply Rabs_le_inv in Hq.
  destruct (mul_value 53 1024 p53i e1024i _ _ Vt Vh Ft Fh) as [Fm Em]; [rewrite Et, Eh; apply small_ok'; lra |].
  pose proof (valid_mul 53 1024 p53i e1024i _ _ Vt Vh) as Vm. rewrite Et, Eh in Em.
  destruct (add_value 53 1024 p53i e1024i c _ Vc Vm Fc Fm) as [Fy Ey].
  { rewrite Em. apply small_ok. apply Rle_trans with (bpow radix2 20); [| apply bpow_le; lia]. change (bpow radix2 20) with 1048576. apply Rabs_le. lra. }
  pose proof (valid_add 53 1024 p53i e1024i c _ Vc Vm) as Vy. rewrite Em in Ey.
  assert (N : nltb F64 (nofZ F64 0) (nsub F64 b a) = true).
  { apply (ltb_value 53 1024); [reflexivity | exact Vw | reflexivity | exact Fw |].
    change (value (nofZ F64 0) < value (SFsub 53 1024 b a)). rewrite Ew. change (value (nofZ F64 0)) with 0. lra. }
  unfold segment. rewrite N. split; [exact Vy |]. split; [apply finite_same; exact Fy | exact Ey].
Qed.

(** The formula is near the straight line between the logarithms. *)
Lemma segment_near a b c d x : logged a -> logged b -> logged c -> logged d -> double x -> finite x ->
  real a + bpow radix2 (-1000) <= real b -> real a <= real x <= real b ->
  let y := segment a b c d x in
  double y /\ finite y /\ Rabs (real y - (real c + (real x - real a) / (real b - real a) * (real d - real c))) <= 4200 * e.
Proof.
  intros La Lb Lc Ld Vx Fx W X. cbv zeta. destruct (segment_log a b c d x La Lb Lc Ld Vx Fx W X) as (V & F & ->).
  split; [exact V |]. split; [exact F |]. destruct Lc as (_ & _ & Bc). destruct Ld as (_ & _ & Bd).
  destruct (on_abs _ _ _ Bc Bd (part_range _ _ _ W X)) as (_ & _ & N). pose proof (quotient_right _ _ _ W X) as Q. pose proof (quotient _ _ _ W X) as Q1.
  pose proof e_pos as E. pose proof te. pose proof tau_pos.
  set (q' := (real x - real a) / (real b - real a)) in *. set (t := part _ _ _) in *.
  assert (T : Rabs (t - q') <= 4 * e).
  { unfold t, part. set (q := rd _ / rd _) in *. pose proof (rnd_err q) as R. rewrite (Rabs_pos_eq q) in R by lra.
    assert (e / 2 * q <= e / 2 * 1) by (apply Rmult_le_compat_l; lra). apply Rabs_le_inv in R. apply Rabs_le_inv in Q. apply Rabs_le. lra. }
  assert (K : Rabs ((t - q') * (real d - real c)) <= 4 * e * 722).
  { rewrite Rabs_mult. apply Rmult_le_compat; try apply Rabs_pos; [exact T | apply Rabs_le; lra]. }
  apply Rabs_le_inv in N. apply Rabs_le_inv in K. apply Rabs_le. lra.
Qed.

(** The exponential of a number near another. *)
Lemma exp_logged ex s : exponential ex -> double s -> finite s -> -400 <= real s <= 400 ->
  double (ex s) /\ finite (ex s) /\ 0 < real (ex s) /\ Rabs (ln (real (ex s)) - real s) <= 5 * e.
Proof.
  intros X V F B. destruct (X s V F) as (Vx & Fx & A & _); [apply Rabs_le; lra |]. rewrite e50 in A. pose proof e_pos. pose proof e_small.
  pose proof (exp_pos (real s)) as P. pose proof (ln_near (real (ex s)) (exp (real s)) (4 * e) P ltac:(lra) A) as N. rewrite ln_exp in N.
  assert (e * exp (real s) <= 1 / 1000000 * exp (real s)) by (apply Rmult_le_compat_r; lra). apply Rabs_le_inv in A.
  split; [exact Vx |]. split; [exact Fx |]. split; lra.
Qed.

(** Two numbers whose logarithms differ little. *)
Lemma near_log v m d : 0 < v -> 0 < m -> ln v <= ln m + d -> 0 <= d <= 7000 * e -> v <= m * (1 + bpow radix2 (-39)).
Proof.
  intros Pv Pm L D. pose proof e_pos. pose proof e_small.
  assert (E39 : bpow radix2 (-39) = 8192 * e) by (change (-39)%Z with (13 + -52)%Z; now rewrite bpow_plus). rewrite E39.
  assert (es : e <= / 1000000000) by (apply Rle_trans with (bpow radix2 (-30)); [apply bpow_le; lia | change (bpow radix2 (-30)) with (/ IZR 1073741824); apply Rinv_le; lra]).
  rewrite <- (exp_ln v Pv). apply Rle_trans with (exp (ln m + d)); [now apply exp_le |]. rewrite exp_plus, exp_ln by exact Pm.
  apply Rmult_le_compat_l; [lra |]. pose proof (exp_ineq1_le (- d)) as I. rewrite exp_Ropp in I. pose proof (exp_pos d) as Pd.
  assert (K : exp d * (1 + - d) <= 1) by (apply Rle_trans with (exp d * / exp d); [apply Rmult_le_compat_l; lra | rewrite Rinv_r; lra]).
  apply Rmult_le_reg_r with (1 + - d); [lra |]. eapply Rle_trans; [exact K |].
  assert (8192 * e * d <= 1000 * e) by (replace (8192 * e * d) with (e * (8192 * d)) by ring; replace (1000 * e) with (e * 1000) by ring; apply Rmult_le_compat_l; lra). lra.
Qed.
Lemma near_log_below v m d : 0 < v -> 0 < m -> ln m - d <= ln v -> 0 <= d <= 7000 * e -> m * (1 - bpow radix2 (-39)) <= v.
Proof.
  intros Pv Pm L D. pose proof e_pos.
  assert (E39 : bpow radix2 (-39) = 8192 * e) by (change (-39)%Z with (13 + -52)%Z; now rewrite bpow_plus). rewrite E39.
  rewrite <- (exp_ln v Pv). apply Rle_trans with (exp (ln m - d)); [| now apply exp_le]. unfold Rminus at 2. rewrite exp_plus, exp_ln by exact Pm.
  apply Rmult_le_compat_l; [lra |]. pose proof (exp_ineq1_le (- d)). lra.
Qed.

(** Arguments that are apart have logarithms that are. *)
Lemma ln_step a b : 0 < a -> a * (1 + bpow radix2 (-38)) <= b -> 8192 * e <= ln b - ln a.
Proof.
  intros P H. set (h := bpow radix2 (-38)) in *. assert (E38 : h = 16384 * e) by (unfold h; change (-38)%Z with (14 + -52)%Z; now rewrite bpow_plus).
  pose proof e_pos. assert (es : e <= / 1000000000) by (apply Rle_trans with (bpow radix2 (-30)); [apply bpow_le; lia | change (bpow radix2 (-30)) with (/ IZR 1073741824); apply Rinv_le; lra]).
  assert (L : ln (a * (1 + h)) <= ln b) by (apply ln_le; [apply Rmult_lt_0_compat; lra | exact H]). rewrite ln_mult in L by lra.
  assert (h / 2 <= ln (1 + h)); [| lra]. rewrite <- (ln_exp (h / 2)). apply ln_le; [apply exp_pos |].
  pose proof (exp_ineq1_le (- (h / 2))) as I. rewrite exp_Ropp in I. pose proof (exp_pos (h / 2)) as Pd.
  assert (K : exp (h / 2) * (1 + - (h / 2)) <= 1) by (apply Rle_trans with (exp (h / 2) * / exp (h / 2)); [apply Rmult_le_compat_l; lra | rewrite Rinv_r; lra]).
  apply Rmult_le_reg_r with (1 + - (h / 2)); [lra |]. eapply Rle_trans; [exact K |].
  replace ((1 + h) * (1 + - (h / 2))) with (1 + h / 2 * (1 - h)) by field. assert (0 <= h / 2 * (1 - h)) by (apply Rmult_le_pos; lra). lra.
Qed.

(** Logarithms of doubles other than one are not small. *)
Lemma ln_min x : double x -> finite x -> 0 < real x -> real x <> 1 -> bpow radix2 (-53) <= Rabs (ln (real x)).
Proof.
  intros V F P N. pose proof (value_format 53 1024 x V) as Fx. change (value x) with (real x) in Fx. set (r := real x) in *. pose proof rnd64_1 as F1.
  destruct (Rtotal_order r 1) as [L | [L | L]]; [| contradiction |].
  - pose proof (pred_ge_gt radix2 (SpecFloat.fexp 53 1024) r 1 (format_of _ Fx) (format_of _ F1) L) as K. pose proof (pred_gap 1 ltac:(lra)) as G.
    pose proof (exp_ineq1_le (ln r)) as I. rewrite exp_ln in I by exact P. rewrite Rabs_left1; lra.
  - pose proof (pred_ge_gt radix2 (SpecFloat.fexp 53 1024) 1 r (format_of _ F1) (format_of _ Fx) L) as K. pose proof (pred_gap r P) as G.
    pose proof (exp_ineq1_le (- ln r)) as I. rewrite exp_Ropp, exp_ln in I by exact P.
    assert (bpow radix2 (-53) <= 1 - / r); [| rewrite Rabs_pos_eq; pose proof (bpow_gt_0 radix2 (-53)); lra].
    apply Rmult_le_reg_r with r; [exact P |]. rewrite Rmult_minus_distr_r, Rinv_l by lra. lra.
Qed.

Lemma log_min log x : rising_log log -> ordinary x -> real (log x) = 0 \/ bpow radix2 (-54) <= Rabs (real (log x)).
Proof.
  intros ((_ & Acc) & _) (V & F & B). pose proof (bpow_gt_0 radix2 (-400)). pose proof (Acc x V F ltac:(lra)) as A. pose proof e_pos. pose proof e_small. rewrite e50 in A.
  destruct (Req_dec (real x) 1) as [E | N].
  - left. rewrite E, ln_1, Rabs_R0, Rmult_0_r in A. pose proof (Rabs_pos (real (log x) - 0)). assert (Z : Rabs (real (log x) - 0) = 0) by lra.
    destruct (Req_dec (real (log x)) 0) as [Y | Y]; [exact Y |]. exfalso. apply (Rabs_no_R0 (real (log x) - 0)); lra.
  - right. pose proof (ln_min x V F ltac:(lra) N) as M. set (l := ln (real x)) in *. set (g := real (log x)) in *.
    replace (bpow radix2 (-54)) with (/ 2 * bpow radix2 (-53)) by (change (/ 2) with (bpow radix2 (-1)); rewrite <- bpow_plus; reflexivity).
    pose proof (Rabs_triang_inv l (l - g)) as T. replace (l - (l - g)) with g in T by ring. rewrite (Rabs_minus_sym l g) in T.
    pose proof (Rabs_pos l). assert (4 * e * Rabs l <= / 2 * Rabs l) by (apply Rmult_le_compat_r; lra). lra.
Qed.

(** Two doubles that are not small, or zero, differ by something. *)
Lemma double_gap a b : rd a = a -> rd b = b -> (a = 0 \/ bpow radix2 (-54) <= Rabs a) -> (b = 0 \/ bpow radix2 (-54) <= Rabs b) -> a < b ->
  a + bpow radix2 (-1000) <= b.
Proof.
  intros Fa Fb Ma Mb L. pose proof (bpow_gt_0 radix2 (-54)) as P54.
  assert (K : bpow radix2 (-1000) <= bpow radix2 (-53) * bpow radix2 (-54)) by (rewrite <- bpow_plus; apply bpow_le; lia).
  destruct (Rlt_or_le 0 b) as [B | B].
  - destruct Mb as [-> | Mb]; [lra |]. rewrite Rabs_pos_eq in Mb by lra.
    pose proof (pred_ge_gt radix2 (SpecFloat.fexp 53 1024) a b (format_of _ Fa) (format_of _ Fb) L). pose proof (pred_gap b B).
    assert (bpow radix2 (-53) * bpow radix2 (-54) <= bpow radix2 (-53) * b) by (apply Rmult_le_compat_l; [apply bpow_ge_0 | exact Mb]). lra.
  - destruct Ma as [-> | Ma]; [lra |]. rewrite Rabs_left1 in Ma by lra.
    assert (Fa' : rd (- a) = - a) by (rewrite rnd_opp; congruence). assert (Fb' : rd (- b) = - b) by (rewrite rnd_opp; congruence).
    pose proof (pred_ge_gt radix2 (SpecFloat.fexp 53 1024) (- b) (- a) (format_of _ Fb') (format_of _ Fa') ltac:(lra)). pose proof (pred_gap (- a) ltac:(lra)).
    assert (bpow radix2 (-53) * bpow radix2 (-54) <= bpow radix2 (-53) * - a) by (apply Rmult_le_compat_l; [apply bpow_ge_0 | exact Ma]). lra.
Qed.
