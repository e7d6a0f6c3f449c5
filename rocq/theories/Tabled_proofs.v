(** * Tables in double precision (C98): one interval *)
From Coq Require Import ZArith Reals List Lra Lia Floats.SpecFloat.
From Flocq Require Import Core Relative BinarySingleNaN.
From Verif Require Import Num Double_spec Double_proofs Double_proofs2 Maq_double_proofs Deriv_proofs3 Totals Totals_spec
  Totals_proofs Totals_proofs2 Totals_proofs4 Spread Spread_spec Spread_proofs Tabled Tabled_spec.
Import ListNotations.
Local Open Scope R_scope.
Local Instance p53i : Prec_gt_0 53 := eq_refl.
Local Instance e1024i : Prec_lt_emax 53 1024 := eq_refl.

Notation rd := (rnd 53 1024).

Lemma rd_le r s : r <= s -> rd r <= rd s.
Proof. intros H. apply rnd_le; [exact p53i | exact H]. Qed.

(** ** The part of the interval *)

Definition part (x0 x1 x : R) : R := rd (rd (x - x0) / rd (x1 - x0)).

Lemma width x0 x1 : x0 + bpow radix2 (-1000) <= x1 -> bpow radix2 (-1000) <= rd (x1 - x0).
Proof. intros H. rewrite <- (rnd_bpow (-1000) ltac:(lia)). apply rd_le. lra. Qed.

Lemma quotient x0 x1 x : x0 + bpow radix2 (-1000) <= x1 -> x0 <= x <= x1 -> 0 <= rd (x - x0) / rd (x1 - x0) <= 1.
Proof.
  intros W X. pose proof (width _ _ W) as B. pose proof (bpow_gt_0 radix2 (-1000)) as P.
  assert (A : 0 <= rd (x - x0) <= rd (x1 - x0)) by (split; [apply rnd_nonneg; lra | apply rd_le; lra]).
  split; [apply Rmult_le_pos; [lra | apply Rlt_le, Rinv_0_lt_compat; lra] |].
  apply Rmult_le_reg_r with (rd (x1 - x0)); [lra |]. unfold Rdiv. rewrite Rmult_assoc, Rinv_l by lra. lra.
Qed.

Lemma part_range x0 x1 x : x0 + bpow radix2 (-1000) <= x1 -> x0 <= x <= x1 -> 0 <= part x0 x1 x <= 1.
Proof.
  intros W X. pose proof (quotient _ _ _ W X). unfold part. split; [apply rnd_nonneg; lra |].
  apply Rle_trans with (rd 1); [apply rd_le; lra | rewrite rnd64_1; lra].
Qed.

Lemma part_first x0 x1 : x0 + bpow radix2 (-1000) <= x1 -> part x0 x1 x0 = 0.
Proof. intros W. unfold part. rewrite Rminus_diag_eq, rnd_0 by reflexivity. unfold Rdiv. now rewrite Rmult_0_l, rnd_0. Qed.

Lemma part_mono x0 x1 x x' : x0 + bpow radix2 (-1000) <= x1 -> x <= x' -> part x0 x1 x <= part x0 x1 x'.
Proof.
  intros W X. unfold part. apply rd_le. pose proof (width _ _ W). pose proof (bpow_gt_0 radix2 (-1000)).
  apply Rmult_le_compat_r; [apply Rlt_le, Rinv_0_lt_compat; lra | apply rd_le; lra].
Qed.

Lemma tau_width w : bpow radix2 (-1000) <= w -> tau <= 1 / 1000000 * (e * w).
Proof.
  intros H. pose proof e_pos. pose proof (bpow_gt_0 radix2 (-1000)).
  assert (T : tau = bpow radix2 (-22) * (e * bpow radix2 (-1000))) by (rewrite <- !bpow_plus; reflexivity). rewrite T.
  assert (bpow radix2 (-22) <= 1 / 1000000) by (change (bpow radix2 (-22)) with (/ IZR 4194304); lra).
  apply Rmult_le_compat; [apply bpow_ge_0 | apply Rmult_le_pos; lra | assumption | apply Rmult_le_compat_l; lra].
Qed.

Lemma e50 : bpow radix2 (-50) = 4 * e.
Proof. change (-50)%Z with (2 + -52)%Z. now rewrite bpow_plus. Qed.

Lemma quotient_right x0 x1 x : x0 + bpow radix2 (-1000) <= x1 -> x0 <= x <= x1 ->
  Rabs (rd (x - x0) / rd (x1 - x0) - (x - x0) / (x1 - x0)) <= 3 * e.
Proof.
  intros W X. pose proof e_pos as E. pose proof e_small as Es. pose proof (bpow_gt_0 radix2 (-1000)) as P.
  set (w := x1 - x0) in *. set (a := x - x0) in *. assert (Hw : bpow radix2 (-1000) <= w) by (unfold w; lra).
  assert (Ha : 0 <= a <= w) by (unfold a, w; lra). pose proof (tau_width _ Hw) as T. pose proof tau_pos.
  pose proof (rnd_err a) as R1. rewrite (Rabs_pos_eq a) in R1 by lra. pose proof (rnd_err w) as R2. rewrite (Rabs_pos_eq w) in R2 by lra.
  set (a' := rd a) in *. set (w' := rd w) in *.
  assert (ea : e * a <= e * w) by (apply Rmult_le_compat_l; lra).
  assert (ew : e * w <= 1 / 1000000 * w) by (apply Rmult_le_compat_r; lra).
  assert (W' : w / 2 <= w') by (apply Rabs_le_inv in R2; lra).
  set (q := a / w). assert (Q : 0 <= q <= 1).
  { unfold q. split; [apply Rmult_le_pos; [lra | apply Rlt_le, Rinv_0_lt_compat; lra] |].
    apply Rmult_le_reg_r with w; [lra |]. unfold Rdiv. rewrite Rmult_assoc, Rinv_l by lra. lra. }
  assert (qw : q * w = a) by (unfold q; field; lra).
  replace (a' / w' - q) with (((a' - a) - q * (w' - w)) / w') by (rewrite <- qw; field; lra).
  unfold Rdiv. rewrite Rabs_mult, (Rabs_pos_eq (/ w')) by (apply Rlt_le, Rinv_0_lt_compat; lra).
  apply Rmult_le_reg_r with w'; [lra |]. rewrite Rmult_assoc, Rinv_l, Rmult_1_r by lra.
  eapply Rle_trans; [apply Rabs_triang |]. rewrite Rabs_Ropp, Rabs_mult, (Rabs_pos_eq q) by lra.
  assert (q * Rabs (w' - w) <= 1 * Rabs (w' - w)) by (apply Rmult_le_compat_r; [apply Rabs_pos | lra]).
  assert (3 * e * (w / 2) <= 3 * e * w') by (apply Rmult_le_compat_l; lra). lra.
Qed.

Lemma part_clear x0 x1 x : x0 + bpow radix2 (-1000) <= x1 -> x0 <= x -> clear x0 x1 x -> 0 <= part x0 x1 x <= 1 - 2 * e.
Proof.
  intros W X C. unfold clear in C. rewrite e50 in C. pose proof e_pos as E. pose proof e_small as Es. pose proof (bpow_gt_0 radix2 (-1000)) as P.
  assert (C' : 0 <= 4 * e * (x1 - x0)) by (apply Rmult_le_pos; lra).
  split; [apply part_range; lra |]. unfold part.
  set (w := x1 - x0) in *. set (a := x - x0) in *. assert (Hw : bpow radix2 (-1000) <= w) by (unfold w; lra).
  assert (Ha : 0 <= a <= w - 4 * (e * w)) by (unfold a; unfold w in *; lra). pose proof (tau_width _ Hw) as T. pose proof tau_pos.
  pose proof (rnd_err a) as R1. rewrite (Rabs_pos_eq a) in R1 by lra. pose proof (rnd_err w) as R2. rewrite (Rabs_pos_eq w) in R2 by lra.
  set (a' := rd a) in *. set (w' := rd w) in *. apply Rabs_le_inv in R1. apply Rabs_le_inv in R2.
  assert (ea : e * a <= e * w) by (apply Rmult_le_compat_l; lra).
  assert (ew : e * w <= 1 / 1000000 * w) by (apply Rmult_le_compat_r; lra).
  assert (ew' : e * w' <= e * (w + 1 / 1000 * w)) by (apply Rmult_le_compat_l; lra).
  assert (Pw : 0 < w') by lra.
  assert (Q : a' / w' <= 1 - 29 / 10 * e).
  { apply Rmult_le_reg_r with w'; [lra |]. unfold Rdiv. rewrite Rmult_assoc, Rinv_l by lra. lra. }
  assert (Q0 : 0 <= a' / w') by (apply Rmult_le_pos; [apply rnd_nonneg; lra | apply Rlt_le, Rinv_0_lt_compat; lra]).
  pose proof (rnd_err (a' / w')) as R3. rewrite (Rabs_pos_eq (a' / w')) in R3 by lra. apply Rabs_le_inv in R3.
  assert (e / 2 * (a' / w') <= e / 2 * 1) by (apply Rmult_le_compat_l; lra).
  assert (te : tau <= 1 / 1000000 * e).
  { assert (tau <= e * e) by (rewrite <- bpow_plus; apply bpow_le; lia). assert (e * e <= 1 / 1000000 * e) by (apply Rmult_le_compat_r; lra). lra. }
  lra.
Qed.

(** ** Ordinates *)

Definition on (y0 y1 t : R) : R := rd (y0 + rd (t * rd (y1 - y0))).

Lemma on_nonneg y0 y1 t : rd y0 = y0 -> 0 <= y0 -> 0 <= y1 -> 0 <= t <= 1 -> 0 <= on y0 y1 t.
Proof.
  intros F P Q T. unfold on. apply rnd_nonneg.
  assert (V : - y0 <= rd (y1 - y0)) by (rewrite <- F, <- rnd_opp; apply rd_le; lra).
  set (v := rd (y1 - y0)) in *.
  assert (- y0 <= t * v).
  { destruct (Rle_or_lt 0 v); [apply Rle_trans with 0; [lra | apply Rmult_le_pos; lra] |].
    apply Rle_trans with (1 * v); [lra |]. assert (t * - v <= 1 * - v) by (apply Rmult_le_compat_r; lra). lra. }
  assert (- y0 <= rd (t * v)) by (rewrite <- F at 1; rewrite <- rnd_opp; now apply rd_le). lra.
Qed.

Lemma on_first y0 y1 : rd y0 = y0 -> on y0 y1 0 = y0.
Proof. intros F. unfold on. now rewrite Rmult_0_l, rnd_0, Rplus_0_r. Qed.

(** Falling. *)
Lemma on_below y0 y1 t : rd y0 = y0 -> y1 <= y0 -> 0 <= t -> on y0 y1 t <= y0.
Proof.
  intros F L T. unfold on. rewrite <- F at 3. apply rd_le.
  assert (V : rd (y1 - y0) <= 0) by (rewrite <- (rnd_0 53 1024); apply rd_le; lra).
  assert (t * rd (y1 - y0) <= 0) by (assert (0 <= t * - rd (y1 - y0)) by (apply Rmult_le_pos; lra); lra).
  assert (rd (t * rd (y1 - y0)) <= 0) by (rewrite <- (rnd_0 53 1024); now apply rd_le). lra.
Qed.

Lemma on_falls y0 y1 t t' : y1 <= y0 -> t <= t' -> on y0 y1 t' <= on y0 y1 t.
Proof.
  intros L T. unfold on. apply rd_le, Rplus_le_compat_l, rd_le.
  assert (V : rd (y1 - y0) <= 0) by (rewrite <- (rnd_0 53 1024); apply rd_le; lra).
  assert (t * - rd (y1 - y0) <= t' * - rd (y1 - y0)) by (apply Rmult_le_compat_r; lra). lra.
Qed.

Lemma within_clear f d : 0 <= f <= 1 - 2 * e -> bpow radix2 (-1000) <= d -> 0 <= rd (f * rd d) <= d.
Proof.
  intros Hf Hd. pose proof e_pos as E. pose proof e_small as Es. pose proof tau_pos as T0.
  pose proof (bpow_gt_0 radix2 (-1000)) as P. pose proof (tau_width _ Hd) as T.
  assert (ed : 0 <= e * d) by (apply Rmult_le_pos; lra).
  pose proof (rnd_err d) as R1. rewrite (Rabs_pos_eq d) in R1 by lra. apply Rabs_le_inv in R1.
  pose proof (rnd_nonneg d ltac:(lra)) as N1. set (d' := rd d) in *.
  assert (fd : 0 <= f * d') by (apply Rmult_le_pos; lra).
  split; [now apply rnd_nonneg |].
  pose proof (rnd_err (f * d')) as R2. rewrite (Rabs_pos_eq (f * d')) in R2 by lra. apply Rabs_le_inv in R2.
  assert (ed6 : e * d <= 1 / 1000000 * d) by (apply Rmult_le_compat_r; lra).
  assert (D1 : d' <= d + 6 / 10 * (e * d)) by lra.
  assert (F1 : f * d' <= (1 - 2 * e) * (d + 6 / 10 * (e * d))) by (apply Rmult_le_compat; lra).
  assert (F2 : e * (f * d') <= e * (101 / 100 * d)).
  { apply Rmult_le_compat_l; [lra |]. apply Rle_trans with (1 * d'); [apply Rmult_le_compat_r; lra | lra]. }
  assert (J : 0 <= e * (e * d)) by (apply Rmult_le_pos; lra).
  lra.
Qed.

Lemma on_between y0 y1 t : rd y0 = y0 -> rd y1 = y1 -> 0 <= t <= 1 - 2 * e -> y0 = y1 \/ bpow radix2 (-1000) <= Rabs (y0 - y1) ->
  Rmin y0 y1 <= on y0 y1 t <= Rmax y0 y1.
Proof.
  intros F0 F1 T A.
  assert (B : Rmin y0 y1 <= y0 + rd (t * rd (y1 - y0)) <= Rmax y0 y1).
  { destruct A as [<- | A].
    - rewrite Rminus_diag_eq, rnd_0, Rmult_0_r, rnd_0, Rplus_0_r by reflexivity. rewrite Rmin_left, Rmax_left by lra. lra.
    - pose proof (bpow_gt_0 radix2 (-1000)). destruct (Rle_or_lt y0 y1) as [L | L].
      + rewrite Rabs_left1 in A by lra. pose proof (within_clear t (y1 - y0) T ltac:(lra)). rewrite Rmin_left, Rmax_right by lra. lra.
      + rewrite Rabs_pos_eq in A by lra. pose proof (within_clear t (y0 - y1) T ltac:(lra)) as Wd. replace (y1 - y0) with (- (y0 - y1)) by ring.
        rewrite rnd_opp. replace (t * - rd (y0 - y1)) with (- (t * rd (y0 - y1))) by ring. rewrite rnd_opp.
        rewrite Rmin_right, Rmax_left by lra. lra. }
  unfold on. split.
  - replace (Rmin y0 y1) with (rd (Rmin y0 y1)) by (unfold Rmin; destruct (Rle_dec _ _); assumption). apply rd_le. lra.
  - replace (Rmax y0 y1) with (rd (Rmax y0 y1)) by (unfold Rmax; destruct (Rle_dec _ _); assumption). apply rd_le. lra.
Qed.

(** ** The formula *)

Lemma segment_value a b c d x : between (- bpow radix2 400) (bpow radix2 400) a -> between (- bpow radix2 400) (bpow radix2 400) b ->
  amount c -> amount d -> double x -> finite x -> real a + bpow radix2 (-1000) <= real b -> real a <= real x <= real b ->
  let y := segment a b c d x in
  double y /\ finite y /\ real y = on (real c) (real d) (part (real a) (real b) (real x)).
Proof.
  intros (Va & Fa & Ba) (Vb & Fb & Bb) (Vc & Fc & Bc) (Vd & Fd & Bd) Vx Fx W X. cbv zeta.
  apply finite_same in Fa, Fb, Fc, Fd, Fx.
  change (real a) with (value a) in *. change (real b) with (value b) in *. change (real c) with (value c) in *.
  change (real d) with (value d) in *. change (real x) with (value x) in *.
  pose proof (bpow_gt_0 radix2 (-1000)) as P. pose proof (bpow_gt_0 radix2 400) as P4.
  assert (Big : 3 * bpow radix2 400 <= bpow radix2 1000).
  { apply Rle_trans with (4 * bpow radix2 400); [lra |]. change 4 with (bpow radix2 2). rewrite <- bpow_plus. apply bpow_le. lia. }
  destruct (sub_value 53 1024 p53i e1024i b a Vb Va Fb Fa) as [Fw Ew]; [apply small_ok; apply Rabs_le; lra |].
  pose proof (valid_sub 53 1024 p53i e1024i b a Vb Va) as Vw.
  destruct (sub_value 53 1024 p53i e1024i x a Vx Va Fx Fa) as [Fv Ev]; [apply small_ok; apply Rabs_le; lra |].
  pose proof (valid_sub 53 1024 p53i e1024i x a Vx Va) as Vv.
  destruct (sub_value 53 1024 p53i e1024i d c Vd Vc Fd Fc) as [Fh Eh]; [apply small_ok; apply Rabs_le; lra |].
  pose proof (valid_sub 53 1024 p53i e1024i d c Vd Vc) as Vh.
  pose proof (width _ _ W) as Ww. pose proof (quotient _ _ _ W X) as Q. pose proof (part_range _ _ _ W X) as PR.
  destruct (div_value 53 1024 p53i e1024i _ _ Vv Vw Fv) as [Ft Et]; [rewrite Ew; apply Rgt_not_eq; lra | rewrite Ev, Ew; apply small_ok'; lra |].
  pose proof (valid_div 53 1024 p53i e1024i _ _ Vv Vw) as Vt. rewrite Ev, Ew in Et.
  fold (part (value a) (value b) (value x)) in Et. set (t := part (value a) (value b) (value x)) in *.
  assert (Hv : Rabs (rd (value d - value c)) <= bpow radix2 400).
  { rewrite <- (rnd_bpow 400 ltac:(lia)). apply Rabs_le. rewrite <- rnd_opp. split; apply rd_le; lra. }
  assert (Hp : Rabs (t * rd (value d - value c)) <= bpow radix2 400).
  { rewrite Rabs_mult, (Rabs_pos_eq t) by lra. pose proof (Rabs_pos (rd (value d - value c))).
    apply Rle_trans with (1 * Rabs (rd (value d - value c))); [apply Rmult_le_compat_r; lra | lra]. }
  destruct (mul_value 53 1024 p53i e1024i _ _ Vt Vh Ft Fh) as [Fm Em]; [rewrite Et, Eh; apply small_ok; lra |].
  pose proof (valid_mul 53 1024 p53i e1024i _ _ Vt Vh) as Vm. rewrite Et, Eh in Em.
  assert (Hq : Rabs (rd (t * rd (value d - value c))) <= bpow radix2 400).
  { apply Rabs_le_inv in Hp. rewrite <- (rnd_bpow 400 ltac:(lia)). apply Rabs_le. rewrite <- rnd_opp. split; apply rd_le; lra. }
  apply Rabs_le_inv in Hq.
  destruct (add_value 53 1024 p53i e1024i c _ Vc Vm Fc Fm) as [Fy Ey]; [rewrite Em; apply small_ok; apply Rabs_le; lra |].
  pose proof (valid_add 53 1024 p53i e1024i c _ Vc Vm) as Vy. rewrite Em in Ey.
  assert (N : nltb F64 (nofZ F64 0) (nsub F64 b a) = true).
  { apply (ltb_value 53 1024); [reflexivity | exact Vw | reflexivity | exact Fw |].
    change (value (nofZ F64 0) < value (SFsub 53 1024 b a)). rewrite Ew. change (value (nofZ F64 0)) with 0. lra. }
  unfold segment. rewrite N. split; [exact Vy |]. split; [apply finite_same; exact Fy | exact Ey].
Qed.

Lemma on_right y0 y1 x0 x1 x : rd y0 = y0 -> 0 <= y0 -> 0 <= y1 -> y0 = y1 \/ bpow radix2 (-1000) <= Rabs (y0 - y1) ->
  x0 + bpow radix2 (-1000) <= x1 -> x0 <= x <= x1 ->
  Rabs (on y0 y1 (part x0 x1 x) - line x0 x1 y0 y1 x) <= bpow radix2 (-49) * Rmax y0 y1.
Proof.
  intros F P0 P1 A W X. pose proof (quotient _ _ _ W X) as Q.
  pose proof (level_error _ y0 y1 Q P0 P1 F A) as L. pose proof (quotient_right _ _ _ W X) as Z.
  unfold on, part, line. set (q := rd (x - x0) / rd (x1 - x0)) in *. set (q' := (x - x0) / (x1 - x0)) in *.
  pose proof (Rmax_l y0 y1) as M1. pose proof (Rmax_r y0 y1) as M2. set (M := Rmax y0 y1) in *. pose proof e_pos.
  assert (E49 : bpow radix2 (-49) = 8 * e) by (change (-49)%Z with (3 + -52)%Z; now rewrite bpow_plus). rewrite E49. rewrite e50 in L.
  assert (D : Rabs (y1 - y0) <= M) by (apply Rabs_le; lra).
  assert (K : Rabs ((q - q') * (y1 - y0)) <= 3 * e * M) by (rewrite Rabs_mult; apply Rmult_le_compat; try apply Rabs_pos; assumption).
  set (z := rd (y0 + _)) in *.
  replace (z - (y0 + q' * (y1 - y0))) with ((z - (y0 + q * (y1 - y0))) + (q - q') * (y1 - y0)) by ring.
  eapply Rle_trans; [apply Rabs_triang |]. assert (0 <= e * M) by (apply Rmult_le_pos; lra). lra.
Qed.
