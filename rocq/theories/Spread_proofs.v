(** * Damage states and losses with two levels in double precision (C96) *)
From Coq Require Import ZArith Reals List Lra Lia Floats.SpecFloat.
From Flocq Require Import Core Relative BinarySingleNaN.
From Verif Require Import Num Double_spec Double_proofs Double_proofs2 Maq_double_proofs Maq_return_proofs Group Totals Totals_spec
  Totals_proofs Totals_proofs2 Totals_proofs4 Spread Spread_spec.
Import ListNotations.
Local Open Scope R_scope.
Local Instance p53i : Prec_gt_0 53 := eq_refl.
Local Instance e1024i : Prec_lt_emax 53 1024 := eq_refl.

(** ** States *)

Lemma chance_not_neg d : chance d -> nltb F64 d (nofZ F64 0) = false.
Proof.
  intros (V & F & B). destruct d as [[]|b| |[] m k]; try easy. exfalso. pose proof (value_neg m k) as P.
  change (real (S754_finite true m k)) with (value (S754_finite true m k)) in B. lra.
Qed.

Lemma state_step x y : chance x -> chance y ->
  chance (clipped (nsub F64 x y)) /\ Rabs (real (clipped (nsub F64 x y)) - Rmax 0 (real x - real y)) <= bpow radix2 (-54).
Proof.
  intros X Y. pose proof (bpow_gt_0 radix2 (-54)) as P. destruct (Rle_or_lt (real y) (real x)) as [L | L].
  - destruct (chance_sub y x Y X L) as [C E]. unfold clipped. rewrite (chance_not_neg _ C). split; [exact C |].
    destruct X as (_ & _ & BX). destruct Y as (_ & _ & BY). rewrite Rmax_right by lra. rewrite E. apply unit_err. lra.
  - rewrite Rmax_left by lra. assert (Z : clipped (nsub F64 x y) = nofZ F64 0 \/ clipped (nsub F64 x y) = S754_zero true).
    { destruct X as (Vx & Fx & Bx). destruct Y as (Vy & Fy & By). apply finite_same in Fx. apply finite_same in Fy.
      change (real x) with (value x) in *. change (real y) with (value y) in *.
      destruct (sub_value 53 1024 p53 e1024 x y Vx Vy Fx Fy) as [F E]; [apply small_ok'; lra |].
      assert (N : value (SFsub 53 1024 x y) <= 0) by (rewrite E, <- (rnd_0 53 1024); apply rnd_le; [exact p53 | lra]).
      unfold clipped. change (nsub F64 x y) with (SFsub 53 1024 x y). destruct (SFsub 53 1024 x y) as [[]|b| |[] m k]; try discriminate F; auto.
      pose proof (value_pos m k). lra. }
    destruct Z as [-> | ->]; (split; [repeat split; try reflexivity; cbn; lra |]); cbn; rewrite Rminus_0_r, Rabs_R0; lra.
Qed.

Lemma highest_length p : List.length (highest p) = List.length p.
Proof. induction p as [|x [|y r] IH]; [reflexivity | reflexivity |]. cbn [highest List.length] in *. now rewrite IH. Qed.

Lemma highest_fair p : Forall chance p -> Forall chance (highest p).
Proof.
  induction 1 as [|x r X R IH]; [constructor |]. destruct R as [|y r Y R]; [constructor; [exact X | constructor] |].
  change (highest (x :: y :: r)) with (clipped (nsub F64 x y) :: highest (y :: r)). constructor; [now apply state_step | exact IH].
Qed.

Lemma highest_each p : Forall chance p -> forall i x y, nth_error p i = Some x -> nth_error p (S i) = Some y ->
  exists d, nth_error (highest p) i = Some d /\ Rabs (real d - Rmax 0 (real x - real y)) <= bpow radix2 (-54).
Proof.
  induction 1 as [|a r A R IH]; intros i x y Hx Hy; [destruct i; discriminate |].
  destruct R as [|b r B R]; [destruct i as [|[|i]]; discriminate |].
  change (highest (a :: b :: r)) with (clipped (nsub F64 a b) :: highest (b :: r)). destruct i as [|i].
  - cbn in Hx, Hy. inversion Hx; inversion Hy; subst. eexists. split; [reflexivity | now apply state_step].
  - apply (IH i x y Hx Hy).
Qed.

Lemma highest_last p x : nth_error (highest (p ++ [x])) (List.length p) = Some x.
Proof.
  induction p as [|a p IH]; [reflexivity |]. cbn [app List.length]. destruct (p ++ [x]) as [|b r] eqn:E; [destruct p; discriminate |].
  change (highest (a :: b :: r)) with (clipped (nsub F64 a b) :: highest (b :: r)). exact IH.
Qed.

Lemma highest_total p : Forall chance p -> falling p -> forall a r, p = a :: r ->
  Rabs (total_of (highest p) - real a) <= INR (List.length p) * bpow radix2 (-54).
Proof.
  intros C. induction C as [|x r X R IH]; intros F a r' E; [discriminate |]. inversion E; subst a r'. clear E.
  pose proof (bpow_gt_0 radix2 (-54)) as P.
  destruct R as [|y r Y R].
  - cbn [highest total_of List.length]. change (INR 1) with 1. rewrite Rplus_0_r, Rminus_diag_eq, Rabs_R0 by reflexivity. lra.
  - destruct F as [L F]. specialize (IH F y r eq_refl). change (highest (x :: y :: r)) with (clipped (nsub F64 x y) :: highest (y :: r)).
    cbn [total_of]. change (List.length (x :: y :: r)) with (S (List.length (y :: r))). rewrite S_INR.
    destruct (state_step x y X Y) as [_ S]. rewrite Rmax_right in S by lra. apply Rabs_le_inv in S. apply Rabs_le_inv in IH. apply Rabs_le. lra.
Qed.

(** ** Two levels *)

Lemma exact_int z : (0 <= z < 2 ^ 31)%Z -> holds (nofZ F64 z) (IZR z).
Proof.
  intros H. destruct (ofZ_ok z 31 ltac:(lia) ltac:(change (2 ^ Z.of_nat 31)%Z with (2 ^ 31)%Z; lia)) as (A & B & C).
  split; [exact A |]. split; [exact B |]. rewrite C. apply round_generic; [apply valid_rnd_N |].
  replace (IZR z) with (F2R (Float radix2 z 0)) by (unfold F2R; cbn; ring).
  apply generic_format_F2R. intros N. unfold cexp, SpecFloat.fexp, SpecFloat.emin.
  assert (M : (mag radix2 (F2R (Float radix2 z 0)) <= 31)%Z); [| lia].
  apply mag_le_bpow; [now apply F2R_neq_0 |]. unfold F2R. cbn [Fnum Fexp]. change (bpow radix2 0) with 1. rewrite Rmult_1_r.
  rewrite <- abs_IZR. change (bpow radix2 31) with (IZR (2 ^ 31)). apply IZR_lt. lia.
Qed.

Lemma small_bits : bpow radix2 (-31) <= 1 / 1000 /\ e <= bpow radix2 (-31) / 1000000 /\ 0 < bpow radix2 (-31).
Proof.
  split; [apply Rle_trans with (bpow radix2 (-10)); [apply bpow_le; lia | change (bpow radix2 (-10)) with (/ 1024); lra] |].
  split; [| apply bpow_gt_0]. apply Rle_trans with (bpow radix2 (-31) * bpow radix2 (-21)); [rewrite <- bpow_plus; apply bpow_le; lia |].
  assert (bpow radix2 (-21) <= 1 / 1000000).
  { change (bpow radix2 (-21)) with (/ IZR 2097152). lra. }
  pose proof (bpow_gt_0 radix2 (-31)). assert (bpow radix2 (-31) * bpow radix2 (-21) <= bpow radix2 (-31) * (1 / 1000000)) by (apply Rmult_le_compat_l; lra). lra.
Qed.

(** Part of a difference stays within it. *)
Lemma part_within f d : 0 <= f <= 1 - bpow radix2 (-31) / 2 -> bpow radix2 (-1000) <= d ->
  0 <= rnd 53 1024 (f * rnd 53 1024 d) <= d.
Proof.
  intros Hf Hd. destruct small_bits as (S1 & S2 & S3). pose proof e_pos as E. pose proof tau_pos as T.
  pose proof (bpow_gt_0 radix2 (-1000)) as P.
  assert (Td : tau <= e * d).
  { apply Rle_trans with (e * bpow radix2 (-1000)); [rewrite <- bpow_plus; apply bpow_le; lia | apply Rmult_le_compat_l; lra]. }
  assert (ed : 0 <= e * d) by (apply Rmult_le_pos; lra).
  pose proof (rnd_err d) as R1. rewrite (Rabs_pos_eq d) in R1 by lra. apply Rabs_le_inv in R1.
  pose proof (rnd_nonneg d ltac:(lra)) as N1. set (d' := rnd 53 1024 d) in *.
  assert (fd : 0 <= f * d') by (apply Rmult_le_pos; lra).
  split; [now apply rnd_nonneg |].
  pose proof (rnd_err (f * d')) as R2. rewrite (Rabs_pos_eq (f * d')) in R2 by lra. apply Rabs_le_inv in R2.
  assert (D1 : d' <= d + e * d) by lra.
  assert (F1 : f * d' <= (1 - bpow radix2 (-31) / 2) * (d + e * d)) by (apply Rmult_le_compat; lra).
  assert (F2 : e * (f * d') <= e * (2 * d)).
  { apply Rmult_le_compat_l; [lra |]. apply Rle_trans with (1 * d'); [apply Rmult_le_compat_r; lra |].
    assert (e * d <= 1 * d) by (apply Rmult_le_compat_r; lra). lra. }
  assert (K : 4 * (e * d) <= bpow radix2 (-31) / 2 * d).
  { rewrite <- Rmult_assoc. apply Rmult_le_compat_r; lra. }
  assert (J : 0 <= bpow radix2 (-31) / 2 * (e * d)) by (apply Rmult_le_pos; lra).
  lra.
Qed.

Lemma part_range f lo hi : 0 <= f <= 1 - bpow radix2 (-31) / 2 -> lo = hi \/ bpow radix2 (-1000) <= Rabs (lo - hi) ->
  Rmin lo hi <= lo + rnd 53 1024 (f * rnd 53 1024 (hi - lo)) <= Rmax lo hi.
Proof.
  intros Hf [-> | A].
  - replace (hi - hi) with 0 by ring. rewrite rnd_0, Rmult_0_r, rnd_0, Rplus_0_r. rewrite Rmin_left, Rmax_left by lra. lra.
  - pose proof (bpow_gt_0 radix2 (-1000)). destruct (Rle_or_lt lo hi) as [L | L].
    + rewrite Rabs_left1 in A by lra. pose proof (part_within f (hi - lo) Hf ltac:(lra)). rewrite Rmin_left, Rmax_right by lra. lra.
    + rewrite Rabs_pos_eq in A by lra. pose proof (part_within f (lo - hi) Hf ltac:(lra)) as W. replace (hi - lo) with (- (lo - hi)) by ring.
      rewrite rnd_opp. replace (f * - rnd 53 1024 (lo - hi)) with (- (f * rnd 53 1024 (lo - hi))) by ring. rewrite rnd_opp.
      rewrite Rmin_right, Rmax_left by lra. lra.
Qed.

Lemma level_between cmin cmax count lo hi : (0 <= cmin)%Z -> (cmin <= cmax)%Z -> (cmax < 2 ^ 31)%Z -> amount lo -> amount hi -> apart lo hi ->
  let m := level cmin cmax count lo hi in
  amount m /\ Rmin (real lo) (real hi) <= real m <= Rmax (real lo) (real hi) /\
  ((cmin < count < cmax)%Z ->
   real m = rnd 53 1024 (real lo + rnd 53 1024 (rnd 53 1024 (IZR (count - cmin) / IZR (cmax - cmin)) * rnd 53 1024 (real hi - real lo)))).
Proof.
  intros C1 C2 C3 Alo Ahi Ap m. unfold m, level.
  destruct (Z.leb_spec count cmin) as [L1 | L1].
  { split; [exact Alo |]. split; [split; [apply Rmin_l | apply Rmax_l] | lia]. }
  destruct (Z.leb_spec cmax count) as [L2 | L2].
  { split; [exact Ahi |]. split; [split; [apply Rmin_r | apply Rmax_r] | lia]. }
  destruct (exact_int (count - cmin) ltac:(lia)) as (Va & Fa & Ea). destruct (exact_int (cmax - cmin) ltac:(lia)) as (Vb & Fb & Eb).
  assert (A : 1 <= IZR (count - cmin)) by (apply IZR_le; lia).
  assert (B : IZR (count - cmin) + 1 <= IZR (cmax - cmin)) by (rewrite <- plus_IZR; apply IZR_le; lia).
  assert (B31 : IZR (cmax - cmin) <= bpow radix2 31) by (change (bpow radix2 31) with (IZR (2 ^ 31)); apply IZR_le; lia).
  set (a := IZR (count - cmin)) in *. set (b := IZR (cmax - cmin)) in *.
  destruct small_bits as (S1 & S2 & S3). pose proof e_pos. pose proof tau_pos.
  assert (Ib : bpow radix2 (-31) <= / b) by (change (-31)%Z with (- (31))%Z; rewrite bpow_opp; apply Rinv_le; lra).
  assert (Q : 0 <= a / b <= 1 - bpow radix2 (-31)).
  { split; [apply Rmult_le_pos; [lra | apply Rlt_le, Rinv_0_lt_compat; lra] |].
    apply Rle_trans with ((b - 1) / b); [apply Rmult_le_compat_r; [apply Rlt_le, Rinv_0_lt_compat; lra | lra] |].
    replace ((b - 1) / b) with (1 - / b) by (field; lra). lra. }
  destruct (div_value 53 1024 p53 e1024 _ _ Va Vb Fa) as [Ff Ef]; [rewrite Eb; lra | rewrite Ea, Eb; apply small_ok'; lra |].
  pose proof (valid_div 53 1024 p53 e1024 _ _ Va Vb) as Vf. rewrite Ea, Eb in Ef.
  assert (Hf : 0 <= rnd 53 1024 (a / b) <= 1 - bpow radix2 (-31) / 2).
  { split; [apply rnd_nonneg; lra |]. pose proof (rnd_err (a / b)) as R. rewrite (Rabs_pos_eq (a / b)) in R by lra. apply Rabs_le_inv in R.
    assert (e / 2 * (a / b) <= e / 2 * 1) by (apply Rmult_le_compat_l; lra).
    assert (tau <= e) by (apply bpow_le; lia). lra. }
  destruct Alo as (Vl & Fl & Bl). destruct Ahi as (Vh & Fh & Bh). apply finite_same in Fl. apply finite_same in Fh.
  change (real lo) with (value lo) in *. change (real hi) with (value hi) in *.
  assert (Big : bpow radix2 400 <= bpow radix2 1000) by (apply bpow_le; lia).
  assert (Big2 : bpow radix2 400 + bpow radix2 400 <= bpow radix2 1000).
  { apply Rle_trans with (bpow radix2 401); [change 401%Z with (400 + 1)%Z; rewrite <- big_double; lra | apply bpow_le; lia]. }
  destruct (sub_value 53 1024 p53 e1024 hi lo Vh Vl Fh Fl) as [Fd Ed]; [apply small_ok; apply Rabs_le; lra |].
  pose proof (valid_sub 53 1024 p53 e1024 hi lo Vh Vl) as Vd.
  pose proof (part_range _ (value lo) (value hi) Hf Ap) as PR.
  set (f := rnd 53 1024 (a / b)) in *. set (d := rnd 53 1024 (value hi - value lo)) in *.
  assert (MX : Rmin (value lo) (value hi) >= 0 /\ Rmax (value lo) (value hi) <= bpow radix2 400).
  { split; [unfold Rmin | unfold Rmax]; destruct (Rle_dec _ _); lra. }
  assert (DD : Rabs d <= bpow radix2 1000).
  { unfold d. rewrite <- (rnd_bpow 1000 ltac:(lia)). assert (G : forall r, 0 <= r <= bpow radix2 1000 -> Rabs (rnd 53 1024 r) <= rnd 53 1024 (bpow radix2 1000)).
    { intros r Hr. rewrite Rabs_pos_eq by (apply rnd_nonneg; lra). apply rnd_le; [exact p53 | lra]. }
    destruct (Rle_or_lt (value lo) (value hi)); [apply G; lra |]. replace (value hi - value lo) with (- (value lo - value hi)) by ring.
    rewrite rnd_opp, Rabs_Ropp. apply G. lra. }
  destruct (mul_value 53 1024 p53 e1024 _ _ Vf Vd Ff Fd) as [Fp Ep].
  { rewrite Ef, Ed. apply small_ok. fold f d. rewrite Rabs_mult. rewrite (Rabs_pos_eq f) by lra. pose proof (Rabs_pos d).
    apply Rle_trans with (1 * Rabs d); [apply Rmult_le_compat_r; lra | lra]. }
  pose proof (valid_mul 53 1024 p53 e1024 _ _ Vf Vd) as Vp. rewrite Ef, Ed in Ep. fold f d in Ep.
  destruct (add_value 53 1024 p53 e1024 lo _ Vl Vp Fl Fp) as [Fm Em]; [rewrite Ep; apply small_ok; apply Rabs_le; lra |].
  pose proof (valid_add 53 1024 p53 e1024 lo _ Vl Vp) as Vm. rewrite Ep in Em.
  set (r := nadd F64 lo _). change (real r) with (value r). change (value r = rnd 53 1024 (value lo + rnd 53 1024 (f * d))) in Em.
  assert (Bm : Rmin (value lo) (value hi) <= value r <= Rmax (value lo) (value hi)).
  { rewrite Em. split.
    - replace (Rmin (value lo) (value hi)) with (rnd 53 1024 (Rmin (value lo) (value hi))); [apply rnd_le; [exact p53 | lra] |].
      unfold Rmin; destruct (Rle_dec _ _); apply (value_format 53 1024); assumption.
    - replace (Rmax (value lo) (value hi)) with (rnd 53 1024 (Rmax (value lo) (value hi))); [apply rnd_le; [exact p53 | lra] |].
      unfold Rmax; destruct (Rle_dec _ _); apply (value_format 53 1024); assumption. }
  split; [| split; [exact Bm | intros _; exact Em]]. split; [exact Vm |]. split; [apply finite_same; exact Fm |]. change (real r) with (value r). lra.
Qed.

(** The roundings of the interpolation. *)
Lemma level_error q lo hi : 0 <= q <= 1 -> 0 <= lo -> 0 <= hi -> rnd 53 1024 lo = lo -> lo = hi \/ bpow radix2 (-1000) <= Rabs (lo - hi) ->
  Rabs (rnd 53 1024 (lo + rnd 53 1024 (rnd 53 1024 q * rnd 53 1024 (hi - lo))) - (lo + q * (hi - lo))) <= bpow radix2 (-50) * Rmax lo hi.
Proof.
  intros Hq Pl Ph Rl A. pose proof e_pos. pose proof e_small. pose proof tau_pos. pose proof (bpow_gt_0 radix2 (-1000)) as P.
  assert (E50 : bpow radix2 (-50) = 4 * e) by (change (-50)%Z with (2 + -52)%Z; rewrite bpow_plus; reflexivity). rewrite E50.
  pose proof (Rmax_l lo hi) as M1. pose proof (Rmax_r lo hi) as M2. set (M := Rmax lo hi) in *.
  destruct A as [A | A].
  - subst hi. replace (lo - lo) with 0 by ring. rewrite rnd_0, !Rmult_0_r, rnd_0, Rplus_0_r, Rl, Rminus_diag_eq, Rabs_R0 by reflexivity.
    apply Rmult_le_pos; lra.
  - assert (DM : Rabs (hi - lo) <= M) by (apply Rabs_le; lra). rewrite <- Rabs_Ropp, Ropp_minus_distr in A.
    assert (tM : tau <= 1 / 1000000 * (e * M)).
    { assert (T : tau = bpow radix2 (-22) * (e * bpow radix2 (-1000))) by (rewrite <- !bpow_plus; reflexivity). rewrite T.
      assert (bpow radix2 (-22) <= 1 / 1000000) by (change (bpow radix2 (-22)) with (/ IZR 4194304); lra).
      apply Rmult_le_compat; [apply bpow_ge_0 | apply Rmult_le_pos; lra | assumption | apply Rmult_le_compat_l; lra]. }
    set (D := hi - lo) in *. pose proof (rnd_err q) as R1. rewrite (Rabs_pos_eq q) in R1 by lra. set (f := rnd 53 1024 q) in *.
    pose proof (rnd_err D) as R2. set (d := rnd 53 1024 D) in *.
    assert (eM : 0 <= e * M) by (apply Rmult_le_pos; lra).
    assert (te : tau <= 1 / 1000000 * e).
    { assert (tau <= e * e) by (rewrite <- bpow_plus; apply bpow_le; lia). assert (e * e <= 1 / 1000000 * e) by (apply Rmult_le_compat_r; lra). lra. }
    assert (eq : e * q <= e * 1) by (apply Rmult_le_compat_l; lra).
    assert (F1 : Rabs (f - q) <= 6 / 10 * e) by lra.
    assert (eD : e * Rabs D <= e * M) by (apply Rmult_le_compat_l; lra).
    assert (D1 : Rabs (d - D) <= 6 / 10 * (e * M)) by lra.
    assert (F2 : Rabs f <= 101 / 100) by (apply Rabs_le_inv in F1; apply Rabs_le; lra).
    assert (eM6 : e * M <= 1 / 1000000 * M) by (apply Rmult_le_compat_r; lra).
    assert (D2 : Rabs d <= 101 / 100 * M) by (apply Rabs_le_inv in D1; apply Rabs_le_inv in DM; apply Rabs_le; lra).
    assert (FD : Rabs (f * d - q * D) <= 122 / 100 * (e * M)).
    { replace (f * d - q * D) with ((f - q) * d + q * (d - D)) by ring. eapply Rle_trans; [apply Rabs_triang |]. rewrite !Rabs_mult.
      assert (Rabs (f - q) * Rabs d <= 6 / 10 * e * (101 / 100 * M)) by (apply Rmult_le_compat; try apply Rabs_pos; assumption).
      assert (Rabs q * Rabs (d - D) <= 1 * (6 / 10 * (e * M))).
      { apply Rmult_le_compat; try apply Rabs_pos; [rewrite Rabs_pos_eq; lra | exact D1]. }
      lra. }
    pose proof (rnd_err (f * d)) as R3. set (pr := rnd 53 1024 (f * d)) in *.
    assert (FDM : Rabs (f * d) <= 103 / 100 * M).
    { rewrite Rabs_mult. apply Rle_trans with (101 / 100 * (101 / 100 * M)); [apply Rmult_le_compat; try apply Rabs_pos; assumption | lra]. }
    assert (e * Rabs (f * d) <= e * (103 / 100 * M)) by (apply Rmult_le_compat_l; lra).
    assert (P1 : Rabs (pr - f * d) <= 6 / 10 * (e * M)) by lra.
    pose proof (rnd_err (lo + pr)) as R4. set (z := rnd 53 1024 (lo + pr)) in *.
    assert (qD : - M <= lo + q * D <= M).
    { assert (0 <= q * hi <= 1 * hi) by (split; [apply Rmult_le_pos; lra | apply Rmult_le_compat_r; lra]).
      assert (0 <= (1 - q) * lo) by (apply Rmult_le_pos; lra). assert (q * hi <= q * M) by (apply Rmult_le_compat_l; lra).
      assert ((1 - q) * lo <= (1 - q) * M) by (apply Rmult_le_compat_l; lra).
      replace (lo + q * D) with ((1 - q) * lo + q * hi) by (unfold D; ring). lra. }
    apply Rabs_le_inv in P1. apply Rabs_le_inv in FD.
    assert (LP : Rabs (lo + pr) <= 101 / 100 * M) by (apply Rabs_le; lra).
    assert (e * Rabs (lo + pr) <= e * (101 / 100 * M)) by (apply Rmult_le_compat_l; lra).
    assert (Z1 : Rabs (z - (lo + pr)) <= 6 / 10 * (e * M)) by lra. apply Rabs_le_inv in Z1. apply Rabs_le. lra.
Qed.

Lemma level_right cmin cmax count lo hi : (0 <= cmin)%Z -> (cmin <= cmax)%Z -> (cmax < 2 ^ 31)%Z -> amount lo -> amount hi -> apart lo hi ->
  let m := level cmin cmax count lo hi in
  amount m /\ Rmin (real lo) (real hi) <= real m <= Rmax (real lo) (real hi) /\
  ((count <= cmin)%Z -> m = lo) /\ ((cmin < count)%Z -> (cmax <= count)%Z -> m = hi) /\
  ((cmin < count < cmax)%Z ->
   Rabs (real m - (real lo + IZR (count - cmin) / IZR (cmax - cmin) * (real hi - real lo))) <= bpow radix2 (-50) * Rmax (real lo) (real hi)).
Proof.
  intros C1 C2 C3 L H A m. destruct (level_between cmin cmax count lo hi C1 C2 C3 L H A) as (B1 & B2 & B3).
  split; [exact B1 |]. split; [exact B2 |]. split; [| split].
  - unfold m, level. intros K. destruct (Z.leb_spec count cmin); [reflexivity | lia].
  - unfold m, level. intros K1 K2. destruct (Z.leb_spec count cmin); [lia |]. destruct (Z.leb_spec cmax count); [reflexivity | lia].
  - intros K. unfold m. rewrite (B3 K). destruct L as (Vl & Fl & Bl). destruct H as (Vh & Fh & Bh). apply level_error; try lra; [| exact (value_format 53 1024 lo Vl) | exact A].
    assert (1 <= IZR (count - cmin)) by (apply IZR_le; lia). assert (IZR (count - cmin) + 1 <= IZR (cmax - cmin)) by (rewrite <- plus_IZR; apply IZR_le; lia).
    split; [apply Rmult_le_pos; [lra | apply Rlt_le, Rinv_0_lt_compat; lra] |].
    apply Rmult_le_reg_r with (IZR (cmax - cmin)); [lra |]. unfold Rdiv. rewrite Rmult_assoc, Rinv_l by lra. lra.
Qed.
