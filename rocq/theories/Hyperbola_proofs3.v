(** * Hazard curves in double precision (C99): a logarithm and an exponential, and arguments near zero *)
From Coq Require Import ZArith Reals List Lra Lia Floats.SpecFloat.
From Flocq Require Import Core Relative BinarySingleNaN.
From Verif Require Import Num Double_spec Double_proofs Double_proofs2 Maq_double_proofs Deriv_proofs3 Totals Totals_spec
  Totals_proofs Totals_proofs2 Totals_proofs4 Totals_proofs6 Totals_proofs7 Spread Spread_spec Spread_proofs Spread_proofs4
  Tabled_proofs Tabled_proofs2 Hyperbola Hyperbola_spec Hyperbola_proofs Hyperbola_proofs2.
Local Open Scope R_scope.
Local Instance p53i : Prec_gt_0 53 := eq_refl.
Local Instance e1024i : Prec_lt_emax 53 1024 := eq_refl.
Local Instance fx : Valid_exp (SpecFloat.fexp 53 1024) := fexp_correct 53 1024 p53i.

Lemma rounded_rising_log : rising_log rounded_log.
Proof.
  split; [exact rounded_accurate |]. split; [reflexivity |]. intros x y Vx Fx Vy Fy B.
  assert (K : forall z, double z -> finite z -> 0 < real z -> real (rounded_log z) = rd (ln (real z))).
  { intros z V F P. rewrite rounded_finite by assumption. apply nearest_value. pose proof (ln_range z V F P). pose proof big_1000. lra. }
  rewrite !K by (try assumption; lra). apply rd_le. destruct B as [P [L | ->]]; [left; now apply ln_increasing | right; reflexivity].
Qed.

Lemma rounded_rising_exp : rising_exp rounded_exp.
Proof.
  assert (K : forall z, double z -> finite z -> real z <= 0 ->
    double (rounded_exp z) /\ finite (rounded_exp z) /\ real (rounded_exp z) = rd (exp (real z))).
  { intros z V F P. assert (E : rounded_exp z = nearest (exp (real z))) by (destruct z; try easy; discriminate F). rewrite E.
    apply nearest_value. pose proof (exp_pos (real z)). rewrite Rabs_pos_eq by lra. apply Rle_trans with (exp 0); [now apply exp_le |].
    rewrite exp_0. change 1 with (bpow radix2 0). apply bpow_le. lia. }
  split; [exact rounded_exponential |]. split.
  - intros x V F P. destruct (K x V F P) as (V1 & F1 & ->). split; [exact V1 |]. split; [exact F1 |].
    pose proof (exp_pos (real x)). split; [apply rnd_nonneg; lra |]. apply Rle_trans with (rd 1); [apply rd_le | rewrite rnd64_1; lra].
    rewrite <- exp_0. now apply exp_le.
  - intros x y Vx Fx Vy Fy B. destruct (K x Vx Fx ltac:(lra)) as (_ & _ & ->). destruct (K y Vy Fy ltac:(lra)) as (_ & _ & ->).
    apply rd_le, exp_le. lra.
Qed.

(** Parts so small that they are lost. *)
Lemma lost r : 0 <= r <= bpow radix2 (-1080) -> rd r = 0.
Proof.
  intros B. apply Rle_antisym; [| apply rnd_nonneg; lra].
  apply Rle_trans with (rd (bpow radix2 (-1080))); [now apply rd_le |]. right. unfold rnd.
  apply round_N_small_pos with (ex := (-1079)%Z).
  - split; [apply bpow_le; lia | apply bpow_lt; lia].
  - unfold SpecFloat.fexp, SpecFloat.emin. lia.
Qed.

Lemma h_tiny log ex v im alpha x : rising_log log -> rising_exp ex -> natural v -> positive im -> amount alpha -> natural x ->
  real x <= bpow radix2 (-1080) * real im -> real (hyperbola log ex v im alpha x) = real v.
Proof.
  intros LL LE Pv Pi Pa N S. pose proof Pi as (_ & _ & Gi). pose proof N as (_ & _ & Nx).
  assert (b1 : bpow radix2 (-1080) < 1) by (change 1 with (bpow radix2 0); apply bpow_lt; lia).
  assert (L : real x < real im).
  { eapply Rle_lt_trans; [exact S |]. apply Rlt_le_trans with (1 * real im); [apply Rmult_lt_compat_r; lra | lra]. }
  destruct (h_low log ex im alpha LL LE Pi Pa v Pv x N L) as (_ & _ & -> & _).
  destruct (t_is log im alpha LL Pi Pa x N L) as (Vt & Ft & Bt & T0 & _). destruct (q_is im Pi x N L) as (_ & _ & Eq & _).
  assert (T : real (t_of log im alpha x) = 0).
  { apply T0. rewrite Eq. apply lost. split; [apply Rmult_le_pos; [lra | apply Rlt_le, Rinv_0_lt_compat; lra] |].
    apply Rmult_le_reg_r with (real im); [lra |]. unfold Rdiv. rewrite Rmult_assoc, Rinv_l by lra. lra. }
  destruct LE as (X & _). destruct (X _ Vt Ft) as (_ & _ & _ & _ & O); [rewrite T, Rabs_R0; lra |]. rewrite (O T), Rmult_1_r.
  destruct Pv as (Vv & _). exact (value_format 53 1024 v Vv).
Qed.

(** A witness. *)
Definition least : F64 := S754_finite false 1 (-1074).
Definition thousand : F64 := nofZ F64 1024.
Definition much : F64 := nofZ F64 1048576.
Lemma least_is : natural least /\ real least = bpow radix2 (-1074).
Proof.
  assert (E : real least = bpow radix2 (-1074)) by (unfold real, least, SF2R, F2R; cbn [cond_Zopp Fnum Fexp]; apply Rmult_1_l).
  pose proof (bpow_gt_0 radix2 (-1074)). split; [split; [reflexivity |]; split; [exact I | rewrite E; lra] | exact E].
Qed.
Lemma thousand_is : positive thousand /\ real thousand = bpow radix2 10.
Proof.
  assert (E : real thousand = bpow radix2 10).
  { unfold thousand. change (nofZ F64 1024) with (S754_finite false 4503599627370496 (-42)). unfold real, SF2R, F2R. cbn -[IZR]. lra. }
  pose proof (bpow_gt_0 radix2 10). split; [split; [reflexivity |]; split; [exact I | rewrite E; lra] | exact E].
Qed.
Lemma much_is : amount much /\ real much = 1048576.
Proof.
  assert (E : real much = 1048576).
  { unfold much. change (nofZ F64 1048576) with (S754_finite false 4503599627370496 (-32)). unfold real, SF2R, F2R. cbn -[IZR]. lra. }
  split; [split; [reflexivity |]; split; [exact I |] | exact E]. rewrite E.
  assert (bpow radix2 20 <= bpow radix2 400) by (apply bpow_le; lia). change (bpow radix2 20) with 1048576 in *. lra.
Qed.
Lemma one_is : natural (nofZ F64 1) /\ real (nofZ F64 1) = 1.
Proof. destruct (small_int 1 ltac:(lia)) as [(V & F & _) E]. split; [split; [exact V |]; split; [exact F | rewrite E; lra] | exact E]. Qed.

Lemma refute_right : exists log ex v im alpha x r, rising_log log /\ rising_exp ex /\ natural v /\ positive im /\ amount alpha /\ natural x /\
  curve (real v) (real im) (real alpha) (real x) r /\ 1 <= real alpha /\ 1 / 2 * real v <= Rabs (real (hyperbola log ex v im alpha x) - r).
Proof.
  destruct least_is as [Nl El]. destruct thousand_is as [Pt Et]. destruct much_is as [Am Em]. destruct one_is as [N1 E1].
  exists rounded_log, rounded_exp, (nofZ F64 1), thousand, much, least, (1 * exp (1048576 / ln (bpow radix2 (-1074) / bpow radix2 10))).
  split; [exact rounded_rising_log |]. split; [exact rounded_rising_exp |]. split; [exact N1 |]. split; [exact Pt |]. split; [exact Am |]. split; [exact Nl |].
  rewrite El, Et, Em, E1. pose proof (bpow_gt_0 radix2 (-1074)).
  split; [right; right; split; [split; [lra | apply bpow_lt; lia] | reflexivity] |]. split; [lra |].
  rewrite (h_tiny rounded_log rounded_exp (nofZ F64 1) thousand much least rounded_rising_log rounded_rising_exp N1 Pt Am Nl), E1;
    [| rewrite El, Et, <- bpow_plus; apply bpow_le; lia].
  replace (bpow radix2 (-1074) / bpow radix2 10) with (bpow radix2 (-1084)).
  - rewrite ln_bpow. pose proof ln2_top. pose proof ln_lt_2.
    assert (X : 1048576 / (IZR (-1084) * ln 2) <= -1).
    { replace (1048576 / (IZR (-1084) * ln 2)) with (- (1048576 / (1084 * ln 2))) by (field; lra).
      assert (1 <= 1048576 / (1084 * ln 2)); [| lra].
      apply Rmult_le_reg_r with (1084 * ln 2); [lra |]. unfold Rdiv. rewrite Rmult_assoc, Rinv_l by lra. lra. }
    apply exp_le in X. set (r := exp (1048576 / _)) in *. pose proof (exp_pos (1048576 / (IZR (-1084) * ln 2))) as Pr. fold r in Pr.
    assert (exp (-1) <= 1 / 2).
    { replace (-1) with (- (1)) by ring. rewrite exp_Ropp. pose proof (exp_ineq1_le 1). replace (1 / 2) with (/ 2) by lra. apply Rinv_le; lra. }
    rewrite Rabs_pos_eq; lra.
  - unfold Rdiv. rewrite <- bpow_opp, <- bpow_plus. reflexivity.
Qed.

Lemma h_curve log ex v im alpha x r : rising_log log -> rising_exp ex -> natural v -> positive im -> amount alpha -> natural x ->
  bpow radix2 (-20) <= real alpha -> bpow radix2 (-1000) <= real v -> real x = 0 \/ bpow radix2 (-1000) * real im <= real x ->
  curve (real v) (real im) (real alpha) (real x) r ->
  Rabs (real (hyperbola log ex v im alpha x) - r) <= bpow radix2 (-48) * real v * Rmax 1 (/ real alpha).
Proof.
  intros LL LE Pv Pi Pa N A B X C. pose proof Pv as (_ & _ & Gv). pose proof Pi as (_ & _ & Gi).
  pose proof (bpow_gt_0 radix2 (-20)) as P20. pose proof (Rmax_l 1 (/ real alpha)) as M1. pose proof (Rmax_r 1 (/ real alpha)) as M2.
  assert (M3 : Rmax 1 (/ real alpha) <= bpow radix2 20).
  { apply Rmax_lub; [change 1 with (bpow radix2 0); apply bpow_le; lia |].
    replace (bpow radix2 20) with (/ bpow radix2 (-20)) by (rewrite <- bpow_opp; reflexivity). apply Rinv_le; lra. }
  assert (M4 : 1 <= Rmax 1 (/ real alpha) * real alpha) by (rewrite <- (Rinv_l (real alpha)) at 1 by lra; apply Rmult_le_compat_r; lra).
  set (K := Rmax 1 (/ real alpha)) in *.
  assert (Z : 0 <= bpow radix2 (-48) * real v * K) by (repeat apply Rmult_le_pos; [apply bpow_ge_0 | exact Gv | lra]).
  destruct C as [[C ->] | [[C ->] | [C ->]]].
  - destruct N as (V & F & _). rewrite (h_high log ex im alpha Pi v x V F C).
    change (real (nofZ F64 0)) with 0. rewrite Rminus_0_r, Rabs_R0. exact Z.
  - rewrite (h_zero log ex im alpha LL LE Pi Pa v Pv x N C), Rminus_diag_eq, Rabs_R0 by reflexivity. exact Z.
  - destruct X as [X | X]; [lra |]. apply h_right; try assumption; lra.
Qed.
