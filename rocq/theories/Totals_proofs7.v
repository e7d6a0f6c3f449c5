(** * A logarithm as C94 asks for: the rounded one *)
From Coq Require Import ZArith Reals List Lra Lia Floats.SpecFloat.
From Flocq Require Import Core Relative BinarySingleNaN.
From Verif Require Import Num Double_spec Double_proofs Double_proofs2 Maq_return_proofs Group Totals Totals_spec
  Totals_proofs Totals_proofs2 Totals_proofs3 Totals_proofs4 Totals_proofs6.
Local Open Scope R_scope.
Local Instance p53i : Prec_gt_0 53 := eq_refl.
Local Instance e1024i : Prec_lt_emax 53 1024 := eq_refl.

(** The double nearest to a real number. *)
Definition nearest (r : R) : F64 :=
  let f := SpecFloat.fexp 53 1024 in
  B2SF (binary_normalize 53 1024 p53 e1024 mode_NE (Ztrunc (scaled_mantissa radix2 f (rnd 53 1024 r))) (cexp radix2 f (rnd 53 1024 r)) false).

Lemma nearest_value r : Rabs r <= bpow radix2 1000 ->
  double (nearest r) /\ finite (nearest r) /\ real (nearest r) = rnd 53 1024 r.
Proof.
  intros B. pose proof (small_ok r B) as S. unfold nearest. set (x := rnd 53 1024 r) in *.
  assert (G : generic_format radix2 (SpecFloat.fexp 53 1024) x) by (apply generic_format_round; [apply fexp_correct; exact p53 | apply valid_rnd_N]).
  pose proof (binary_normalize_correct 53 1024 p53 e1024 mode_NE (Ztrunc (scaled_mantissa radix2 (SpecFloat.fexp 53 1024) x))
    (cexp radix2 (SpecFloat.fexp 53 1024) x) false) as C. cbn zeta in C.
  assert (E : F2R (Float radix2 (Ztrunc (scaled_mantissa radix2 (SpecFloat.fexp 53 1024) x)) (cexp radix2 (SpecFloat.fexp 53 1024) x)) = x)
    by (symmetry; exact G).
  rewrite E in C. rewrite (round_generic radix2 (SpecFloat.fexp 53 1024) (round_mode mode_NE) x G) in C.
  rewrite Rlt_bool_true in C by exact S. destruct C as (V & F & _). set (b := binary_normalize _ _ _ _ _ _ _ _) in *.
  split; [apply valid_binary_B2SF |]. split; [apply finite_same, finite_B; exact F |]. change (real (B2SF b)) with (value (B2SF b)). rewrite value_B. exact V.
Qed.

Lemma ln2_top : ln 2 <= 9 / 10.
Proof.
  assert (P : 0 < sqrt 2) by (apply sqrt_lt_R0; lra).
  assert (E : ln 2 = ln (sqrt 2) + ln (sqrt 2)) by (rewrite <- ln_mult by exact P; rewrite sqrt_sqrt by lra; reflexivity).
  pose proof (ln_top _ P) as L.
  assert (sqrt 2 <= 29 / 20). { apply root_bound; [lra | lra |]. rewrite sqrt_sqrt by lra. lra. }
  lra.
Qed.

Lemma ln_bpow n : ln (bpow radix2 n) = IZR n * ln 2.
Proof.
  rewrite bpow_exp, ln_exp. reflexivity.
Qed.

Lemma range x : double x -> finite x -> 0 < real x -> bpow radix2 (-1074) <= real x <= bpow radix2 1024.
Proof.
  intros V F P. apply finite_same in F. destruct (B_value x V) as [b ->]. change (real (B2SF b)) with (value (B2SF b)) in *. rewrite value_B in *.
  apply finite_B in F. split.
  - rewrite <- (Rabs_pos_eq (B2R b)) by lra. apply (abs_B2R_ge_emin 53 1024). destruct b; try discriminate; [cbn in P; lra | reflexivity].
  - apply Rlt_le. eapply Rle_lt_trans; [apply Rle_abs | apply (abs_B2R_lt_emax 53 1024)].
Qed.

Lemma ln_range x : double x -> finite x -> 0 < real x -> Rabs (ln (real x)) <= 999.
Proof.
  intros V F P. destruct (range x V F P) as [L U]. pose proof ln2_top. pose proof ln_lt_2.
  pose proof (bpow_gt_0 radix2 (-1074)).
  assert (A : ln (bpow radix2 (-1074)) <= ln (real x)) by (destruct L as [L | ->]; [left; apply ln_increasing; lra | right; reflexivity]).
  assert (B : ln (real x) <= ln (bpow radix2 1024)) by (destruct U as [U | ->]; [left; apply ln_increasing; lra | right; reflexivity]).
  rewrite ln_bpow in A, B. apply Rabs_le. lra.
Qed.

Lemma ln_apart x : double x -> finite x -> 0 < real x -> real x <> 1 -> bpow radix2 (-54) <= Rabs (ln (real x)).
Proof.
  intros V F P N. pose proof (value_format 53 1024 x V) as G. change (value x) with (real x) in G.
  assert (Gx : generic_format radix2 (SpecFloat.fexp 53 1024) (real x)).
  { rewrite <- G. apply generic_format_round; [apply fexp_correct; exact p53 | apply valid_rnd_N]. }
  assert (G1 : generic_format radix2 (SpecFloat.fexp 53 1024) 1).
  { change 1 with (bpow radix2 0). apply generic_format_bpow. cbv. discriminate. }
  assert (E : e = 4 * bpow radix2 (-54)) by (change (-52)%Z with (2 + -54)%Z; rewrite bpow_plus; reflexivity).
  pose proof (bpow_gt_0 radix2 (-54)). pose proof e_small.
  destruct (Rtotal_order (real x) 1) as [L | [L | L]]; [| now destruct (N L) |].
  - assert (Q : real x <= pred radix2 (SpecFloat.fexp 53 1024) 1) by (apply pred_ge_gt; [apply fexp_correct; exact p53 | exact Gx | exact G1 | exact L]).
    change 1 with (bpow radix2 0) in Q. rewrite pred_bpow in Q. change (SpecFloat.fexp 53 1024 0) with (-53)%Z in Q. change (bpow radix2 0) with 1 in Q.
    rewrite e_half in Q. pose proof (ln_top _ P). rewrite Rabs_left1 by lra. lra.
  - assert (Q : succ radix2 (SpecFloat.fexp 53 1024) 1 <= real x) by (apply succ_le_lt; [apply fexp_correct; exact p53 | exact G1 | exact Gx | exact L]).
    change 1 with (bpow radix2 0) in Q at 1. rewrite succ_eq_pos in Q by apply bpow_ge_0. rewrite ulp_bpow in Q.
    change (SpecFloat.fexp 53 1024 (0 + 1)) with (-52)%Z in Q. change (bpow radix2 0) with 1 in Q.
    assert (I : 0 < / real x) by (apply Rinv_0_lt_compat; lra). pose proof (ln_top _ I) as T. rewrite ln_Rinv in T by exact P.
    assert (/ real x <= / (1 + e)) by (apply Rinv_le; lra).
    assert (/ (1 + e) <= 1 - e / 2).
    { apply Rmult_le_reg_r with (1 + e); [lra |]. rewrite Rinv_l by lra. assert (e * e <= 1 / 1000000 * e) by (apply Rmult_le_compat_r; lra). lra. }
    rewrite Rabs_pos_eq by lra. lra.
Qed.

(** The rounded logarithm, with its values at the ends. *)
Definition rounded_log (x : F64) : F64 :=
  match x with
  | S754_nan => S754_nan
  | S754_zero _ => S754_infinity true
  | S754_infinity false => x
  | S754_infinity true | S754_finite true _ _ => S754_nan
  | S754_finite false _ _ => nearest (ln (real x))
  end.

Lemma rounded_finite x : finite x -> 0 < real x -> rounded_log x = nearest (ln (real x)).
Proof.
  intros F P. destruct x as [b|b| |[] m k]; try easy; [cbn in P; lra |].
  exfalso. pose proof (value_neg m k) as Q. unfold value, real in *. lra.
Qed.

Lemma rounded_accurate : accurate rounded_log.
Proof.
  assert (K : forall x, double x -> finite x -> 0 < real x -> Rabs (ln (real x)) <= bpow radix2 1000).
  { intros x V F P. eapply Rle_trans; [now apply ln_range |]. pose proof big_1000. lra. }
  split.
  - intros x V F P. rewrite rounded_finite by assumption. destruct (nearest_value _ (K x V F P)) as (A & B & C).
    split; [exact A |]. split; [exact B |]. rewrite C. pose proof (ln_range x V F P) as R. split.
    + pose proof (rnd_err (ln (real x))) as E. pose proof e_pos. pose proof e_small. pose proof tau_small.
      pose proof (Rabs_pos (ln (real x))).
      assert (e / 2 * Rabs (ln (real x)) <= 1 / 2000000 * 999) by (apply Rmult_le_compat; lra).
      pose proof (Rabs_triang (rnd 53 1024 (ln (real x)) - ln (real x)) (ln (real x))) as T.
      replace (rnd 53 1024 (ln (real x)) - ln (real x) + ln (real x)) with (rnd 53 1024 (ln (real x))) in T by ring. lra.
    + intros L. apply rnd_nonneg. rewrite <- ln_1. destruct L as [L | <-]; [left; apply ln_increasing; lra | right; reflexivity].
  - intros x V F P. rewrite rounded_finite by assumption. destruct (nearest_value _ (K x V F P)) as (_ & _ & ->).
    destruct (Req_dec (real x) 1) as [-> | N].
    + rewrite ln_1, rnd_0, Rminus_0_r, Rabs_R0. lra.
    + pose proof (ln_apart x V F P N) as A. pose proof (rnd_err (ln (real x))) as E. pose proof e_pos.
      assert (E50 : 4 * e = bpow radix2 (-50)) by (change (-50)%Z with (2 + -52)%Z; rewrite bpow_plus; reflexivity).
      assert (tau <= e * bpow radix2 (-54)) by (rewrite <- bpow_plus; apply bpow_le; lia).
      assert (e * bpow radix2 (-54) <= e * Rabs (ln (real x))) by (apply Rmult_le_compat_l; lra).
      rewrite <- E50. pose proof (Rabs_pos (ln (real x))). assert (0 <= e * Rabs (ln (real x))) by (apply Rmult_le_pos; lra). lra.
Qed.
