(** * Proofs about numerical derivatives: arguments far from zero *)
From Coq Require Import ZArith Reals Lra Lia Bool.
From Coq Require Import Floats.SpecFloat.
From Flocq Require Import Core BinarySingleNaN.
From Verif Require Import Num Double_spec Double_proofs Deriv.

#[local] Instance p53 : Prec_gt_0 53 := eq_refl.
#[local] Instance e1024 : Prec_lt_emax 53 1024 := eq_refl.
#[local] Instance fexp64 : Valid_exp (SpecFloat.fexp 53 1024) := fexp_correct 53 1024 p53.

Local Open Scope R_scope.
Notation fmt := (generic_format radix2 (SpecFloat.fexp 53 1024)).
Notation rnd64 := (rnd 53 1024).

Lemma fmt_value : forall x : F64, double x -> fmt (value x).
Proof. intros x V. destruct (lift 53 1024 x V) as [b ->]. rewrite value_B. apply generic_format_B2R. Qed.

(** Beyond 2^28 the numbers are 2^-25 apart or more. *)
Lemma gap_above : forall u, fmt u -> bpow radix2 28 <= u -> u + bpow radix2 (-25) <= succ radix2 (SpecFloat.fexp 53 1024) u.
Proof.
  intros u F H. assert (0 < bpow radix2 28) by apply bpow_gt_0. rewrite succ_eq_pos by lra.
  apply Rplus_le_compat_l. apply Rle_trans with (ulp radix2 (SpecFloat.fexp 53 1024) (bpow radix2 28)).
  - rewrite ulp_bpow. apply bpow_le. cbv. discriminate.
  - apply ulp_le_pos; [apply fexp64|apply FLT_exp_monotone|lra|exact H].
Qed.

Lemma gap_below : forall u, fmt u -> bpow radix2 28 <= u -> pred radix2 (SpecFloat.fexp 53 1024) u <= u - bpow radix2 (-25).
Proof.
  intros u F H. assert (P : 0 < bpow radix2 28) by apply bpow_gt_0.
  assert (Q : bpow radix2 27 <= pred radix2 (SpecFloat.fexp 53 1024) u).
  { apply (pred_ge_gt radix2 (SpecFloat.fexp 53 1024)); [apply generic_format_bpow; cbv; discriminate|exact F|].
    apply Rlt_le_trans with (2 := H). apply bpow_lt. lia. }
  pose proof (pred_plus_ulp radix2 (SpecFloat.fexp 53 1024) u ltac:(lra) F) as E.
  assert (bpow radix2 (-25) <= ulp radix2 (SpecFloat.fexp 53 1024) (pred radix2 (SpecFloat.fexp 53 1024) u)); [|lra].
  apply Rle_trans with (ulp radix2 (SpecFloat.fexp 53 1024) (bpow radix2 27)).
  - rewrite ulp_bpow. apply bpow_le. cbv. discriminate.
  - apply ulp_le_pos; [apply fexp64|apply FLT_exp_monotone|apply bpow_ge_0|exact Q].
Qed.

Lemma rnd_stays : forall u d, fmt u -> bpow radix2 28 <= Rabs u -> Rabs d < bpow radix2 (-26) -> rnd64 (u + d) = u.
Proof.
  assert (Pos : forall u d, fmt u -> bpow radix2 28 <= u -> Rabs d < bpow radix2 (-26) -> rnd64 (u + d) = u).
  { intros u d F H D. apply Rabs_lt_inv in D.
    assert (E : bpow radix2 (-25) = 2 * bpow radix2 (-26)).
    { change (-25)%Z with (1 + -26)%Z. rewrite bpow_plus. reflexivity. }
    pose proof (gap_above u F H). pose proof (gap_below u F H).
    apply Rle_antisym; unfold rnd.
    - apply round_N_le_midp; [apply fexp64|exact F|lra].
    - apply round_N_ge_midp; [apply fexp64|exact F|lra]. }
  intros u d F H D. destruct (Rle_dec 0 u) as [Hu|Hu].
  - apply Pos; try assumption. rewrite Rabs_pos_eq in H; assumption.
  - rewrite Rabs_left in H by lra.
    rewrite <- (Ropp_involutive (rnd64 (u + d))), <- rnd_opp.
    replace (- (u + d)) with (- u + - d) by ring. rewrite Pos; [ring|apply generic_format_opp; exact F|exact H|].
    rewrite Rabs_Ropp. exact D.
Qed.

Lemma same_value : forall x y : F64, double x -> double y -> finite x -> finite y -> value x <> 0 -> value x = value y -> x = y.
Proof.
  intros x y Vx Vy Fx Fy N E. destruct (lift 53 1024 x Vx) as [a ->]. destruct (lift 53 1024 y Vy) as [b ->].
  rewrite !value_B in *. f_equal.
  assert (S : forall c : binary_float 53 1024, B2R c <> 0 -> is_finite_strict c = true).
  { intros [s|s| |s m e H]; cbn; intros; try reflexivity; contradiction. }
  apply B2R_inj; [apply S; exact N|apply S; congruence|exact E].
Qed.

Lemma finite_same : forall x, finite x <-> finite_ x.
Proof. intros [| | |]; cbn; split; intros; try easy. Qed.

Definition step_ok (d : F64) : Prop := double d /\ finite d /\ Rabs (value d) < bpow radix2 (-26).

Lemma stays : forall x d : F64, double x -> finite x -> bpow radix2 28 <= Rabs (value x) -> step_ok d ->
  nadd F64 x d = x /\ nsub F64 x d = x.
Proof.
  intros x d Vx Fx Hx (Vd & Fd & Hd). pose proof (fmt_value x Vx) as Fm.
  assert (N : value x <> 0).
  { intros N. rewrite N, Rabs_R0 in Hx. pose proof (bpow_gt_0 radix2 28). lra. }
  assert (B : Rabs (value x) < bpow radix2 1024).
  { destruct (lift 53 1024 x Vx) as [b ->]. rewrite value_B. apply abs_B2R_lt_emax. }
  assert (Fx' := proj1 (finite_same x) Fx). assert (Fd' := proj1 (finite_same d) Fd).
  split.
  - destruct (add_value 53 1024 p53 e1024 x d Vx Vd Fx' Fd') as [F E].
    { rewrite rnd_stays; assumption. }
    symmetry. apply same_value; try assumption; [apply valid_add; [exact p53|exact e1024|exact Vx|exact Vd]|apply finite_same; exact F|].
    change (nadd F64 x d) with (SFadd 53 1024 x d). rewrite E. rewrite rnd_stays; auto.
  - destruct (sub_value 53 1024 p53 e1024 x d Vx Vd Fx' Fd') as [F E].
    { unfold Rminus. rewrite rnd_stays; try assumption. rewrite Rabs_Ropp. exact Hd. }
    symmetry. apply same_value; try assumption; [apply valid_sub; [exact p53|exact e1024|exact Vx|exact Vd]|apply finite_same; exact F|].
    change (nsub F64 x d) with (SFsub 53 1024 x d). rewrite E. unfold Rminus. rewrite rnd_stays; auto. rewrite Rabs_Ropp. exact Hd.
Qed.

Lemma step_whole : step_ok step64.
Proof.
  split; [reflexivity|]. split; [exact I|]. unfold value, step64, SF2R, F2R. cbn [cond_Zopp Fnum Fexp].
  rewrite Rabs_pos_eq by (apply Rmult_le_pos; [apply IZR_le; lia|apply bpow_ge_0]).
  change (-26)%Z with (53 + -79)%Z. rewrite bpow_plus. apply Rmult_lt_compat_r; [apply bpow_gt_0|].
  change (bpow radix2 53) with (IZR 9007199254740992). apply IZR_lt. reflexivity.
Qed.

Lemma step_half : step_ok (ndiv F64 step64 (num_of F64 2)).
Proof.
  replace (ndiv F64 step64 (num_of F64 2)) with (S754_finite false 6044629098073146 (-80) : F64) by (vm_compute; reflexivity).
  split; [reflexivity|]. split; [exact I|]. unfold value, SF2R, F2R. cbn [cond_Zopp Fnum Fexp].
  rewrite Rabs_pos_eq by (apply Rmult_le_pos; [apply IZR_le; lia|apply bpow_ge_0]).
  apply Rlt_trans with (bpow radix2 (-27)); [|apply bpow_lt; lia].
  change (-27)%Z with (53 + -80)%Z. rewrite bpow_plus. apply Rmult_lt_compat_r; [apply bpow_gt_0|].
  change (bpow radix2 53) with (IZR 9007199254740992). apply IZR_lt. reflexivity.
Qed.

Lemma self_minus : forall x : F64, finite x -> nsub F64 x x = S754_zero false.
Proof.
  intros [s| | |s m e] H; try contradiction; [destruct s; reflexivity|].
  cbn [nsub F64 num]. unfold SFsub. rewrite Z.min_id, Z.sub_diag. reflexivity.
Qed.

Lemma far_flat : forall power f (x : F64), double x -> finite x -> nleb F64 (nofZ F64 268435456) (nabs F64 x) = true ->
  finite (f x) -> derivative_at F64 power step64 f x = S754_zero false.
Proof.
  intros power f x Vx Fx Hx Hf. pose proof (self_minus _ Hf) as D.
  assert (B : bpow radix2 28 <= Rabs (value x)).
  { rewrite <- abs_value. change (bpow radix2 28) with (IZR 268435456).
    replace (IZR 268435456) with (value (nofZ F64 268435456)).
    - apply (leb_value 53 1024 (nofZ F64 268435456) (nabs F64 x)); try exact Hx.
      + reflexivity.
      + apply (valid_abs 53 1024). exact Vx.
      + reflexivity.
      + destruct x; try contradiction; reflexivity.
    - change (nofZ F64 268435456) with (S754_finite false 4503599627370496 (-24)).
      unfold value, SF2R, F2R. cbn [cond_Zopp Fnum Fexp]. change (bpow radix2 (-24)) with (/ IZR 16777216).
      replace (IZR (Z.pos 4503599627370496)) with (IZR 268435456 * IZR 16777216) by (rewrite <- mult_IZR; reflexivity).
      rewrite Rmult_assoc, Rinv_r, Rmult_1_r; [reflexivity|]. apply not_0_IZR. discriminate. }
  destruct (stays x _ Vx Fx B step_whole) as [P1 P2]. destruct (stays x _ Vx Fx B step_half) as [P3 P4].
  assert (C : gsl_central F64 power step64 f x = S754_zero false).
  { unfold gsl_central, better, central_deriv. rewrite P1, P2, P3, P4, D.
    match goal with |- context [nadd F64 (nabs F64 ?a) ?b] => generalize (nadd F64 (nabs F64 a) b) end.
    intros round.
    match goal with |- context [nltb F64 round ?t] => replace t with (S754_zero false : F64) by (vm_compute; reflexivity) end.
    replace (nltb F64 (num_of F64 0) (S754_zero false : F64)) with false by reflexivity.
    rewrite !andb_false_r. vm_compute. reflexivity. }
  unfold derivative_at. rewrite C. reflexivity.
Qed.

Lemma refute_slope : exists x : F64, double x /\ finite x /\
  forall power, derivative_at F64 power step64 (fun t => t) x = S754_zero false.
Proof.
  exists (nofZ F64 1073741824). split; [reflexivity|]. split; [exact I|]. intros power.
  apply far_flat; try reflexivity; exact I.
Qed.
