(** * Stepped ranges in double precision (C105): proofs *)
From Coq Require Import ZArith Reals List Lra Lia Floats.SpecFloat.
From Flocq Require Import Core Relative BinarySingleNaN.
From Verif Require Import Num Double_spec Double_proofs Double_proofs2 Totals Totals_spec
  Totals_proofs Totals_proofs2 Spread_proofs Tabled_proofs Tabled_proofs2 Loglog_spec Loglog_proofs4 Ranges Ranges_proofs Span_spec Span_proofs.
Import ListNotations.
Local Open Scope R_scope.

Lemma stepped_double M start stop step m : strides M start stop step m ->
  exists l, yields (fun fuel => frange F64 fuel start stop step) l /\ nearly_stepped M start step m l /\ climbing l.
Proof.
  intros ((Vs & Fs & Bs) & (Vt & Ft & Bt) & (Vq & Fq & Bq) & BM & Bm & W).
  set (s := real start) in *. set (S_ := real stop) in *. set (h := real step) in *. set (E := e * M).
  pose proof (bpow_gt_0 radix2 (-900)) as P900. assert (MP : 0 < M) by lra. assert (EP : 0 < E) by (apply Rmult_lt_0_compat; [apply e_pos | exact MP]).
  assert (TE : tau <= E).
  { apply Rle_trans with (e * bpow radix2 (-900)); [rewrite <- bpow_plus; apply bpow_le; lia | apply Rmult_le_compat_l; [pose proof e_pos; lra | lra]]. }
  assert (ME : M = 4503599627370496 * E).
  { unfold E. rewrite <- Rmult_assoc. replace (4503599627370496 * e) with 1; [ring |]. change 4503599627370496 with (bpow radix2 52). rewrite <- bpow_plus. reflexivity. }
  assert (MT : 4 * M <= bpow radix2 1000).
  { apply Rle_trans with (4 * bpow radix2 900); [lra |]. change 4 with (bpow radix2 2). rewrite <- bpow_plus. apply bpow_le. lia. }
  assert (HE : 67108864 * E = bpow radix2 (-26) * M).
  { unfold E. rewrite <- Rmult_assoc. f_equal. change 67108864 with (bpow radix2 26). rewrite <- bpow_plus. reflexivity. }
  assert (mB : INR m <= 65536) by (rewrite INR_IZR_INZ; now apply IZR_le).
  pose proof (pos_INR m) as mP. apply Rabs_le_inv in W.
  assert (Two : real (nofZ F64 2) = 2) by (cbn; unfold F2R; cbn; lra).
  destruct (div_near step (nofZ F64 2) (2 * M) Vq Fq eq_refl) as (Vh & Fh & Eh); [rewrite Two; lra | rewrite Two; fold h; apply Rabs_le; lra | lra |]. rewrite Two in Eh. fold h in Eh.
  assert (Eh' : Rabs (real (ndiv F64 step (nofZ F64 2)) - h / 2) <= 2 * E) by (unfold E in *; lra). apply Rabs_le_inv in Eh'.
  destruct (add_near stop (ndiv F64 step (nofZ F64 2)) (4 * M) Vt Ft Vh Fh) as (Vl & Fl & El); [fold S_; apply Rabs_le; lra | lra |]. fold S_ in El.
  assert (El' : Rabs (real (nadd F64 stop (ndiv F64 step (nofZ F64 2))) - (S_ + real (ndiv F64 step (nofZ F64 2)))) <= 5 / 2 * E) by (unfold E in *; lra). apply Rabs_le_inv in El'.
  assert (one : forall x k, near x (s + INR k * h) (3 * INR k * E) -> (k <= m)%nat ->
    near (nadd F64 x step) (s + INR (S k) * h) (3 * INR (S k) * E) /\ real x < real (nadd F64 x step)).
  { intros x k (Vx & Fx & Ex) K. apply Rabs_le_inv in Ex. pose proof (pos_INR k). apply le_INR in K.
    assert (K6 : 3 * INR k * E <= 200000 * E) by (apply Rmult_le_compat_r; lra).
    assert (Kh : INR k * h <= INR m * h) by (apply Rmult_le_compat_r; lra). assert (Kh0 : 0 <= INR k * h) by (apply Rmult_le_pos; lra).
    destruct (add_near x step (4 * M) Vx Fx Vq Fq) as (Va & Fa & Ea); [fold h; apply Rabs_le; lra | lra |]. fold h in Ea.
    assert (Ea' : Rabs (real (nadd F64 x step) - (real x + h)) <= 5 / 2 * E) by (unfold E in *; lra). apply Rabs_le_inv in Ea'.
    split; [| lra]. split; [exact Va |]. split; [exact Fa |]. rewrite S_INR. apply Rabs_le. lra. }
  assert (all : forall k, (k <= S m)%nat -> near (after F64 step start k) (s + INR k * h) (3 * INR k * E)).
  { induction k as [| k IH]; intros K.
    - split; [exact Vs |]. split; [exact Fs |]. cbn [INR after]. fold s. replace (s - (s + 0 * h)) with 0 by ring. rewrite Rabs_R0. lra.
    - rewrite after_next. exact (proj1 (one _ k (IH ltac:(lia)) ltac:(lia))). }
  assert (At : forall k x, nth_error (map (after F64 step start) (seq 0 (S m))) k = Some x -> (k <= m)%nat /\ x = after F64 step start k).
  { intros k x H. assert (L : (k < S m)%nat) by (rewrite <- (seq_length (S m) 0), <- (map_length (after F64 step start)); apply nth_error_Some; congruence).
    split; [lia |]. rewrite nth_error_map, (nth_error_nth' (seq 0 (S m)) 0%nat), seq_nth in H by (rewrite ?seq_length; exact L). now injection H. }
  exists (map (after F64 step start) (seq 0 (S m))). split; [| split; [split; [| split] |]].
  - exists (S (S m)). intros fuel H. unfold frange. apply loop_values; [| | exact H].
    + intros k K. destruct (all k ltac:(lia)) as (Vk & Fk & Ek). apply Rabs_le_inv in Ek. apply leb_real; try assumption. apply le_INR in K. pose proof (pos_INR k).
      assert (3 * INR k * E <= 200000 * E) by (apply Rmult_le_compat_r; lra). assert (INR k * h <= INR m * h) by (apply Rmult_le_compat_r; lra). lra.
    + destruct (all (S m) ltac:(lia)) as (Vk & Fk & Ek). apply Rabs_le_inv in Ek. rewrite S_INR in Ek. apply leb_real_false; try assumption.
      assert (3 * (INR m + 1) * E <= 200000 * E) by (apply Rmult_le_compat_r; lra). lra.
  - now rewrite map_length, seq_length.
  - reflexivity.
  - intros k x H. destruct (At k x H) as [K ->]. exact (all k ltac:(lia)).
  - intros k x y Hx Hy. destruct (At k x Hx) as [K ->]. destruct (At _ y Hy) as [_ ->]. rewrite after_next. exact (proj2 (one _ k (all k ltac:(lia)) K)).
Qed.

Lemma stepped_example : strides 12 (nofZ F64 0) (nofZ F64 12) (nofZ F64 3) 4.
Proof.
  assert (R12 : real (nofZ F64 12) = 12) by exact (proj2 (int_ordinary 12 ltac:(lia))). assert (R3 : real (nofZ F64 3) = 3) by exact (proj2 (int_ordinary 3 ltac:(lia))).
  assert (R0 : real (nofZ F64 0) = 0) by reflexivity.
  assert (T : bpow radix2 (-26) <= / 4) by (change (/ 4) with (bpow radix2 (-2)); apply bpow_le; lia).
  assert (bpow radix2 (-900) <= 1) by (change 1 with (bpow radix2 0); apply bpow_le; lia).
  assert (16 <= bpow radix2 900) by (change 16 with (bpow radix2 4); apply bpow_le; lia).
  split; [split; [reflexivity |]; split; [exact I |]; rewrite R0; lra |]. split; [split; [reflexivity |]; split; [exact I |]; rewrite R12; lra |].
  split; [split; [reflexivity |]; split; [exact I |]; rewrite R3; lra |]. split; [lra |]. split; [lia |].
  rewrite R0, R12, R3. cbn [INR]. apply Rabs_le. lra.
Qed.
