(** * Falling and constant linear ranges in double precision (C105): proofs *)
From Coq Require Import ZArith Reals List Lra Lia Floats.SpecFloat.
From Flocq Require Import Core Relative BinarySingleNaN.
From Verif Require Import Num Double_spec Double_proofs Double_proofs2 Totals Totals_spec
  Totals_proofs Totals_proofs2 Spread_proofs Tabled_proofs Tabled_proofs2 Loglog_spec Loglog_proofs4 Ranges Ranges_proofs Span_spec Span_proofs.
Import ListNotations.
Local Open Scope R_scope.
Local Instance p53i : Prec_gt_0 53 := eq_refl.
Local Instance e1024i : Prec_lt_emax 53 1024 := eq_refl.
Local Instance fx : Valid_exp (SpecFloat.fexp 53 1024) := fexp_correct 53 1024 p53i.

Lemma rd_zero : rd 0 = 0.
Proof. apply round_0. apply valid_rnd_N. Qed.
Lemma rd_real x : double x -> finite x -> rd (real x) = real x.
Proof. intros V F. exact (value_format 53 1024 x V). Qed.

(** One operation: its value, and a bound. *)
Definition rounded (x : F64) (r B : R) : Prop := double x /\ finite x /\ real x = rd r /\ Rabs (real x) <= 2 * B.

Lemma rd_bound r B : Rabs r <= B -> bpow radix2 (-900) <= B -> Rabs (rd r) <= 2 * B.
Proof.
  intros H L. pose proof (rd_near r B H) as N. apply Rabs_le_inv in H. apply Rabs_le_inv in N.
  assert (e <= 1) by (change 1 with (bpow radix2 0); apply bpow_le; lia). assert (tau <= bpow radix2 (-900)) by (apply bpow_le; lia). pose proof (bpow_gt_0 radix2 (-900)).
  assert (e / 2 * B <= 1 / 2 * B) by (apply Rmult_le_compat_r; lra). apply Rabs_le. lra.
Qed.

Lemma add_rounded x y B : double x -> finite x -> double y -> finite y -> Rabs (real x + real y) <= B -> bpow radix2 (-900) <= B <= bpow radix2 1000 ->
  rounded (nadd F64 x y) (real x + real y) B.
Proof.
  intros Vx Fx Vy Fy L H. apply finite_same in Fx, Fy.
  destruct (add_value 53 1024 p53i e1024i x y Vx Vy Fx Fy) as [F E]; [apply small_ok; exact (Rle_trans _ _ _ L (proj2 H)) |].
  split; [now apply (valid_add 53 1024 p53i e1024i) |]. split; [now apply finite_same |]. split; [exact E |].
  change (Rabs (value (SFadd 53 1024 x y)) <= 2 * B). rewrite E. now apply rd_bound.
Qed.
Lemma sub_rounded x y B : double x -> finite x -> double y -> finite y -> Rabs (real x - real y) <= B -> bpow radix2 (-900) <= B <= bpow radix2 1000 ->
  rounded (nsub F64 x y) (real x - real y) B.
Proof.
  intros Vx Fx Vy Fy L H. apply finite_same in Fx, Fy.
  destruct (sub_value 53 1024 p53i e1024i x y Vx Vy Fx Fy) as [F E]; [apply small_ok; exact (Rle_trans _ _ _ L (proj2 H)) |].
  split; [now apply (valid_sub 53 1024 p53i e1024i) |]. split; [now apply finite_same |]. split; [exact E |].
  change (Rabs (value (SFsub 53 1024 x y)) <= 2 * B). rewrite E. now apply rd_bound.
Qed.
Lemma div_rounded x y B : double x -> finite x -> double y -> 1 <= real y -> Rabs (real x) <= B -> bpow radix2 (-900) <= B <= bpow radix2 1000 ->
  rounded (ndiv F64 x y) (real x / real y) B.
Proof.
  intros Vx Fx Vy Ny L H. apply finite_same in Fx.
  assert (L' : Rabs (real x / real y) <= B).
  { unfold Rdiv. rewrite Rabs_mult, (Rabs_pos_eq (/ real y)) by (left; apply Rinv_0_lt_compat; lra). apply Rle_trans with (B * 1); [| lra].
    apply Rmult_le_compat; [apply Rabs_pos | left; apply Rinv_0_lt_compat; lra | exact L | apply Rle_trans with (/ 1); [apply Rinv_le; lra | lra]]. }
  destruct (div_value 53 1024 p53i e1024i x y Vx Vy Fx) as [F E]; [change (real y <> 0); lra | apply small_ok; exact (Rle_trans _ _ _ L' (proj2 H)) |].
  split; [now apply (valid_div 53 1024 p53i e1024i) |]. split; [now apply finite_same |]. split; [exact E |].
  change (Rabs (value (SFdiv 53 1024 x y)) <= 2 * B). rewrite E. now apply rd_bound.
Qed.

Section Ends.
Variables (start stop : F64) (count : Z).
Let M := bpow radix2 900.
Hypothesis BS : between (- M) M start.
Hypothesis BT : between (- M) M stop.
Hypothesis CT : (2 <= count < 2 ^ 31)%Z.
Let d := nsub F64 stop start.
Let q := ndiv F64 d (nofZ F64 (count - 1)).
Let hf := ndiv F64 q (nofZ F64 2).

Lemma parts : rounded d (real stop - real start) (2 * M) /\ rounded q (real d / IZR (count - 1)) (4 * M) /\ rounded hf (real q / 2) (8 * M) /\
  rounded (nadd F64 stop hf) (real stop + real hf) (17 * M) /\ 1 <= IZR (count - 1) /\ 1 <= M.
Proof.
  destruct BS as (Vs & Fs & Bs). destruct BT as (Vt & Ft & Bt). assert (M1 : 1 <= M) by (change 1 with (bpow radix2 0); apply bpow_le; lia).
  assert (L900 : bpow radix2 (-900) <= 1) by (change 1 with (bpow radix2 0); apply bpow_le; lia).
  assert (MT : 32 * M <= bpow radix2 1000) by (change 32 with (bpow radix2 5); unfold M; rewrite <- bpow_plus; apply bpow_le; lia).
  assert (N1 : 1 <= IZR (count - 1)) by (apply IZR_le; lia).
  destruct (exact_int (count - 1) ltac:(lia)) as (Vn & _ & En). change (real (nofZ F64 (count - 1)) = IZR (count - 1)) in En.
  assert (Two : real (nofZ F64 2) = 2) by (cbn; unfold F2R; cbn; lra).
  pose proof (sub_rounded stop start (2 * M) Vt Ft Vs Fs ltac:(apply Rabs_le; lra) ltac:(lra)) as D. fold d in D. pose proof D as (Vd & Fd & Ed & Bd).
  pose proof (div_rounded d (nofZ F64 (count - 1)) (4 * M) Vd Fd Vn ltac:(rewrite En; lra) ltac:(lra) ltac:(lra)) as Q. rewrite En in Q. fold q in Q. pose proof Q as (Vq & Fq & Eq & Bq).
  pose proof (div_rounded q (nofZ F64 2) (8 * M) Vq Fq eq_refl ltac:(rewrite Two; lra) ltac:(lra) ltac:(lra)) as H. rewrite Two in H. fold hf in H. pose proof H as (Vh & Fh & Eh & Bh).
  apply Rabs_le_inv in Bh.
  pose proof (add_rounded stop hf (17 * M) Vt Ft Vh Fh ltac:(apply Rabs_le; lra) ltac:(lra)) as A. auto 10.
Qed.

Lemma unequal : (count - 1 =? 0)%Z = false.
Proof. apply Z.eqb_neq. lia. Qed.

Lemma falling_empty fuel : real stop < real start -> linrange F64 (S fuel) start stop count = Values [].
Proof.
  intros L. destruct parts as ((_ & _ & Ed & _) & (_ & _ & Eq & _) & (_ & _ & Eh & _) & (Vl & Fl & El & _) & N1 & M1).
  destruct BS as (Vs & Fs & _). destruct BT as (Vt & Ft & _).
  assert (D : real d <= 0) by (rewrite Ed, <- rd_zero; apply rd_le; lra).
  assert (Q : real q <= 0).
  { rewrite Eq, <- rd_zero. apply rd_le. apply Rmult_le_reg_r with (IZR (count - 1)); [lra |]. unfold Rdiv. rewrite Rmult_assoc, Rinv_l by lra. lra. }
  assert (H : real hf <= 0) by (rewrite Eh, <- rd_zero; apply rd_le; lra).
  assert (T : real (nadd F64 stop hf) <= real stop) by (rewrite El; apply Rle_trans with (rd (real stop)); [apply rd_le; lra | rewrite (rd_real stop Vt Ft); lra]).
  unfold linrange. rewrite unequal. unfold frange. cbn [frange_from]. fold d q hf. rewrite (proj2 (leb_real_false start (nadd F64 stop hf) Vs Vl Fs Fl)) by lra. reflexivity.
Qed.

Lemma constant_endless fuel : real stop = real start -> linrange F64 fuel start stop count = Unfinished.
Proof.
  intros L. destruct parts as ((_ & _ & Ed & _) & (Vq & Fq & Eq & _) & (_ & _ & Eh & _) & (Vl & Fl & El & _) & N1 & M1).
  destruct BS as (Vs & Fs & Bs). destruct BT as (Vt & Ft & Bt). assert (L900 : bpow radix2 (-900) <= 1) by (change 1 with (bpow radix2 0); apply bpow_le; lia).
  assert (MT : 32 * M <= bpow radix2 1000) by (change 32 with (bpow radix2 5); unfold M; rewrite <- bpow_plus; apply bpow_le; lia).
  assert (D : real d = 0) by (rewrite Ed, L, Rminus_diag_eq by reflexivity; apply rd_zero).
  assert (Q : real q = 0) by (rewrite Eq, D; unfold Rdiv; rewrite Rmult_0_l; apply rd_zero).
  assert (H : real hf = 0) by (rewrite Eh, Q; unfold Rdiv; rewrite Rmult_0_l; apply rd_zero).
  assert (T : real (nadd F64 stop hf) = real start) by (rewrite El, H, Rplus_0_r, (rd_real stop Vt Ft); exact L).
  unfold linrange. rewrite unequal. unfold frange. fold d q.
  assert (K : forall n i, double i -> finite i -> real i = real start -> frange_from F64 stop q n i = Unfinished).
  { induction n as [| n IH]; intros i Vi Fi Ei; [reflexivity |]. cbn [frange_from]. fold hf.
    rewrite (proj2 (leb_real i (nadd F64 stop hf) Vi Vl Fi Fl)) by lra.
    destruct (add_rounded i q M Vi Fi Vq Fq) as (Va & Fa & Ea & _); [rewrite Ei, Q, Rplus_0_r; apply Rabs_le; exact Bs | lra |].
    rewrite IH; [reflexivity | exact Va | exact Fa |]. rewrite Ea, Q, Rplus_0_r, (rd_real i Vi Fi). exact Ei. }
  now apply K.
Qed.
End Ends.

Lemma falling_all start stop count : between (- bpow radix2 900) (bpow radix2 900) start -> between (- bpow radix2 900) (bpow radix2 900) stop -> (2 <= count < 2 ^ 31)%Z ->
  (real stop < real start -> yields (fun fuel => linrange F64 fuel start stop count) []) /\
  (real stop = real start -> forall fuel, linrange F64 fuel start stop count = Unfinished).
Proof.
  intros BS BT CT. split.
  - intros L. exists 1%nat. intros [| fuel] H; [lia |]. now apply falling_empty.
  - intros L fuel. now apply constant_endless.
Qed.

Lemma falling_example : between (- bpow radix2 900) (bpow radix2 900) (nofZ F64 3) /\ between (- bpow radix2 900) (bpow radix2 900) (nofZ F64 1) /\
  real (nofZ F64 1) < real (nofZ F64 3) /\ (2 <= 5 < 2 ^ 31)%Z.
Proof.
  assert (R1 : real (nofZ F64 1) = 1) by exact (proj2 (int_ordinary 1 ltac:(lia))). assert (R3 : real (nofZ F64 3) = 3) by exact (proj2 (int_ordinary 3 ltac:(lia))).
  assert (4 <= bpow radix2 900) by (change 4 with (bpow radix2 2); apply bpow_le; lia).
  split; [split; [reflexivity |]; split; [exact I |]; rewrite R3; lra |]. split; [split; [reflexivity |]; split; [exact I |]; rewrite R1; lra |].
  split; [rewrite R1, R3; lra | lia].
Qed.
