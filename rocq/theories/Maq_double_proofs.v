(** * Integration in double precision: ranges and signs *)
From Coq Require Import ZArith Reals Lra Lia Bool List.
From Coq Require Import Floats.SpecFloat.
From Flocq Require Import Core BinarySingleNaN Mult_error.
From Verif Require Import Num Maq Maq_spec Maq_search_proofs Maq_search_proofs2 Maq_loop_proofs Maq_proofs
  Double_spec Double_proofs Double_proofs2.
Import ListNotations.
Local Open Scope R_scope.

#[local] Instance p53' : Prec_gt_0 53 := eq_refl.
#[local] Instance e1024' : Prec_lt_emax 53 1024 := eq_refl.
#[local] Instance p24' : Prec_gt_0 24 := eq_refl.
#[local] Instance e128' : Prec_lt_emax 24 128 := eq_refl.

(** ** Conversions *)
Lemma rnd_range : forall p e (Hp : Prec_gt_0 p) lo hi r, rnd p e lo = lo -> rnd p e hi = hi -> lo <= r <= hi ->
  lo <= rnd p e r <= hi.
Proof.
  intros p e Hp lo hi r El Eh H. pose proof (rnd_le p e Hp lo r ltac:(lra)). pose proof (rnd_le p e Hp r hi ltac:(lra)). lra.
Qed.

Lemma pow_bpow : forall k : nat, IZR (2 ^ Z.of_nat k) = bpow radix2 (Z.of_nat k).
Proof. intros k. rewrite <- (IZR_Zpower radix2) by lia. reflexivity. Qed.

Lemma rnd64_pow : forall k : nat, (k <= 100)%nat -> rnd 53 1024 (IZR (2 ^ Z.of_nat k)) = IZR (2 ^ Z.of_nat k).
Proof. intros k H. rewrite pow_bpow. apply rnd_power. unfold SpecFloat.fexp, SpecFloat.emin. lia. Qed.
Lemma rnd32_pow : forall k : nat, (k <= 100)%nat -> rnd 24 128 (IZR (2 ^ Z.of_nat k)) = IZR (2 ^ Z.of_nat k).
Proof. intros k H. rewrite pow_bpow. apply rnd_power. unfold SpecFloat.fexp, SpecFloat.emin. lia. Qed.
Lemma rnd64_1 : rnd 53 1024 1 = 1.
Proof. exact (rnd64_pow 0 ltac:(lia)). Qed.
Lemma rnd32_1 : rnd 24 128 1 = 1.
Proof. exact (rnd32_pow 0 ltac:(lia)). Qed.
Lemma rnd64_0 : rnd 53 1024 0 = 0.
Proof. apply rnd_0. Qed.
Lemma rnd32_0 : rnd 24 128 0 = 0.
Proof. apply rnd_0. Qed.
Lemma rnd64_m1 : rnd 53 1024 (-1) = -1.
Proof. replace (-1) with (- (1)) by ring. rewrite rnd_opp, rnd64_1. reflexivity. Qed.

Lemma pow_le_100 : forall k : nat, (k <= 100)%nat -> 1 <= IZR (2 ^ Z.of_nat k) <= bpow radix2 100.
Proof.
  intros k H. rewrite pow_bpow. split; [change 1 with (bpow radix2 0)|]; apply bpow_le; lia.
Qed.

Lemma norm_ok : forall p e (Hp : Prec_gt_0 p) (He : Prec_lt_emax p e) z (k : nat),
  (SpecFloat.fexp p e (Z.of_nat k + 1) <= Z.of_nat k)%Z -> (Z.of_nat k < e)%Z ->
  (0 <= z <= 2 ^ Z.of_nat k)%Z ->
  let x := SpecFloat.binary_normalize p e z 0 false in
  valid p e x /\ finite_ x /\ value x = rnd p e (IZR z).
Proof.
  intros p e Hp He z k Hk Hke Hz x.
  assert (Ez : F2R (Float radix2 z 0) = IZR z) by (unfold F2R; cbn; ring).
  assert (B : Rabs (IZR z) <= bpow radix2 (Z.of_nat k)).
  { rewrite Rabs_pos_eq by (apply IZR_le; lia). rewrite <- pow_bpow. apply IZR_le. lia. }
  pose proof (rnd_bound p e Hp (IZR z) (Z.of_nat k) Hk Hke B) as L.
  destruct (norm_value p e Hp He z 0 false) as [F V]; [rewrite Ez; exact L|]. rewrite Ez in V.
  split; [apply (valid_norm p e Hp He)|]. auto.
Qed.

Definition holds (x : F64) (r : R) : Prop := double x /\ finite_ x /\ value x = r.

Lemma ofZ_ok : forall z k, (k <= 100)%nat -> (0 <= z <= 2 ^ Z.of_nat k)%Z -> holds (nofZ F64 z) (rnd 53 1024 (IZR z)).
Proof.
  intros z k Hk Hz. apply (norm_ok 53 1024 p53' e1024' z k); [unfold SpecFloat.fexp, SpecFloat.emin; lia|lia|exact Hz].
Qed.

Lemma promote_ok : forall x, valid 24 128 x -> finite_ x -> Rabs (value x) <= bpow radix2 100 ->
  holds (f64_promote x) (rnd 53 1024 (value x)).
Proof.
  intros x V F B. destruct x as [s|s| |s m e]; try discriminate.
  - split; [reflexivity|]. split; [reflexivity|]. cbn. symmetry. apply rnd_0.
  - unfold f64_promote.
    assert (E : F2R (Float radix2 (if s then Z.neg m else Z.pos m) e) = value (S754_finite s m e)) by (destruct s; reflexivity).
    destruct (norm_value 53 1024 p53' e1024' (if s then Z.neg m else Z.pos m) e s) as [F' V'].
    + rewrite E. apply small_ok. apply Rle_trans with (1 := B). apply bpow_le. lia.
    + rewrite E in V'. split; [apply (valid_norm 53 1024 p53' e1024')|]. auto.
Qed.

Section Points.
  Variables (k : nat) (i : Z).
  Hypothesis Hk : (2 <= k <= 62)%nat.
  Hypothesis Hi : (1 <= i < 2 ^ Z.of_nat k)%Z.
  Notation n := (2 ^ Z.of_nat k)%Z.

  Lemma n_pos : 4 <= IZR n.
  Proof.
    apply (IZR_le 4). change 4%Z with (2 ^ 2)%Z. apply Z.pow_le_mono_r; lia.
  Qed.
  Lemma i_range : 1 <= IZR i <= IZR n.
  Proof. split; apply IZR_le; lia. Qed.

  Lemma f32_i : let x := f32_ofZ i in valid 24 128 x /\ finite_ x /\ 1 <= value x <= IZR n /\
    ((i < 16777216)%Z -> value x = IZR i).
  Proof.
    cbv zeta. destruct (norm_ok 24 128 p24' e128' i k) as (V & F & E);
      [unfold SpecFloat.fexp, SpecFloat.emin; lia|lia|lia|].
    change (SpecFloat.binary_normalize 24 128 i 0 false) with (f32_ofZ i) in *.
    split; [exact V|]. split; [exact F|]. rewrite E. split.
    - apply (rnd_range 24 128 p24'); [apply rnd32_1|apply rnd32_pow; lia|apply i_range].
    - intros L. apply round_generic; [apply valid_rnd_N|].
      change (generic_format radix2 (FLT_exp (3 - 128 - 24) 24) (IZR i)). apply generic_format_FLT.
      exists (Float radix2 i 0); [unfold F2R; cbn; ring| |cbn; lia].
      cbn [Fnum]. change (Z.pow radix2 24) with 16777216%Z. lia.
  Qed.

  Lemma f32_n : let x := f32_ofZ n in valid 24 128 x /\ finite_ x /\ value x = IZR n.
  Proof.
    cbv zeta. destruct (norm_ok 24 128 p24' e128' n k) as (V & F & E);
      [unfold SpecFloat.fexp, SpecFloat.emin; lia|lia|lia|].
    change (SpecFloat.binary_normalize 24 128 n 0 false) with (f32_ofZ n) in *.
    split; [exact V|]. split; [exact F|]. rewrite E. apply rnd32_pow. lia.
  Qed.

  Lemma n_100 : IZR n <= bpow radix2 100.
  Proof. apply pow_le_100. lia. Qed.

  Lemma in_64 : forall r, rnd 24 128 r = r -> rnd 53 1024 r = r.
  Proof.
    intros r E. apply round_generic; [apply valid_rnd_N|].
    change (generic_format radix2 (FLT_exp (3 - 1024 - 53) 53) r).
    assert (G : generic_format radix2 (FLT_exp (3 - 128 - 24) 24) r).
    { rewrite <- E. apply generic_format_round; [apply FLT_exp_valid; reflexivity|apply valid_rnd_N]. }
    apply FLT_format_generic in G; [|reflexivity]. destruct G as [g G1 G2 G3].
    apply generic_format_FLT. exists g; [exact G1| |lia].
    apply Z.lt_le_trans with (1 := G2). apply Z.pow_le_mono_r; [reflexivity|lia].
  Qed.

  Definition J : R := value (f32_ofZ i).
  Lemma J_fmt : rnd 24 128 J = J.
  Proof. destruct f32_i as (V & _). apply (value_format 24 128 _ V). Qed.

  Lemma float_ok : holds (nfloat F64 i) J /\ 1 <= J <= IZR n /\ ((i < 16777216)%Z -> J + 1 <= IZR n).
  Proof.
    destruct f32_i as (V & F & B & X). pose proof n_100.
    split; [|split].
    - rewrite <- (in_64 J J_fmt). apply (promote_ok (f32_ofZ i)); [exact V|exact F|rewrite Rabs_pos_eq; lra].
    - exact B.
    - intros L. unfold J. rewrite (X L), <- plus_IZR. apply IZR_le. lia.
  Qed.

  Lemma quot_fmt : rnd 24 128 (J / IZR n) = J / IZR n.
  Proof.
    destruct float_ok as (_ & BJ & _).
    apply round_generic; [apply valid_rnd_N|]. unfold Rdiv. rewrite pow_bpow, <- bpow_opp.
    change (generic_format radix2 (FLT_exp (3 - 128 - 24) 24) (J * bpow radix2 (- Z.of_nat k))).
    apply mult_bpow_exact_FLT.
    - rewrite <- J_fmt. apply generic_format_round; [apply FLT_exp_valid; reflexivity|apply valid_rnd_N].
    - assert (1 <= mag radix2 J)%Z; [|lia]. apply mag_ge_bpow. cbn. rewrite Rabs_pos_eq; lra.
  Qed.

  Lemma quot_ok : holds (nfdiv F64 i n) (J / IZR n) /\ 0 <= J / IZR n <= 1.
  Proof.
    destruct f32_i as (V & F & B & _). destruct f32_n as (Vn & Fn & En). pose proof n_pos as Pn.
    fold J in B.
    assert (Q : 0 <= J / IZR n <= 1).
    { split; [apply Rmult_le_pos; [lra|left; apply Rinv_0_lt_compat; lra]|].
      apply (Rmult_le_reg_r (IZR n)); [lra|]. unfold Rdiv. rewrite Rmult_assoc, Rinv_l by lra. lra. }
    split; [|exact Q].
    destruct (div_value 24 128 p24' e128' (f32_ofZ i) (f32_ofZ n) V Vn F) as [Fd Ed].
    { rewrite En. lra. }
    { rewrite En. fold J. rewrite quot_fmt, Rabs_pos_eq by lra. apply Rle_lt_trans with 1; [lra|]. change 1 with (bpow radix2 0). apply bpow_lt. lia. }
    rewrite En in Ed. fold J in Ed. rewrite quot_fmt in Ed.
    rewrite <- (in_64 _ quot_fmt), <- Ed.
    apply promote_ok; [apply (valid_div 24 128 p24' e128'); assumption|exact Fd|].
    rewrite Ed, Rabs_pos_eq by lra. apply Rle_trans with 1; [lra|]. change 1 with (bpow radix2 0). apply bpow_le. lia.
  Qed.

  Lemma one_ok : holds (nofZ F64 1) 1.
  Proof. rewrite <- rnd64_1. apply (ofZ_ok 1 0); [lia|]. cbn. lia. Qed.
  Lemma n_ok : holds (nofZ F64 n) (IZR n).
  Proof. rewrite <- (rnd64_pow k) by lia. apply (ofZ_ok n k); lia. Qed.

  Lemma bounded_ok : forall r, -2 * IZR n <= r <= 2 * IZR n -> Rabs (rnd 53 1024 r) < bpow radix2 1024.
  Proof.
    intros r H. apply small_ok. apply Rabs_le. pose proof n_100.
    assert (2 * bpow radix2 100 <= bpow radix2 1000).
    { change 2 with (bpow radix2 1). rewrite <- bpow_plus. apply bpow_le. lia. }
    lra.
  Qed.

  Lemma add_ok : forall x y r s, holds x r -> holds y s -> -2 * IZR n <= r + s <= 2 * IZR n ->
    holds (nadd F64 x y) (rnd 53 1024 (r + s)).
  Proof.
    intros x y r s (Vx & Fx & Ex) (Vy & Fy & Ey) B. subst r s.
    destruct (add_value 53 1024 p53' e1024' x y Vx Vy Fx Fy) as [F E]; [apply bounded_ok; exact B|].
    split; [apply (valid_add 53 1024 p53' e1024'); assumption|]. split; assumption.
  Qed.
  Lemma sub_ok : forall x y r s, holds x r -> holds y s -> -2 * IZR n <= r - s <= 2 * IZR n ->
    holds (nsub F64 x y) (rnd 53 1024 (r - s)).
  Proof.
    intros x y r s (Vx & Fx & Ex) (Vy & Fy & Ey) B. subst r s.
    destruct (sub_value 53 1024 p53' e1024' x y Vx Vy Fx Fy) as [F E]; [apply bounded_ok; exact B|].
    split; [apply (valid_sub 53 1024 p53' e1024'); assumption|]. split; assumption.
  Qed.
  Lemma div_ok : forall x y r s, holds x r -> holds y s -> s <> 0 -> -2 * IZR n <= r / s <= 2 * IZR n ->
    holds (ndiv F64 x y) (rnd 53 1024 (r / s)).
  Proof.
    intros x y r s (Vx & Fx & Ex) (Vy & Fy & Ey) N B. subst r s.
    destruct (div_value 53 1024 p53' e1024' x y Vx Vy Fx N) as [F E]; [apply bounded_ok; exact B|].
    split; [apply (valid_div 53 1024 p53' e1024'); assumption|]. split; assumption.
  Qed.

  Lemma div_n : forall r, 0 <= r <= 2 * IZR n -> 0 <= r / IZR n <= 2.
  Proof.
    intros r H. pose proof n_pos. split; [apply Rmult_le_pos; [lra|left; apply Rinv_0_lt_compat; lra]|].
    apply (Rmult_le_reg_r (IZR n)); [lra|]. unfold Rdiv. rewrite Rmult_assoc, Rinv_l by lra. lra.
  Qed.
  Lemma div_n1 : forall r, r <= IZR n -> r / IZR n <= 1.
  Proof.
    intros r H. pose proof n_pos. apply (Rmult_le_reg_r (IZR n)); [lra|]. unfold Rdiv. rewrite Rmult_assoc, Rinv_l by lra. lra.
  Qed.

  Lemma rnd64_2n : rnd 53 1024 (2 * IZR n) = 2 * IZR n.
  Proof.
    replace (2 * IZR n) with (IZR (2 ^ Z.of_nat (S k))); [apply rnd64_pow; lia|].
    rewrite Nat2Z.inj_succ, Z.pow_succ_r by lia. rewrite mult_IZR. reflexivity.
  Qed.
  Lemma rnd64_n : rnd 53 1024 (IZR n) = IZR n.
  Proof. apply rnd64_pow. lia. Qed.
  Lemma rnd64_2 : rnd 53 1024 2 = 2.
  Proof. exact (rnd64_pow 1 ltac:(lia)). Qed.

  (** (J - 1) / n and (J + 1) / n. *)
  Lemma ends : exists A B, holds (ndiv F64 (nsub F64 (nfloat F64 i) (nofZ F64 1)) (nofZ F64 n)) A /\
    holds (ndiv F64 (nadd F64 (nfloat F64 i) (nofZ F64 1)) (nofZ F64 n)) B /\
    0 <= A <= J / IZR n /\ J / IZR n <= B <= 2 /\ ((i < 16777216)%Z -> B <= 1).
  Proof.
    destruct float_ok as (HJ & BJ & XJ). pose proof n_pos as Pn.
    pose proof (sub_ok _ _ _ _ HJ one_ok ltac:(lra)) as HS. pose proof (add_ok _ _ _ _ HJ one_ok ltac:(lra)) as HA.
    pose proof (in_64 _ J_fmt) as FJ. pose proof (in_64 _ quot_fmt) as FQ.
    set (s := rnd 53 1024 (J - 1)) in *. set (t := rnd 53 1024 (J + 1)) in *.
    assert (Bs : 0 <= s <= J) by (apply (rnd_range 53 1024 p53'); [apply rnd64_0|apply FJ|lra]).
    assert (Bt : J <= t <= 2 * IZR n) by (apply (rnd_range 53 1024 p53'); [apply FJ|apply rnd64_2n|lra]).
    pose proof (div_n s ltac:(lra)) as Ds. pose proof (div_n t ltac:(lra)) as Dt. pose proof (div_n1 s ltac:(lra)) as Ds1.
    assert (Iv : 0 <= / IZR n) by (left; apply Rinv_0_lt_compat; lra).
    assert (Qs : s / IZR n <= J / IZR n) by (apply Rmult_le_compat_r; [exact Iv|lra]).
    assert (Qt : J / IZR n <= t / IZR n) by (apply Rmult_le_compat_r; [exact Iv|lra]).
    exists (rnd 53 1024 (s / IZR n)), (rnd 53 1024 (t / IZR n)).
    split; [apply div_ok; [exact HS|apply n_ok|lra|lra]|].
    split; [apply div_ok; [exact HA|apply n_ok|lra|lra]|].
    split; [apply (rnd_range 53 1024 p53'); [apply rnd64_0|exact FQ|lra]|].
    split; [apply (rnd_range 53 1024 p53'); [exact FQ|apply rnd64_2|lra]|].
    intros L. specialize (XJ L).
    assert (t <= IZR n) by (rewrite <- rnd64_n; apply (rnd_le 53 1024 p53'); lra).
    rewrite <- rnd64_1. apply (rnd_le 53 1024 p53'). apply div_n1. assumption.
  Qed.

  Lemma bin_ok : exists A C B, holds (bin_a F64 i n) A /\ holds (bin_c F64 i n) C /\ holds (bin_b F64 i n) B /\
    0 <= A <= C /\ C <= B <= 2 /\ ((i < 16777216)%Z -> B <= 1).
  Proof.
    destruct ends as (A & B & HA & HB & L1 & L2 & L3). destruct quot_ok as (HC & _).
    exists A, (J / IZR n), B. unfold bin_a, bin_b, bin_c. tauto.
  Qed.

  Lemma rev_ok : exists A C B, holds (rev_a F64 i n) A /\ holds (rev_c F64 i n) C /\ holds (rev_b F64 i n) B /\
    -1 <= A <= C /\ C <= B <= 1 /\ 0 <= C /\ ((i < 16777216)%Z -> 0 <= A).
  Proof.
    destruct ends as (A & B & HA & HB & L1 & L2 & L3). destruct quot_ok as (HC & LC). pose proof n_pos as Pn.
    exists (rnd 53 1024 (1 - B)), (rnd 53 1024 (1 - J / IZR n)), (rnd 53 1024 (1 - A)).
    split; [apply sub_ok; [exact one_ok|exact HB|lra]|]. split; [apply sub_ok; [exact one_ok|exact HC|lra]|].
    split; [apply sub_ok; [exact one_ok|exact HA|lra]|].
    assert (-1 <= rnd 53 1024 (1 - B) <= 1) by (apply (rnd_range 53 1024 p53'); [apply rnd64_m1|apply rnd64_1|lra]).
    assert (-1 <= rnd 53 1024 (1 - A) <= 1) by (apply (rnd_range 53 1024 p53'); [apply rnd64_m1|apply rnd64_1|lra]).
    assert (0 <= rnd 53 1024 (1 - J / IZR n)) by (rewrite <- rnd64_0; apply (rnd_le 53 1024 p53'); lra).
    assert (rnd 53 1024 (1 - B) <= rnd 53 1024 (1 - J / IZR n)) by (apply (rnd_le 53 1024 p53'); lra).
    assert (rnd 53 1024 (1 - J / IZR n) <= rnd 53 1024 (1 - A)) by (apply (rnd_le 53 1024 p53'); lra).
    split; [lra|]. split; [lra|]. split; [lra|]. intros L. specialize (L3 L). rewrite <- rnd64_0. apply (rnd_le 53 1024 p53'). lra.
  Qed.
End Points.
