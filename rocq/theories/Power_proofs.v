(** * Power laws in double precision (C102): proofs *)
From Coq Require Import ZArith Reals List Lra Lia Floats.SpecFloat.
From Flocq Require Import Core Relative BinarySingleNaN.
From Verif Require Import Num Double_spec Double_proofs Double_proofs2 Maq_double_proofs Deriv_proofs3 Totals Totals_spec
  Totals_proofs Totals_proofs2 Totals_proofs4 Totals_proofs6 Totals_proofs7 Spread Spread_spec Spread_proofs Spread_proofs4
  Tabled_proofs Tabled_proofs2 Hyperbola_spec Hyperbola_proofs Power Power_spec.
Local Open Scope R_scope.
Local Instance p53i : Prec_gt_0 53 := eq_refl.
Local Instance e1024i : Prec_lt_emax 53 1024 := eq_refl.
Local Instance fx : Valid_exp (SpecFloat.fexp 53 1024) := fexp_correct 53 1024 p53i.

Section Law.
  Variable pow : F64 -> F64 -> F64.
  Hypothesis LP : lawful pow.
  Variables a b : F64.
  Hypotheses (Pa : amount a) (Nb : number b).

  (** The product, rounded. *)
  Lemma p_value x : positive x -> reached (Rpower (real x) (real b)) ->
    let p := real (pow x b) in let y := power pow a b x in
    double y /\ finite y /\ real y = rd (real a * p) /\ 0 <= p /\ Rabs (p - Rpower (real x) (real b)) <= 4 * e * Rpower (real x) (real b).
  Proof.
    intros Px Rx. cbv zeta. set (r := Rpower (real x) (real b)) in *. destruct LP as (A & _). destruct (A x b Px Nb Rx) as (Vp & Fp & N). fold r in N.
    rewrite e50 in N. destruct Pa as (Va & Fa & Ba). pose proof e_pos. pose proof e_small. pose proof (bpow_gt_0 radix2 (-600)).
    destruct Rx as [R0 R1]. assert (0 < r) by lra. assert (4 * e * r <= 1 * r) by (apply Rmult_le_compat_r; lra).
    set (p := real (pow x b)) in *. pose proof (Rabs_le_inv _ _ N).
    assert (B : Rabs (real a * p) <= bpow radix2 1000).
    { rewrite Rabs_pos_eq by (apply Rmult_le_pos; lra). apply Rle_trans with (bpow radix2 400 * bpow radix2 501).
      - apply Rmult_le_compat; try lra. replace (bpow radix2 501) with (2 * bpow radix2 500) by (change 2 with (bpow radix2 1); rewrite <- bpow_plus; reflexivity). lra.
      - rewrite <- bpow_plus. apply bpow_le. lia. }
    destruct (mul_value 53 1024 p53i e1024i a (pow x b) Va Vp (proj1 (finite_same _) Fa) (proj1 (finite_same _) Fp)) as [Fm Em]; [exact (small_ok _ B) |].
    split; [exact (valid_mul 53 1024 p53i e1024i a (pow x b) Va Vp) |]. split; [apply finite_same; exact Fm |].
    split; [exact Em |]. split; [lra | exact N].
  Qed.

  Lemma p_number x : positive x -> reached (Rpower (real x) (real b)) -> let y := power pow a b x in double y /\ finite y /\ 0 <= real y.
  Proof.
    intros Px Rx. destruct (p_value x Px Rx) as (V & F & E & P & _). cbv zeta. split; [exact V |]. split; [exact F |]. rewrite E.
    destruct Pa as (_ & _ & Ba). apply rnd_nonneg, Rmult_le_pos; lra.
  Qed.

  Lemma p_one x : positive x -> real x = 1 -> real (power pow a b x) = real a.
  Proof.
    intros Px E1. assert (P1 : Rpower (real x) (real b) = 1) by (rewrite E1; unfold Rpower; rewrite ln_1, Rmult_0_r; apply exp_0).
    assert (Rx : reached (Rpower (real x) (real b))) by (rewrite P1; change 1 with (bpow radix2 0); split; apply bpow_le; lia).
    destruct (p_value x Px Rx) as (_ & _ & E & _). rewrite E. destruct LP as (_ & O & _). rewrite (O x b Px Nb E1), Rmult_1_r.
    exact (value_format 53 1024 a (proj1 Pa)).
  Qed.

  Lemma p_zero : 0 < real b -> real (power pow a b (S754_zero false)) = 0.
  Proof.
    intros B. destruct LP as (_ & _ & _ & Z & _). unfold power. rewrite (Z b Nb B). destruct Pa as (_ & Fa & _). destruct a; try reflexivity; now destruct Fa.
  Qed.

  Lemma p_order x x' : positive x -> positive x' -> real x <= real x' -> reached (Rpower (real x) (real b)) -> reached (Rpower (real x') (real b)) ->
    (0 <= real b -> real (power pow a b x) <= real (power pow a b x')) /\ (real b <= 0 -> real (power pow a b x') <= real (power pow a b x)).
  Proof.
    intros Px Px' L Rx Rx'. destruct (p_value x Px Rx) as (_ & _ & -> & _). destruct (p_value x' Px' Rx') as (_ & _ & -> & _).
    destruct LP as (_ & _ & _ & _ & M). destruct (M x x' b Px Px' Nb L Rx Rx') as [M1 M2]. destruct Pa as (_ & _ & Ba).
    split; intros B; (apply rd_le, Rmult_le_compat_l; [lra |]); [now apply M1 | now apply M2].
  Qed.

  Lemma p_right x : positive x -> reached (Rpower (real x) (real b)) -> bpow radix2 (-400) <= real a ->
    Rabs (real (power pow a b x) - real a * Rpower (real x) (real b)) <= bpow radix2 (-49) * (real a * Rpower (real x) (real b)).
  Proof.
    intros Px Rx La. destruct (p_value x Px Rx) as (_ & _ & E & P & N). rewrite E. set (r := Rpower (real x) (real b)) in *. set (p := real (pow x b)) in *.
    set (q := real a) in *. pose proof (bpow_gt_0 radix2 (-400)). pose proof (bpow_gt_0 radix2 (-600)). pose proof e_pos. pose proof e_small. destruct Rx as [R0 R1].
    assert (Low : bpow radix2 (-1000) <= q * r).
    { change (-1000)%Z with (-400 + -600)%Z. rewrite bpow_plus. apply Rmult_le_compat; lra. }
    assert (T : tau <= e * (q * r)).
    { apply Rle_trans with (e * bpow radix2 (-1000)); [| apply Rmult_le_compat_l; lra]. rewrite <- bpow_plus. apply bpow_le. lia. }
    assert (D : Rabs (q * p - q * r) <= 4 * e * (q * r)).
    { rewrite <- Rmult_minus_distr_l, Rabs_mult, (Rabs_pos_eq q) by lra. replace (4 * e * (q * r)) with (q * (4 * e * r)) by ring. apply Rmult_le_compat_l; lra. }
    pose proof (rnd_err (q * p)) as K. assert (0 <= q * p) by (apply Rmult_le_pos; lra). rewrite (Rabs_pos_eq (q * p)) in K by assumption.
    assert (S4 : 4 * e * (q * r) <= 1 * (q * r)) by (apply Rmult_le_compat_r; [pose proof (bpow_gt_0 radix2 (-1000)); lra | lra]).
    assert (M2 : e / 2 * (q * p) <= e / 2 * (2 * (q * r))) by (apply Rmult_le_compat_l; [lra | apply Rabs_le_inv in D; lra]).
    assert (E49 : bpow radix2 (-49) = 8 * e) by (change (-49)%Z with (3 + -52)%Z; now rewrite bpow_plus). rewrite E49.
    assert (0 <= e * (q * r)) by (apply Rmult_le_pos; [lra | pose proof (bpow_gt_0 radix2 (-1000)); lra]).
    apply Rabs_le_inv in D. apply Rabs_le_inv in K. apply Rabs_le. lra.
  Qed.

  (** Beyond the doubles. *)
  Lemma p_beyond x : positive x -> bpow radix2 1024 <= Rpower (real x) (real b) ->
    (0 < real a -> power pow a b x = S754_infinity false) /\ (real a = 0 -> power pow a b x = S754_nan).
  Proof.
    intros Px B. destruct LP as (_ & _ & I & _). unfold power. rewrite (I x b Px Nb B). destruct Pa as (_ & Fa & _).
    split; intros A; destruct a as [s | s | | s m k]; try (now destruct Fa); try reflexivity.
    - cbn in A. lra.
    - destruct s; [| reflexivity]. exfalso. assert (real (S754_finite true m k) < 0); [| lra]. apply F2R_lt_0. reflexivity.
    - exfalso. destruct s; [assert (real (S754_finite true m k) < 0); [apply F2R_lt_0; reflexivity | lra] | assert (0 < real (S754_finite false m k)); [apply F2R_gt_0; reflexivity | lra]].
  Qed.
End Law.

(** A power function that rounds to the nearest double. *)
Definition rounded_pow (x b : F64) : F64 :=
  match x with
  | S754_zero _ => S754_zero false
  | _ => if Rle_dec (bpow radix2 1024) (Rpower (real x) (real b)) then S754_infinity false else nearest (Rpower (real x) (real b))
  end.

Lemma rounded_pow_is x b : positive x -> reached (Rpower (real x) (real b)) ->
  double (rounded_pow x b) /\ finite (rounded_pow x b) /\ real (rounded_pow x b) = rd (Rpower (real x) (real b)).
Proof.
  intros (V & F & P) [R0 R1]. assert (E : rounded_pow x b = nearest (Rpower (real x) (real b))).
  { unfold rounded_pow. destruct x as [s | s | | s m k]; try (now destruct F); [cbn in P; lra |].
    destruct (Rle_dec _ _) as [G | G]; [| reflexivity]. exfalso. assert (bpow radix2 500 < bpow radix2 1024) by (apply bpow_lt; lia). lra. }
  rewrite E. apply nearest_value. rewrite Rabs_pos_eq by (pose proof (bpow_gt_0 radix2 (-600)); lra). apply Rle_trans with (1 := R1). apply bpow_le. lia.
Qed.

Lemma rounded_pow_lawful : lawful rounded_pow.
Proof.
  assert (One : forall x b, real x = 1 -> Rpower (real x) (real b) = 1) by (intros x b E1; rewrite E1; unfold Rpower; rewrite ln_1, Rmult_0_r; apply exp_0).
  split; [| split; [| split; [| split]]].
  - intros x b Px _ R. destruct (rounded_pow_is x b Px R) as (V & F & ->). split; [exact V |]. split; [exact F |]. set (r := Rpower _ _) in *.
    pose proof (rnd_err r) as K. pose proof (bpow_gt_0 radix2 (-600)). destruct R as [R0 R1]. rewrite (Rabs_pos_eq r) in K by lra. pose proof e_pos. rewrite e50.
    assert (tau <= e * r).
    { apply Rle_trans with (e * bpow radix2 (-600)); [| apply Rmult_le_compat_l; lra]. rewrite <- bpow_plus. apply bpow_le. lia. }
    assert (0 <= e * r) by (apply Rmult_le_pos; lra). lra.
  - intros x b Px _ E1. destruct (rounded_pow_is x b Px) as (_ & _ & ->).
    + rewrite One by exact E1. change 1 with (bpow radix2 0). split; apply bpow_le; lia.
    + rewrite One by exact E1. exact rnd64_1.
  - intros x b (V & F & P) _ B. unfold rounded_pow. destruct x as [s | s | | s m k]; try (now destruct F); [cbn in P; lra |].
    destruct (Rle_dec _ _) as [G | G]; [reflexivity | contradiction].
  - reflexivity.
  - intros x x' b Px Px' _ L R R'. destruct (rounded_pow_is x b Px R) as (_ & _ & ->). destruct (rounded_pow_is x' b Px' R') as (_ & _ & ->).
    destruct Px as (_ & _ & P).
    assert (LL : ln (real x) <= ln (real x')) by (destruct L as [L | ->]; [left; now apply ln_increasing | lra]).
    assert (X : forall u v, u <= v -> exp u <= exp v) by (intros u v [H | ->]; [left; now apply exp_increasing | lra]).
    split; intros B; apply rd_le; unfold Rpower; apply X.
    + apply Rmult_le_compat_l; assumption.
    + assert (- real b * ln (real x) <= - real b * ln (real x')) by (apply Rmult_le_compat_l; lra). lra.
Qed.

(** A law to try it on: the square of three. *)
Lemma power_example : amount (nofZ F64 7) /\ number (nofZ F64 2) /\ positive (nofZ F64 3) /\ real (nofZ F64 3) = 3 /\ bpow radix2 (-400) <= real (nofZ F64 7) /\
  Rpower (real (nofZ F64 3)) (real (nofZ F64 2)) = 9 /\ reached 9.
Proof.
  destruct (small_int 7 ltac:(lia)) as [A7 E7]. destruct (small_int 2 ltac:(lia)) as [(V2 & F2 & _) E2]. destruct (small_int 3 ltac:(lia)) as [(V3 & F3 & _) E3].
  split; [exact A7 |]. split; [split; assumption |]. split; [split; [exact V3 | split; [exact F3 | rewrite E3; lra]] |]. split; [exact E3 |].
  rewrite E7, E2, E3.
  split; [apply Rle_trans with (bpow radix2 0); [apply bpow_le; lia | cbn; lra] |]. split.
  - change 2 with (INR 2). rewrite Rpower_pow by lra. cbn. ring.
  - split; [apply Rle_trans with (bpow radix2 0); [apply bpow_le; lia | cbn; lra] | apply Rle_trans with (bpow radix2 4); [cbn; lra | apply bpow_le; lia]].
Qed.

(** The greatest double and more. *)
Lemma beyond_example : amount (nofZ F64 0) /\ amount (nofZ F64 1) /\ number (nofZ F64 1024) /\ positive (nofZ F64 2) /\ bpow radix2 1024 <= Rpower (real (nofZ F64 2)) (real (nofZ F64 1024)).
Proof.
  destruct (small_int 0 ltac:(lia)) as [A0 _]. destruct (small_int 1 ltac:(lia)) as [A1 _]. destruct (small_int 2 ltac:(lia)) as [(V2 & F2 & _) E2].
  split; [exact A0 |]. split; [exact A1 |]. split; [split; [vm_compute; reflexivity | vm_compute; exact I || reflexivity] |].
  split; [split; [exact V2 | split; [exact F2 | rewrite E2; lra]] |]. rewrite E2. assert (E : real (nofZ F64 1024) = 1024) by (vm_compute; lra). rewrite E.
  unfold Rpower. change 1024 with (IZR 1024). rewrite <- ln_bpow, exp_ln by apply bpow_gt_0. lra.
Qed.

Lemma refute_power_number : forall pow, lawful pow -> exists a b x, amount a /\ number b /\ positive x /\ ~ finite (power pow a b x).
Proof.
  intros pow LP. destruct beyond_example as (A0 & _ & N & P & B). exists (nofZ F64 0), (nofZ F64 1024), (nofZ F64 2).
  split; [exact A0 |]. split; [exact N |]. split; [exact P |]. rewrite (proj2 (p_beyond pow LP _ _ A0 N _ P B)); [intros H; discriminate H || exact H | reflexivity].
Qed.
