(** * [SpecFloat] and the reals

    What the operations of [SpecFloat], used in [Num.F64], are on the reals, by way of the
    library Flocq.  The first lemmas are those of Flocq's own interface to primitive floats,
    repeated here for [SpecFloat]. *)
From Coq Require Import ZArith Reals Lra Lia Bool.
From Coq Require Import Floats.SpecFloat.
From Flocq Require Import Core BinarySingleNaN.
From Verif Require Import Num Double_spec.

Section Format.
  Variables p e : Z.
  Context (Hp : Prec_gt_0 p) (He : Prec_lt_emax p e).

  Lemma nearest_even : forall s m l, round_nearest_even m l = choice_mode mode_NE s m l.
  Proof. intros s m [|[| |]]; try reflexivity. cbn. unfold Round.cond_incr. destruct (Z.even m); reflexivity. Qed.

  Lemma round_aux : forall s m x l, SpecFloat.binary_round_aux p e s m x l = binary_round_aux p e mode_NE s m x l.
  Proof.
    intros. unfold SpecFloat.binary_round_aux, binary_round_aux.
    destruct (shr_fexp p e m x l) as [mrs e']. cbn. rewrite (nearest_even s). reflexivity.
  Qed.

  Lemma round_same : forall s m x, SpecFloat.binary_round p e s m x = binary_round p e mode_NE s m x.
  Proof.
    intros. unfold SpecFloat.binary_round, binary_round, shl_align_fexp.
    destruct (shl_align _ _ _) as [mz ez]. apply round_aux.
  Qed.

  Lemma normalize_same : forall m x z, SpecFloat.binary_normalize p e m x z = B2SF (binary_normalize p e Hp He mode_NE m x z).
  Proof. intros [|q|q] x z; cbn; [reflexivity| |]; rewrite B2SF_SF2B; apply round_same. Qed.

  Lemma add_same : forall x y, SFadd p e (B2SF x) (B2SF y) = B2SF (Bplus (prec_gt_0_ := Hp) (prec_lt_emax_ := He) mode_NE x y).
  Proof.
    intros [sx|sx| |sx mx ex Bx] [sy|sy| |sy my ey By]; try (cbn; reflexivity); try (cbn; destruct (Bool.eqb sx sy); reflexivity).
    apply normalize_same.
  Qed.

  Lemma sub_same : forall x y, SFsub p e (B2SF x) (B2SF y) = B2SF (Bminus (prec_gt_0_ := Hp) (prec_lt_emax_ := He) mode_NE x y).
  Proof.
    intros [sx|sx| |sx mx ex Bx] [sy|sy| |sy my ey By]; try (cbn; reflexivity); try (cbn; destruct sx, sy; reflexivity).
    cbn. unfold Zminus. rewrite <- cond_Zopp_negb. apply normalize_same.
  Qed.

  Lemma mul_same : forall x y, SFmul p e (B2SF x) (B2SF y) = B2SF (Bmult (prec_gt_0_ := Hp) (prec_lt_emax_ := He) mode_NE x y).
  Proof.
    intros [sx|sx| |sx mx ex Bx] [sy|sy| |sy my ey By]; try (cbn; reflexivity).
    cbn. rewrite B2SF_SF2B. apply round_aux.
  Qed.

  Lemma div_same : forall x y, SFdiv p e (B2SF x) (B2SF y) = B2SF (Bdiv (prec_gt_0_ := Hp) (prec_lt_emax_ := He) mode_NE x y).
  Proof.
    intros [sx|sx| |sx mx ex Bx] [sy|sy| |sy my ey By]; try (cbn; reflexivity).
    cbn. rewrite B2SF_SF2B. destruct (SFdiv_core_binary p e _ _ _ _) as [[mz ez] lz]. apply round_aux.
  Qed.

  (** ** Values *)
  Definition valid (x : spec_float) : Prop := valid_binary p e x = true.
  Definition value (x : spec_float) : R := SF2R radix2 x.
  Definition finite_ (x : spec_float) : Prop := is_finite_SF x = true.
  Definition rnd (r : R) : R := round radix2 (SpecFloat.fexp p e) ZnearestE r.

  Instance fexp_ok : Valid_exp (SpecFloat.fexp p e) := fexp_correct p e Hp.

  Lemma lift : forall x, valid x -> exists b : binary_float p e, x = B2SF b.
  Proof. intros x V. exists (SF2B x V). symmetry. apply B2SF_SF2B. Qed.

  Lemma valid_B : forall b : binary_float p e, valid (B2SF b).
  Proof. intros. apply valid_binary_B2SF. Qed.
  Lemma value_B : forall b : binary_float p e, value (B2SF b) = B2R b.
  Proof. intros. apply SF2R_B2SF. Qed.
  Lemma finite_B : forall b : binary_float p e, finite_ (B2SF b) <-> is_finite b = true.
  Proof. intros. unfold finite_. rewrite is_finite_SF_B2SF. reflexivity. Qed.

  Lemma valid_add : forall x y, valid x -> valid y -> valid (SFadd p e x y).
  Proof. intros x y Vx Vy. destruct (lift x Vx) as [a ->]. destruct (lift y Vy) as [b ->]. rewrite add_same. apply valid_B. Qed.
  Lemma valid_sub : forall x y, valid x -> valid y -> valid (SFsub p e x y).
  Proof. intros x y Vx Vy. destruct (lift x Vx) as [a ->]. destruct (lift y Vy) as [b ->]. rewrite sub_same. apply valid_B. Qed.
  Lemma valid_mul : forall x y, valid x -> valid y -> valid (SFmul p e x y).
  Proof. intros x y Vx Vy. destruct (lift x Vx) as [a ->]. destruct (lift y Vy) as [b ->]. rewrite mul_same. apply valid_B. Qed.
  Lemma valid_div : forall x y, valid x -> valid y -> valid (SFdiv p e x y).
  Proof. intros x y Vx Vy. destruct (lift x Vx) as [a ->]. destruct (lift y Vy) as [b ->]. rewrite div_same. apply valid_B. Qed.
  Lemma valid_norm : forall m x z, valid (SpecFloat.binary_normalize p e m x z).
  Proof. intros. rewrite normalize_same. apply valid_B. Qed.
  Lemma valid_abs : forall x, valid x -> valid (SFabs x).
  Proof. intros [| | |] V; exact V. Qed.

  Lemma add_value : forall x y, valid x -> valid y -> finite_ x -> finite_ y ->
    (Rabs (rnd (value x + value y)) < bpow radix2 e)%R ->
    finite_ (SFadd p e x y) /\ value (SFadd p e x y) = rnd (value x + value y).
  Proof.
    intros x y Vx Vy Fx Fy B. destruct (lift x Vx) as [a ->]. destruct (lift y Vy) as [b ->].
    rewrite add_same. rewrite !value_B in *. apply finite_B in Fx. apply finite_B in Fy.
    generalize (Bplus_correct p e Hp He mode_NE a b Fx Fy). rewrite Rlt_bool_true by exact B.
    intros (E & F & _). split; [apply finite_B; exact F|exact E].
  Qed.

  Lemma sub_value : forall x y, valid x -> valid y -> finite_ x -> finite_ y ->
    (Rabs (rnd (value x - value y)) < bpow radix2 e)%R ->
    finite_ (SFsub p e x y) /\ value (SFsub p e x y) = rnd (value x - value y).
  Proof.
    intros x y Vx Vy Fx Fy B. destruct (lift x Vx) as [a ->]. destruct (lift y Vy) as [b ->].
    rewrite sub_same. rewrite !value_B in *. apply finite_B in Fx. apply finite_B in Fy.
    generalize (Bminus_correct p e Hp He mode_NE a b Fx Fy). rewrite Rlt_bool_true by exact B.
    intros (E & F & _). split; [apply finite_B; exact F|exact E].
  Qed.

  Lemma mul_value : forall x y, valid x -> valid y -> finite_ x -> finite_ y ->
    (Rabs (rnd (value x * value y)) < bpow radix2 e)%R ->
    finite_ (SFmul p e x y) /\ value (SFmul p e x y) = rnd (value x * value y).
  Proof.
    intros x y Vx Vy Fx Fy B. destruct (lift x Vx) as [a ->]. destruct (lift y Vy) as [b ->].
    rewrite mul_same. rewrite !value_B in *. apply finite_B in Fx. apply finite_B in Fy.
    generalize (Bmult_correct p e Hp He mode_NE a b). rewrite Rlt_bool_true by exact B.
    intros (E & F & _). split; [apply finite_B; rewrite F, Fx, Fy; reflexivity|exact E].
  Qed.

  Lemma div_value : forall x y, valid x -> valid y -> finite_ x -> value y <> 0%R ->
    (Rabs (rnd (value x / value y)) < bpow radix2 e)%R ->
    finite_ (SFdiv p e x y) /\ value (SFdiv p e x y) = rnd (value x / value y).
  Proof.
    intros x y Vx Vy Fx Fy B. destruct (lift x Vx) as [a ->]. destruct (lift y Vy) as [b ->].
    rewrite div_same. rewrite !value_B in *. apply finite_B in Fx.
    generalize (Bdiv_correct p e Hp He mode_NE a b Fy). rewrite Rlt_bool_true by exact B.
    intros (E & F & _). split; [apply finite_B; rewrite F, Fx; reflexivity|exact E].
  Qed.

  Lemma norm_value : forall m x z, (Rabs (rnd (F2R (Float radix2 m x))) < bpow radix2 e)%R ->
    finite_ (SpecFloat.binary_normalize p e m x z) /\
    value (SpecFloat.binary_normalize p e m x z) = rnd (F2R (Float radix2 m x)).
  Proof.
    intros m x z B. rewrite normalize_same. rewrite value_B.
    generalize (binary_normalize_correct p e Hp He mode_NE m x z). cbv zeta. rewrite Rlt_bool_true by exact B.
    intros (E & F & _). split; [apply finite_B; exact F|exact E].
  Qed.

  Lemma leb_value : forall x y, valid x -> valid y -> finite_ x -> finite_ y ->
    (SFleb x y = true <-> (value x <= value y)%R).
  Proof.
    intros x y Vx Vy Fx Fy. destruct (lift x Vx) as [a ->]. destruct (lift y Vy) as [b ->].
    apply finite_B in Fx. apply finite_B in Fy. rewrite !value_B.
    change (SFleb (B2SF a) (B2SF b)) with (Bleb a b). rewrite Bleb_correct by assumption.
    destruct (Rle_bool_spec (B2R a) (B2R b)); split; intros; try assumption; try reflexivity; try discriminate; lra.
  Qed.

  Lemma ltb_value : forall x y, valid x -> valid y -> finite_ x -> finite_ y ->
    (SFltb x y = true <-> (value x < value y)%R).
  Proof.
    intros x y Vx Vy Fx Fy. destruct (lift x Vx) as [a ->]. destruct (lift y Vy) as [b ->].
    apply finite_B in Fx. apply finite_B in Fy. rewrite !value_B.
    change (SFltb (B2SF a) (B2SF b)) with (Bltb a b). rewrite Bltb_correct by assumption.
    destruct (Rlt_bool_spec (B2R a) (B2R b)); split; intros; try assumption; try reflexivity; try discriminate; lra.
  Qed.

  Lemma abs_value : forall x, value (SFabs x) = Rabs (value x).
  Proof.
    intros [s|s| |s m x]; cbn; try (rewrite Rabs_R0; reflexivity).
    unfold value, SF2R, F2R. cbn [Fnum Fexp]. rewrite Rabs_mult, (Rabs_pos_eq (bpow _ _)) by apply bpow_ge_0.
    rewrite <- abs_IZR, abs_cond_Zopp. reflexivity.
  Qed.

  (** Values are in the format, and rounding leaves them. *)
  Lemma value_format : forall x, valid x -> rnd (value x) = value x.
  Proof.
    intros x V. destruct (lift x V) as [b ->]. rewrite value_B. apply round_generic; [apply valid_rnd_N|]. apply generic_format_B2R.
  Qed.

  Lemma rnd_le : forall r s, (r <= s)%R -> (rnd r <= rnd s)%R.
  Proof. intros. apply round_le; [exact fexp_ok|apply valid_rnd_N|assumption]. Qed.

  Lemma rnd_0 : rnd 0 = 0%R.
  Proof. apply round_0. apply valid_rnd_N. Qed.

  Lemma rnd_power : forall k, (SpecFloat.fexp p e (k + 1) <= k)%Z -> rnd (bpow radix2 k) = bpow radix2 k.
  Proof. intros k H. apply round_generic; [apply valid_rnd_N|]. apply generic_format_bpow. exact H. Qed.

  Lemma rnd_bound : forall r k, (SpecFloat.fexp p e (k + 1) <= k)%Z -> (k < e)%Z -> (Rabs r <= bpow radix2 k)%R ->
    (Rabs (rnd r) < bpow radix2 e)%R.
  Proof.
    intros r k Hk Ke H. apply Rle_lt_trans with (bpow radix2 k); [|apply bpow_lt; exact Ke].
    apply Rabs_le_inv in H. apply Rabs_le. rewrite <- (rnd_power k Hk). split.
    - replace (- rnd (bpow radix2 k))%R with (rnd (- bpow radix2 k)); [apply rnd_le; lra|].
      unfold rnd. rewrite round_NE_opp. reflexivity.
    - apply rnd_le. lra.
  Qed.

  Lemma rnd_opp : forall r, rnd (- r) = (- rnd r)%R.
  Proof. intros r. unfold rnd. apply round_NE_opp. Qed.
End Format.
