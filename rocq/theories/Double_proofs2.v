(** * Signs, ranges and midpoints of doubles *)
From Coq Require Import ZArith Reals Lra Lia Bool.
From Coq Require Import Floats.SpecFloat.
From Flocq Require Import Core BinarySingleNaN.
From Verif Require Import Num Double_spec Double_proofs.
Local Open Scope R_scope.

#[local] Instance p53 : Prec_gt_0 53 := eq_refl.
#[local] Instance e1024 : Prec_lt_emax 53 1024 := eq_refl.
#[local] Instance p24 : Prec_gt_0 24 := eq_refl.
#[local] Instance e128 : Prec_lt_emax 24 128 := eq_refl.

(** ** Signs *)
Definition nn (x : spec_float) : Prop :=
  match x with S754_finite true _ _ | S754_infinity true => False | _ => True end.
Definition pos (x : spec_float) : Prop :=
  match x with S754_finite true _ _ | S754_infinity true | S754_zero true => False | _ => True end.

Lemma nn_not_negative : forall x, nn x <-> not_negative x.
Proof. intros [[]|[]| |[] m e]; unfold not_negative; cbn; split; intros; try easy. Qed.

Lemma value_neg : forall m e, value (S754_finite true m e) < 0.
Proof.
  intros m e. unfold value, SF2R, F2R. cbn [cond_Zopp Fnum Fexp].
  rewrite <- (Rmult_0_l (bpow radix2 e)). apply Rmult_lt_compat_r; [apply bpow_gt_0|]. apply IZR_lt. reflexivity.
Qed.
Lemma value_pos : forall m e, 0 < value (S754_finite false m e).
Proof.
  intros m e. unfold value, SF2R, F2R. cbn [cond_Zopp Fnum Fexp].
  apply Rmult_lt_0_compat; [apply IZR_lt; reflexivity|apply bpow_gt_0].
Qed.

Lemma nn_value : forall x, finite_ x -> (nn x <-> 0 <= value x).
Proof.
  intros [s|s| |s m e] F; try discriminate; cbn [nn].
  - split; [intros _; cbn; lra|easy].
  - destruct s; [|pose proof (value_pos m e); split; [lra|easy]].
    pose proof (value_neg m e). split; [easy|lra].
Qed.

Lemma B_value : forall x : spec_float, double x -> exists b : binary_float 53 1024, x = B2SF b.
Proof. apply lift. Qed.

Lemma nn_sign : forall b : binary_float 53 1024, is_nan b = false -> Bsign b = false -> nn (B2SF b).
Proof. intros [s|s| |s m e H]; cbn; intros; subst; try easy. Qed.

Lemma overflow_nn : forall s, s = false -> nn (binary_overflow 53 1024 mode_NE s).
Proof. intros s ->. exact I. Qed.

(** Sums of finite numbers. *)
Lemma nn_add_fin : forall x y, double x -> double y -> finite_ x -> finite_ y -> 0 <= value x + value y ->
  nn (SFadd 53 1024 x y).
Proof.
  intros x y Vx Vy Fx Fy H. destruct (B_value x Vx) as [a ->]. destruct (B_value y Vy) as [b ->].
  rewrite (add_same 53 1024 p53 e1024). rewrite !value_B in H. apply finite_B in Fx. apply finite_B in Fy.
  generalize (Bplus_correct 53 1024 p53 e1024 mode_NE a b Fx Fy).
  destruct (Rlt_bool _ _).
  - intros (E & F & _). apply nn_value; [apply finite_B; exact F|]. rewrite value_B, E.
    change (0 <= rnd 53 1024 (B2R a + B2R b)). rewrite <- (rnd_0 53 1024). apply rnd_le; [exact p53|exact H].
  - intros (E & S). rewrite E. apply overflow_nn.
    destruct (Bsign a) eqn:Sa; [|reflexivity]. exfalso. symmetry in S.
    assert (N : forall c : binary_float 53 1024, is_finite c = true -> Bsign c = true -> B2R c <= 0).
    { intros [s|s| |s m e Q]; cbn [is_finite Bsign]; intros F1 S1; try discriminate; [cbn; lra|].
      subst s. left. apply (value_neg m e). }
    pose proof (N a Fx Sa). pose proof (N b Fy S).
    assert (B2R a = 0 /\ B2R b = 0) as [A0 B0] by lra.
    assert (Z : forall c : binary_float 53 1024, is_finite c = true -> Bsign c = true -> B2R c = 0 -> c = B754_zero true).
    { intros [s|s| |s m e Q]; cbn [is_finite Bsign]; intros F1 S1 R; try discriminate; [subst; reflexivity|].
      subst s. exfalso. pose proof (value_neg m e) as L. change (value (S754_finite true m e)) with (B2R (B754_finite true m e Q)) in L. lra. }
    rewrite (Z a Fx Sa A0), (Z b Fy S B0) in E. cbn in E. discriminate.
Qed.

Lemma nn_add : forall x y, double x -> double y -> nn x -> nn y -> nn (SFadd 53 1024 x y).
Proof.
  intros x y Vx Vy Nx Ny.
  assert (C : (finite_ x /\ finite_ y) \/ ~ (finite_ x /\ finite_ y)).
  { unfold finite_. destruct (is_finite_SF x), (is_finite_SF y); intuition discriminate. }
  destruct C as [[Fx Fy]|C].
  - apply nn_add_fin; try assumption. apply nn_value in Nx; [|exact Fx]. apply nn_value in Ny; [|exact Fy]. lra.
  - destruct x as [[]|[]| |[] ? ?], y as [[]|[]| |[] ? ?]; cbn in *; try easy; exfalso; apply C; easy.
Qed.

Lemma nn_mul : forall x y, double x -> double y -> nn x -> nn y -> nn (SFmul 53 1024 x y).
Proof.
  intros x y Vx Vy Nx Ny.
  assert (C : (finite_ x /\ finite_ y) \/ ~ (finite_ x /\ finite_ y)).
  { unfold finite_. destruct (is_finite_SF x), (is_finite_SF y); intuition discriminate. }
  destruct C as [[Fx Fy]|C].
  - apply nn_value in Nx; [|exact Fx]. apply nn_value in Ny; [|exact Fy].
    destruct x as [sx|sx| |sx mx ex]; try discriminate; [destruct y; try discriminate; exact I|].
    destruct y as [sy|sy| |sy my ey]; try discriminate; [exact I|].
    destruct sx; [pose proof (value_neg mx ex); lra|]. destruct sy; [pose proof (value_neg my ey); lra|].
    destruct (B_value _ Vx) as [a Ea]. destruct (B_value _ Vy) as [b Eb].
    rewrite Ea, Eb in *. rewrite (mul_same 53 1024 p53 e1024).
    apply finite_B in Fx. apply finite_B in Fy. rewrite !value_B in *.
    generalize (Bmult_correct 53 1024 p53 e1024 mode_NE a b). destruct (Rlt_bool _ _).
    + intros (E & F & _). rewrite Fx, Fy in F. apply nn_value; [apply finite_B; exact F|]. rewrite value_B, E.
      change (0 <= rnd 53 1024 (B2R a * B2R b)). rewrite <- (rnd_0 53 1024). apply rnd_le; [exact p53|].
      apply Rmult_le_pos; assumption.
    + intros E. rewrite E. apply overflow_nn.
      destruct a as [?|?| |sa ? ? ?]; try discriminate. destruct b as [?|?| |sb ? ? ?]; try discriminate.
      cbn in Ea, Eb. injection Ea as <- _ _. injection Eb as <- _ _. reflexivity.
  - destruct x as [[]|[]| |[] ? ?], y as [[]|[]| |[] ? ?]; cbn in *; try easy; exfalso; apply C; easy.
Qed.

Lemma nn_div : forall x y, double x -> double y -> nn x -> pos y -> nn (SFdiv 53 1024 x y).
Proof.
  intros x y Vx Vy Nx Py.
  destruct x as [sx|[]| |[] mx ex], y as [[]|[]| |[] my ey]; try contradiction; try exact I.
  destruct (B_value _ Vx) as [a Ea]. destruct (B_value _ Vy) as [b Eb].
  pose proof (value_pos mx ex) as Px. pose proof (value_pos my ey) as Pb.
  assert (Fx : finite_ (S754_finite false mx ex)) by reflexivity.
  rewrite Ea, Eb in *. rewrite (div_same 53 1024 p53 e1024). apply finite_B in Fx. rewrite value_B in *.
  assert (Hb : B2R b <> 0) by (intros Z; rewrite Z in Pb; lra).
  generalize (Bdiv_correct 53 1024 p53 e1024 mode_NE a b Hb). destruct (Rlt_bool _ _).
  - intros (E & F & _). rewrite Fx in F. apply nn_value; [apply finite_B; exact F|]. rewrite value_B, E.
    change (0 <= rnd 53 1024 (B2R a / B2R b)). rewrite <- (rnd_0 53 1024). apply rnd_le; [exact p53|].
    apply Rmult_le_pos; [lra|]. left. apply Rinv_0_lt_compat. lra.
  - intros E. rewrite E. apply overflow_nn.
    destruct a as [?|?| |sa ? ? ?]; try discriminate. destruct b as [?|?| |sb ? ? ?]; try discriminate.
    cbn in Ea, Eb. injection Ea as <- _ _. injection Eb as <- _ _. reflexivity.
Qed.

(** A square. *)
Lemma pos_square : forall x, double x -> finite_ x -> pos (SFmul 53 1024 x x).
Proof.
  intros x V F. destruct x as [s|s| |s m e]; try discriminate; [destruct s; exact I|].
  destruct (B_value _ V) as [a Ea]. rewrite Ea in *. rewrite (mul_same 53 1024 p53 e1024). apply finite_B in F.
  generalize (Bmult_correct 53 1024 p53 e1024 mode_NE a a). destruct (Rlt_bool _ _).
  - intros (_ & F' & S). rewrite F in F'. 
    assert (NN : is_nan (Bmult (prec_gt_0_ := p53) (prec_lt_emax_ := e1024) mode_NE a a) = false)
      by (destruct (Bmult _ _ _); try discriminate; reflexivity).
    specialize (S NN). rewrite xorb_nilpotent in S.
    destruct (Bmult _ _ _); cbn in *; subst; try discriminate; exact I.
  - intros E. rewrite E, xorb_nilpotent. exact I.
Qed.

(** ** Values *)
Definition within (lo hi : R) (x : spec_float) : Prop := double x /\ finite_ x /\ lo <= value x <= hi.

Lemma small_ok : forall r, Rabs r <= bpow radix2 1000 -> Rabs (rnd 53 1024 r) < bpow radix2 1024.
Proof. intros r H. apply (rnd_bound 53 1024 p53 r 1000); [cbv; discriminate|lia|exact H]. Qed.

Lemma big_1000 : 1000 <= bpow radix2 1000.
Proof.
  apply Rle_trans with (bpow radix2 10); [|apply bpow_le; lia]. change (bpow radix2 10) with (IZR 1024). apply IZR_le. lia.
Qed.

Lemma small_ok' : forall r, -1000 <= r <= 1000 -> Rabs (rnd 53 1024 r) < bpow radix2 1024.
Proof. intros r H. apply small_ok. pose proof big_1000. apply Rabs_le. lra. Qed.

Lemma twice_exact : forall x, double x -> finite_ x -> rnd 53 1024 (2 * value x) = 2 * value x.
Proof.
  intros x V F. destruct (B_value x V) as [b ->]. rewrite value_B. apply round_generic; [apply valid_rnd_N|].
  change (generic_format radix2 (FLT_exp (3 - 1024 - 53) 53) (2 * B2R b)).
  destruct (FLT_format_generic radix2 (3 - 1024 - 53) 53 (B2R b) (generic_format_B2R 53 1024 b)) as [[m x] E M X].
  apply generic_format_FLT. exists (Float radix2 m (1 + x)).
  - rewrite E. unfold F2R. cbn [Fnum Fexp]. rewrite bpow_plus. change (bpow radix2 1) with 2. ring.
  - exact M.
  - cbn [Fexp] in *. lia.
Qed.

Lemma rnd_between : forall lo hi r, double lo -> double hi -> value lo <= r <= value hi ->
  value lo <= rnd 53 1024 r <= value hi.
Proof.
  intros lo hi r Vl Vh H. pose proof (value_format 53 1024 lo Vl) as El. pose proof (value_format 53 1024 hi Vh) as Eh.
  pose proof (rnd_le 53 1024 p53 (value lo) r ltac:(lra)). pose proof (rnd_le 53 1024 p53 r (value hi) ltac:(lra)). lra.
Qed.

Definition two : F64 := nofZ F64 2.
Lemma two_ok : double two /\ finite_ two /\ value two = 2.
Proof.
  split; [reflexivity|]. split; [reflexivity|]. change two with (S754_finite false 4503599627370496 (-51)).
  unfold value, SF2R, F2R. cbn [cond_Zopp Fnum Fexp]. change (bpow radix2 (-51)) with (/ IZR (2 ^ 51)).
  change (IZR (Z.pos 4503599627370496)) with (IZR (2 * 2 ^ 51)). rewrite mult_IZR.
  assert (IZR (2 ^ 51) <> 0) by (apply not_0_IZR; discriminate). field. assumption.
Qed.

Lemma mid_between : forall lo hi a b, double lo -> double hi -> finite_ lo -> finite_ hi -> within (-2) 2 a -> within (-2) 2 b ->
  value lo <= value a <= value hi -> value lo <= value b <= value hi ->
  let c := ndiv F64 (nadd F64 a b) (nofZ F64 2) in
  double c /\ finite_ c /\ value lo <= value c <= value hi.
Proof.
  intros lo hi a b Vl Vh Fl Fh (Va & Fa & Ha) (Vb & Fb & Hb) La Lb c. destruct two_ok as (V2 & F2 & E2).
  destruct (add_value 53 1024 p53 e1024 a b Va Vb Fa Fb) as [Fs Es]; [apply small_ok'; lra|].
  pose proof (valid_add 53 1024 p53 e1024 a b Va Vb) as Vs.
  assert (S : 2 * value lo <= value (SFadd 53 1024 a b) <= 2 * value hi).
  { rewrite Es. rewrite <- (twice_exact lo Vl Fl), <- (twice_exact hi Vh Fh).
    split; apply rnd_le; try exact p53; lra. }
  assert (S' : -4 <= value (SFadd 53 1024 a b) <= 4).
  { pose proof (twice_exact two V2 F2) as E4. rewrite E2 in E4. rewrite Es.
    pose proof (rnd_le 53 1024 p53 (value a + value b) (2 * 2) ltac:(lra)).
    pose proof (rnd_le 53 1024 p53 (- (2 * 2)) (value a + value b) ltac:(lra)) as L. rewrite rnd_opp in L. lra. }
  destruct (div_value 53 1024 p53 e1024 (SFadd 53 1024 a b) two Vs V2 Fs) as [Fc Ec].
  { rewrite E2. lra. }
  { rewrite E2. apply small_ok'. lra. }
  split; [apply (valid_div 53 1024 p53 e1024); assumption|]. split; [exact Fc|].
  change (value c) with (value (SFdiv 53 1024 (SFadd 53 1024 a b) two)). rewrite Ec, E2.
  apply rnd_between; try assumption. lra.
Qed.

(** ** Sizes *)
Lemma value_max : forall x, double x -> Rabs (value x) < bpow radix2 1024.
Proof. intros x V. destruct (B_value x V) as [b ->]. rewrite value_B. apply abs_B2R_lt_emax. Qed.

Lemma rnd_up_to : forall y r, double y -> 0 <= r <= value y -> 0 <= rnd 53 1024 r <= value y.
Proof. intros y r V H. apply (rnd_between (S754_zero false) y r); [reflexivity|exact V|exact H]. Qed.

Lemma rnd_abs : forall y r, double y -> Rabs r <= value y -> Rabs (rnd 53 1024 r) <= value y.
Proof.
  intros y r V H. apply Rabs_le. apply Rabs_le_inv in H.
  rewrite <- (value_format 53 1024 y V). rewrite <- (rnd_opp 53 1024). split; apply rnd_le; try exact p53; lra.
Qed.

Lemma fifteen : double (nofZ F64 15) /\ finite_ (nofZ F64 15) /\ value (nofZ F64 15) = 15.
Proof.
  split; [reflexivity|]. split; [reflexivity|]. change (nofZ F64 15) with (S754_finite false 8444249301319680 (-49)).
  unfold value, SF2R, F2R. cbn [cond_Zopp Fnum Fexp]. change (bpow radix2 (-49)) with (/ IZR (2 ^ 49)).
  change (IZR (Z.pos 8444249301319680)) with (IZR (15 * 2 ^ 49)). rewrite mult_IZR.
  assert (IZR (2 ^ 49) <> 0) by (apply not_0_IZR; discriminate). field. assumption.
Qed.

Lemma fin_cases : forall x, nn x -> finite_ x \/ x = S754_infinity false \/ x = S754_nan.
Proof. intros [s|[]| |s m e]; cbn; intros; try contradiction; auto; left; reflexivity. Qed.

Lemma leb_inf : forall y, SFleb (S754_infinity false) y = true -> y = S754_infinity false.
Proof. intros [s|[]| |[] m e]; cbn; intros; try discriminate; reflexivity. Qed.

Lemma finite_abs : forall x, finite_ x -> finite_ (SFabs x).
Proof. intros [| | |]; easy. Qed.

Lemma abs_inf : forall x, SFabs x = S754_infinity false -> exists s, x = S754_infinity s.
Proof. intros [|s| |] H; try discriminate. exists s. reflexivity. Qed.

Lemma mul_small : forall tol q, within 0 1 tol -> double q -> nn q -> finite_ q ->
  finite_ (SFmul 53 1024 tol q) /\ 0 <= value (SFmul 53 1024 tol q) <= value q.
Proof.
  intros tol q (Vt & Ft & Ht) V N F. apply nn_value in N; [|exact F].
  assert (B : 0 <= rnd 53 1024 (value tol * value q) <= value q).
  { apply rnd_up_to; [exact V|]. split; [apply Rmult_le_pos; lra|]. rewrite <- (Rmult_1_l (value q)) at 2. apply Rmult_le_compat_r; lra. }
  destruct (mul_value 53 1024 p53 e1024 tol q Vt V Ft F) as [F' ->].
  - rewrite Rabs_pos_eq by lra. apply Rle_lt_trans with (value q); [lra|]. rewrite <- (Rabs_pos_eq (value q)) by lra. apply value_max. exact V.
  - auto.
Qed.

Lemma accept_nn : forall tol I q1 q2, within 0 1 tol -> double I -> double q1 -> double q2 -> nn I -> nn q1 -> nn q2 ->
  let err := nabs F64 (nsub F64 q2 q1) in
  nleb F64 err (nabs F64 (nmul F64 tol q2)) = true \/ nleb F64 err (nabs F64 (nmul F64 tol I)) = true ->
  nn (nadd F64 (nadd F64 I q2) (ndiv F64 (nsub F64 q2 q1) (nofZ F64 15))).
Proof.
  intros tol I q1 q2 Ht VI V1 V2 NI N1 N2 err H. subst err. cbn [nleb nabs nsub nmul nadd ndiv F64 num] in *.
  change f64_prec with 53%Z in *. change f64_emax with 1024%Z in *.
  pose proof (valid_sub 53 1024 p53 e1024 q2 q1 V2 V1) as VD.
  destruct fifteen as (V15 & F15 & E15).
  pose proof (valid_div 53 1024 p53 e1024 _ _ VD V15) as VC.
  pose proof (valid_add 53 1024 p53 e1024 I q2 VI V2) as VS.
  pose proof (nn_add I q2 VI V2 NI N2) as NS.
  destruct (fin_cases q2 N2) as [F2|[-> | ->]].
  2:{ destruct (fin_cases q1 N1) as [F1|[-> | ->]]; [|cbn in H; destruct H; discriminate|cbn in H; destruct H; discriminate].
      destruct q1 as [s|s| |s m e]; try discriminate;
        destruct (fin_cases I NI) as [FI|[-> | ->]]; try exact Logic.I;
        destruct I; try discriminate; exact Logic.I. }
  2:{ cbn in H. destruct H; discriminate. }
  destruct (fin_cases q1 N1) as [F1|[-> | ->]].
  2:{ assert (E : SFsub 53 1024 q2 (S754_infinity false) = S754_infinity true) by (destruct q2; try discriminate; reflexivity).
      rewrite E in *. cbn [SFabs] in H.
      assert (Q : I = S754_infinity false \/ I = S754_nan).
      { destruct H as [H|H]; apply leb_inf in H; apply abs_inf in H; destruct H as [s H].
        - destruct (mul_small tol q2 Ht V2 N2 F2) as [F _]. rewrite H in F. discriminate.
        - destruct (fin_cases I NI) as [FI|C]; [|exact C].
          destruct (mul_small tol I Ht VI NI FI) as [F _]. rewrite H in F. discriminate. }
      destruct Q as [-> | ->]; destruct q2; try discriminate; exact Logic.I. }
  2:{ replace (SFsub 53 1024 q2 S754_nan) with S754_nan in H by (destruct q2; reflexivity).
      cbn in H. destruct H; discriminate. }
  assert (P2 := proj1 (nn_value q2 F2) N2). assert (P1 := proj1 (nn_value q1 F1) N1).
  (* both finite *)
  assert (DB : Rabs (rnd 53 1024 (value q2 - value q1)) < bpow radix2 1024).
  { apply Rle_lt_trans with (Rmax (value q1) (value q2)).
    - apply Rabs_le. unfold Rmax. destruct (Rle_dec (value q1) (value q2)).
      + apply Rabs_le_inv. apply rnd_abs; [exact V2|]. apply Rabs_le. lra.
      + apply Rabs_le_inv. apply rnd_abs; [exact V1|]. apply Rabs_le. lra.
    - unfold Rmax. destruct (Rle_dec _ _).
      + rewrite <- (Rabs_pos_eq (value q2)) by lra. apply value_max. exact V2.
      + rewrite <- (Rabs_pos_eq (value q1)) by lra. apply value_max. exact V1. }
  destruct (sub_value 53 1024 p53 e1024 q2 q1 V2 V1 F2 F1 DB) as [FD ED].
  set (D := SFsub 53 1024 q2 q1) in *.
  assert (CB : Rabs (rnd 53 1024 (value D / value (nofZ F64 15))) <= Rabs (value D)).
  { rewrite E15. rewrite <- abs_value. apply rnd_abs; [apply valid_abs; exact VD|].
    rewrite abs_value. unfold Rdiv. rewrite Rabs_mult, (Rabs_pos_eq (/ 15)) by lra.
    pose proof (Rabs_pos (value D)). lra. }
  destruct (div_value 53 1024 p53 e1024 D (nofZ F64 15) VD V15 FD) as [FC EC].
  { rewrite E15. lra. }
  { apply Rle_lt_trans with (1 := CB). apply value_max. exact VD. }
  assert (CD : Rabs (value (SFdiv 53 1024 D (nofZ F64 15))) <= Rabs (value D)) by (rewrite EC; exact CB).
  set (C := SFdiv 53 1024 D (nofZ F64 15)) in *.
  destruct (fin_cases I NI) as [FI|[-> | ->]].
  2:{ clear - F2 FC. destruct q2; try discriminate; cbn in *; destruct C; try discriminate; exact Logic.I. }
  2:{ exact Logic.I. }
  assert (PI := proj1 (nn_value I FI) NI).
  assert (DM : Rabs (value D) <= Rmax (value I) (value q2)).
  { destruct H as [H|H].
    - destruct (mul_small tol q2 Ht V2 N2 F2) as [FM BM].
      apply (leb_value 53 1024) in H; try (apply valid_abs); try exact VD; try (apply finite_abs); try assumption;
        try (apply (valid_mul 53 1024 p53 e1024); [apply Ht|assumption]).
      rewrite !abs_value in H. rewrite (Rabs_pos_eq (value (SFmul _ _ _ _))) in H by lra.
      apply Rle_trans with (value q2); [lra|apply Rmax_r].
    - destruct (mul_small tol I Ht VI NI FI) as [FM BM].
      apply (leb_value 53 1024) in H; try (apply valid_abs); try exact VD; try (apply finite_abs); try assumption;
        try (apply (valid_mul 53 1024 p53 e1024); [apply Ht|assumption]).
      rewrite !abs_value in H. rewrite (Rabs_pos_eq (value (SFmul _ _ _ _))) in H by lra.
      apply Rle_trans with (value I); [lra|apply Rmax_l]. }
  destruct (fin_cases _ NS) as [FS|[ES|ES]].
  2:{ rewrite ES. clear - FC. destruct C; try discriminate; exact Logic.I. }
  2:{ rewrite ES. exact Logic.I. }
  apply nn_add_fin; try assumption.
  assert (SM : Rmax (value I) (value q2) <= value (SFadd 53 1024 I q2)).
  { destruct (Rlt_dec (Rabs (rnd 53 1024 (value I + value q2))) (bpow radix2 1024)) as [L|L].
    - destruct (add_value 53 1024 p53 e1024 I q2 VI V2 FI F2 L) as [_ ->].
      unfold Rmax. destruct (Rle_dec _ _).
      + rewrite <- (value_format 53 1024 q2 V2) at 1. apply rnd_le; [exact p53|lra].
      + rewrite <- (value_format 53 1024 I VI) at 1. apply rnd_le; [exact p53|lra].
    - exfalso. destruct (B_value I VI) as [bi Ei]. destruct (B_value q2 V2) as [bq Eq].
      rewrite Ei, Eq in *. rewrite (add_same 53 1024 p53 e1024) in *. apply finite_B in FI. apply finite_B in F2. rewrite !value_B in L.
      generalize (Bplus_correct 53 1024 p53 e1024 mode_NE bi bq FI F2).
      rewrite Rlt_bool_false by (apply Rnot_lt_le; exact L). intros (E & _). rewrite E in FS. discriminate FS. }
  apply Rabs_le_inv in CD. lra.
Qed.
