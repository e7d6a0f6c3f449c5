(** * The standard normal distribution satisfies [normal_ok]

    The distribution function is the integral of exp(-t^2/2), divided by the
    total; the total is obtained as a supremum (its value, the square root of
    two pi, is not needed). *)
From Coq Require Import Reals Lra.
From Coquelicot Require Import Coquelicot.
From Verif Require Import ERmath Lognormal_spec.
Local Open Scope R_scope.

Definition bell (t : R) : R := exp (- (t * t) / 2).

Lemma bell_pos : forall t, 0 < bell t.
Proof. intros. apply exp_pos. Qed.

Lemma bell_cont : forall t, continuous bell t.
Proof.
  intros t. apply (ex_derive_continuous (V := R_NormedModule)). unfold bell. auto_derive. trivial.
Qed.

Lemma bell_int : forall a b, ex_RInt bell a b.
Proof. intros. apply (ex_RInt_continuous (V := R_CompleteNormedModule)). intros. apply bell_cont. Qed.

Definition area (x : R) : R := RInt bell 0 x.

Lemma area_diff : forall x y, area y - area x = RInt bell x y.
Proof.
  intros x y. unfold area.
  assert (H : RInt bell 0 x + RInt bell x y = RInt bell 0 y)
    by exact (RInt_Chasles bell 0 x y (bell_int 0 x) (bell_int x y)).
  lra.
Qed.

Lemma area_increasing : forall x y, x < y -> area x < area y.
Proof.
  intros x y H. assert (0 < RInt bell x y).
  { apply RInt_gt_0; auto; intros; [apply bell_pos|apply bell_cont]. }
  pose proof (area_diff x y). lra.
Qed.

Lemma area_0 : area 0 = 0.
Proof. unfold area. rewrite RInt_point. reflexivity. Qed.

Lemma area_odd : forall x, area (- x) = - area x.
Proof.
  intros x. unfold area.
  assert (H : is_RInt bell (- 0) (- x) (RInt bell 0 (- x))).
  { rewrite Ropp_0. apply (RInt_correct bell). apply bell_int. }
  apply is_RInt_comp_opp in H.
  apply (is_RInt_ext _ (fun y => opp (bell y))) in H.
  - pose proof (is_RInt_unique (V := R_CompleteNormedModule) _ _ _ _ H) as E. rewrite <- E.
    apply (RInt_opp (V := R_CompleteNormedModule) bell 0 x). apply bell_int.
  - intros y _. unfold bell. f_equal. f_equal. lra.
Qed.

Lemma area_cont : continuity area.
Proof.
  intros x. apply continuity_pt_filterlim. apply (ex_derive_continuous (V := R_NormedModule)).
  exists (bell x). apply (is_derive_RInt (V := R_NormedModule) bell area 0 x).
  - exists (mkposreal 1 Rlt_0_1). intros y _. apply (RInt_correct bell 0 y). apply bell_int.
  - apply bell_cont.
Qed.

Lemma area_bound : forall x, area x <= 2 * atan (Rabs x).
Proof.
  intros x. destruct (Rle_lt_dec 0 x) as [H|H].
  - rewrite Rabs_pos_eq by auto.
    assert (I : is_RInt (fun t => 2 * / (1 + t * t)) 0 x (2 * atan x)).
    { replace (2 * atan x) with (minus (2 * atan x) (2 * atan 0)).
      - apply (is_RInt_derive (V := R_CompleteNormedModule) (fun t => 2 * atan t)).
        + intros t _. auto_derive; auto. unfold Rsqr. field. pose proof (Rle_0_sqr t) as Q. unfold Rsqr in Q. lra.
        + intros t _. apply (ex_derive_continuous (V := R_NormedModule)). auto_derive.
          pose proof (Rle_0_sqr t) as Q. unfold Rsqr in Q. lra.
      - unfold minus, plus, opp. cbn. rewrite atan_0. lra. }
    rewrite <- (is_RInt_unique _ _ _ _ I). unfold area. apply RInt_le; auto.
    + apply bell_int.
    + eexists. exact I.
    + intros t _. unfold bell. pose proof (Rle_0_sqr t) as Q. unfold Rsqr in Q.
      pose proof (exp_ineq1_le (t * t / 2)) as E.
      replace (- (t * t) / 2) with (- (t * t / 2)) by lra. rewrite exp_Ropp.
      apply Rle_trans with (/ (1 + t * t / 2)); [apply Rinv_le_contravar; lra|].
      replace (2 * / (1 + t * t)) with (/ ((1 + t * t) / 2)) by (field; lra).
      apply Rinv_le_contravar; lra.
  - apply Rle_trans with 0.
    + apply area_increasing in H. rewrite area_0 in H. lra.
    + assert (0 < Rabs x) by (apply Rabs_pos_lt; lra). apply atan_increasing in H0. rewrite atan_0 in H0. lra.
Qed.

(** The total. *)
Definition half_total : { m | is_lub (fun y => exists x, y = area x) m }.
Proof.
  apply completeness.
  - exists PI. intros y [x ->]. pose proof (area_bound x). pose proof (atan_bound (Rabs x)). lra.
  - exists (area 0), 0. reflexivity.
Qed.

Definition ht : R := proj1_sig half_total.

Lemma area_below : forall x, area x < ht.
Proof.
  intros x. unfold ht. destruct half_total as [m [U L]]. cbn [proj1_sig].
  assert (area (x + 1) <= m) by (apply U; eauto). pose proof (area_increasing x (x + 1) ltac:(lra)). lra.
Qed.

Lemma area_above : forall x, - ht < area x.
Proof. intros x. pose proof (area_below (- x)) as H. rewrite area_odd in H. lra. Qed.

Lemma ht_pos : 0 < ht.
Proof. pose proof (area_below 0). rewrite area_0 in H. auto. Qed.

Lemma area_reaches : forall y, 0 <= y < ht -> exists x, y < area x.
Proof.
  intros y [_ H]. unfold ht in H. destruct half_total as [m [U L]]. cbn [proj1_sig] in H.
  destruct (Classical_Prop.classic (exists x, y < area x)) as [Q|Q]; auto.
  exfalso. assert (m <= y); [|lra]. apply L. intros z [x ->].
  destruct (Rle_lt_dec (area x) y); auto. exfalso. apply Q. eauto.
Qed.

Lemma area_onto : forall y, - ht < y < ht -> exists x, area x = y.
Proof.
  assert (P : forall y, 0 <= y < ht -> exists x, area x = y).
  { intros y H. destruct (area_reaches y H) as [b Hb].
    destruct (IVT_gen area 0 b y area_cont) as [x [_ E]]; eauto.
    rewrite area_0. unfold Rmin, Rmax. destruct (Rle_dec 0 (area b)); lra. }
  intros y H. destruct (Rle_lt_dec 0 y) as [Hy|Hy]; [apply P; lra|].
  destruct (P (- y)) as [x E]; [lra|]. exists (- x). rewrite area_odd. lra.
Qed.

Definition phi (x : R) : R := (1 + area x / ht) / 2.

Lemma phi_area : forall x, phi x = 1 / 2 + area x * / (2 * ht).
Proof. intros. unfold phi. pose proof ht_pos. field. lra. Qed.

Lemma phi_increasing : forall x y, x < y -> phi x < phi y.
Proof.
  intros x y H. rewrite !phi_area. apply Rplus_lt_compat_l. apply Rmult_lt_compat_r.
  - apply Rinv_0_lt_compat. pose proof ht_pos. lra.
  - apply area_increasing. auto.
Qed.

Lemma phi_range : forall x, 0 < phi x < 1.
Proof.
  intros x. pose proof ht_pos as Hp. pose proof (area_below x). pose proof (area_above x).
  assert (area x / ht < 1) by (apply Rlt_div_l; auto; lra).
  assert (-1 < area x / ht) by (apply Rlt_div_r; auto; lra).
  unfold phi. lra.
Qed.

Lemma phi_onto : forall p, 0 < p < 1 -> exists x, phi x = p.
Proof.
  intros p H. pose proof ht_pos. destruct (area_onto ((2 * p - 1) * ht)) as [x E].
  - split; nra.
  - exists x. rewrite phi_area, E. field. lra.
Qed.

(** The inverse. *)
Definition phi_inv (p : R) : R.
Proof.
  destruct (Rlt_dec 0 p) as [H0|_]; [|exact 0]. destruct (Rlt_dec p 1) as [H1|_]; [|exact 0].
  refine (proj1_sig (completeness (fun x => phi x <= p) _ _)).
  - destruct (phi_onto p (conj H0 H1)) as [z E]. exists z. intros x Hx.
    destruct (Rle_lt_dec x z); auto. apply phi_increasing in r. lra.
  - destruct (phi_onto p (conj H0 H1)) as [z E]. exists z. lra.
Defined.

Lemma phi_phi_inv : forall p, 0 < p < 1 -> phi (phi_inv p) = p.
Proof.
  intros p [H0 H1]. unfold phi_inv. destruct (Rlt_dec 0 p) as [H0'|]; [|contradiction].
  destruct (Rlt_dec p 1) as [H1'|]; [|contradiction].
  match goal with |- phi (proj1_sig ?c) = _ => destruct c as [m [U L]] end. cbn.
  destruct (phi_onto p (conj H0 H1)) as [z E].
  assert (z <= m) by (apply U; lra).
  assert (m <= z).
  { apply L. intros x Hx. destruct (Rle_lt_dec x z); auto. apply phi_increasing in r. lra. }
  replace m with z by lra. auto.
Qed.

Definition gauss : normal := Normal phi phi_inv.

Theorem gauss_ok : normal_ok gauss.
Proof.
  constructor; cbn.
  - apply phi_range.
  - apply phi_increasing.
  - intros x. rewrite !phi_area, area_odd. lra.
  - apply phi_phi_inv.
Qed.
