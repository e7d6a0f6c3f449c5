(** * Proofs about lognormal distributions *)
From Coq Require Import Reals List Bool Lra Lia Permutation.
From Verif Require Import Num ER ER_proofs ERmath Lognormal Lognormal_spec.
Import ListNotations.
Local Open Scope R_scope.

(** ** Elementary functions *)

Lemma er_log_pos : forall x, 0 < x -> er_log (Fin x) = Fin (ln x).
Proof.
  intros x H. cbn. rewrite (proj2 (Rltb_false x 0)) by lra. rewrite (proj2 (Reqb_false x 0)) by lra. reflexivity.
Qed.
Lemma er_log_zero : er_log (Fin 0) = MInf.
Proof. cbn. rewrite (proj2 (Rltb_false 0 0)) by lra. rewrite (proj2 (Reqb_true 0 0)) by lra. reflexivity. Qed.
Lemma er_log_neg : forall x, x < 0 -> er_log (Fin x) = NaN.
Proof. intros x H. cbn. rewrite (proj2 (Rltb_true x 0)) by lra. reflexivity. Qed.
Lemma er_sqrt_pos : forall x, 0 <= x -> er_sqrt (Fin x) = Fin (sqrt x).
Proof. intros x H. cbn. rewrite (proj2 (Rltb_false x 0)) by lra. reflexivity. Qed.
Lemma er_half : forall x, er_div (Fin x) (Fin 2) = Fin (x / 2).
Proof. intros. apply er_div_fin. lra. Qed.
Lemma er_eqb_fin0 : forall x, x <> 0 -> er_eqb (Fin x) (Fin 0) = false.
Proof. intros x H. cbn. apply Reqb_false. exact H. Qed.
Lemma er_eqb_00 : er_eqb (Fin 0) (Fin 0) = true.
Proof. cbn. apply Reqb_true. reflexivity. Qed.
Lemma exp_ge_1 : forall x, 0 <= x -> 1 <= exp x.
Proof. intros x H. destruct H as [H|H]; [|rewrite <- H, exp_0; lra]. left. rewrite <- exp_0. apply exp_increasing. auto. Qed.
Lemma sqr_pos : forall s, 0 <= s * s.
Proof. intros. apply Rle_0_sqr. Qed.
Lemma exp_sq : forall x, exp (2 * x) = exp x * exp x.
Proof. intros. rewrite <- exp_plus. f_equal. lra. Qed.

(** ** Figures *)

Lemma mean_proper : forall m s, get_mean_X (LND (Fin m) (Fin s)) = Fin (exp (m + s * s / 2)).
Proof. intros. unfold get_mean_X. cbn [mu_lnX sigma_lnX er_eqb er_mul]. rewrite er_half. reflexivity. Qed.

Lemma sd_proper : forall m s, get_sigma_X (LND (Fin m) (Fin s)) = Fin (sqrt ((exp (s * s) - 1) * exp (2 * m + s * s))).
Proof.
  intros. unfold get_sigma_X, get_sigma_lnX. rewrite mean_proper. cbn [mu_lnX sigma_lnX er_eqb er_mul er_exp].
  rewrite er_sub_fin. pose proof (exp_ge_1 (s * s) (sqr_pos s)).
  rewrite er_sqrt_pos by lra. cbn [er_mul]. f_equal.
  rewrite sqrt_mult; [|lra|left; apply exp_pos].
  replace (2 * m + s * s) with (2 * (m + s * s / 2)) by lra. rewrite exp_sq, sqrt_square; [|left; apply exp_pos]. lra.
Qed.

Lemma moments_mean : forall d a v, moments d a v -> get_mean_X d = Fin a /\ 0 <= a.
Proof.
  intros d a v [(m & s & [-> H] & -> & ->)|[(s & -> & H) [-> ->]]].
  - split; [apply mean_proper|left; apply exp_pos].
  - split; [reflexivity|lra].
Qed.

Lemma moments_sd : forall d a v, moments d a v -> get_sigma_X d = Fin (sqrt v) /\ 0 <= v.
Proof.
  intros d a v [(m & s & [-> H] & -> & ->)|[(s & -> & H) [-> ->]]].
  - split; [apply sd_proper|]. apply Rmult_le_pos; [|left; apply exp_pos].
    pose proof (exp_ge_1 (s * s) (sqr_pos s)). lra.
  - split; [|lra]. rewrite sqrt_0. reflexivity.
Qed.

Lemma moments_zero : forall d a v, moments d a v -> a = 0 -> v = 0.
Proof.
  intros d a v [(m & s & [-> H] & -> & ->)|[(s & -> & H) [-> ->]]] E; auto.
  pose proof (exp_pos (m + s * s / 2)). lra.
Qed.

(** ** Construction *)

Lemma mu_of_mean : forall a s, 0 < a -> mu_from_mean (Fin a) (Fin s) = Fin (ln a - s * s / 2).
Proof. intros. unfold mu_from_mean. rewrite er_log_pos by auto. cbn [er_mul]. rewrite er_half. reflexivity. Qed.

Lemma mu_of_zero : forall s, mu_from_mean (Fin 0) (Fin s) = MInf.
Proof. intros. unfold mu_from_mean. rewrite er_log_zero. cbn [er_mul]. rewrite er_half. reflexivity. Qed.

Lemma sigma_of_sd : forall a b, 0 < a -> sigma_from_sd (Fin a) (Fin b) = Fin (sqrt (ln (1 + b * b / (a * a)))) /\
  0 <= ln (1 + b * b / (a * a)).
Proof.
  intros a b H. unfold sigma_from_sd. rewrite er_eqb_fin0 by lra. cbn [er_mul].
  assert (Ha : 0 < a * a) by (apply Rmult_lt_0_compat; auto).
  rewrite er_div_fin by lra. cbn [er_add].
  assert (Hq : 0 <= b * b / (a * a)).
  { apply Rmult_le_pos; [apply sqr_pos|]. left. apply Rinv_0_lt_compat. auto. }
  rewrite er_log_pos by lra.
  assert (0 <= ln (1 + b * b / (a * a))).
  { rewrite <- ln_1. destruct Hq as [Hq|Hq]; [left; apply ln_increasing; lra|rewrite <- Hq, Rplus_0_r; lra]. }
  rewrite er_sqrt_pos by auto. auto.
Qed.

Lemma from_sd_moments : forall a v, 0 <= a -> 0 <= v -> (a = 0 -> v = 0) ->
  moments (from_mean_sd (Fin a) (Fin (sqrt v))) a v.
Proof.
  intros a v Ha Hv Hz. destruct Ha as [Ha|Ha].
  - destruct (sigma_of_sd a (sqrt v) Ha) as [E H]. rewrite sqrt_sqrt in E, H by auto.
    unfold from_mean_sd. rewrite E. set (w := ln (1 + v / (a * a))) in *.
    rewrite mu_of_mean by auto. rewrite sqrt_sqrt by auto.
    assert (Ha2 : 0 < a * a) by (apply Rmult_lt_0_compat; auto).
    assert (Hq : 0 <= v / (a * a)) by (apply Rmult_le_pos; [auto|left; apply Rinv_0_lt_compat; auto]).
    left. exists (ln a - w / 2), (sqrt w). split; [split; [reflexivity|apply sqrt_pos]|].
    rewrite sqrt_sqrt by auto. split.
    + replace (ln a - w / 2 + w / 2) with (ln a) by lra. rewrite exp_ln; auto.
    + replace (2 * (ln a - w / 2) + w) with (2 * ln a) by lra. rewrite exp_sq, exp_ln by auto.
      unfold w. rewrite exp_ln by lra. field. lra.
  - subst a. rewrite Hz by auto. right. split; [|auto]. exists 0. split; [|lra].
    unfold from_mean_sd, sigma_from_sd. rewrite er_eqb_00, mu_of_zero. reflexivity.
Qed.

Lemma moments_unique : forall d e a v, moments d a v -> moments e a v -> same_cost d e.
Proof.
  intros d e a v [(m & s & [-> H] & E1 & E2)|[Z [E1 E2]]] [(m' & s' & [-> H'] & E1' & E2')|[Z' [E1' E2']]].
  - left. assert (Es : s = s').
    { assert (Hexp : forall n t, exp (2 * n + t * t) = exp (n + t * t / 2) * exp (n + t * t / 2)).
      { intros. rewrite <- exp_sq. f_equal. lra. }
      rewrite Hexp, <- E1 in E2. rewrite Hexp, <- E1' in E2'.
      assert (Ha : 0 < a) by (rewrite E1; apply exp_pos).
      assert (Hn : a * a <> 0) by (intros Q; apply Rmult_integral in Q; lra).
      assert (exp (s * s) = exp (s' * s')).
      { apply (Rmult_eq_reg_r (a * a)) with (r1 := exp (s * s) - 1) (r2 := exp (s' * s') - 1) in Hn; [lra|].
        rewrite <- E2, <- E2'. reflexivity. }
      apply exp_inv in H0. apply Rsqr_inj; auto. }
    subst s'. rewrite E1 in E1'. apply exp_inv in E1'. assert (m = m') by lra. subst. reflexivity.
  - pose proof (exp_pos (m + s * s / 2)). lra.
  - pose proof (exp_pos (m' + s' * s' / 2)). lra.
  - right. auto.
Qed.

Lemma moments_fun : forall d a v a' v', moments d a v -> moments d a' v' -> a = a' /\ v = v'.
Proof.
  intros d a v a' v' H H'.
  destruct (moments_mean _ _ _ H) as [E1 _], (moments_mean _ _ _ H') as [E1' _].
  destruct (moments_sd _ _ _ H) as [E2 P], (moments_sd _ _ _ H') as [E2' P'].
  rewrite E1 in E1'. rewrite E2 in E2'. inversion E1'. inversion E2'. split; auto.
  apply sqrt_inj; auto.
Qed.

Lemma same_moments : forall d e a v, same_cost d e -> moments d a v -> moments e a v.
Proof.
  intros d e a v [->|[Z Z']] H; auto. destruct Z as (s & -> & Hs). destruct Z' as (s' & -> & Hs').
  destruct H as [(m & x & [Q _] & _)|[_ [-> ->]]]; [discriminate|]. right. split; auto. exists s'; auto.
Qed.

(** ** C30 *)

Theorem round_trip : forall mt st a b,
  supported mt st -> (mt = MEAN_LN_X \/ 0 < a) -> 0 <= b ->
  let d := make (Fin a) mt (Fin b) st in
  location mt d = Fin a /\ spread st d = Fin b /\ consistent d.
Proof.
  intros mt st a b Hs Ha Hb d.
  assert (Cs : forall m s, 0 <= s -> consistent (LND (Fin m) (Fin s))).
  { intros m s H. exists m, s. repeat split; auto; [apply mean_proper|apply sd_proper]. }
  destruct mt, st; cbn [make] in d; subst d; try (destruct Hs; discriminate).
  - repeat split; auto.
  - destruct Ha as [Ha|Ha]; [discriminate|]. unfold from_mean_sdln. rewrite mu_of_mean by auto.
    split; [|split; [reflexivity|apply Cs; auto]]. cbn [location]. rewrite mean_proper.
    replace (ln a - b * b / 2 + b * b / 2) with (ln a) by lra. rewrite exp_ln; auto.
  - destruct Ha as [Ha|Ha]; [discriminate|].
    pose proof (from_sd_moments a (b * b) ltac:(lra) (sqr_pos b) ltac:(lra)) as M.
    rewrite sqrt_square in M by auto. destruct (moments_mean _ _ _ M) as [M1 _]. destruct (moments_sd _ _ _ M) as [M2 _].
    rewrite sqrt_square in M2 by auto. cbn [location spread]. split; auto. split; auto.
    destruct M as [(m & s & [-> H] & _)|[_ [Q _]]]; [apply Cs; auto|lra].
  - destruct Ha as [Ha|Ha]; [discriminate|]. unfold from_median_sdln. rewrite er_log_pos by auto.
    split; [|split; [reflexivity|apply Cs; auto]]. cbn. rewrite exp_ln; auto.
Qed.

Theorem no_combination : forall mt st mu sigma, ~ supported mt st -> all_nan (make mu mt sigma st).
Proof.
  intros mt st mu sigma H. destruct mt, st; cbn [make]; try (exfalso; apply H; unfold supported; auto; fail);
    repeat split.
Qed.

(** ** C31 *)

Section Normal.

Variable N : normal.
Hypothesis OK : normal_ok N.

Lemma quantile_cdf : forall x, quantile N (cdf N x) = x.
Proof.
  intros x. pose proof (cdf_quantile N OK (cdf N x) (cdf_range N OK x)) as E.
  destruct (Rtotal_order (quantile N (cdf N x)) x) as [H|[H|H]]; auto;
    apply (cdf_increasing N OK) in H; lra.
Qed.

Lemma cdf_mono : forall x y, x <= y -> cdf N x <= cdf N y.
Proof. intros x y [H|H]; [left; apply (cdf_increasing N OK); auto|subst; lra]. Qed.

(** The standardised value. *)
Definition z_of (d : lnd) (x : er) : er := er_div (er_sub (er_log x) (mu_lnX d)) (sigma_lnX d).

Lemma gsl_P_nonneg : forall u, er_ltb (gsl_P N u) (Fin 0) = false.
Proof. intros [| | |u]; cbn; auto; apply Rltb_false; try lra. pose proof (cdf_range N OK u). lra. Qed.
Lemma gsl_Q_nonneg : forall u, er_ltb (gsl_Q N u) (Fin 0) = false.
Proof. intros [| | |u]; cbn; auto; apply Rltb_false; try lra. pose proof (cdf_range N OK u). lra. Qed.

Lemma at_most_z : forall d x, mu_lnX d <> NaN -> p_at_most N d x = gsl_P N (z_of d x).
Proof.
  intros [m s] x H. unfold p_at_most, gsl_lognormal_P, z_of. cbn in *.
  destruct m; try contradiction; cbn [er_isnan andb]; rewrite gsl_P_nonneg; reflexivity.
Qed.
Lemma at_least_z : forall d x, mu_lnX d <> NaN -> p_at_least N d x = gsl_Q N (z_of d x).
Proof.
  intros [m s] x H. unfold p_at_least, gsl_lognormal_Q, z_of. cbn in *.
  destruct m; try contradiction; cbn [er_isnan andb]; rewrite gsl_Q_nonneg; reflexivity.
Qed.

Lemma complement_z : forall u, u <> NaN -> complementary (gsl_Q N u) (gsl_P N u).
Proof.
  intros [| | |u] H; try contradiction; cbn.
  - exists 0, 1. repeat split; lra.
  - exists 1, 0. repeat split; lra.
  - exists (1 - cdf N u), (cdf N u). pose proof (cdf_range N OK u). repeat split; lra.
Qed.

Lemma z_defined : forall d x, comparable d x -> z_of d x <> NaN.
Proof.
  intros [m s] x (Ha & s' & E & Hs & Hm). unfold z_of. cbn [mu_lnX sigma_lnX] in *. subst s.
  assert (Zi : Rltb s' 0 = false) by (apply Rltb_false; lra).
  destruct Ha as [->|(r & -> & Hr)].
  - cbn [er_log]. destruct m; try contradiction; cbn; rewrite ?Zi; discriminate.
  - destruct Hr as [Hr|Hr].
    + rewrite er_log_pos by auto. destruct m as [| | |m]; try contradiction; cbn -[er_div]; try (cbn; rewrite ?Zi; discriminate).
      destruct (Req_dec s' 0) as [->|Hn].
      * cbn. rewrite (proj2 (Reqb_true 0 0)) by auto. unfold er_inf_times.
        assert (ln r + - m <> 0). { intros Q. apply Hm; auto. f_equal. replace m with (ln r) by lra. rewrite exp_ln; auto. }
        destruct (Rltb 0 (ln r + - m)) eqn:B1; [discriminate|]. destruct (Rltb (ln r + - m) 0) eqn:B2; [discriminate|].
        apply Rltb_false in B1. apply Rltb_false in B2. lra.
      * rewrite er_div_fin by auto. discriminate.
    + subst r. rewrite er_log_zero. destruct m; try contradiction; cbn; rewrite ?Zi; discriminate.
Qed.

Lemma not_nan_mu : forall d x, comparable d x -> mu_lnX d <> NaN.
Proof. intros d x (_ & s & _ & _ & H) E. rewrite E in H. exact H. Qed.

Theorem probabilities : forall d x, comparable d x -> complementary (p_at_least N d x) (p_at_most N d x).
Proof.
  intros d x H. pose proof (not_nan_mu _ _ H). rewrite at_most_z, at_least_z by auto.
  apply complement_z. apply z_defined. auto.
Qed.

Lemma gsl_P_mono : forall u v, er_leb u v = true ->
  exists p q, gsl_P N u = Fin p /\ gsl_P N v = Fin q /\ p <= q.
Proof.
  intros u v H. pose proof (cdf_range N OK) as Cr.
  destruct u as [| | |u], v as [| | |v]; cbn in H; try discriminate; cbn;
    try (eexists _, _; repeat split; lra).
  - eexists _, _; repeat split. specialize (Cr v); lra.
  - eexists _, _; repeat split. specialize (Cr u); lra.
  - eexists _, _; repeat split. apply cdf_mono. apply Rleb_true. auto.
Qed.

Lemma er_leb_div : forall a b s, 0 <= s -> er_leb a b = true -> er_div a (Fin s) <> NaN -> er_div b (Fin s) <> NaN ->
  er_leb (er_div a (Fin s)) (er_div b (Fin s)) = true.
Proof.
  intros a b s Hs H Ha Hb. assert (Zi : Rltb s 0 = false) by (apply Rltb_false; lra).
  destruct (Req_dec s 0) as [->|Hn].
  - assert (R0 : Reqb 0 0 = true) by (apply Reqb_true; auto).
    destruct a as [| | |a], b as [| | |b]; cbn in H; try discriminate; cbn in *; rewrite ?Zi, ?R0 in *; auto;
      unfold er_inf_times in *.
    + destruct (Rltb 0 b); auto. destruct (Rltb b 0); auto.
    + destruct (Rltb 0 a); auto. destruct (Rltb a 0); auto.
    + apply Rleb_true in H. destruct (Rltb 0 a) eqn:B1.
      * apply Rltb_true in B1. rewrite (proj2 (Rltb_true 0 b)) by lra. auto.
      * destruct (Rltb a 0) eqn:B2; [|contradiction].
        destruct (Rltb 0 b); auto. destruct (Rltb b 0); auto.
  - assert (R0 : Reqb s 0 = false) by (apply Reqb_false; auto).
    destruct a as [| | |a], b as [| | |b]; cbn in H; try discriminate; cbn in *; rewrite ?Zi, ?R0 in *; auto.
    apply Rleb_true in H. apply Rleb_true. apply Rmult_le_compat_r; auto. left. apply Rinv_0_lt_compat. lra.
Qed.

Lemma log_mono : forall x y, amount x -> amount y -> up_to x y -> er_leb (er_log x) (er_log y) = true.
Proof.
  intros x y [->|(a & -> & Ha)] [->|(b & -> & Hb)] [E|(a' & b' & E1 & E2 & Hl)]; try discriminate; auto.
  - destruct Ha as [Ha|Ha]; [rewrite er_log_pos by auto|subst; rewrite er_log_zero]; reflexivity.
  - inversion E1; inversion E2; subst. destruct Ha as [Ha|Ha].
    + rewrite !er_log_pos by lra. cbn. apply Rleb_true. destruct Hl as [Hl|Hl]; [left; apply ln_increasing; auto|subst; lra].
    + subst. rewrite er_log_zero. destruct Hb as [Hb|Hb]; [rewrite er_log_pos by auto|subst; rewrite er_log_zero]; reflexivity.
Qed.

Lemma er_sub_mono : forall a b m, er_leb a b = true -> er_sub a m <> NaN -> er_sub b m <> NaN ->
  er_leb (er_sub a m) (er_sub b m) = true.
Proof.
  intros [| | |a] [| | |b] [| | |m] H Ha Hb; cbn in *; try discriminate; auto; try (exfalso; auto; fail).
  apply Rleb_true in H. apply Rleb_true. lra.
Qed.

Lemma div_nan : forall a s, er_div a s <> NaN -> a <> NaN.
Proof. intros a s H ->. apply H. reflexivity. Qed.

Theorem at_most_monotone : forall d x y, comparable d x -> comparable d y -> up_to x y ->
  exists p q, p_at_most N d x = Fin p /\ p_at_most N d y = Fin q /\ p <= q.
Proof.
  intros d x y Hx Hy Hxy. rewrite !at_most_z by (eapply not_nan_mu; eauto).
  apply gsl_P_mono. pose proof (z_defined _ _ Hx) as Dx. pose proof (z_defined _ _ Hy) as Dy.
  unfold z_of in *. destruct Hx as (Ax & s & E & Hs & _), Hy as (Ay & _). rewrite E in *.
  apply er_leb_div; auto. apply er_sub_mono; [apply log_mono; auto| |]; eapply div_nan; eauto.
Qed.

Lemma exp_not_neg : forall u, er_ltb (er_exp u) (Fin 0) = false.
Proof. intros [| | |u]; cbn; auto; apply Rltb_false; try lra. left. apply exp_pos. Qed.

Lemma x_at_p_mid : forall m s p, 0 < p < 1 ->
  x_at_p N (LND (Fin m) (Fin s)) (Fin p) = Fin (exp (m + s * quantile N p)).
Proof.
  intros m s p H. unfold x_at_p, gsl_lognormal_Pinv. cbn [mu_lnX sigma_lnX er_eqb].
  rewrite (proj2 (Reqb_false p 1)), (proj2 (Reqb_false p 0)) by lra.
  rewrite exp_not_neg. cbn [gsl_Pinv].
  rewrite (proj2 (Reqb_false p 1)), (proj2 (Reqb_false p 0)) by lra.
  rewrite (proj2 (Rltb_false p 0)), (proj2 (Rltb_false 1 p)) by lra. reflexivity.
Qed.

Lemma at_most_mid : forall m s x, 0 < s -> 0 < x ->
  p_at_most N (LND (Fin m) (Fin s)) (Fin x) = Fin (cdf N ((ln x - m) / s)).
Proof.
  intros m s x Hs Hx. rewrite at_most_z by discriminate. unfold z_of. cbn [mu_lnX sigma_lnX].
  rewrite er_log_pos by auto. rewrite er_sub_fin, er_div_fin by lra. reflexivity.
Qed.

Theorem quantiles : forall m s, 0 < s ->
  let d := LND (Fin m) (Fin s) in
  (forall p, 0 < p < 1 -> exists x, x_at_p N d (Fin p) = Fin x /\ 0 < x /\ p_at_most N d (Fin x) = Fin p) /\
  (forall x p, 0 < x -> p_at_most N d (Fin x) = Fin p -> x_at_p N d (Fin p) = Fin x) /\
  x_at_p N d (Fin 0) = Fin 0 /\ p_at_most N d (Fin 0) = Fin 0 /\
  x_at_p N d (Fin 1) = PInf /\ p_at_most N d PInf = Fin 1.
Proof.
  intros m s Hs d. refine (conj _ (conj _ (conj _ (conj _ (conj _ _))))).
  - intros p Hp. exists (exp (m + s * quantile N p)). split; [apply x_at_p_mid; auto|]. split; [apply exp_pos|].
    unfold d. rewrite at_most_mid by (auto; apply exp_pos). f_equal. rewrite ln_exp.
    replace ((m + s * quantile N p - m) / s) with (quantile N p) by (field; lra). apply (cdf_quantile N OK). auto.
  - intros x p Hx E. unfold d in E. rewrite at_most_mid in E by auto. inversion E; subst p.
    unfold d. rewrite x_at_p_mid by (apply (cdf_range N OK)). rewrite quantile_cdf. f_equal.
    replace (m + s * ((ln x - m) / s)) with (ln x) by (field; lra). apply exp_ln. auto.
  - unfold x_at_p, gsl_lognormal_Pinv. cbn [er_eqb]. rewrite (proj2 (Reqb_false 0 1)), (proj2 (Reqb_true 0 0)) by lra.
    cbn. rewrite (proj2 (Rltb_false 0 0)) by lra. reflexivity.
  - unfold d. rewrite at_most_z by discriminate. unfold z_of. cbn [mu_lnX sigma_lnX]. rewrite er_log_zero. cbn.
    rewrite (proj2 (Rltb_false s 0)) by lra. reflexivity.
  - unfold x_at_p, gsl_lognormal_Pinv. cbn [er_eqb]. rewrite (proj2 (Reqb_true 1 1)) by lra. reflexivity.
  - unfold d. rewrite at_most_z by discriminate. unfold z_of. cbn.
    rewrite (proj2 (Rltb_false s 0)) by lra. reflexivity.
Qed.

(** Degenerate distributions: a certain value. *)
Theorem certain_value : forall m x, 0 <= x ->
  let d := LND (Fin m) (Fin 0) in
  (x < exp m -> p_at_most N d (Fin x) = Fin 0) /\ (exp m < x -> p_at_most N d (Fin x) = Fin 1) /\
  (forall p, 0 < p < 1 -> x_at_p N d (Fin p) = Fin (exp m)).
Proof.
  intros m x Hx d. assert (R0 : Reqb 0 0 = true) by (apply Reqb_true; auto).
  assert (E : 0 < x -> p_at_most N d (Fin x) = gsl_P N (er_inf_times (ln x - m))).
  { intros H. rewrite at_most_z by discriminate. unfold z_of, d. cbn [mu_lnX sigma_lnX]. rewrite er_log_pos by auto.
    rewrite er_sub_fin. cbn. rewrite R0. reflexivity. }
  refine (conj _ (conj _ _)).
  - intros H. destruct Hx as [Hx|Hx].
    + rewrite E by auto. apply ln_increasing in H; auto. rewrite ln_exp in H. unfold er_inf_times.
      rewrite (proj2 (Rltb_false 0 _)) by lra. rewrite (proj2 (Rltb_true _ 0)) by lra. reflexivity.
    + subst x. rewrite at_most_z by discriminate. unfold z_of, d. cbn [mu_lnX sigma_lnX]. rewrite er_log_zero. cbn.
      rewrite (proj2 (Rltb_false 0 0)) by lra. reflexivity.
  - intros H. pose proof (exp_pos m). rewrite E by lra. apply ln_increasing in H; auto. rewrite ln_exp in H.
    unfold er_inf_times. rewrite (proj2 (Rltb_true 0 _)) by lra. reflexivity.
  - intros p Hp. unfold d. rewrite x_at_p_mid by auto. f_equal. f_equal. lra.
Qed.

(** Where they are not defined. *)
Theorem undefined_probability :
  (forall d x, x < 0 -> p_at_most N d (Fin x) = NaN) /\
  (forall m, p_at_most N (LND (Fin m) (Fin 0)) (Fin (exp m)) = NaN /\ p_at_least N (LND (Fin m) (Fin 0)) (Fin (exp m)) = NaN) /\
  (forall s, p_at_most N (LND MInf (Fin s)) (Fin 0) = NaN).
Proof.
  refine (conj _ (conj _ _)).
  - intros [m s] x H. unfold p_at_most, gsl_lognormal_P. rewrite er_log_neg by auto. cbn.
    destruct (er_isnan m && er_isnan s); reflexivity.
  - intros m. rewrite at_most_z, at_least_z by discriminate. unfold z_of. cbn [mu_lnX sigma_lnX].
    rewrite er_log_pos by apply exp_pos. rewrite er_sub_fin, ln_exp. cbn. rewrite (proj2 (Reqb_true 0 0)) by auto.
    unfold er_inf_times. replace (m - m) with 0 by lra. rewrite (proj2 (Rltb_false 0 0)) by lra. split; reflexivity.
  - intros s. rewrite at_most_z by discriminate. unfold z_of. cbn [mu_lnX sigma_lnX]. rewrite er_log_zero. reflexivity.
Qed.

End Normal.

(** ** C32 *)

Lemma x_at_p_one : forall N d, x_at_p N d (Fin 1) = PInf.
Proof. intros. unfold x_at_p, gsl_lognormal_Pinv. cbn [er_eqb]. rewrite (proj2 (Reqb_true 1 1)) by lra. reflexivity. Qed.

Lemma adjust_proper : forall m s f, 0 < f -> adjust (LND (Fin m) (Fin s)) (Fin f) = LND (Fin (ln f + m)) (Fin s).
Proof.
  intros m s f H. unfold adjust, get_sigma_lnX. rewrite mean_proper. cbn [er_mul sigma_lnX].
  unfold from_mean_sdln. rewrite mu_of_mean by (apply Rmult_lt_0_compat; auto; apply exp_pos).
  rewrite ln_mult by (auto; apply exp_pos). rewrite ln_exp. f_equal. f_equal. lra.
Qed.

Lemma adjust_zero : forall s f, adjust (LND MInf (Fin s)) (Fin f) = LND MInf (Fin s).
Proof.
  intros s f. unfold adjust, get_mean_X. cbn [mu_lnX er_eqb er_mul get_sigma_lnX sigma_lnX].
  unfold from_mean_sdln. rewrite Rmult_0_r, mu_of_zero. reflexivity.
Qed.

Lemma adjust_by_zero : forall d a v, moments d a v -> moments (adjust d (Fin 0)) 0 0.
Proof.
  intros d a v M. destruct (moments_mean _ _ _ M) as [E _]. unfold adjust. rewrite E. cbn [er_mul]. rewrite Rmult_0_l.
  right. split; auto. destruct M as [(m & s & [-> H] & _)|[(s & -> & H) _]]; exists s; cbn;
  unfold from_mean_sdln; rewrite mu_of_zero; auto.
Qed.

Theorem adjusted : forall N d a v f, normal_ok N -> moments d a v -> 0 < f ->
  moments (adjust d (Fin f)) (f * a) (f * f * v) /\
  get_sigma_lnX (adjust d (Fin f)) = get_sigma_lnX d /\
  get_median_X (adjust d (Fin f)) = er_mul (Fin f) (get_median_X d) /\
  (forall p, 0 <= p <= 1 -> x_at_p N (adjust d (Fin f)) (Fin p) = er_mul (Fin f) (x_at_p N d (Fin p))) /\
  (forall g, 0 < g -> adjust (adjust d (Fin f)) (Fin g) = adjust d (Fin (g * f))) /\
  adjust d (Fin 1) = d.
Proof.
  intros N d a v f OK M Hf. destruct M as [(m & s & [-> H] & -> & ->)|[(s & -> & H) [-> ->]]].
  - rewrite adjust_proper by auto. refine (conj _ (conj _ (conj _ (conj _ (conj _ _))))).
    + left. exists (ln f + m), s. split; [split; auto|].
      replace (ln f + m + s * s / 2) with (ln f + (m + s * s / 2)) by lra. rewrite (exp_plus (ln f)), exp_ln by auto. split; auto.
      replace (2 * (ln f + m) + s * s) with (2 * ln f + (2 * m + s * s)) by lra.
      rewrite (exp_plus (2 * ln f)), exp_sq, exp_ln by auto. lra.
    + reflexivity.
    + cbn. rewrite (exp_plus (ln f)), exp_ln by auto. reflexivity.
    + intros p [Hp0 Hp1]. destruct (Req_dec p 1) as [->|Hn1]; [rewrite !x_at_p_one; cbn; unfold er_inf_times; rewrite (proj2 (Rltb_true 0 f)) by auto; reflexivity|]. assert (Hp' : p < 1) by lra. destruct Hp0 as [Hp|Hp].
      * rewrite !x_at_p_mid by (auto; split; auto). cbn. rewrite Rplus_assoc, (exp_plus (ln f)), exp_ln by auto. reflexivity.
      * subst p. unfold x_at_p, gsl_lognormal_Pinv. cbn [er_eqb].
        rewrite (proj2 (Reqb_false 0 1)), (proj2 (Reqb_true 0 0)) by lra.
        cbn. rewrite (proj2 (Rltb_false 0 0)) by lra. cbn. rewrite Rmult_0_r. reflexivity.
    + intros g Hg. rewrite !adjust_proper by (auto; apply Rmult_lt_0_compat; auto). rewrite ln_mult by auto. f_equal. f_equal. lra.
    + rewrite adjust_proper by lra. rewrite ln_1. f_equal. f_equal. lra.
  - rewrite !adjust_zero. refine (conj _ (conj _ (conj _ (conj _ (conj _ _))))); auto.
    + right. split; [exists s; auto|]. split; lra.
    + cbn. rewrite Rmult_0_r. reflexivity.
    + intros p [Hp0 Hp1]. destruct (Req_dec p 1) as [->|Hn1]; [rewrite !x_at_p_one; cbn; unfold er_inf_times; rewrite (proj2 (Rltb_true 0 f)) by auto; reflexivity|]. assert (Hp' : p < 1) by lra. destruct Hp0 as [Hp|Hp].
      * unfold x_at_p, gsl_lognormal_Pinv. cbn [er_eqb mu_lnX sigma_lnX gsl_Pinv].
        rewrite (proj2 (Reqb_false p 1)), (proj2 (Reqb_false p 0)) by lra.
        rewrite (proj2 (Rltb_false p 0)), (proj2 (Rltb_false 1 p)) by lra. cbn.
        rewrite (proj2 (Rltb_false 0 0)) by lra. cbn. rewrite Rmult_0_r. reflexivity.
      * subst p. unfold x_at_p, gsl_lognormal_Pinv. cbn [er_eqb].
        rewrite (proj2 (Reqb_false 0 1)), (proj2 (Reqb_true 0 0)) by lra.
        cbn. rewrite (proj2 (Rltb_false 0 0)) by lra. cbn. rewrite Rmult_0_r. reflexivity.
    + intros g Hg. rewrite !adjust_zero. reflexivity.
Qed.

(** ** Refutation of C31 *)

Theorem no_probability : forall N, normal_ok N ->
  (exists m x, 0 < x /\ p_at_most N (LND (Fin m) (Fin 0)) (Fin x) = NaN /\
               p_at_least N (LND (Fin m) (Fin 0)) (Fin x) = NaN) /\
  (exists m s x, 0 < s /\ x < 0 /\ p_at_most N (LND (Fin m) (Fin s)) (Fin x) = NaN) /\
  (exists d, certain_zero d /\ p_at_most N d (Fin 0) = NaN) /\
  (exists m p, 0 < p < 1 /\ forall x, x_at_p N (LND (Fin m) (Fin 0)) (Fin p) = Fin x ->
     p_at_most N (LND (Fin m) (Fin 0)) (Fin x) <> Fin p).
Proof.
  intros N OK. destruct (undefined_probability N OK) as (A & B & D). refine (conj _ (conj _ (conj _ _))).
  - exists 0, (exp 0). split; [apply exp_pos|]. apply B.
  - exists 0, 1, (-1). repeat split; try lra. apply A. lra.
  - exists (LND MInf (Fin 0)). split; [exists 0; split; [auto|lra]|]. apply D.
  - exists 0, (1 / 2). split; [lra|]. intros x E. rewrite x_at_p_mid in E by (auto; lra).
    inversion E. replace (0 + 0 * quantile N (1 / 2)) with 0 by lra.
    destruct (B 0) as [-> _]. discriminate.
Qed.

Lemma refute_probabilities : forall N, normal_ok N ->
  exists m s x, 0 <= s /\ 0 <= x /\
    let d := LND (Fin m) (Fin s) in ~ complementary (p_at_least N d (Fin x)) (p_at_most N d (Fin x)).
Proof.
  intros N OK. destruct (no_probability N OK) as [(m & x & Hx & E1 & E2) _].
  exists m, 0, x. split; [lra|]. split; [lra|]. cbn zeta. rewrite E1, E2. intros (p & q & Q & _). discriminate.
Qed.

Lemma moments_reported : forall d a v, moments d a v ->
  get_mean_X d = Fin a /\ get_sigma_X d = Fin (sqrt v) /\ 0 <= a /\ 0 <= v.
Proof. intros d a v H. destruct (moments_mean _ _ _ H), (moments_sd _ _ _ H). auto. Qed.
