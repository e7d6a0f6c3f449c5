(** * Proofs about delays *)
From Coquelicot Require Import Coquelicot.
From Coq Require Import Reals List Bool ZArith Lia Lra FunctionalExtensionality.
From Verif Require Import Num ER ER_proofs ERmath Maq Maq_spec Maq_proofs Maq_ER_spec Maq_ER_proofs Maq_ER_proofs2 Maq_ER_proofs3
  Maq_claims_proofs Lognormal Lognormal_spec Lognormal_proofs Lognormal_proofs2
  Damage Damage_spec Damage_proofs Damage_proofs2 Functions_proofs Group Group_spec Group_proofs2.
Import ListNotations.
Local Open Scope R_scope.

(** ** Delays are calculated like costs, but for the count *)

Lemma div_one : forall x, er_div x (Fin 1) = x.
Proof.
  intros [| | |x]; cbn [er_div]; [reflexivity| | |].
  - rewrite (proj2 (Rltb_false 1 0)) by lra. reflexivity.
  - rewrite (proj2 (Rltb_false 1 0)) by lra. reflexivity.
  - rewrite (proj2 (Reqb_false 1 0)) by lra. f_equal. field.
Qed.

Theorem delays_like_costs : forall N D s g im,
  delay_fn g = cost_fn g -> delay_factor g = cost_factor g ->
  (forall x, x <> Fin 0 ->
     slope D (fun y => if er_eqb im (Fin 0) || er_ltb y (Fin 0) then Fin 0 else exceedence g im y) x =
     slope D (exceedence g im) x) ->
  e_delay_im N D s g im = e_cost_im N D s g im /\
  ((count g <= 1)%Z -> sd_ln_delay_im N D s g im = sd_ln_cost_im N D s g im).
Proof.
  intros N D s g im Ef Ea Hd.
  assert (E : forall x, delay_edp N g x = cost_edp N g x) by (intros x; unfold delay_edp, cost_edp; rewrite Ef, Ea; reflexivity).
  assert (I : delay_integrand N D g im = cost_integrand N D g im).
  { apply functional_extensionality. intros x. unfold delay_integrand, cost_integrand.
    destruct (er_eqb x (Fin 0)) eqn:Q; [reflexivity|]. rewrite E. f_equal. f_equal. symmetry. apply Hd.
    intros ->. rewrite er_eqb_00 in Q. discriminate. }
  assert (M : e_delay_im N D s g im = e_cost_im N D s g im) by (unfold e_delay_im, e_cost_im; rewrite I; reflexivity).
  split; [exact M|]. intros Hc. unfold sd_ln_delay_im, sd_ln_cost_im. rewrite M.
  destruct (0 <? count g)%Z eqn:Q; [|reflexivity]. apply Z.ltb_lt in Q. assert (C : count g = 1%Z) by lia.
  assert (J : delay_sq_integrand N D g im = cost_sq_integrand N D g im).
  { apply functional_extensionality. intros x. unfold delay_sq_integrand, cost_sq_integrand.
    rewrite C, E, div_one. reflexivity. }
  rewrite J. destruct (integrate s (cost_sq_integrand N D g im)) as [r| |]; [|reflexivity|reflexivity].
  cbn [obind]. destruct (mr_successful r); [|reflexivity]. destruct (e_cost_im N D s g im) as [v| |]; [|reflexivity|reflexivity].
  cbn [obind]. rewrite C, div_one. reflexivity.
Qed.

(** ** A density whose image is a parabola *)

Definition survival (x : R) : R := / (1 + x) * / (1 + x) * (3 - 2 * / (1 + x)).
Definition density (x : R) : R := 6 * (/ (1 + x) * / (1 + x) * / (1 + x)) * (1 - / (1 + x)).

Lemma survival_density : forall x, 0 < x -> derivable_pt_lim survival x (- density x) /\ 0 < density x.
Proof.
  intros x Hx. split.
  - apply is_derive_Reals. unfold survival, density. auto_derive; [lra|]. field. lra.
  - unfold density. assert (P : 0 < / (1 + x)) by (apply Rinv_0_lt_compat; lra).
    assert (L : / (1 + x) < 1) by (pose proof (Rinv_lt_contravar 1 (1 + x) ltac:(lra) ltac:(lra)) as Q; rewrite Rinv_1 in Q; exact Q).
    apply Rmult_lt_0_compat; [|lra]. apply Rmult_lt_0_compat; [lra|]. repeat apply Rmult_lt_0_compat; exact P.
Qed.

Lemma survival_demand : demand survival density.
Proof.
  constructor.
  - unfold survival. rewrite Rplus_0_r, Rinv_1. ring.
  - intros x Hx. unfold survival. assert (P : 0 < / (1 + x)) by (apply Rinv_0_lt_compat; lra).
    assert (L : / (1 + x) <= 1) by (pose proof (Rinv_le_contravar 1 (1 + x) ltac:(lra) ltac:(lra)) as Q; rewrite Rinv_1 in Q; exact Q).
    apply Rmult_lt_0_compat; [apply Rmult_lt_0_compat; exact P|lra].
  - exact survival_density.
  - intros e He. exists (3 / e). assert (H : 0 < 3 / e) by (apply Rmult_lt_0_compat; [lra|apply Rinv_0_lt_compat; exact He]).
    split; [exact H|]. set (x := 3 / e) in *. unfold survival.
    assert (P : 0 < / (1 + x)) by (apply Rinv_0_lt_compat; lra).
    assert (L : / (1 + x) < 1) by (pose proof (Rinv_lt_contravar 1 (1 + x) ltac:(lra) ltac:(lra)) as Q; rewrite Rinv_1 in Q; exact Q).
    assert (L2 : / (1 + x) < / x) by (apply Rinv_lt_contravar; [apply Rmult_lt_0_compat; lra|lra]).
    assert (Ex : / x = e / 3) by (unfold x; field; lra). rewrite Ex in L2.
    apply Rle_lt_trans with (/ (1 + x) * 1 * 3); [|lra].
    apply Rmult_le_compat; [apply Rmult_le_pos; lra|lra|apply Rmult_le_compat_l; lra|lra].
Qed.

Lemma parabola : forall f c, 1 <= c -> (forall x, 0 < x -> f (Fin x) = Fin (c * density x)) ->
  f (Fin 0) = Fin 0 -> f PInf = Fin 0 ->
  exists r, integrate (default_settings ER) f = Done r /\ mr_successful r = true /\ mr_integral r = Fin c.
Proof.
  intros f c Hc F F0 FI. set (s := default_settings ER).
  assert (Hs : limits_ok s) by (split; split; vm_compute; discriminate || reflexivity).
  destruct (integrate_done s f Hs) as [r E]. exists r. split; [exact E|]. unfold integrate in E.
  assert (V : f (Fin 1) = Fin (c * density 1)) by (apply F; lra).
  assert (D1 : density 1 = 3 / 8) by (unfold density; field).
  destruct (MAQ_directed f s _ _ r eq_refl V ltac:(rewrite D1; lra) E) as [Rr Re].
  assert (Im : forall t, 0 <= t <= 1 -> image f t = Fin (poly [0; 6 * c; - (6 * c)] t)).
  { intros t Ht. unfold image. cbn [poly]. destruct (Req_EM_T t 0) as [->|Hn]; [rewrite FI; f_equal; ring|].
    assert (T : t * t <> 0) by (intros Q; apply Rmult_integral in Q; tauto).
    destruct (Req_dec t 1) as [->|H1].
    - replace (1 / 1 - 1) with 0 by field. rewrite F0, er_div_fin by exact T. f_equal. field.
    - rewrite F.
      + rewrite er_div_fin by exact T. f_equal. unfold density.
        replace (1 + (1 / t - 1)) with (/ t) by (field; exact Hn). rewrite Rinv_inv. field. exact Hn.
      + assert (1 < 1 / t); [|lra]. apply Rmult_lt_reg_r with t; [lra|]. unfold Rdiv. rewrite Rmult_assoc, Rinv_l by exact Hn. lra. }
  assert (Tol : set_tolerance s = Fin (1 / 1000)).
  { cbn [set_tolerance s default_settings]. unfold tolerance_default. cbn [ndiv nofZ ER]. apply er_div_fin. lra. }
  assert (L : (2 <= fuel_for ER s)%nat) by (unfold fuel_for, s; cbn [set_search_limit set_eval_limit default_settings]; lia).
  destruct (MAQ_cubic f s _ r 0 1 [0; 6 * c; - (6 * c)] (1 / 1000) Hs L Tol ltac:(cbn; lia) E Rr Im) as [Hok _];
    [rewrite Re; cbn; lia|].
  split; [exact Hok|].
  destruct (integral_poly f s _ r 0 1 [0; 6 * c; - (6 * c)] Hs ltac:(lra) ltac:(cbn; lia) Im E Rr Hok) as (v & Ev & Iv).
  rewrite Ev. f_equal. unfold is_integral in Iv. apply (is_RInt_unique (V := R_CompleteNormedModule)) in Iv. rewrite <- Iv. apply (is_RInt_unique (V := R_CompleteNormedModule)).
  replace c with (minus (3 * c * (1 * 1) - 2 * c * (1 * 1 * 1)) (3 * c * (0 * 0) - 2 * c * (0 * 0 * 0))) at 3
    by (unfold minus, plus, opp; cbn; ring).
  apply (is_RInt_derive (fun t => 3 * c * (t * t) - 2 * c * (t * t * t))).
  - intros t _. cbn [poly]. auto_derive; [trivial|]. ring.
  - intros t _. cbn [poly]. apply (ex_derive_continuous (V := R_NormedModule)). auto_derive. trivial.
Qed.

(** ** Two components, always damaged *)

Definition tail (im x : er) : er := match x with Fin x => Fin (survival x) | PInf => Fin 0 | _ => NaN end.

(** A derivative that is exact for this curve. *)
Definition exact_slope : derivs :=
  let d (f : er -> er) x := match x with Fin x => Fin (- density x) | PInf => Fin 0 | _ => NaN end in Derivs d d d.

Definition loss : lnd := LND (Fin 0) (Fin 1).
Definition two : group :=
  Group tail (fun _ => Fin 1) [from_median_sdln (Fin 0) (Fin 0)] (Some (SimpleLoss [loss])) (Some (SimpleLoss [loss]))
        2 (Fin 1) (Fin 1).

Definition mean1 : R := exp (0 + 1 * 1 / 2).
Definition var1 : R := (exp (1 * 1) - 1) * exp (2 * 0 + 1 * 1).

Lemma loss_moments : moments loss mean1 var1.
Proof. left. exists 0, 1. split; [split; [reflexivity|lra]|split; reflexivity]. Qed.

Lemma mean1_big : 1 < mean1 /\ 1 < var1.
Proof.
  unfold mean1, var1. split; [rewrite <- exp_0 at 1; apply exp_increasing; lra|].
  replace (1 * 1) with 1 by ring. replace (2 * 0 + 1) with 1 by ring.
  pose proof (exp_ineq1 1 ltac:(lra)) as E. nra.
Qed.

Lemma two_damaged : forall N x, (x = PInf \/ exists r, x = Fin r /\ 0 < r) ->
  p_highest N (fragility two) x = map Fin [1].
Proof.
  intros N x Hx. unfold two. cbn [fragility]. unfold p_highest, p_exceeded. cbn [map differences]. f_equal.
  unfold p_at_most, from_median_sdln. rewrite er_log_zero. cbn [mu_lnX sigma_lnX er_isnan andb].
  unfold gsl_lognormal_P.
  assert (Q : er_sub (er_log x) MInf = PInf).
  { destruct Hx as [->|(r & -> & Hr)]; [reflexivity|]. rewrite er_log_pos by exact Hr. reflexivity. }
  rewrite Q. cbn [er_div]. rewrite (proj2 (Rltb_false 0 0)) by lra. cbn [gsl_P er_ltb].
  rewrite (proj2 (Rltb_false 1 0)) by lra. reflexivity.
Qed.

Lemma two_loss : forall N x, (x = PInf \/ exists r, x = Fin r /\ 0 < r) ->
  moments (cost_edp N two x) (2 * mean1) (4 * var1) /\ delay_edp N two x = cost_edp N two x.
Proof.
  intros N x Hx. split; [|reflexivity].
  assert (M : all_moments [loss] [(mean1, var1)]) by (apply Forall2_cons; [exact loss_moments|apply Forall2_nil]).
  assert (W : Forall (fun w => 0 <= w) [1]) by (apply Forall_cons; [lra|apply Forall_nil]).
  destruct (simple_loss [loss] _ [1] 2 1 M eq_refl W ltac:(lia) ltac:(lra)) as (d & Ed & Md).
  unfold cost_edp, loss_given. rewrite (two_damaged N x Hx). cbn [cost_fn two count cost_factor]. rewrite Ed.
  cbn [or_nodist].
  assert (E1 : mix_mean [1] [(mean1, var1)] = mean1) by (unfold mix_mean; cbn [mix]; ring).
  assert (E2 : mix_var [1] [(mean1, var1)] = var1) by (unfold mix_var; rewrite E1; cbn [mix]; ring).
  pose proof mean1_big as B. rewrite E1, E2, (Rabs_right var1) in Md by lra.
  replace (1 * 2 * mean1) with (2 * mean1) in Md by ring. replace (1 * 2 * (1 * 2) * var1) with (4 * var1) in Md by ring.
  exact Md.
Qed.

Lemma two_integral : forall c f, 1 <= c -> f (Fin 0) = Fin 0 ->
  (forall x, (x = PInf \/ exists r, x = Fin r /\ 0 < r) ->
     exists g, f x = er_mul (Fin c) (er_abs (slope exact_slope g x))) ->
  exists r, integrate (default_settings ER) f = Done r /\ mr_successful r = true /\ mr_integral r = Fin c.
Proof.
  intros c f Hc F0 F. apply parabola; auto.
  - intros x Hx. destruct (F (Fin x)) as [g ->]; [right; eauto|]. unfold slope, exact_slope. cbn. f_equal.
    destruct (survival_density x Hx) as [_ P]. rewrite Rabs_Ropp, Rabs_right by lra. reflexivity.
  - destruct (F PInf) as [g ->]; [left; reflexivity|]. unfold slope, exact_slope. cbn. f_equal. rewrite Rabs_R0. ring.
Qed.

Lemma not_zero : forall x, (x = PInf \/ exists r, x = Fin r /\ 0 < r) -> er_eqb x (Fin 0) = false.
Proof. intros x [->|(r & -> & Hr)]; [reflexivity|]. cbn. apply Reqb_false. lra. Qed.

Lemma sd_ln_from_moments : forall m v, 0 < m -> 0 <= v -> sd_ln_from (Fin (m * m + v)) (Fin m) = Fin (log_sd m v).
Proof.
  intros m v Hm Hv. unfold sd_ln_from. cbn [er_mul]. rewrite er_sub_fin. replace (m * m + v - m * m) with v by ring.
  rewrite er_sqrt_pos by exact Hv. cbn [er_isnan]. cbn [er_eqb er_mul]. rewrite (proj2 (Reqb_false m 0)) by lra.
  rewrite sqrt_sqrt by exact Hv. assert (P : 0 < m * m) by (apply Rmult_lt_0_compat; exact Hm).
  rewrite er_div_fin by lra. cbn [er_add]. assert (Q : 0 <= v / (m * m)) by (apply Rmult_le_pos; [exact Hv|left; apply Rinv_0_lt_compat; exact P]).
  rewrite er_log_pos by lra. rewrite er_sqrt_pos; [reflexivity|]. rewrite <- ln_1.
  destruct Q as [Q|Q]; [left; apply ln_increasing; lra|rewrite <- Q, Rplus_0_r; lra].
Qed.

Lemma moments_case : forall N im, exists r1 r2 m q,
  integrate (default_settings ER) (cost_integrand N exact_slope two im) = Done r1 /\
  integrate (default_settings ER) (cost_sq_integrand N exact_slope two im) = Done r2 /\
  mr_successful r1 = true /\ mr_successful r2 = true /\ mr_integral r1 = Fin m /\ mr_integral r2 = Fin q /\
  0 < m /\ m * m < q.
Proof.
  intros N im. pose proof mean1_big as [B1 B2].
  assert (Z : er_eqb (Fin 0) (Fin 0) = true) by exact er_eqb_00.
  destruct (two_integral (2 * mean1) (cost_integrand N exact_slope two im)) as (r1 & E1 & S1 & V1).
  { lra. } { unfold cost_integrand; rewrite Z; reflexivity. }
  { intros x Hx. eexists. unfold cost_integrand. rewrite (not_zero x Hx). destruct (two_loss N x Hx) as [M _].
    rewrite (proj1 (moments_mean _ _ _ M)). reflexivity. }
  destruct (two_integral (2 * mean1 * (2 * mean1) + 4 * var1) (cost_sq_integrand N exact_slope two im)) as (r2 & E2 & S2 & V2).
  { nra. } { unfold cost_sq_integrand; rewrite Z; reflexivity. }
  { intros x Hx. eexists. unfold cost_sq_integrand. rewrite (not_zero x Hx). destruct (two_loss N x Hx) as [M _].
    rewrite (proj1 (moments_mean _ _ _ M)), (proj1 (moments_sd _ _ _ M)). cbn [er_mul er_add].
    rewrite sqrt_sqrt by lra. reflexivity. }
  exists r1, r2, (2 * mean1), (2 * mean1 * (2 * mean1) + 4 * var1).
  refine (conj E1 (conj E2 (conj S1 (conj S2 (conj V1 (conj V2 (conj _ _))))))); lra.
Qed.

Theorem refute_delay_count : forall N im, exists p d D g m v,
  demand p d /\
  (forall x, 0 <= x -> exceedence g im (Fin x) = Fin (p x)) /\
  (forall x, 0 < x -> slope D (exceedence g im) (Fin x) = Fin (- d x)) /\
  delay_fn g = cost_fn g /\ delay_factor g = cost_factor g /\ count g = 2%Z /\
  (forall x, 0 < x -> moments (cost_edp N g (Fin x)) m v /\ moments (delay_edp N g (Fin x)) m v) /\
  e_cost_im N D (default_settings ER) g im = Done (Fin m) /\
  e_delay_im N D (default_settings ER) g im = Done (Fin m) /\
  sd_ln_cost_im N D (default_settings ER) g im = Done (Fin (log_sd m v)) /\
  sd_ln_delay_im N D (default_settings ER) g im = Done (Fin (log_sd m (4 * v))) /\
  log_sd m v < log_sd m (4 * v).
Proof.
  intros N im. exists survival, density, exact_slope, two, (2 * mean1), (4 * var1).
  pose proof mean1_big as [B1 B2].
  assert (Z : er_eqb (Fin 0) (Fin 0) = true) by exact er_eqb_00.
  assert (Ic : exists r, integrate (default_settings ER) (cost_integrand N exact_slope two im) = Done r /\ mr_successful r = true /\ mr_integral r = Fin (2 * mean1)).
  { apply two_integral; [lra|unfold cost_integrand; rewrite Z; reflexivity|]. intros x Hx. eexists.
    unfold cost_integrand. rewrite (not_zero x Hx). destruct (two_loss N x Hx) as [M _].
    rewrite (proj1 (moments_mean _ _ _ M)). reflexivity. }
  assert (Id : exists r, integrate (default_settings ER) (delay_integrand N exact_slope two im) = Done r /\ mr_successful r = true /\ mr_integral r = Fin (2 * mean1)).
  { apply two_integral; [lra|unfold delay_integrand; rewrite Z; reflexivity|]. intros x Hx. eexists.
    unfold delay_integrand. rewrite (not_zero x Hx). destruct (two_loss N x Hx) as [M E]. rewrite E.
    rewrite (proj1 (moments_mean _ _ _ M)). reflexivity. }
  assert (Ics : exists r, integrate (default_settings ER) (cost_sq_integrand N exact_slope two im) = Done r /\ mr_successful r = true /\
    mr_integral r = Fin (2 * mean1 * (2 * mean1) + 4 * var1)).
  { apply two_integral; [nra|unfold cost_sq_integrand; rewrite Z; reflexivity|]. intros x Hx. eexists.
    unfold cost_sq_integrand. rewrite (not_zero x Hx). destruct (two_loss N x Hx) as [M _].
    rewrite (proj1 (moments_mean _ _ _ M)), (proj1 (moments_sd _ _ _ M)). cbn [er_mul er_add].
    rewrite sqrt_sqrt by lra. reflexivity. }
  assert (Ids : exists r, integrate (default_settings ER) (delay_sq_integrand N exact_slope two im) = Done r /\ mr_successful r = true /\
    mr_integral r = Fin (mean1 * mean1 + 4 * var1)).
  { apply two_integral; [nra|unfold delay_sq_integrand; rewrite Z; reflexivity|]. intros x Hx. eexists.
    unfold delay_sq_integrand. rewrite (not_zero x Hx). destruct (two_loss N x Hx) as [M E]. rewrite E.
    rewrite (proj1 (moments_mean _ _ _ M)), (proj1 (moments_sd _ _ _ M)). cbn [count two]. rewrite er_div_fin by lra.
    replace (2 * mean1 / 2) with mean1 by field. cbn [er_mul er_add].
    rewrite sqrt_sqrt by lra. reflexivity. }
  destruct Ic as (rc & Ec & Sc & Vc), Id as (rd & Ed & Sd & Vd), Ics as (qc & Fc & Tc & Wc), Ids as (qd & Fd & Td & Wd).
  assert (C : e_cost_im N exact_slope (default_settings ER) two im = Done (Fin (2 * mean1))).
  { unfold e_cost_im. change (0 <? count two)%Z with true. cbv iota. rewrite Ec. cbn [obind]. unfold integral_or. rewrite Sc, Vc. reflexivity. }
  assert (De : e_delay_im N exact_slope (default_settings ER) two im = Done (Fin (2 * mean1))).
  { unfold e_delay_im. change (0 <? count two)%Z with true. cbv iota. rewrite Ed. cbn [obind]. unfold integral_or. rewrite Sd, Vd. reflexivity. }
  refine (conj survival_demand (conj _ (conj _ (conj eq_refl (conj eq_refl (conj eq_refl (conj _ (conj C (conj De (conj _ (conj _ _))))))))))).
  - reflexivity.
  - reflexivity.
  - intros x Hx. destruct (two_loss N (Fin x)) as [M E]; [right; eauto|]. rewrite E. split; exact M.
  - unfold sd_ln_cost_im. change (0 <? count two)%Z with true. cbv iota. rewrite Fc. cbn [obind]. rewrite Tc, C, Wc. cbn [obind].
    rewrite sd_ln_from_moments by lra. reflexivity.
  - unfold sd_ln_delay_im. change (0 <? count two)%Z with true. cbv iota. rewrite Fd. cbn [obind]. rewrite Td, De, Wd. cbn [obind].
    cbn [count two]. rewrite er_div_fin by lra. replace (2 * mean1 / 2) with mean1 by field.
    rewrite sd_ln_from_moments by lra. unfold log_sd. do 4 f_equal. field. lra.
  - unfold log_sd. assert (P : 0 < 2 * mean1 * (2 * mean1)) by nra.
    assert (Q : 0 < 4 * var1 / (2 * mean1 * (2 * mean1))) by (apply Rmult_lt_0_compat; [lra|apply Rinv_0_lt_compat; exact P]).
    assert (L : 4 * (4 * var1) / (2 * mean1 * (2 * mean1)) = 4 * (4 * var1 / (2 * mean1 * (2 * mean1)))) by (field; lra).
    apply sqrt_lt_1.
    + rewrite <- ln_1. left. apply ln_increasing; lra.
    + rewrite <- ln_1. left. apply ln_increasing; lra.
    + apply ln_increasing; lra.
Qed.
