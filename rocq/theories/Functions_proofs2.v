(** * Proofs about lognormal functions, hazard curves and factories (C42, C54, C60) *)
From Coq Require Import Reals List Lra Lia Bool Arith.
From Verif Require Import Num ER ERmath ER_proofs Lognormal Lognormal_spec Lognormal_proofs Damage Damage_proofs2.
From Verif Require Import Functions Functions_spec Functions_proofs.
Import ListNotations.
Local Open Scope R_scope.

(** ** Lognormal functions *)

Lemma member_diverges : forall mu sigma fuel m mt, (mt = MEAN_LN_X \/ mt = MEDIAN_X) ->
  m = M_sigma_lnX \/ m = M_mean_X -> member_at fuel mt SD_X mu sigma m = None.
Proof.
  intros mu sigma fuel. induction fuel as [|fuel IH]; intros m mt Hm H; auto.
  assert (D : member_at fuel mt SD_X mu sigma M_mean_X = None) by (apply IH; auto).
  assert (D' : member_at fuel mt SD_X mu sigma M_sigma_lnX = None) by (apply IH; auto).
  destruct Hm, H; subst; cbn [member_at]; rewrite ?D, ?D'.
  - destruct (member_at fuel _ _ _ _ M_sigma_X); reflexivity.
  - destruct (member_at fuel _ _ _ _ M_mean_lnX); reflexivity.
  - destruct (member_at fuel _ _ _ _ M_sigma_X); reflexivity.
  - destruct (member_at fuel _ _ _ _ M_mean_lnX); reflexivity.
Qed.

Theorem function_diverges : forall mt mu sigma, mt <> MEAN_X -> forall fuel, distribution fuel mt SD_X mu sigma = None.
Proof.
  intros mt mu sigma H fuel. unfold distribution.
  rewrite (member_diverges mu sigma fuel M_sigma_lnX mt) by (destruct mt; auto; congruence).
  destruct (member_at fuel mt SD_X mu sigma M_mean_lnX); reflexivity.
Qed.

Lemma refute_function : exists mt st mu sigma, 0 < mu /\ 0 < sigma /\
  forall fuel, distribution fuel mt st (Fin mu) (Fin sigma) = None.
Proof.
  exists MEDIAN_X, SD_X, 1, 1. split; [lra|]. split; [lra|]. intros fuel. apply function_diverges. discriminate.
Qed.

Lemma distribution_make : forall mt st mu sigma fuel, supported mt st -> (st = SD_X -> er_eqb mu (Fin 0) = false) ->
  (5 <= fuel)%nat -> distribution fuel mt st mu sigma = Some (make mu mt sigma st).
Proof.
  intros mt st mu sigma fuel Su Z F.
  do 5 (destruct fuel as [|fuel]; [lia|]). unfold distribution, make.
  destruct Su; subst; [destruct mt; reflexivity|]. destruct st; [reflexivity|].
  cbn. unfold from_mean_sd, sigma_from_sd. rewrite Z by reflexivity. reflexivity.
Qed.

Theorem function_value : forall mt st a b, supported mt st -> (mt = MEAN_LN_X \/ 0 < a) -> 0 <= b ->
  forall fuel, (5 <= fuel)%nat -> exists d, distribution fuel mt st (Fin a) (Fin b) = Some d /\
    location mt d = Fin a /\ spread st d = Fin b /\ consistent d.
Proof.
  intros mt st a b Su Ha Hb fuel F. exists (make (Fin a) mt (Fin b) st). split; [|apply round_trip; auto].
  apply distribution_make; auto. intros ->. cbn. destruct Su as [?|Su]; [discriminate|].
  destruct Ha as [?|Ha]; [congruence|]. apply Reqb_false. lra.
Qed.

(** ** Hazard curves *)

Lemma exp_le : forall a b, a <= b -> exp a <= exp b.
Proof. intros a b [H|H]; [left; apply exp_increasing; auto|subst; lra]. Qed.

Lemma inv_le_0 : forall l, l < 0 -> / l < 0.
Proof. apply Rinv_lt_0_compat. Qed.

(** The exponent for intensities below the asymptote. *)
Lemma hyperbolic_low : forall v im alpha x, 0 < im -> 0 <= x < im ->
  exists l, l <= 0 /\ hyperbolic (Fin v) (Fin im) (Fin alpha) (Fin x) = Fin (v * exp (alpha * l)) /\
    (x = 0 -> l = 0) /\ (0 < x -> l = / ln (x / im) /\ ln (x / im) < 0).
Proof.
  intros v im alpha x Hi Hx. unfold hyperbolic. rewrite (proj2 (leb_fin_false _ _)) by lra. rewrite er_div_fin by lra.
  destruct (Req_dec x 0) as [->|N].
  - exists 0. replace (0 / im) with 0 by (field; lra). rewrite er_log_zero. cbn. split; [lra|].
    replace (alpha * 0) with 0 by ring. split; [reflexivity|]. split; [auto|lra].
  - assert (P : 0 < x / im) by (apply Rdiv_lt_0_compat; lra).
    assert (L : ln (x / im) < 0). { rewrite <- ln_1. apply ln_increasing; auto. apply (Rmult_lt_reg_r im); auto. unfold Rdiv. rewrite Rmult_assoc, Rinv_l; lra. }
    rewrite er_log_pos by auto. rewrite er_div_fin by lra. exists (/ ln (x / im)). cbn.
    pose proof (inv_le_0 _ L). split; [lra|]. split; [reflexivity|]. split; [lra|auto].
Qed.

Lemma hyperbolic_high : forall v im alpha x, im <= x -> hyperbolic (Fin v) (Fin im) (Fin alpha) (Fin x) = Fin 0.
Proof. intros. unfold hyperbolic. rewrite (proj2 (leb_fin _ _)) by auto. reflexivity. Qed.

Theorem hazard_range : forall v im alpha x, 0 <= v -> 0 < im -> 0 <= alpha -> 0 <= x ->
  exists y, hyperbolic (Fin v) (Fin im) (Fin alpha) (Fin x) = Fin y /\ 0 <= y <= v /\
    (im <= x -> y = 0) /\ (x < im -> 0 < v -> 0 < y).
Proof.
  intros v im alpha x Hv Hi Ha Hx. destruct (Rlt_le_dec x im) as [L|L].
  - destruct (hyperbolic_low v im alpha x Hi) as (l & Hl & -> & _); [lra|]. eexists. split; [reflexivity|].
    pose proof (exp_pos (alpha * l)). assert (exp (alpha * l) <= 1).
    { rewrite <- exp_0. apply exp_le. assert (0 <= alpha * - l) by (apply Rmult_le_pos; lra). lra. }
    split; [split; [apply Rmult_le_pos; lra|]|].
    + rewrite <- (Rmult_1_r v) at 2. apply Rmult_le_compat_l; auto.
    + split; [lra|]. intros _ V. apply Rmult_lt_0_compat; auto.
  - rewrite hyperbolic_high by auto. exists 0. split; auto. split; [lra|]. split; [auto|lra].
Qed.

Theorem hazard_monotone : forall v im alpha x x', 0 <= v -> 0 < im -> 0 <= alpha -> 0 <= x <= x' ->
  exists y y', hyperbolic (Fin v) (Fin im) (Fin alpha) (Fin x) = Fin y /\
    hyperbolic (Fin v) (Fin im) (Fin alpha) (Fin x') = Fin y' /\ y' <= y.
Proof.
  intros v im alpha x x' Hv Hi Ha Hx.
  destruct (hazard_range v im alpha x) as (y & Ey & Ry & Z & _); auto; try lra.
  destruct (hazard_range v im alpha x') as (y' & Ey' & Ry' & Z' & _); auto; try lra.
  exists y, y'. split; auto. split; auto.
  destruct (Rlt_le_dec x' im) as [L|L]; [|rewrite Z' by auto; lra].
  destruct (hyperbolic_low v im alpha x Hi) as (l & Hl & E & E0 & E1); [lra|].
  destruct (hyperbolic_low v im alpha x' Hi) as (l' & Hl' & E' & E0' & E1'); [lra|].
  rewrite Ey in E. rewrite Ey' in E'. inversion E. inversion E'.
  apply Rmult_le_compat_l; auto. apply exp_le. apply Rmult_le_compat_l; auto.
  destruct (Req_dec x 0) as [X|X]; [rewrite (E0 X); auto|]. destruct (E1 ltac:(lra)) as [-> N1]. destruct (E1' ltac:(lra)) as [-> N2].
  apply Ropp_le_cancel. rewrite !Ropp_inv_permute by lra. apply Rinv_le_contravar; [lra|].
  apply Ropp_le_contravar. destruct (Req_dec x x') as [->|D]; [lra|]. left. apply ln_increasing; [apply Rdiv_lt_0_compat; lra|].
  apply Rmult_lt_compat_r; [apply Rinv_0_lt_compat; auto|lra].
Qed.

Lemma refute_hazard : forall v im alpha, 1 < v -> 0 < im -> 0 <= alpha ->
  exists x y, 0 < x /\ hyperbolic (Fin v) (Fin im) (Fin alpha) (Fin x) = Fin y /\ 1 < y.
Proof.
  intros v im alpha Hv Hi Ha. assert (LV : 0 < ln v) by (rewrite <- ln_1; apply ln_increasing; lra).
  set (L := - ((alpha + 1) / ln v)). assert (NL : L < 0). { unfold L. assert (0 < (alpha + 1) / ln v) by (apply Rdiv_lt_0_compat; lra). lra. }
  assert (EL : exp L < 1) by (rewrite <- exp_0; apply exp_increasing; auto). pose proof (exp_pos L) as PL.
  exists (im * exp L).
  assert (B : 0 < im * exp L < im).
  { split; [apply Rmult_lt_0_compat; auto|]. rewrite <- (Rmult_1_r im) at 2. apply Rmult_lt_compat_l; auto. }
  destruct (hyperbolic_low v im alpha (im * exp L) Hi) as (l & _ & E & _ & E1); [lra|].
  eexists. split; [lra|]. split; [exact E|]. destruct (E1 ltac:(lra)) as [-> _].
  replace (im * exp L / im) with (exp L) by (field; lra). rewrite ln_exp.
  assert (G : - ln v < alpha * / L).
  { unfold L. replace (alpha * / - ((alpha + 1) / ln v)) with (- (ln v * (alpha / (alpha + 1)))) by (field; lra).
    apply Ropp_lt_contravar. rewrite <- (Rmult_1_r (ln v)) at 2. apply Rmult_lt_compat_l; auto.
    apply (Rmult_lt_reg_r (alpha + 1)); [lra|]. unfold Rdiv. rewrite Rmult_assoc, Rinv_l; lra. }
  apply exp_increasing in G. rewrite exp_Ropp, exp_ln in G by lra.
  apply (Rmult_lt_compat_l v) in G; [|lra]. rewrite Rinv_r in G by lra. exact G.
Qed.

Theorem power_law_curve : forall a b x x', 0 <= a -> b <= 0 -> 0 < x <= x' ->
  exists y y', power_law (Fin a) (Fin b) (Fin x) = Fin y /\ power_law (Fin a) (Fin b) (Fin x') = Fin y' /\
    0 <= y' <= y /\ (0 < a -> ln y = ln a + b * ln x).
Proof.
  intros a b x x' Ha Hb Hx. unfold power_law, er_pow. rewrite !(proj2 (Rltb_true 0 _)) by lra. cbn.
  eexists. eexists. split; [reflexivity|]. split; [reflexivity|]. unfold Rpower.
  pose proof (exp_pos (b * ln x')). split; [split|].
  - apply Rmult_le_pos; lra.
  - apply Rmult_le_compat_l; auto. apply exp_le. assert (ln x <= ln x') by (destruct Hx as [H1 [H2|H2]]; [left; apply ln_increasing; auto|subst; lra]).
    assert (0 <= - b * (ln x' - ln x)) by (apply Rmult_le_pos; lra). lra.
  - intros A. rewrite ln_mult by (auto using exp_pos). rewrite ln_exp. reflexivity.
Qed.

(** ** Factories *)

Lemma factory_fits : forall us vs, tabled us vs -> (length (map Fin us) <? 2)%nat || negb (length (map Fin us) =? length (map Fin vs))%nat = false.
Proof.
  intros us vs (L & E & _). rewrite !map_length, E, Nat.eqb_refl. destruct (Nat.ltb_spec (length vs) 2); auto. lia.
Qed.

Theorem detfn_usable : forall t p, suitable t p -> exists f, detfn t p = Returns f /\
  match t, p with
  | LIN, Lists (xs :: ys :: _) => forall us vs x cache, xs = map Fin us -> ys = map Fin vs -> (S cache < length us)%nat ->
      exists y, value_at f (Fin x) cache = Returns (Fin y) /\ interpolates us vs x y
  | LOGLOG, Lists (xs :: ys :: _) => forall us vs x cache, xs = map Fin us -> ys = map Fin vs -> (S cache < length us)%nat ->
      exists y, value_at f (Fin x) cache = Returns (Fin y) /\ log_interpolates us vs x y
  | PLC, Numbers (a :: b :: _) => forall x cache, value_at f x cache = Returns (power_law a b x)
  | NLH, Numbers (alpha :: im_asy :: v_asy :: _) =>
      forall x cache, value_at f x cache = Returns (hyperbolic v_asy im_asy alpha x)
  | _, _ => False
  end.
Proof.
  assert (I : forall us us', map Fin us = map Fin us' -> us = us').
  { induction us as [|a us IH]; intros [|b us'] E; cbn in E; try discriminate; auto. inversion E. f_equal; auto. }
  intros t p H. destruct t; cbn [suitable] in H.
  - destruct H as (a & b & r & ->). cbn. eexists. split; [reflexivity|]. reflexivity.
  - destruct H as (a & b & c & r & ->). cbn. eexists. split; [reflexivity|]. reflexivity.
  - destruct H as (us & vs & r & -> & T). cbn [detfn factory3]. rewrite factory_fits by auto.
    destruct (linear_value us vs T) as (tab & -> & V). eexists. split; [reflexivity|].
    intros us' vs' x cache E E' Hc. apply I in E, E'. subst us' vs'.
    destruct (V x cache Hc) as (y & i & Ey & _ & Iy). exists y. cbn. rewrite Ey. auto.
  - destruct H as (us & vs & r & -> & T & Pu & Pv). cbn [detfn factory3]. rewrite factory_fits by auto.
    destruct (loglog_value us vs T Pu Pv) as (tab & -> & V). eexists. split; [reflexivity|].
    intros us' vs' x cache E E' Hc. apply I in E, E'. subst us' vs'.
    destruct (V x cache Hc) as (y & i & Ey & _ & Iy). exists y. cbn. rewrite Ey. auto.
Qed.

Theorem detfn_kind : forall t p,
  match t, p with (LIN | LOGLOG), Numbers _ | (PLC | NLH), Lists _ | (LIN | LOGLOG), Lists ([] | [_]) => True | _, _ => False end ->
  detfn t p = Throws.
Proof. intros t p H. destruct t, p as [l|l]; try contradiction; auto; destruct l as [|? [|? ?]]; try contradiction; auto. Qed.

(** Too few numbers; too short a table; a table out of order. *)
Lemma refute_detfn :
  (detfn NLH (Numbers [Fin 1]) = Undefined) /\
  (exists f, detfn LIN (Lists [[Fin 1]; [Fin 1]]) = Returns f /\ forall x cache, value_at f x cache = Undefined) /\
  (detfn LIN (Lists [[Fin 2; Fin 1]; [Fin 0; Fin 1]]) = Undefined).
Proof.
  split; [reflexivity|]. split.
  - exists NullFunction. split; reflexivity.
  - cbn [detfn factory3 length Nat.ltb Nat.leb Nat.eqb negb orb]. unfold new_linear. cbn [increasing].
    rewrite (proj2 (ltb_fin_false 2 1)) by lra. reflexivity.
Qed.

(** ** Cases *)

Lemma table_case : tabled [1; 2; 4] [10; 20; 5] /\ positive [1; 2; 4] /\ positive [10; 20; 5].
Proof.
  split; [|split; repeat (constructor; [lra|]); constructor].
  split; [cbn; lia|]. split; [reflexivity|]. intros i j H. cbn in H.
  destruct i as [|[|i]], j as [|[|[|j]]]; try lia; cbn; lra.
Qed.

Lemma linear_case : exists t i, new_linear (map Fin [1; 2; 4]) (map Fin [10; 20; 5]) = Some t /\
  linear t (Fin 3) 0 = Some (Fin (25 / 2), i).
Proof.
  destruct table_case as (T & _). destruct (linear_value _ _ T) as (t & E & V). exists t.
  destruct (V 3 0%nat ltac:(cbn; lia)) as (y & i & Ey & _ & Iy). exists i. split; auto. rewrite Ey.
  destruct (interpolation_meaning _ _ _ _ T Iy) as (_ & _ & _ & _ & U). rewrite (U (25 / 2)); auto.
  right. exists 1%nat. cbn. repeat split; try lia; lra.
Qed.

Lemma loglog_case : log_interpolates [1; 2; 4] [10; 20; 5] (sqrt 2) (10 * sqrt 2).
Proof.
  assert (S2 : sqrt 2 * sqrt 2 = 2) by (apply sqrt_sqrt; lra). pose proof (sqrt_lt_R0 2 ltac:(lra)) as P.
  assert (B : 1 <= sqrt 2) by (rewrite <- sqrt_1; apply sqrt_le_1_alt; lra).
  assert (B2 : sqrt 2 <= 2) by (apply (Rmult_le_reg_r (sqrt 2)); [auto|]; lra).
  right. cbn [hd last]. split; [lra|]. split; [lra|]. exists 0%nat. cbn [map length nth]. split; [lia|].
  rewrite ln_1. assert (L : ln 2 = 2 * ln (sqrt 2)). { rewrite <- S2 at 1. rewrite ln_mult by auto. ring. }
  assert (0 <= ln (sqrt 2)). { rewrite <- ln_1. destruct B as [B|B]; [left; apply ln_increasing; lra|rewrite <- B; lra]. }
  split; [lra|]. rewrite ln_mult by lra. replace 20 with (10 * 2) by lra. rewrite ln_mult by lra. ring.
Qed.
