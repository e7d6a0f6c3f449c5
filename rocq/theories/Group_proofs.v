(** * Proofs about demand parameters, structures and grouping *)
From Coquelicot Require Import Coquelicot.
From Coq Require Import Reals List Bool ZArith Lia Lra Permutation.
From Verif Require Import Num ER ER_proofs ERmath Maq Maq_ER_spec Lognormal Lognormal_spec Lognormal_proofs Lognormal_proofs2
  Damage Damage_spec Damage_proofs Damage_proofs2 Group Group_spec.
Import ListNotations.
Local Open Scope R_scope.

(** ** Compound demand parameters *)

Theorem compound : forall N r1 r2 im, get_mean_X (r1 im) <> NaN -> get_mean_X (r2 im) <> NaN ->
  exists r, (r = r1 \/ r = r2) /\
    er_leb (get_mean_X (r1 im)) (get_mean_X (r im)) = true /\ er_leb (get_mean_X (r2 im)) (get_mean_X (r im)) = true /\
    compound_mean r1 r2 im = get_mean_X (r im) /\ compound_mean_ln r1 r2 im = get_mu_lnX (r im) /\
    compound_median r1 r2 im = get_median_X (r im) /\ compound_sd_ln r1 r2 im = get_sigma_lnX (r im) /\
    compound_sd r1 r2 im = get_sigma_X (r im) /\
    (forall y, compound_p_exceedence N r1 r2 im y = p_at_least N (r im) y) /\
    (forall p, compound_x_at_exceedence N r1 r2 im p = x_at_p N (r im) p).
Proof.
  intros N r1 r2 im H1 H2.
  assert (R : forall a, a <> NaN -> er_leb a a = true).
  { intros [| | |a] H; cbn; try reflexivity; [contradiction|]. apply Rleb_true. lra. }
  unfold compound_mean, compound_mean_ln, compound_median, compound_sd_ln, compound_sd,
    compound_p_exceedence, compound_x_at_exceedence, which_to_use, resp_mean.
  destruct (er_ltb (get_mean_X (r2 im)) (get_mean_X (r1 im))) eqn:E.
  - exists r1. refine (conj (or_introl eq_refl) (conj (R _ H1) (conj _ _))).
    + rewrite leb_ltb by assumption. apply negb_true_iff.
      destruct (er_ltb (get_mean_X (r1 im)) (get_mean_X (r2 im))) eqn:E'; [|reflexivity].
      pose proof (ltb_trans _ _ _ E E') as T. clear - T.
      destruct (get_mean_X (r2 im)); cbn in T; try discriminate. apply Rltb_true in T. lra.
    + repeat split; reflexivity.
  - exists r2. refine (conj (or_intror eq_refl) (conj _ (conj (R _ H2) _))).
    + rewrite leb_ltb by assumption. rewrite E. reflexivity.
    + repeat split; reflexivity.
Qed.

(** A mean that is not a number: the second response is used, whatever it is. *)
Theorem compound_nan : forall N r1 r2 im, get_mean_X (r1 im) = NaN \/ get_mean_X (r2 im) = NaN ->
  compound_mean r1 r2 im = get_mean_X (r2 im) /\ compound_mean_ln r1 r2 im = get_mu_lnX (r2 im) /\
  compound_median r1 r2 im = get_median_X (r2 im) /\ compound_sd_ln r1 r2 im = get_sigma_lnX (r2 im) /\
  compound_sd r1 r2 im = get_sigma_X (r2 im) /\
  (forall y, compound_p_exceedence N r1 r2 im y = p_at_least N (r2 im) y) /\
  (forall p, compound_x_at_exceedence N r1 r2 im p = x_at_p N (r2 im) p).
Proof.
  intros N r1 r2 im H. unfold compound_mean, compound_mean_ln, compound_median, compound_sd_ln, compound_sd,
    compound_p_exceedence, compound_x_at_exceedence, which_to_use, resp_mean.
  assert (E : er_ltb (get_mean_X (r2 im)) (get_mean_X (r1 im)) = false).
  { destruct H as [-> | ->]; [destruct (get_mean_X (r2 im)); reflexivity|reflexivity]. }
  rewrite E. repeat split; reflexivity.
Qed.

(** ** Total cost *)

Lemma over_fates_fin : forall a b c x y z, 0 <= y -> 0 <= z ->
  over_fates ER (Fin a) (Fin b) (Fin c) (Fin x) (Fin y) (Fin z) = Fin (a * x + b * y + c * z).
Proof.
  intros a b c x y z Hy Hz. unfold over_fates.
  change (nltb ER (nofZ ER 0) (Fin y)) with (Rltb 0 y). change (nltb ER (nofZ ER 0) (Fin z)) with (Rltb 0 z).
  cbn [nmul nadd ER er_mul er_add].
  destruct (Rltb 0 y) eqn:Ey; destruct (Rltb 0 z) eqn:Ez; cbn [er_add]; f_equal;
    try apply Rltb_false in Ey; try apply Rltb_false in Ez.
  - assert (z = 0) by lra. subst. ring.
  - assert (y = 0) by lra. subst. ring.
  - assert (y = 0) by lra. assert (z = 0) by lra. subst. ring.
Qed.

Lemma mix3 : forall (f : R -> R -> R) x y z a v b w c u,
  mix f [x; y; z] [(a, v); (b, w); (c, u)] = x * f a v + (y * f b w + (z * f c u + 0)).
Proof. reflexivity. Qed.

Theorem total_costs : forall N st c im mv md vd mc vc x y z,
  fate_curves st = Some c -> all_moments (group_costs st) mv ->
  moments (demolition_cost st) md vd -> moments (rebuild_cost st) mc vc ->
  p_repair N c im = Fin x -> p_demolition N c im = Fin y -> p_collapse N c im = Fin z ->
  0 <= x -> 0 <= y -> 0 <= z -> x + y + z = 1 ->
  let figures := [(total (map fst mv), total (map snd mv)); (md, vd); (mc, vc)] in
  0 <= mix_var [x; y; z] figures /\
  exists d, total_cost N st im = Returns d /\ moments d (mix_mean [x; y; z] figures) (mix_var [x; y; z] figures).
Proof.
  intros N st c im mv md vd mc vc x y z Ec M Md Mc Ex Ey Ez Hx Hy Hz Hs figures.
  pose proof (sum_moments _ _ M) as Mr.
  assert (A : all_moments [cost_nc st; demolition_cost st; rebuild_cost st] figures) by (repeat (apply Forall2_cons; [assumption|]); apply Forall2_nil).
  assert (W : Forall (fun w => 0 <= w) [x; y; z]) by (repeat (apply Forall_cons; [assumption|]); apply Forall_nil).
  assert (T : total [x; y; z] <= 1) by (cbn; lra).
  destruct (mixture _ _ [x; y; z] A eq_refl W T) as [V (d & Ed & Mm)].
  split; [exact V|]. exists d. split; [|exact Mm].
  unfold total_cost. rewrite Ec, Ex, Ey, Ez.
  destruct (moments_mean _ _ _ Mr) as [Er _]. destruct (moments_sd _ _ _ Mr) as [Sr Vr].
  destruct (moments_mean _ _ _ Md) as [Edm _]. destruct (moments_sd _ _ _ Md) as [Sd Vd].
  destruct (moments_mean _ _ _ Mc) as [Ecm _]. destruct (moments_sd _ _ _ Mc) as [Sc Vc].
  change (add_dists (group_costs st)) with (cost_nc st) in *.
  rewrite Er, Sr, Edm, Sd, Ecm, Sc. unfold total_mean_var, second_moment.
  cbn [nmul nadd nsub ER er_mul er_add]. rewrite !over_fates_fin by assumption. cbn [er_mul]. rewrite er_sub_fin.
  rewrite (weighted_is _ _ [x; y; z] A eq_refl) in Ed. injection Ed as <-. f_equal.
  rewrite !sqrt_def by assumption.
  match goal with |- from_mean_sd (Fin ?m) (er_sqrt (Fin ?v)) = _ =>
    assert (Ev : v = mix_var [x; y; z] figures) by (unfold mix_var, mix_mean, figures; rewrite !mix3; ring);
    assert (Em : m = mix_mean [x; y; z] figures) by (unfold mix_mean, figures; rewrite !mix3; ring) end.
  rewrite Ev, Em, er_sqrt_pos by exact V. rewrite Rabs_pos_eq by exact V. reflexivity.
Qed.

(** The costs by fate, whose means add up to the total. *)
Theorem by_fate : forall N st c im mv md vd mc vc x y z,
  fate_curves st = Some c -> all_moments (group_costs st) mv ->
  moments (demolition_cost st) md vd -> moments (rebuild_cost st) mc vc ->
  p_repair N c im = Fin x -> p_demolition N c im = Fin y -> p_collapse N c im = Fin z ->
  0 <= x -> 0 <= y -> 0 <= z -> x + y + z = 1 ->
  exists r d b t mr, costs_by_fate N st im = (r, d, b) /\ total_cost N st im = Returns t /\
    mr = total (map fst mv) /\
    get_mean_X r = Fin (x * mr) /\ get_mean_X d = Fin (y * md) /\ get_mean_X b = Fin (z * mc) /\
    get_mean_X t = Fin (x * mr + y * md + z * mc).
Proof.
  intros N st c im mv md vd mc vc x y z Ec M Md Mc Ex Ey Ez Hx Hy Hz Hs.
  destruct (total_costs N st c im mv md vd mc vc x y z Ec M Md Mc Ex Ey Ez Hx Hy Hz Hs) as [_ (t & Et & Mt)].
  unfold costs_by_fate. rewrite Ec, Ex, Ey, Ez.
  eexists _, _, _, t, _. refine (conj eq_refl (conj Et (conj eq_refl _))).
  pose proof (sum_moments _ _ M) as Mr.
  refine (conj (proj1 (moments_mean _ _ _ (scale_moments _ _ _ _ Mr Hx))) _).
  refine (conj (proj1 (moments_mean _ _ _ (scale_moments _ _ _ _ Md Hy))) _).
  refine (conj (proj1 (moments_mean _ _ _ (scale_moments _ _ _ _ Mc Hz))) _).
  rewrite (proj1 (moments_mean _ _ _ Mt)). unfold mix_mean. rewrite mix3. f_equal. ring.
Qed.

(** The cost with or without collapse. *)
Theorem collapse_costs : forall N st c im mv mc vc z,
  fate_curves st = Some c -> all_moments (group_costs st) mv -> moments (rebuild_cost st) mc vc ->
  p_collapse N c im = Fin z -> 0 <= z <= 1 ->
  let figures := [(total (map fst mv), total (map snd mv)); (mc, vc)] in
  (exists d, structure_cost N st im true = Returns d /\
     moments d (mix_mean [1 - z; z] figures) (mix_var [1 - z; z] figures)) /\
  (exists d, structure_cost N st im false = Returns d /\ moments d (total (map fst mv)) (total (map snd mv))) /\
  (exists r b, deaggregated_cost N st im = Returns (r, b) /\
     get_mean_X r = Fin ((1 - z) * total (map fst mv)) /\ get_mean_X b = Fin (z * mc)).
Proof.
  intros N st c im mv mc vc z Ec M Mc Ez Hz figures.
  pose proof (sum_moments _ _ M) as Mr. split; [|split].
  - assert (A : all_moments [cost_nc st; rebuild_cost st] figures) by (repeat (apply Forall2_cons; [assumption|]); apply Forall2_nil).
    assert (W : Forall (fun w => 0 <= w) [1 - z; z]) by (repeat (apply Forall_cons; [lra|]); apply Forall_nil).
    assert (T : total [1 - z; z] <= 1) by (cbn; lra).
    destruct (mixture _ _ [1 - z; z] A eq_refl W T) as [V (d & Ed & Mm)]. exists d. split; [|exact Mm].
    unfold structure_cost. rewrite Ec, Ez. change (er_sub (Fin 1) (Fin z)) with (Fin (1 - z)).
    cbn [map] in Ed. rewrite Ed. reflexivity.
  - exists (cost_nc st). split; [reflexivity|exact Mr].
  - unfold deaggregated_cost. rewrite Ec, Ez. eexists _, _. split; [reflexivity|].
    change (er_sub (Fin 1) (Fin z)) with (Fin (1 - z)). split.
    + exact (proj1 (moments_mean _ _ _ (scale_moments _ _ _ (1 - z) Mr ltac:(lra)))).
    + exact (proj1 (moments_mean _ _ _ (scale_moments _ _ _ z Mc ltac:(lra)))).
Qed.

(** *** What goes wrong *)

Definition certain_one : lnd := LND (Fin 0) (Fin 0).

Lemma certain_one_moments : moments certain_one 1 0.
Proof.
  left. exists 0, 0. split; [split; [reflexivity|lra]|]. replace (0 + 0 * 0 / 2) with 0 by field.
  replace (0 * 0) with 0 by ring. rewrite exp_0. split; [reflexivity|ring].
Qed.

(** Every outcome certainly costs 1, but crossing curves make the total NaN. *)
Lemma refute_total_crossing : forall N, normal_ok N -> exists st c x,
  fate_curves st = Some c /\ defined_at c (Fin x) /\ 0 < x /\
  moments (cost_nc st) 1 0 /\ moments (demolition_cost st) 1 0 /\ moments (rebuild_cost st) 1 0 /\
  exists d, total_cost N st (Fin x) = Returns d /\ all_nan d.
Proof.
  intros N OK. destruct (refute_fates N OK) as (c & x & y & Hx & Dc & Ey & Hy).
  pose (st := Site [certain_one] (Some c) certain_one certain_one).
  exists st, c, x. refine (conj eq_refl (conj Dc (conj Hx _))).
  pose proof certain_one_moments as M1.
  assert (A : all_moments [certain_one] [(1, 0)]) by (apply Forall2_cons; [assumption|apply Forall2_nil]).
  pose proof (sum_moments _ _ A) as Mr. cbn [map fst snd] in Mr. change (total [1]) with (1 + 0) in Mr.
  change (total [0]) with (0 + 0) in Mr. rewrite !Rplus_0_r in Mr.
  refine (conj Mr (conj M1 (conj M1 _))).
  destruct (fate_sum N OK c (Fin x) Dc) as (a & b & z & Ea & Eb & Ez & Hsum). rewrite Ey in Eb. injection Eb as <-.
  destruct Hsum as (Ha & _ & Hz & Hs).
  assert (E : total_cost N st (Fin x) = Returns (from_mean_sd (Fin (a + z)) (er_sqrt (Fin ((a + z) - (a + z) * (a + z)))))).
  { unfold total_cost. cbn [fate_curves st]. rewrite Ea, Ey, Ez.
    destruct (moments_mean _ _ _ Mr) as [Er _]. destruct (moments_sd _ _ _ Mr) as [Sr _].
    destruct (moments_mean _ _ _ M1) as [E1 _]. destruct (moments_sd _ _ _ M1) as [S1 _].
    change (add_dists [certain_one]) with (cost_nc st) in *. cbn [demolition_cost rebuild_cost st].
    rewrite Er, Sr, E1, S1, sqrt_0. unfold total_mean_var, second_moment, over_fates.
    change (nltb ER (nofZ ER 0) (Fin y)) with (Rltb 0 y). rewrite (proj2 (Rltb_false 0 y)) by lra.
    change (nltb ER (nofZ ER 0) (Fin z)) with (Rltb 0 z).
    cbn [nmul nadd nsub ER er_mul er_add].
    destruct (Rltb 0 z) eqn:Q; cbn [er_add er_mul]; rewrite er_sub_fin.
    - do 2 f_equal; [f_equal; ring|]. f_equal. f_equal. ring.
    - apply Rltb_false in Q. assert (z = 0) by lra. subst z.
      do 2 f_equal; [f_equal; ring|]. f_equal. f_equal. ring. }
  eexists. split; [exact E|].
  replace (er_sqrt (Fin (a + z - (a + z) * (a + z)))) with NaN.
  2:{ unfold er_sqrt. rewrite (proj2 (Rltb_true _ 0)); [reflexivity|].
      replace (a + z) with (1 - y) by lra. replace (1 - y - (1 - y) * (1 - y)) with (- ((1 - y) * - y)) by ring.
      apply Ropp_lt_gt_0_contravar. apply Rmult_lt_0_compat; lra. }
  assert (Q : from_mean_sd (Fin (a + z)) NaN = LND NaN NaN).
  { unfold from_mean_sd, sigma_from_sd. rewrite er_eqb_fin0 by lra. cbn [er_mul er_div er_add er_log er_sqrt].
    unfold mu_from_mean. rewrite er_log_pos by lra. reflexivity. }
  rewrite Q. repeat split.
Qed.

(** No group, no demolition cost. *)
Lemma refute_total_empty : forall N b d im, 
  total_cost N (Site [] None b d) im = Undefined /\ deaggregated_cost N (Site [] None b d) im = Undefined.
Proof. intros. split; reflexivity. Qed.

Lemma only_repair : forall a b c, over_fates ER (Fin a) b c (Fin 1) (Fin 0) (Fin 0) = Fin a.
Proof.
  intros. unfold over_fates. change (nltb ER (nofZ ER 0) (Fin 0)) with (Rltb 0 0).
  rewrite (proj2 (Rltb_false 0 0)) by lra. cbn [nmul ER er_mul]. f_equal. ring.
Qed.

Theorem only_repairs : forall N st im mv, fate_curves st = Some (Curves None None) ->
  all_moments (group_costs st) mv ->
  exists d, total_cost N st im = Returns d /\ moments d (total (map fst mv)) (total (map snd mv)).
Proof.
  intros N st im mv Ec M. pose proof (sum_moments _ _ M) as Mr.
  destruct (no_curves N im) as (Ex & Ey & Ez).
  destruct (moments_mean _ _ _ Mr) as [Er Pr]. destruct (moments_sd _ _ _ Mr) as [Sr Vr].
  pose proof (moments_zero _ _ _ Mr) as Z.
  eexists. unfold total_cost. rewrite Ec, Ex, Ey, Ez.
  change (add_dists (group_costs st)) with (cost_nc st) in *. rewrite Er, Sr.
  unfold total_mean_var, second_moment at 1. cbn [nmul nadd nsub ER er_mul er_add].
  rewrite !only_repair. cbn [er_mul]. rewrite er_sub_fin, sqrt_def by assumption. split; [reflexivity|].
  match goal with |- moments (from_mean_sd _ (er_sqrt (Fin ?v))) _ _ => replace v with (total (map snd mv)) by ring end.
  rewrite er_sqrt_pos by assumption. apply from_sd_moments; assumption.
Qed.

Lemma refute_fate_unset : forall N l mv b im, all_moments l mv ->
  exists d r e c, total_cost N (Site l (Some (Curves None None)) b nodist) im = Returns d /\
    get_mean_X d = Fin (total (map fst mv)) /\
    costs_by_fate N (Site l (Some (Curves None None)) b nodist) im = (r, e, c) /\ get_mean_X e = NaN.
Proof.
  intros N l mv b im M.
  destruct (only_repairs N (Site l (Some (Curves None None)) b nodist) im mv eq_refl M) as (d & E & Md).
  eexists d, _, _, _. split; [exact E|]. split; [exact (proj1 (moments_mean _ _ _ Md))|].
  split; reflexivity.
Qed.

(** In double precision: three fates, each certainly costing 3; the computed
    variance is negative. *)
Lemma refute_total_rounding : exists m pr pd pc mean var : F64,
  m = nofZ F64 3 /\ pd = ndiv F64 (nofZ F64 1) (nofZ F64 2) /\ pc = ndiv F64 (nofZ F64 1) (nofZ F64 5) /\
  pr = nsub F64 (nofZ F64 1) (nadd F64 pd pc) /\
  total_mean_var F64 m (nofZ F64 0) m (nofZ F64 0) m (nofZ F64 0) pr pd pc = (mean, var) /\
  nltb F64 var (nofZ F64 0) = true.
Proof.
  eexists _, _, _, _, _, _. refine (conj eq_refl (conj eq_refl (conj eq_refl (conj eq_refl (conj _ _))))).
  - vm_compute. reflexivity.
  - vm_compute. reflexivity.
Qed.

(** What that makes of the distribution. *)
Lemma negative_variance : forall m v, 0 < m -> v < 0 -> all_nan (from_mean_sd (Fin m) (er_sqrt (Fin v))).
Proof.
  intros m v Hm Hv. replace (er_sqrt (Fin v)) with NaN.
  2:{ unfold er_sqrt. rewrite (proj2 (Rltb_true v 0)) by exact Hv. reflexivity. }
  assert (Q : from_mean_sd (Fin m) NaN = LND NaN NaN).
  { unfold from_mean_sd, sigma_from_sd. rewrite er_eqb_fin0 by lra. cbn [er_mul er_div er_add er_log er_sqrt].
    unfold mu_from_mean. rewrite er_log_pos by lra. reflexivity. }
  rewrite Q. repeat split.
Qed.

(** ** Discounting *)

(** The value the formula has. *)
Definition pv (a r : R) (y : Z) : R := (1 - exp (- r * IZR y)) / r * a.

Lemma e_cost_is : forall d a y r, get_mean_X d = Fin a -> r <> 0 -> e_cost d y (Fin r) = Fin (pv a r y).
Proof.
  intros d a y r E Hr. unfold e_cost, pv. rewrite E. cbn [er_opp er_mul er_exp]. rewrite er_sub_fin, er_div_fin by exact Hr.
  reflexivity.
Qed.

Theorem present_value : forall d a y r, get_mean_X d = Fin a -> r <> 0 ->
  exists v, e_cost d y (Fin r) = Fin v /\ is_integral (fun s => a * exp (- r * s)) 0 (IZR y) v.
Proof.
  intros d a y r E Hr. exists (pv a r y). split; [apply e_cost_is; assumption|]. unfold is_integral, pv.
  replace ((1 - exp (- r * IZR y)) / r * a) with
    (minus (- (a / r) * exp (- r * IZR y)) (- (a / r) * exp (- r * 0))).
  2:{ unfold minus, plus, opp; cbn. rewrite Rmult_0_r, exp_0. field. exact Hr. }
  apply (is_RInt_derive (fun s => - (a / r) * exp (- r * s))).
  - intros s _. auto_derive; [trivial|]. field. exact Hr.
  - intros s _. apply (ex_derive_continuous (V := R_NormedModule)). auto_derive. trivial.
Qed.

Lemma exp_tangent : forall x, 1 + x <= exp x.
Proof. intros x. destruct (Req_dec x 0) as [->|H]; [rewrite exp_0; lra|]. left. apply exp_ineq1. exact H. Qed.

(** 1 - exp(-t) lies between t - t^2/2 and t. *)
Lemma growth : forall t, 0 <= t -> t - t * t / 2 <= 1 - exp (- t) <= t.
Proof.
  intros t Ht. split.
  - assert (I : forall u, 0 <= u -> 0 <= 1 - u + u * u / 2 - exp (- u)).
    { intros u Hu. destruct Hu as [Hu|<-]; [|rewrite Ropp_0, exp_0; lra].
      destruct (MVT_gen (fun u => 1 - u + u * u / 2 - exp (- u)) 0 u (fun u => - 1 + u + exp (- u))) as (c & Hc & E).
      - intros x _. auto_derive; [trivial|]. field.
      - intros x _. apply derivable_continuous_pt, ex_derive_Reals_0. auto_derive. trivial.
      - rewrite Ropp_0, exp_0 in E. rewrite Rmin_left, Rmax_right in Hc by lra.
        pose proof (exp_tangent (- c)) as T.
        assert (0 <= (- 1 + c + exp (- c)) * (u - 0)) by (apply Rmult_le_pos; lra). lra. }
    specialize (I t Ht). lra.
  - pose proof (exp_tangent (- t)). lra.
Qed.

Lemma growth_ratio : forall t k, 0 <= t -> 1 <= k -> 1 - exp (- (k * t)) <= k * (1 - exp (- t)).
Proof.
  intros t k Ht Hk. pose proof (exp_pos (- t)) as P.
  pose proof (exp_tangent (- (k * t) + t)) as T1. pose proof (exp_tangent t) as T2.
  assert (E1 : exp (- (k * t)) = exp (- t) * exp (- (k * t) + t)) by (rewrite <- exp_plus; f_equal; ring).
  assert (E2 : 1 = exp (- t) * exp t) by (rewrite <- exp_plus; replace (- t + t) with 0 by ring; rewrite exp_0; reflexivity).
  assert (H1 : exp (- t) * (1 + (- (k * t) + t)) <= exp (- (k * t))) by (rewrite E1; apply Rmult_le_compat_l; lra).
  assert (H2 : exp (- t) * (1 + t) <= 1) by (rewrite E2 at 2; apply Rmult_le_compat_l; lra).
  assert (H3 : (k - 1) * (exp (- t) * (1 + t)) <= (k - 1) * 1) by (apply Rmult_le_compat_l; lra).
  lra.
Qed.

Lemma pv_zero : forall a r, r <> 0 -> pv a r 0 = 0.
Proof. intros a r Hr. unfold pv. rewrite Rmult_0_r, exp_0. field. exact Hr. Qed.

Lemma pv_years : forall a r y y', 0 <= a -> r <> 0 -> (y <= y')%Z -> pv a r y <= pv a r y'.
Proof.
  intros a r y y' Ha Hr Hy. apply IZR_le in Hy. unfold pv. apply Rmult_le_compat_r; [exact Ha|].
  destruct (Rtotal_order r 0) as [H|[H|H]]; [|contradiction|].
  - assert (E : exp (- r * IZR y) <= exp (- r * IZR y')).
    { destruct (Rle_lt_or_eq_dec _ _ Hy) as [L| ->]; [|lra]. left. apply exp_increasing. apply Rmult_lt_compat_l; lra. }
    replace ((1 - exp (- r * IZR y)) / r) with ((exp (- r * IZR y) - 1) * / (- r)) by (field; lra).
    replace ((1 - exp (- r * IZR y')) / r) with ((exp (- r * IZR y') - 1) * / (- r)) by (field; lra).
    apply Rmult_le_compat_r; [left; apply Rinv_0_lt_compat; lra|lra].
  - assert (E : exp (- r * IZR y') <= exp (- r * IZR y)).
    { destruct (Rle_lt_or_eq_dec _ _ Hy) as [L| ->]; [|lra]. left. apply exp_increasing.
      assert (r * IZR y < r * IZR y') by (apply Rmult_lt_compat_l; lra). lra. }
    apply Rmult_le_compat_r; [left; apply Rinv_0_lt_compat; lra|lra].
Qed.

Lemma pv_bounds : forall a r y, 0 <= a -> 0 < r -> (0 <= y)%Z ->
  a * IZR y * (1 - r * IZR y / 2) <= pv a r y <= a * IZR y.
Proof.
  intros a r y Ha Hr Hy. apply IZR_le in Hy. assert (Ht : 0 <= r * IZR y) by (apply Rmult_le_pos; lra).
  destruct (growth _ Ht) as [G1 G2]. unfold pv. rewrite Ropp_mult_distr_l_reverse.
  split.
  - replace (a * IZR y * (1 - r * IZR y / 2)) with ((r * IZR y - r * IZR y * (r * IZR y) / 2) / r * a) by (field; lra).
    apply Rmult_le_compat_r; [exact Ha|]. apply Rmult_le_compat_r; [left; apply Rinv_0_lt_compat; lra|exact G1].
  - replace (a * IZR y) with ((r * IZR y) / r * a) by (field; lra).
    apply Rmult_le_compat_r; [exact Ha|]. apply Rmult_le_compat_r; [left; apply Rinv_0_lt_compat; lra|exact G2].
Qed.

Lemma pv_rate : forall a r r' y, 0 <= a -> 0 < r <= r' -> (0 <= y)%Z -> pv a r' y <= pv a r y.
Proof.
  intros a r r' y Ha [Hr Hr'] Hy. apply IZR_le in Hy. assert (Ht : 0 <= r * IZR y) by (apply Rmult_le_pos; lra).
  unfold pv. apply Rmult_le_compat_r; [exact Ha|].
  assert (Hk : 1 <= r' / r) by (apply Rmult_le_reg_r with r; [lra|]; unfold Rdiv; rewrite Rmult_assoc, Rinv_l by lra; lra).
  pose proof (growth_ratio _ _ Ht Hk) as G. replace (r' / r * (r * IZR y)) with (r' * IZR y) in G by (field; lra).
  rewrite !Ropp_mult_distr_l_reverse.
  apply Rmult_le_reg_r with r'; [lra|]. unfold Rdiv at 1. rewrite Rmult_assoc, Rinv_l, Rmult_1_r by lra.
  replace ((1 - exp (- (r * IZR y))) / r * r') with (r' / r * (1 - exp (- (r * IZR y)))) by (field; lra). exact G.
Qed.

Theorem discounted : forall d a, get_mean_X d = Fin a -> 0 <= a ->
  (forall r, r <> 0 -> e_cost d 0 (Fin r) = Fin 0) /\
  (forall r y y', r <> 0 -> (y <= y')%Z -> exists v v', e_cost d y (Fin r) = Fin v /\ e_cost d y' (Fin r) = Fin v' /\ v <= v') /\
  (forall r r' y, 0 < r <= r' -> (0 <= y)%Z -> exists v v', e_cost d y (Fin r) = Fin v /\ e_cost d y (Fin r') = Fin v' /\ v' <= v) /\
  (forall r y, 0 < r -> (0 <= y)%Z -> exists v, e_cost d y (Fin r) = Fin v /\
     a * IZR y * (1 - r * IZR y / 2) <= v <= a * IZR y).
Proof.
  intros d a E Ha. split; [|split; [|split]].
  - intros r Hr. rewrite (e_cost_is d a 0 r E Hr). f_equal. apply pv_zero. exact Hr.
  - intros r y y' Hr Hy. exists (pv a r y), (pv a r y'). rewrite !(e_cost_is d a _ r E Hr).
    refine (conj eq_refl (conj eq_refl _)). apply pv_years; assumption.
  - intros r r' y Hr Hy. exists (pv a r y), (pv a r' y).
    rewrite (e_cost_is d a y r E) by lra. rewrite (e_cost_is d a y r' E) by lra.
    refine (conj eq_refl (conj eq_refl _)). apply pv_rate; assumption.
  - intros r y Hr Hy. exists (pv a r y). rewrite (e_cost_is d a y r E) by lra. split; [reflexivity|].
    apply pv_bounds; assumption.
Qed.

(** No discounting. *)
Theorem undiscounted : forall d y, e_cost d y (Fin 0) = NaN.
Proof.
  intros d y. unfold e_cost. cbn [er_opp er_mul er_exp]. rewrite Ropp_0, Rmult_0_l, exp_0, er_sub_fin.
  replace (1 - 1) with 0 by ring. assert (Q : er_div (Fin 0) (Fin 0) = NaN).
  { cbn [er_div]. rewrite (proj2 (Reqb_true 0 0)) by reflexivity. unfold er_inf_times.
    rewrite (proj2 (Rltb_false 0 0)) by lra. reflexivity. }
  rewrite Q. reflexivity.
Qed.

(** No annual cost. *)
Theorem no_annual_cost : forall rs : option (maq_result ER * maq_result ER),
  match rs with
  | None => True
  | Some (r1, r2) => mr_successful r1 = false \/
      (mr_successful r2 = false /\ exists m, mr_integral r1 = Fin m /\ 0 < m)
  end ->
  forall y r, get_mean_X (annual_cost rs) = NaN /\ e_cost (annual_cost rs) y r = NaN.
Proof.
  intros rs H y r.
  assert (M : get_mean_X (annual_cost rs) = NaN).
  { destruct rs as [[r1 r2]|]; [|reflexivity]. unfold annual_cost, integral_or.
    destruct (mr_successful r1) eqn:S1; [|reflexivity].
    destruct H as [H|(H & m & Em & Hm)]; [discriminate|]. rewrite H, Em.
    cbn [er_mul]. unfold er_sub. cbn [er_opp er_add er_abs er_sqrt].
    assert (Q : from_mean_sd (Fin m) NaN = LND NaN NaN).
    { unfold from_mean_sd, sigma_from_sd. rewrite er_eqb_fin0 by lra. cbn [er_mul er_div er_add er_log er_sqrt].
      unfold mu_from_mean. rewrite er_log_pos by lra. reflexivity. }
    rewrite Q. reflexivity. }
  split; [exact M|]. unfold e_cost. rewrite M. destruct (er_div _ _); reflexivity.
Qed.

(** Several years at once, in any order. *)
Lemma loop_length : forall d ys r o l, length (e_cost_loop d ys r o l) = length l.
Proof. intros d ys r o. induction o as [|i o IH]; intros l; [reflexivity|]. cbn [e_cost_loop]. rewrite IH. apply set_length. Qed.

Lemma loop_nth : forall d ys r o l j, (j < length l)%nat ->
  nth j (e_cost_loop d ys r o l) NaN =
    if in_dec Nat.eq_dec j o then e_cost d (nth j ys 0%Z) r else nth j l NaN.
Proof.
  intros d ys r o. induction o as [|i o IH]; intros l j Hj; cbn [e_cost_loop]; [destruct (in_dec _ _ _) as [[]|_]; reflexivity|].
  rewrite IH by (rewrite set_length; exact Hj). destruct (in_dec Nat.eq_dec j o) as [H|H].
  - destruct (in_dec Nat.eq_dec j (i :: o)) as [_|N]; [reflexivity|]. exfalso. apply N. right. exact H.
  - destruct (in_dec Nat.eq_dec j (i :: o)) as [[->|N]|N].
    + apply set_same. exact Hj.
    + contradiction.
    + apply set_other. intros ->. apply N. left. reflexivity.
Qed.

Theorem several_years : forall d ys r o, Permutation o (seq 0 (length ys)) ->
  e_cost_all d ys r o = map (fun y => e_cost d y r) ys.
Proof.
  intros d ys r o P. unfold e_cost_all.
  apply nth_ext with (d := NaN) (d' := e_cost d 0%Z r).
  - rewrite loop_length, repeat_length, map_length. reflexivity.
  - intros j Hj. rewrite loop_length, repeat_length in Hj.
    rewrite loop_nth by (rewrite repeat_length; exact Hj).
    destruct (in_dec Nat.eq_dec j o) as [_|N].
    + rewrite (map_nth (fun y => e_cost d y r)). reflexivity.
    + exfalso. apply N. apply (Permutation_in _ (Permutation_sym P)). apply in_seq. lia.
Qed.

(** ** Grouping *)

Section Grouping.
Context {A : Type} (key : A -> nat).

(** All keys of the list are above [k]. *)
Definition above_key (k : nat) (ks : list nat) : Prop := forall j, In j ks -> (k < j)%nat.

(** Strictly ascending. *)
Fixpoint ascending (ks : list nat) : Prop :=
  match ks with [] => True | k :: r => above_key k r /\ ascending r end.

Lemma insert_in : forall k ks j, In j (insert_key k ks) <-> j = k \/ In j ks.
Proof.
  intros k ks j. induction ks as [|i ks IH]; cbn [insert_key In]; [intuition|].
  destruct (Nat.ltb k i); cbn [In]; [intuition|].
  destruct (Nat.eqb_spec k i) as [->|H]; cbn [In]; [intuition|]. rewrite IH. intuition.
Qed.

Lemma insert_ascending : forall k ks, ascending ks -> ascending (insert_key k ks).
Proof.
  intros k ks. induction ks as [|i ks IH]; cbn [insert_key ascending]; [intros _; split; [intros j []|exact I]|].
  intros [H1 H2]. destruct (Nat.ltb_spec k i) as [L|L].
  - cbn [ascending]. split; [|split; assumption]. intros j [<-|Hj]; [exact L|]. specialize (H1 j Hj). lia.
  - destruct (Nat.eqb_spec k i) as [->|N]; [split; assumption|]. cbn [ascending]. split; [|apply IH; exact H2].
    intros j Hj. apply insert_in in Hj. destruct Hj as [->|Hj]; [lia|exact (H1 j Hj)].
Qed.

Lemma ascending_nodup : forall ks, ascending ks -> NoDup ks.
Proof.
  induction ks as [|k ks IH]; intros H; [constructor|]. destruct H as [H1 H2]. constructor; [|apply IH; exact H2].
  intros K. specialize (H1 k K). lia.
Qed.

Lemma push_keys : forall k (c : A) m, map fst (push_back k c m) = insert_key k (map fst m).
Proof.
  intros k c m. induction m as [|[j l] m IH]; [reflexivity|]. cbn [push_back insert_key map fst].
  destruct (Nat.ltb k j); [reflexivity|]. destruct (Nat.eqb k j); cbn [map fst]; [reflexivity|]. rewrite IH. reflexivity.
Qed.

Lemma look_up_none : forall k (m : list (nat * list A)), ~ In k (map fst m) -> look_up k m = [].
Proof.
  intros k m. induction m as [|[j l] m IH]; [reflexivity|]. cbn [map fst look_up In]. intros H.
  destruct (Nat.eqb_spec k j) as [->|N]; [exfalso; apply H; left; reflexivity|]. apply IH. intros K. apply H. right. exact K.
Qed.

Lemma look_up_push : forall k (c : A) m i, ascending (map fst m) ->
  look_up i (push_back k c m) = look_up i m ++ (if Nat.eqb k i then [c] else []).
Proof.
  intros k c m i. induction m as [|[j l] m IH]; cbn [push_back look_up map fst ascending].
  - intros _. rewrite (Nat.eqb_sym i k). destruct (Nat.eqb k i); reflexivity.
  - intros [H1 H2]. destruct (Nat.ltb_spec k j) as [L|L]; cbn [look_up].
    + rewrite (Nat.eqb_sym i k). destruct (Nat.eqb_spec k i) as [->|N].
      * destruct (Nat.eqb_spec i j) as [->|N]; [lia|]. rewrite look_up_none; [reflexivity|].
        intros K. specialize (H1 i K). lia.
      * rewrite app_nil_r. reflexivity.
    + destruct (Nat.eqb_spec k j) as [->|N]; cbn [look_up].
      * rewrite (Nat.eqb_sym j i). destruct (Nat.eqb i j); [reflexivity|rewrite app_nil_r; reflexivity].
      * destruct (Nat.eqb_spec i j) as [->|N2].
        -- destruct (Nat.eqb_spec k j) as [->|_]; [contradiction|]. rewrite app_nil_r. reflexivity.
        -- apply IH. exact H2.
Qed.

Definition with_key (cs : list A) (k : nat) : list A := filter (fun c => Nat.eqb (key c) k) cs.

Lemma fill_spec : forall cs m ks before,
  map fst m = ks -> ascending ks -> (forall k, look_up k m = with_key before k) ->
  (forall k, In k ks <-> exists c, In c before /\ key c = k) ->
  forall m' ks', fill key cs m ks = (m', ks') ->
  ascending ks' /\ (forall k, look_up k m' = with_key (before ++ cs) k) /\
  (forall k, In k ks' <-> exists c, In c (before ++ cs) /\ key c = k).
Proof.
  induction cs as [|c cs IH]; intros m ks before E S1 L K m' ks' F; cbn [fill] in F.
  - injection F as <- <-. rewrite app_nil_r. auto.
  - replace (before ++ c :: cs) with ((before ++ [c]) ++ cs) by (rewrite <- app_assoc; reflexivity).
    refine (IH _ _ _ _ _ _ _ _ _ F).
    + rewrite push_keys, E. reflexivity.
    + apply insert_ascending. exact S1.
    + intros k. rewrite look_up_push by (rewrite E; exact S1). rewrite L. unfold with_key. rewrite filter_app. reflexivity.
    + intros k. rewrite insert_in, K. split.
      * intros [->|(d & Hd & <-)].
        -- exists c. split; [apply in_or_app; right; left; reflexivity|reflexivity].
        -- exists d. split; [apply in_or_app; left; exact Hd|reflexivity].
      * intros (d & Hd & <-). apply in_app_or in Hd. destruct Hd as [Hd|[<-|[]]]; [right; exists d; auto|left; reflexivity].
Qed.

Lemma components_are : forall cs, exists ks, NoDup ks /\ components_by key cs = map (with_key cs) ks /\
  forall k, In k ks <-> exists c, In c cs /\ key c = k.
Proof.
  intros cs. unfold components_by. destruct (fill key cs [] []) as [m ks] eqn:F.
  assert (K : forall k, In k [] <-> exists c, In c [] /\ key c = k).
  { intros k. split; [intros []|intros (c & [] & _)]. }
  destruct (fill_spec cs [] [] [] eq_refl I (fun _ => eq_refl) K _ _ F) as (H1 & H2 & H3).
  exists ks. split; [apply ascending_nodup; exact H1|]. split; [|exact H3].
  apply map_ext. exact H2.
Qed.

Lemma no_key : forall c cs ks, ~ In (key c) ks -> map (with_key (c :: cs)) ks = map (with_key cs) ks.
Proof.
  intros c cs ks H. apply map_ext_in. intros k Hk. unfold with_key. cbn [filter].
  destruct (Nat.eqb_spec (key c) k) as [<-|_]; [contradiction|reflexivity].
Qed.

Lemma classes_members : forall cs ks, NoDup ks -> (forall c, In c cs -> In (key c) ks) ->
  Permutation (concat (map (with_key cs) ks)) cs.
Proof.
  intros cs ks ND. induction cs as [|c cs IH]; intros H.
  - clear. induction ks as [|k ks IH]; [constructor|exact IH].
  - destruct (in_split _ _ (H c (or_introl eq_refl))) as (l1 & l2 & E). subst ks.
    pose proof (NoDup_remove_2 _ _ _ ND) as N.
    specialize (IH (fun d Hd => H d (or_intror Hd))).
    rewrite map_app in IH |- *. cbn [map] in IH |- *.
    rewrite !no_key by (intros K; apply N; apply in_or_app; auto).
    rewrite concat_app in IH |- *. cbn [concat] in IH |- *.
    unfold with_key at 2. cbn [filter]. rewrite Nat.eqb_refl. cbn [app].
    change (filter (fun c0 => Nat.eqb (key c0) (key c)) cs) with (with_key cs (key c)).
    eapply Permutation_trans; [apply Permutation_sym, Permutation_middle|]. constructor. exact IH.
Qed.

Theorem grouping : forall cs, grouped key cs (components_by key cs).
Proof.
  intros cs. destruct (components_are cs) as (ks & ND & E & K). rewrite E. constructor.
  - apply classes_members; [exact ND|]. intros c Hc. apply K. exists c. auto.
  - apply Forall_map, Forall_forall. intros k Hk. apply K in Hk. destruct Hk as (c & Hc & Ec). intros Q.
    assert (In c []) as []. rewrite <- Q. apply filter_In. split; [exact Hc|]. apply Nat.eqb_eq. exact Ec.
  - intros g c c' Hg Hc Hc'. apply in_map_iff in Hg. destruct Hg as (k & <- & _).
    apply filter_In in Hc. apply filter_In in Hc'. destruct Hc as [_ Hc]. destruct Hc' as [_ Hc'].
    apply Nat.eqb_eq in Hc. apply Nat.eqb_eq in Hc'. congruence.
  - intros l g l' g' l'' c c' Q Hc Hc'. apply map_eq_app in Q. destruct Q as (k1 & k2 & -> & _ & Q).
    apply map_eq_cons in Q. destruct Q as (k & k3 & -> & Eg & Q).
    apply map_eq_app in Q. destruct Q as (k4 & k5 & -> & _ & Q).
    apply map_eq_cons in Q. destruct Q as (k' & k6 & -> & Eg' & _).
    subst g g'. apply filter_In in Hc. apply filter_In in Hc'. destruct Hc as [_ Hc]. destruct Hc' as [_ Hc'].
    apply Nat.eqb_eq in Hc. apply Nat.eqb_eq in Hc'. rewrite Hc, Hc'. intros ->.
    apply NoDup_remove_2 in ND. apply ND. apply in_or_app. right. apply in_or_app. right. left. reflexivity.
  - apply Forall_map, Forall_forall. intros k _. exists k. reflexivity.
Qed.

End Grouping.
