(** * Properties of demand parameters, component groups and structures

    C43 (groups without components, failed integrations), C46 (total cost), C47
    (discounted cost), C48 (grouping), C49 (compound demand parameters), C61
    (delays), C62 (cost distributions of groups). *)
From Coq Require Import Reals List Bool ZArith Permutation Lra.
From Verif Require Import Num ER ERmath Maq Maq_spec Maq_ER_spec Lognormal Lognormal_spec Lognormal_proofs Gauss_proofs
  Damage Damage_spec Damage_proofs Damage_proofs2 Group Group_spec Group_proofs Group_proofs2 Group_proofs3.
Import ListNotations.
Local Open Scope R_scope.

(** ** C43 *)

(** A group without components costs nothing and delays nothing at every
    intensity, and nothing per year. *)
Theorem C43_none : forall N D s g im c, (count g <= 0)%Z ->
  e_cost_im N D s g im = Done (Fin 0) /\ sd_ln_cost_im N D s g im = Done (Fin 0) /\
  e_annual_cost N D s g = Done (Fin 0) /\ lambda_cost N D s g c = Done (Fin 0) /\
  e_delay_im N D s g im = Done (Fin 0) /\ sd_ln_delay_im N D s g im = Done (Fin 0) /\
  exists d, cost_dist_im N D s g im = Done d /\ certain_zero d.
Proof. exact no_components. Qed.
Print Assumptions C43_none.

(** Nor at any demand, whatever simple loss functions it has. *)
Theorem C43_none_demand : forall N c l mv f x g, normal_ok N -> spreads c -> all_moments l mv ->
  length l = length c -> 0 <= f -> 0 <= x ->
  fragility g = map curve c -> count g = 0%Z ->
  (cost_fn g = Some (SimpleLoss l) -> cost_factor g = Fin f -> get_mean_X (cost_edp N g (Fin x)) = Fin 0) /\
  (delay_fn g = Some (SimpleLoss l) -> delay_factor g = Fin f -> get_mean_X (delay_edp N g (Fin x)) = Fin 0).
Proof. exact no_components_edp. Qed.
Print Assumptions C43_none_demand.

(** Full statement: a mean cost of zero reported for a group with components is
    the mean cost.  False: with an evaluation limit of 1 the integration fails, and a
    mean of zero is reported although the cost is positive at every demand. *)
Theorem C43_zero_refuted : forall N, normal_ok N -> exists D s g im,
  s = settings_run ER [OpSetEvalLimit ER 1] /\ limits_ok s /\ (0 < count g)%Z /\ D = differences_of /\
  (forall x, 0 <= x -> exceedence g im (Fin x) = Fin (1 / (1 + x))) /\
  (forall x, 0 < x -> exists m, get_mean_X (cost_edp N g (Fin x)) = Fin m /\ 0 < m) /\
  e_cost_im N D s g im = Done (Fin 0).
Proof. exact refute_zero. Qed.
Print Assumptions C43_zero_refuted.

(** What holds instead: a mean cost other than zero is the value of a successful
    integration, and zero is reported whenever the integration failed. *)
Theorem C43_reported_partial : forall N D s g im, limits_ok s -> (0 < count g)%Z ->
  exists r v, integrate s (cost_integrand N D g im) = Done r /\ e_cost_im N D s g im = Done v /\
    (mr_successful r = true -> v = mr_integral r) /\ (mr_successful r = false -> v = Fin 0) /\
    (v <> Fin 0 -> mr_successful r = true).
Proof. exact reported. Qed.
Print Assumptions C43_reported_partial.

(** And if a successful integration of an integrand that is nowhere negative
    yields zero, the integrand is zero at every point of the final subdivision of
    its range. *)
Theorem C43_sampled_partial : forall (f : er -> er) s fuel r, limits_ok s -> (forall x, exists v, f x = Fin v /\ 0 <= v) ->
  MAQ ER f fuel s = Done r -> mr_successful r = true -> mr_range r <> None -> mr_integral r = Fin 0 ->
  exists a b l, mr_range r = Some (Fin a, Fin b) /\ tiles a b l /\ Forall (vanishes f) l.
Proof. exact zero_sampled. Qed.
Print Assumptions C43_sampled_partial.

(** The annual rate of a damage state, in contrast, is not a number if its
    integration failed. *)
Theorem C43_rate : forall N D s g dist, limits_ok s ->
  exists r v, integrate s (fun im => if er_eqb im (Fin 0) then Fin 0
      else er_mul (value_or_nan (p_state_im N D s g dist im)) (er_abs (hazard_slope g im))) = Done r /\
    state_rate N D s g dist = Done v /\
    (mr_successful r = true -> v = mr_integral r) /\ (v <> NaN -> mr_successful r = true).
Proof. exact rate_reported. Qed.
Print Assumptions C43_rate.

Example C43_case : (count (costly 0) <= 0)%Z /\ fragility (costly 0) = map curve [(0, 1)] /\ spreads [(0, 1)] /\
  (0 < count (costly 3))%Z /\ limits_ok (default_settings ER) /\ normal_ok gauss.
Proof.
  refine (conj _ (conj eq_refl (conj _ (conj eq_refl (conj _ gauss_ok))))).
  - discriminate.
  - apply Forall_cons; [cbn; lra|apply Forall_nil].
  - split; split; vm_compute; discriminate || reflexivity.
Qed.

(** ** C46 *)

(** Full statement: the mean total cost of every structure is the mean of the
    costs of the three fates weighted by their probabilities, and their sum is what
    is reported by fate.  False in four ways: without groups a null pointer is used;
    if no demolition cost is set the cost by fate is not a number although the total
    is; where collapse is more probable than what the demolition curve allows the
    total is not a number although every cost is certainly 1; and rounding can make
    the variance of a certain cost negative, which also makes the total not a
    number. *)
Theorem C46_total_refuted :
  (forall N b d im, total_cost N (Site [] None b d) im = Undefined /\
     deaggregated_cost N (Site [] None b d) im = Undefined) /\
  (forall N l mv b im, all_moments l mv ->
     exists d r e c, total_cost N (Site l (Some (Curves None None)) b nodist) im = Returns d /\
       get_mean_X d = Fin (total (map fst mv)) /\
       costs_by_fate N (Site l (Some (Curves None None)) b nodist) im = (r, e, c) /\ get_mean_X e = NaN) /\
  (forall N, normal_ok N -> exists st c x,
     fate_curves st = Some c /\ defined_at c (Fin x) /\ 0 < x /\
     moments (cost_nc st) 1 0 /\ moments (demolition_cost st) 1 0 /\ moments (rebuild_cost st) 1 0 /\
     exists d, total_cost N st (Fin x) = Returns d /\ all_nan d) /\
  (exists m pr pd pc mean var : F64,
     m = nofZ F64 3 /\ pd = ndiv F64 (nofZ F64 1) (nofZ F64 2) /\ pc = ndiv F64 (nofZ F64 1) (nofZ F64 5) /\
     pr = nsub F64 (nofZ F64 1) (nadd F64 pd pc) /\
     total_mean_var F64 m (nofZ F64 0) m (nofZ F64 0) m (nofZ F64 0) pr pd pc = (mean, var) /\
     nltb F64 var (nofZ F64 0) = true) /\
  (forall m v, 0 < m -> v < 0 -> all_nan (from_mean_sd (Fin m) (er_sqrt (Fin v)))).
Proof.
  exact (conj refute_total_empty (conj refute_fate_unset (conj refute_total_crossing
        (conj refute_total_rounding negative_variance)))).
Qed.
Print Assumptions C46_total_refuted.

(** What holds with exact arithmetic: wherever the three probabilities are
    probabilities, the total cost has the mean and variance of the mixture of the
    sum of the groups' costs, the demolition cost and the rebuilding cost. *)
Theorem C46_total_partial : forall N st c im mv md vd mc vc x y z,
  fate_curves st = Some c -> all_moments (group_costs st) mv ->
  moments (demolition_cost st) md vd -> moments (rebuild_cost st) mc vc ->
  p_repair N c im = Fin x -> p_demolition N c im = Fin y -> p_collapse N c im = Fin z ->
  0 <= x -> 0 <= y -> 0 <= z -> x + y + z = 1 ->
  let figures := [(total (map fst mv), total (map snd mv)); (md, vd); (mc, vc)] in
  0 <= mix_var [x; y; z] figures /\
  exists d, total_cost N st im = Returns d /\ moments d (mix_mean [x; y; z] figures) (mix_var [x; y; z] figures).
Proof. exact total_costs. Qed.
Print Assumptions C46_total_partial.

(** And the mean costs by fate are the three terms of the mean total cost. *)
Theorem C46_by_fate_partial : forall N st c im mv md vd mc vc x y z,
  fate_curves st = Some c -> all_moments (group_costs st) mv ->
  moments (demolition_cost st) md vd -> moments (rebuild_cost st) mc vc ->
  p_repair N c im = Fin x -> p_demolition N c im = Fin y -> p_collapse N c im = Fin z ->
  0 <= x -> 0 <= y -> 0 <= z -> x + y + z = 1 ->
  exists r d b t mr, costs_by_fate N st im = (r, d, b) /\ total_cost N st im = Returns t /\
    mr = total (map fst mv) /\
    get_mean_X r = Fin (x * mr) /\ get_mean_X d = Fin (y * md) /\ get_mean_X b = Fin (z * mc) /\
    get_mean_X t = Fin (x * mr + y * md + z * mc).
Proof. exact by_fate. Qed.
Print Assumptions C46_by_fate_partial.

(** The cost with or without collapse, and its two parts. *)
Theorem C46_collapse : forall N st c im mv mc vc z,
  fate_curves st = Some c -> all_moments (group_costs st) mv -> moments (rebuild_cost st) mc vc ->
  p_collapse N c im = Fin z -> 0 <= z <= 1 ->
  let figures := [(total (map fst mv), total (map snd mv)); (mc, vc)] in
  (exists d, structure_cost N st im true = Returns d /\
     moments d (mix_mean [1 - z; z] figures) (mix_var [1 - z; z] figures)) /\
  (exists d, structure_cost N st im false = Returns d /\ moments d (total (map fst mv)) (total (map snd mv))) /\
  (exists r b, deaggregated_cost N st im = Returns (r, b) /\
     get_mean_X r = Fin ((1 - z) * total (map fst mv)) /\ get_mean_X b = Fin (z * mc)).
Proof. exact collapse_costs. Qed.
Print Assumptions C46_collapse.

(** Where nothing can collapse or be demolished the total is the cost of repair,
    whether or not the other costs are set. *)
Theorem C46_repair : forall N st im mv, fate_curves st = Some (Curves None None) ->
  all_moments (group_costs st) mv ->
  exists d, total_cost N st im = Returns d /\ moments d (total (map fst mv)) (total (map snd mv)).
Proof. exact only_repairs. Qed.
Print Assumptions C46_repair.

Example C46_case : let c := Curves (Some (LND (Fin 1) (Fin 1))) (Some (LND (Fin 0) (Fin 1))) in
  all_moments [loss; loss] [(mean1, var1); (mean1, var1)] /\
  exists x y z, p_repair gauss c (Fin 2) = Fin x /\ p_demolition gauss c (Fin 2) = Fin y /\
    p_collapse gauss c (Fin 2) = Fin z /\ 0 <= x /\ 0 <= y /\ 0 <= z /\ x + y + z = 1.
Proof.
  intros c. split.
  - apply Forall2_cons; [exact loss_moments|]. apply Forall2_cons; [exact loss_moments|apply Forall2_nil].
  - pose proof (Damage_proofs2.fate_curves gauss gauss_ok 1 1 0 1 ltac:(lra) ltac:(lra)) as [_ F].
    destruct (F ltac:(split; lra) 2 ltac:(lra)) as (x & y & z & E1 & E2 & E3 & P).
    exists x, y, z. refine (conj E1 (conj E2 (conj E3 _))). tauto || lra.
Qed.

(** ** C47 *)

(** Full statement: at a discount rate of zero the expected cost is the annual
    cost times the number of years.  False for every structure: it is not a
    number. *)
Theorem C47_zero_rate_refuted : forall d y, e_cost d y (Fin 0) = NaN.
Proof. exact undiscounted. Qed.
Print Assumptions C47_zero_rate_refuted.

(** At every other rate it is the present value of a continuous payment of the
    annual cost. *)
Theorem C47_present_value : forall d a y r, get_mean_X d = Fin a -> r <> 0 ->
  exists v, e_cost d y (Fin r) = Fin v /\ is_integral (fun s => a * exp (- r * s)) 0 (IZR y) v.
Proof. exact present_value. Qed.
Print Assumptions C47_present_value.

(** It is zero for zero years, grows with the years, falls with the rate, is at
    most the annual cost times the years and approaches this as the rate approaches
    zero. *)
Theorem C47_discounted_partial : forall d a, get_mean_X d = Fin a -> 0 <= a ->
  (forall r, r <> 0 -> e_cost d 0 (Fin r) = Fin 0) /\
  (forall r y y', r <> 0 -> (y <= y')%Z -> exists v v', e_cost d y (Fin r) = Fin v /\ e_cost d y' (Fin r) = Fin v' /\ v <= v') /\
  (forall r r' y, 0 < r <= r' -> (0 <= y)%Z -> exists v v', e_cost d y (Fin r) = Fin v /\ e_cost d y (Fin r') = Fin v' /\ v' <= v) /\
  (forall r y, 0 < r -> (0 <= y)%Z -> exists v, e_cost d y (Fin r) = Fin v /\
     a * IZR y * (1 - r * IZR y / 2) <= v <= a * IZR y).
Proof. exact discounted. Qed.
Print Assumptions C47_discounted_partial.

(** Without groups, or if the integration for the mean or that for the spread of a
    positive mean failed, the expected cost is not a number for any years and
    rate. *)
Theorem C47_failure : forall rs : option (maq_result ER * maq_result ER),
  match rs with
  | None => True
  | Some (r1, r2) => mr_successful r1 = false \/
      (mr_successful r2 = false /\ exists m, mr_integral r1 = Fin m /\ 0 < m)
  end ->
  forall y r, get_mean_X (annual_cost rs) = NaN /\ e_cost (annual_cost rs) y r = NaN.
Proof. exact no_annual_cost. Qed.
Print Assumptions C47_failure.

(** The costs for several years are those for each of them, whatever the order of
    the iterations. *)
Theorem C47_several : forall d ys r o, Permutation o (seq 0 (length ys)) ->
  e_cost_all d ys r o = map (fun y => e_cost d y r) ys.
Proof. exact several_years. Qed.
Print Assumptions C47_several.

Example C47_case : get_mean_X loss = Fin mean1 /\ 0 <= mean1 /\ Permutation [1; 0]%nat (seq 0 (length [10; 20]%Z)).
Proof.
  destruct (moments_mean _ _ _ loss_moments) as [E P]. refine (conj E (conj P _)). apply perm_swap.
Qed.

(** ** C48 *)

(** The groups are the classes of components with the same demand parameter (or
    fragility): none empty, nothing lost or duplicated, in the original order. *)
Theorem C48_grouping : forall (A : Type) (key : A -> nat) cs, grouped key cs (components_by key cs).
Proof. exact @grouping. Qed.
Print Assumptions C48_grouping.

Example C48_case : components_by (fun n => Nat.modulo n 3) [7; 2; 1; 6; 2]%nat = [[6]; [7; 1]; [2; 2]]%nat.
Proof. reflexivity. Qed.

(** ** C49 *)

(** At each intensity all seven queries are answered by the same one of the two
    responses, and its mean is at least that of both. *)
Theorem C49_compound : forall N r1 r2 im, get_mean_X (r1 im) <> NaN -> get_mean_X (r2 im) <> NaN ->
  exists r, (r = r1 \/ r = r2) /\
    er_leb (get_mean_X (r1 im)) (get_mean_X (r im)) = true /\ er_leb (get_mean_X (r2 im)) (get_mean_X (r im)) = true /\
    compound_mean r1 r2 im = get_mean_X (r im) /\ compound_mean_ln r1 r2 im = get_mu_lnX (r im) /\
    compound_median r1 r2 im = get_median_X (r im) /\ compound_sd_ln r1 r2 im = get_sigma_lnX (r im) /\
    compound_sd r1 r2 im = get_sigma_X (r im) /\
    (forall y, compound_p_exceedence N r1 r2 im y = p_at_least N (r im) y) /\
    (forall p, compound_x_at_exceedence N r1 r2 im p = x_at_p N (r im) p).
Proof. exact compound. Qed.
Print Assumptions C49_compound.

(** If either mean is not a number, it is the second. *)
Theorem C49_undefined : forall N r1 r2 im, get_mean_X (r1 im) = NaN \/ get_mean_X (r2 im) = NaN ->
  compound_mean r1 r2 im = get_mean_X (r2 im) /\ compound_mean_ln r1 r2 im = get_mu_lnX (r2 im) /\
  compound_median r1 r2 im = get_median_X (r2 im) /\ compound_sd_ln r1 r2 im = get_sigma_lnX (r2 im) /\
  compound_sd r1 r2 im = get_sigma_X (r2 im) /\
  (forall y, compound_p_exceedence N r1 r2 im y = p_at_least N (r2 im) y) /\
  (forall p, compound_x_at_exceedence N r1 r2 im p = x_at_p N (r2 im) p).
Proof. exact compound_nan. Qed.
Print Assumptions C49_undefined.

Example C49_case : get_mean_X loss <> NaN /\ get_mean_X nodist = NaN.
Proof. split; [rewrite (proj1 (moments_mean _ _ _ loss_moments)); discriminate|reflexivity]. Qed.

(** ** C61 *)

(** Full statement: a delay is calculated like a cost, so with equal loss functions
    and factors the mean and the spread of delay and cost are equal at every
    intensity.  False: two components which are always damaged, with a loss of mean
    [m] and variance [v] at every demand; the means and the spread of the cost are
    as they should be, but the spread of the delay is that of four times the
    variance. *)
Theorem C61_spread_refuted : forall N im, exists p d D g m v,
  demand p d /\
  (forall x, 0 <= x -> exceedence g im (Fin x) = Fin (p x)) /\
  (forall x, 0 < x -> slope D (exceedence g im) (Fin x) = Fin (- d x)) /\
  delay_fn g = cost_fn g /\ delay_factor g = cost_factor g /\ count g = 2%Z /\
  (forall x, 0 < x -> moments (cost_edp N g (Fin x)) m v /\ moments (delay_edp N g (Fin x)) m v) /\
  e_cost_im N D (default_settings ER) g im = Done (Fin m) /\
  e_delay_im N D (default_settings ER) g im = Done (Fin m) /\
  sd_ln_cost_im N D (default_settings ER) g im = Done (Fin (log_sd m v)) /\
  sd_ln_delay_im N D (default_settings ER) g im = Done (Fin (log_sd m (4 * v))) /\
  log_sd m v < log_sd m (4 * v).
Proof. exact refute_delay_count. Qed.
Print Assumptions C61_spread_refuted.

(** What holds: the means are equal for every count, the spreads for a single
    component; provided the slope of the exceedence probability is the same whether
    or not it is set to zero below zero, as the calculation of the mean cost does
    but the others do not. *)
Theorem C61_delay_partial : forall N D s g im,
  delay_fn g = cost_fn g -> delay_factor g = cost_factor g ->
  (forall x, x <> Fin 0 ->
     slope D (fun y => if er_eqb im (Fin 0) || er_ltb y (Fin 0) then Fin 0 else exceedence g im y) x =
     slope D (exceedence g im) x) ->
  e_delay_im N D s g im = e_cost_im N D s g im /\
  ((count g <= 1)%Z -> sd_ln_delay_im N D s g im = sd_ln_cost_im N D s g im).
Proof. exact delays_like_costs. Qed.
Print Assumptions C61_delay_partial.

Example C61_case : forall im x, delay_fn two = cost_fn two /\ delay_factor two = cost_factor two /\
  slope exact_slope (fun y => if er_eqb im (Fin 0) || er_ltb y (Fin 0) then Fin 0 else exceedence two im y) x =
  slope exact_slope (exceedence two im) x.
Proof. intros im x. refine (conj eq_refl (conj eq_refl _)). reflexivity. Qed.

(** ** C62 *)

(** If both integrations succeed, with [m] for the mean and [q] for the mean of the
    square, the distribution of the group's cost has mean [m] and variance
    [q - m * m]. *)
Theorem C62_moments : forall N D s g im r1 r2 m q, (0 < count g)%Z ->
  integrate s (cost_integrand N D g im) = Done r1 -> integrate s (cost_sq_integrand N D g im) = Done r2 ->
  mr_successful r1 = true -> mr_successful r2 = true -> mr_integral r1 = Fin m -> mr_integral r2 = Fin q ->
  0 <= m -> m * m <= q ->
  exists d, cost_dist_im N D s g im = Done d /\ (0 < m -> moments d m (q - m * m)) /\ (m = 0 -> certain_zero d).
Proof. exact group_moments. Qed.
Print Assumptions C62_moments.

(** If the errors of integration make that negative, the cost is [m] with no
    spread. *)
Theorem C62_no_spread : forall N D s g im r1 r2 m q, (0 < count g)%Z ->
  integrate s (cost_integrand N D g im) = Done r1 -> integrate s (cost_sq_integrand N D g im) = Done r2 ->
  mr_successful r1 = true -> mr_successful r2 = true -> mr_integral r1 = Fin m -> mr_integral r2 = Fin q ->
  0 < m -> q < m * m -> exists d, cost_dist_im N D s g im = Done d /\ moments d m 0.
Proof. exact group_no_spread. Qed.
Print Assumptions C62_no_spread.

Example C62_case : (0 < count two)%Z /\ exists r1 r2 m q,
  integrate (default_settings ER) (cost_integrand gauss exact_slope two (Fin 1)) = Done r1 /\
  integrate (default_settings ER) (cost_sq_integrand gauss exact_slope two (Fin 1)) = Done r2 /\
  mr_successful r1 = true /\ mr_successful r2 = true /\ mr_integral r1 = Fin m /\ mr_integral r2 = Fin q /\
  0 < m /\ m * m < q.
Proof. exact (conj eq_refl (moments_case gauss (Fin 1))). Qed.
