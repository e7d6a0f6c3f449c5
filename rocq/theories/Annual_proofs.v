(** * Proofs about annual figures *)
From Coq Require Import Reals List Bool ZArith Lia Lra.
From Verif Require Import Num ER ER_proofs ERmath Maq Maq_spec Maq_proofs Maq_ER_spec Maq_ER_proofs Maq_ER_proofs3
  Lognormal Lognormal_spec Lognormal_proofs Damage Damage_spec Group Group_spec Group_proofs Group_proofs2 Annual Annual_spec.
Import ListNotations.
Local Open Scope R_scope.

(** ** Pieces *)
Lemma slope_first : forall D f x, first_number (central D f x) (forward D f x) (backward D f x) (slope D f x).
Proof.
  intros D f x. unfold slope, first_number. destruct (central D f x), (forward D f x), (backward D f x); cbn; repeat split; intros; try reflexivity; try congruence; contradiction.
Qed.

Lemma mul_weighted : forall a b, weighted a b (er_mul a (er_abs b)).
Proof. intros a b. split; [intros x y -> ->; reflexivity|]. intros [-> | ->]; [reflexivity|destruct a; reflexivity]. Qed.

Lemma mul_weighted' : forall a b, weighted a b (er_mul (er_abs b) a).
Proof.
  intros a b. split; [intros x y -> ->; cbn; f_equal; ring|]. intros [-> | ->]; [destruct (er_abs b)|destruct a]; reflexivity.
Qed.

Lemma accumulate : forall s failed (P : er -> er -> Prop) F, limits_ok s -> (forall x, P x (F x)) ->
  exists v, obind (integrate s F) (fun r => Done (integral_or failed r)) = Done v /\ accumulated s failed P v.
Proof.
  intros s failed P F Hs H. destruct (integrate_done s F Hs) as [r E]. exists (integral_or failed r). rewrite E.
  split; [reflexivity|]. exists F, r. split; [exact E|]. split; [exact H|reflexivity].
Qed.

Lemma eqb_zero : forall x, er_eqb x (Fin 0) = true <-> x = Fin 0.
Proof.
  intros x; destruct x as [x| | |]; cbn; split; intro H; try discriminate; try congruence.
  - apply Reqb_true in H. congruence.
  - injection H as ->. apply Reqb_true. reflexivity.
Qed.
Lemma eqb_nonzero : forall x, er_eqb x (Fin 0) = false <-> x <> Fin 0.
Proof. intros x. rewrite <- eqb_zero. destruct (er_eqb x (Fin 0)); split; congruence. Qed.

(** ** Given the intensity *)
Theorem given_cost : forall N D s g im, limits_ok s -> (0 < count g)%Z ->
  exists v q, e_cost_im N D s g im = Done v /\
    (forall y, (im = Fin 0 \/ er_ltb y (Fin 0) = true -> q y = Fin 0) /\
               (im <> Fin 0 -> er_ltb y (Fin 0) = false -> q y = exceedence g im y)) /\
    accumulated s (Fin 0) (fun edp w => (edp = Fin 0 -> w = Fin 0) /\
      (edp <> Fin 0 -> exists d, first_number (central D q edp) (forward D q edp) (backward D q edp) d /\
                                 weighted (get_mean_X (cost_edp N g edp)) d w)) v.
Proof.
  intros N D s g im Hs Hc. unfold e_cost_im. rewrite (proj2 (Z.ltb_lt 0 _) Hc).
  set (q := fun x => if er_eqb im (Fin 0) || er_ltb x (Fin 0) then Fin 0 else exceedence g im x).
  destruct (accumulate s (Fin 0) (fun edp w => (edp = Fin 0 -> w = Fin 0) /\
      (edp <> Fin 0 -> exists d, first_number (central D q edp) (forward D q edp) (backward D q edp) d /\
                                 weighted (get_mean_X (cost_edp N g edp)) d w)) (cost_integrand N D g im) Hs) as (v & E & A).
  - intros edp. unfold cost_integrand. fold q. destruct (er_eqb edp (Fin 0)) eqn:Z.
    + apply eqb_zero in Z. split; [reflexivity|contradiction].
    + apply eqb_nonzero in Z. split; [contradiction|]. intros _. exists (slope D q edp).
      split; [apply slope_first|apply mul_weighted].
  - exists v, q. refine (conj E (conj _ A)). intros y. unfold q. split.
    + intros [-> | ->]; [rewrite (proj2 (eqb_zero (Fin 0)) eq_refl)|rewrite orb_true_r]; reflexivity.
    + intros H ->. apply eqb_nonzero in H. rewrite H. reflexivity.
Qed.

Theorem given_delay : forall N D s g im, limits_ok s -> (0 < count g)%Z ->
  exists v, e_delay_im N D s g im = Done v /\ let q := exceedence g im in
    accumulated s (Fin 0) (fun edp w => (edp = Fin 0 -> w = Fin 0) /\
      (edp <> Fin 0 -> exists d, first_number (central D q edp) (forward D q edp) (backward D q edp) d /\
                                 weighted (get_mean_X (delay_edp N g edp)) d w)) v.
Proof.
  intros N D s g im Hs Hc. unfold e_delay_im. rewrite (proj2 (Z.ltb_lt 0 _) Hc).
  apply accumulate; [exact Hs|]. intros edp. unfold delay_integrand. destruct (er_eqb edp (Fin 0)) eqn:Z.
  - apply eqb_zero in Z. split; [reflexivity|contradiction].
  - apply eqb_nonzero in Z. split; [contradiction|]. intros _. exists (slope D (exceedence g im) edp).
    split; [apply slope_first|apply mul_weighted].
Qed.

Theorem given_state : forall N D s g dist im, limits_ok s ->
  exists v, p_state_im N D s g dist im = Done v /\ let q := exceedence g im in
    accumulated s (Fin 0) (fun edp w => (edp = Fin 0 -> w = Fin 0) /\
      (edp <> Fin 0 -> exists d, first_number (central D q edp) (forward D q edp) (backward D q edp) d /\
                                 weighted (p_at_most N dist edp) d w)) v.
Proof.
  intros N D s g dist im Hs. unfold p_state_im.
  apply accumulate; [exact Hs|]. intros edp. unfold state_integrand. destruct (er_eqb edp (Fin 0)) eqn:Z.
  - apply eqb_zero in Z. split; [reflexivity|contradiction].
  - apply eqb_nonzero in Z. split; [contradiction|]. intros _. exists (slope D (exceedence g im) edp).
    split; [apply slope_first|apply mul_weighted].
Qed.

(** ** Over the hazard: groups *)
Theorem annual_mean : forall N D s g, limits_ok s -> (0 < count g)%Z ->
  exists v, e_annual_cost N D s g = Done v /\
    accumulated s (Fin 0) (fun im w => exists e, e_cost_im N D s g im = Done e /\ weighted e (hazard_slope g im) w) v.
Proof.
  intros N D s g Hs Hc. unfold e_annual_cost. rewrite (proj2 (Z.ltb_lt 0 _) Hc).
  apply accumulate; [exact Hs|]. intros im. destruct (reported N D s g im Hs Hc) as (r & e & _ & E & _).
  exists e. split; [exact E|]. rewrite E. apply mul_weighted.
Qed.

Lemma cost_dist_done : forall N D s g im, limits_ok s -> exists e sd, e_cost_im N D s g im = Done e /\
  sd_ln_cost_im N D s g im = Done sd /\ cost_dist_im N D s g im = Done (from_mean_sdln e sd).
Proof.
  intros N D s g im Hs.
  assert (E : exists e, e_cost_im N D s g im = Done e).
  { unfold e_cost_im. destruct (0 <? count g)%Z; [|eauto].
    destruct (integrate_done s (cost_integrand N D g im) Hs) as [r ->]. cbn. eauto. }
  destruct E as [e E].
  assert (S : exists sd, sd_ln_cost_im N D s g im = Done sd).
  { unfold sd_ln_cost_im. destruct (0 <? count g)%Z; [|eauto].
    destruct (integrate_done s (cost_sq_integrand N D g im) Hs) as [r ->]. cbn.
    destruct (mr_successful r); [|eauto]. rewrite E. cbn. eauto. }
  destruct S as [sd S]. exists e, sd. unfold cost_dist_im. rewrite E, S. auto.
Qed.

Theorem annual_exceedence : forall N D s g c, limits_ok s -> (0 < count g)%Z ->
  exists v, lambda_cost N D s g c = Done v /\
    accumulated s (Fin 0) (fun im w => exists d, cost_dist_im N D s g im = Done d /\
      weighted (p_at_least N d c) (hazard_slope g im) w) v.
Proof.
  intros N D s g c Hs Hc. unfold lambda_cost. rewrite (proj2 (Z.ltb_lt 0 _) Hc).
  apply accumulate; [exact Hs|]. intros im. destruct (cost_dist_done N D s g im Hs) as (e & sd & E & S & C).
  exists (from_mean_sdln e sd). split; [exact C|]. rewrite E, S. apply mul_weighted.
Qed.

Theorem annual_state : forall N D s g dist, limits_ok s ->
  exists v, state_rate N D s g dist = Done v /\
    accumulated s NaN (fun im w => (im = Fin 0 -> w = Fin 0) /\
      (im <> Fin 0 -> exists p, p_state_im N D s g dist im = Done p /\ weighted p (hazard_slope g im) w)) v.
Proof.
  intros N D s g dist Hs. unfold state_rate.
  apply accumulate; [exact Hs|]. intros im. destruct (er_eqb im (Fin 0)) eqn:Z.
  - apply eqb_zero in Z. split; [reflexivity|contradiction].
  - apply eqb_nonzero in Z. split; [contradiction|]. intros _.
    destruct (given_state N D s g dist im Hs) as (p & E & _). exists p. split; [exact E|]. rewrite E. apply mul_weighted.
Qed.

(** ** Over the hazard: intensity measures *)
Theorem annual_collapse : forall N D s m, limits_ok s ->
  exists v, collapse_rate N D s m = Done v /\
    (collapse (fates m) = None -> v = Fin 0) /\
    (collapse (fates m) <> None -> accumulated s NaN (fun im w => exists d,
       first_number (central D (hazard m) im) (forward D (hazard m) im) (backward D (hazard m) im) d /\
       weighted (p_collapse N (fates m) im) d w) v).
Proof.
  intros N D s m Hs. unfold collapse_rate. destruct (collapse (fates m)) as [c|] eqn:E.
  - match goal with |- context [accumulated s NaN ?P] => destruct (accumulate s NaN P
      (fun im => er_mul (er_abs (im_slope D m im)) (p_collapse N (fates m) im)) Hs) as (v & V & A) end.
    + intros im. exists (im_slope D m im). split; [apply slope_first|apply mul_weighted'].
    + exists v. split; [exact V|]. split; [discriminate|intros _; exact A].
  - exists (Fin 0). split; [reflexivity|]. split; [reflexivity|congruence].
Qed.

Theorem annual_demolition : forall N D s m, limits_ok s ->
  exists v, demolition_rate N D s m = Done v /\
    (demolition (fates m) = None -> v = Fin 0) /\
    (demolition (fates m) <> None -> accumulated s NaN (fun im w => exists d,
       first_number (central D (hazard m) im) (forward D (hazard m) im) (backward D (hazard m) im) d /\
       weighted (p_demolition N (fates m) im) d w) v).
Proof.
  intros N D s m Hs. unfold demolition_rate. destruct (demolition (fates m)) as [c|] eqn:E.
  - match goal with |- context [accumulated s NaN ?P] => destruct (accumulate s NaN P
      (fun im => er_mul (er_abs (im_slope D m im)) (p_demolition N (fates m) im)) Hs) as (v & V & A) end.
    + intros im. exists (im_slope D m im). split; [apply slope_first|apply mul_weighted'].
    + exists v. split; [exact V|]. split; [discriminate|intros _; exact A].
  - exists (Fin 0). split; [reflexivity|]. split; [reflexivity|congruence].
Qed.

(** A demand is exceeded if the building is repaired and the demand exceeded, or if it is
    not repaired. *)
Theorem annual_demand : forall N D s m exceeds y, limits_ok s ->
  exists v, demand_rate N D s m exceeds y = Done v /\
    accumulated s NaN (fun im w => (im = Fin 0 -> w = Fin 0) /\
      (im <> Fin 0 -> exists d,
         first_number (central D (hazard m) im) (forward D (hazard m) im) (backward D (hazard m) im) d /\
         (forall p a b, exceeds im y = Fin p -> p_collapse N (fates m) im = Fin a -> p_demolition N (fates m) im = Fin b ->
            weighted (Fin (p * (1 - a - b) + a + b)) d w) /\
         (exceeds im y = NaN \/ d = NaN -> w = NaN))) v.
Proof.
  intros N D s m exceeds y Hs. unfold demand_rate.
  apply accumulate; [exact Hs|]. intros im. unfold demand_integrand. destruct (er_eqb im (Fin 0)) eqn:Z.
  - apply eqb_zero in Z. split; [reflexivity|contradiction].
  - apply eqb_nonzero in Z. split; [contradiction|]. intros _. exists (im_slope D m im).
    refine (conj (slope_first _ _ _) (conj _ _)).
    + intros p a b Ep Ea Eb. unfold p_repair. rewrite Ep, Ea, Eb. unfold er_sub. cbn [er_add er_opp er_mul].
      replace (p * (1 + - (b + a)) + (1 + - (1 + - (b + a)))) with (p * (1 - a - b) + a + b) by ring.
      apply mul_weighted.
    + intros [-> | ->]; [reflexivity|]. destruct (er_add _ _); reflexivity.
Qed.

(** ** Structures *)
Theorem annual_structure : forall N D s b, limits_ok s -> part_costs b <> [] ->
  exists r1 r2 v, building_annual N D s b = Done v /\
    accumulated s NaN (fun im w => exists t d,
      total_cost N (Site (map (fun c => c im) (part_costs b)) (Some (fates (site_measure b))) (rebuilding b) (demolishing b)) im
        = Returns t /\
      first_number (central D (hazard (site_measure b)) im) (forward D (hazard (site_measure b)) im)
        (backward D (hazard (site_measure b)) im) d /\
      weighted (get_mean_X t) d w) r1 /\
    accumulated s NaN (fun im w => exists t d,
      total_cost N (Site (map (fun c => c im) (part_costs b)) (Some (fates (site_measure b))) (rebuilding b) (demolishing b)) im
        = Returns t /\
      first_number (central D (hazard (site_measure b)) im) (forward D (hazard (site_measure b)) im)
        (backward D (hazard (site_measure b)) im) d /\
      (forall m v, moments t m v -> weighted (Fin (m * m + v)) d w) /\
      (get_mean_X t = NaN \/ d = NaN -> w = NaN)) r2 /\
    (forall m q, r1 = Fin m -> r2 = Fin q -> 0 < m -> moments v m (Rabs (q - m * m))) /\
    (r1 = NaN -> get_mean_X v = NaN).
Proof.
  intros N D s b Hs Hp.
  destruct (integrate_done s (building_integrand N D b) Hs) as [r1 E1].
  destruct (integrate_done s (building_sq_integrand N D b) Hs) as [r2 E2].
  exists (integral_or NaN r1), (integral_or NaN r2), (annual_cost (Some (r1, r2))).
  refine (conj _ (conj _ (conj _ (conj _ _)))).
  - unfold building_annual. destruct (part_costs b) as [|c l]; [contradiction|]. rewrite E1. cbn [obind]. rewrite E2. reflexivity.
  - exists (building_integrand N D b), r1. refine (conj E1 (conj _ eq_refl)). intros im.
    unfold building_integrand, building_cost.
    destruct (total_cost N (Site (map (fun c => c im) (part_costs b)) (Some (fates (site_measure b))) (rebuilding b) (demolishing b)) im) as [t| |] eqn:T;
      [|unfold total_cost in T; cbn [fate_curves] in T; destruct (total_mean_var _ _ _ _ _ _ _ _ _ _) in T; discriminate..].
    exists t, (im_slope D (site_measure b) im). refine (conj eq_refl (conj (slope_first _ _ _) _)). apply mul_weighted.
  - exists (building_sq_integrand N D b), r2. refine (conj E2 (conj _ eq_refl)). intros im.
    unfold building_sq_integrand, building_cost.
    destruct (total_cost N (Site (map (fun c => c im) (part_costs b)) (Some (fates (site_measure b))) (rebuilding b) (demolishing b)) im) as [t| |] eqn:T;
      [|unfold total_cost in T; cbn [fate_curves] in T; destruct (total_mean_var _ _ _ _ _ _ _ _ _ _) in T; discriminate..].
    exists t, (im_slope D (site_measure b) im). refine (conj eq_refl (conj (slope_first _ _ _) (conj _ _))).
    + intros m v M. cbn [or_nodist]. destruct (moments_mean t m v M) as [Em _], (moments_sd t m v M) as [Es Hv]. rewrite Em, Es.
      cbn [er_mul er_add]. rewrite sqrt_sqrt by exact Hv. apply mul_weighted.
    + cbn [or_nodist]. intros [-> | ->]; [reflexivity|]. destruct (er_add _ _); reflexivity.
  - intros m q H1 H2 Hm. unfold annual_cost. rewrite H1, H2. unfold er_sub. cbn [er_mul er_add er_opp er_abs].
    rewrite er_sqrt_pos by apply Rabs_pos. replace (q + - (m * m)) with (q - m * m) by ring.
    apply from_sd_moments; [lra|apply Rabs_pos|lra].
  - intros H1. unfold annual_cost. rewrite H1. reflexivity.
Qed.
