(** * Properties of annual figures

    C79 (annual figures accumulate conditional figures over the hazard). *)
From Coq Require Import Reals List Bool ZArith Lra.
From Verif Require Import Num ER ERmath Maq Maq_spec Maq_ER_spec Lognormal Lognormal_spec Damage Damage_spec
  Group Group_spec Group_proofs Group_proofs2 Group_proofs3 Annual Annual_spec Annual_proofs.
Import ListNotations.
Local Open Scope R_scope.

(** ** C79 *)

(** The mean cost of a group at an intensity accumulates the mean cost at each demand,
    weighted by the absolute slope of the demand's exceedence curve at that intensity; the
    slope is the first of the central, forward and backward estimates that is a number. *)
Theorem C79_given_cost : forall N D s g im, limits_ok s -> (0 < count g)%Z ->
  exists v q, e_cost_im N D s g im = Done v /\
    (forall y, (im = Fin 0 \/ er_ltb y (Fin 0) = true -> q y = Fin 0) /\
               (im <> Fin 0 -> er_ltb y (Fin 0) = false -> q y = exceedence g im y)) /\
    accumulated s (Fin 0) (fun edp w => (edp = Fin 0 -> w = Fin 0) /\
      (edp <> Fin 0 -> exists d, first_number (central D q edp) (forward D q edp) (backward D q edp) d /\
                                 weighted (get_mean_X (cost_edp N g edp)) d w)) v.
Proof. exact given_cost. Qed.
Print Assumptions C79_given_cost.

(** Likewise its mean delay. *)
Theorem C79_given_delay : forall N D s g im, limits_ok s -> (0 < count g)%Z ->
  exists v, e_delay_im N D s g im = Done v /\ let q := exceedence g im in
    accumulated s (Fin 0) (fun edp w => (edp = Fin 0 -> w = Fin 0) /\
      (edp <> Fin 0 -> exists d, first_number (central D q edp) (forward D q edp) (backward D q edp) d /\
                                 weighted (get_mean_X (delay_edp N g edp)) d w)) v.
Proof. exact given_delay. Qed.
Print Assumptions C79_given_delay.

(** The probability of reaching a damage state at an intensity accumulates the
    probability that the state is reached at each demand. *)
Theorem C79_given_state : forall N D s g dist im, limits_ok s ->
  exists v, p_state_im N D s g dist im = Done v /\ let q := exceedence g im in
    accumulated s (Fin 0) (fun edp w => (edp = Fin 0 -> w = Fin 0) /\
      (edp <> Fin 0 -> exists d, first_number (central D q edp) (forward D q edp) (backward D q edp) d /\
                                 weighted (p_at_most N dist edp) d w)) v.
Proof. exact given_state. Qed.
Print Assumptions C79_given_state.

(** The mean annual cost of a group accumulates the mean costs over the slope of the
    hazard curve; zero if the integration fails. *)
Theorem C79_group : forall N D s g, limits_ok s -> (0 < count g)%Z ->
  exists v, e_annual_cost N D s g = Done v /\
    accumulated s (Fin 0) (fun im w => exists e, e_cost_im N D s g im = Done e /\ weighted e (hazard_slope g im) w) v.
Proof. exact annual_mean. Qed.
Print Assumptions C79_group.

(** The annual rate at which a cost is exceeded accumulates the probabilities that the
    group's cost exceeds it. *)
Theorem C79_exceedence : forall N D s g c, limits_ok s -> (0 < count g)%Z ->
  exists v, lambda_cost N D s g c = Done v /\
    accumulated s (Fin 0) (fun im w => exists d, cost_dist_im N D s g im = Done d /\
      weighted (p_at_least N d c) (hazard_slope g im) w) v.
Proof. exact annual_exceedence. Qed.
Print Assumptions C79_exceedence.

(** The annual rate of a damage state accumulates its probabilities; not a number if the
    integration fails. *)
Theorem C79_state : forall N D s g dist, limits_ok s ->
  exists v, state_rate N D s g dist = Done v /\
    accumulated s NaN (fun im w => (im = Fin 0 -> w = Fin 0) /\
      (im <> Fin 0 -> exists p, p_state_im N D s g dist im = Done p /\ weighted p (hazard_slope g im) w)) v.
Proof. exact annual_state. Qed.
Print Assumptions C79_state.

(** The annual rate of collapse accumulates the collapse probability, and is zero
    without a collapse curve. *)
Theorem C79_collapse : forall N D s m, limits_ok s ->
  exists v, collapse_rate N D s m = Done v /\
    (collapse (fates m) = None -> v = Fin 0) /\
    (collapse (fates m) <> None -> accumulated s NaN (fun im w => exists d,
       first_number (central D (hazard m) im) (forward D (hazard m) im) (backward D (hazard m) im) d /\
       weighted (p_collapse N (fates m) im) d w) v).
Proof. exact annual_collapse. Qed.
Print Assumptions C79_collapse.

(** Likewise the annual rate of demolition. *)
Theorem C79_demolition : forall N D s m, limits_ok s ->
  exists v, demolition_rate N D s m = Done v /\
    (demolition (fates m) = None -> v = Fin 0) /\
    (demolition (fates m) <> None -> accumulated s NaN (fun im w => exists d,
       first_number (central D (hazard m) im) (forward D (hazard m) im) (backward D (hazard m) im) d /\
       weighted (p_demolition N (fates m) im) d w) v).
Proof. exact annual_demolition. Qed.
Print Assumptions C79_demolition.

(** The rate at which a demand is exceeded accumulates its exceedence probability if the
    building is repaired, and counts collapse and demolition as exceedence. *)
Theorem C79_demand : forall N D s m exceeds y, limits_ok s ->
  exists v, demand_rate N D s m exceeds y = Done v /\
    accumulated s NaN (fun im w => (im = Fin 0 -> w = Fin 0) /\
      (im <> Fin 0 -> exists d,
         first_number (central D (hazard m) im) (forward D (hazard m) im) (backward D (hazard m) im) d /\
         (forall p a b, exceeds im y = Fin p -> p_collapse N (fates m) im = Fin a -> p_demolition N (fates m) im = Fin b ->
            weighted (Fin (p * (1 - a - b) + a + b)) d w) /\
         (exceeds im y = NaN \/ d = NaN -> w = NaN))) v.
Proof. exact annual_demand. Qed.
Print Assumptions C79_demand.

(** The annual cost of a structure has the accumulated mean total cost as its mean; its
    variance is the distance between the accumulated second moment and the square of the mean. *)
Theorem C79_structure : forall N D s b, limits_ok s -> part_costs b <> [] ->
  exists r1 r2 v, building_annual N D s b = Done v /\
    accumulated s NaN (fun im w => exists t d,
      total_cost N (Site (map (fun c => c im) (part_costs b)) (Some (fates (site_measure b))) (rebuilding b) (demolishing b)) im
        = Returns t /\
      first_number (central D (hazard (site_measure b)) im) (forward D (hazard (site_measure b)) im)
        (backward D (hazard (site_measure b)) im) d /\
      weighted (get_mean_X t) d w) r1 /\
    accumulated s NaN (fun im w => exists t d,
      total_cost N (Site (map (fun c => c im) (part_costs b)) (Some (fates (site_measure b))) (rebuilding b) (demolishing b)) im
        = Returns t /\
      first_number (central D (hazard (site_measure b)) im) (forward D (hazard (site_measure b)) im)
        (backward D (hazard (site_measure b)) im) d /\
      (forall m v, moments t m v -> weighted (Fin (m * m + v)) d w) /\
      (get_mean_X t = NaN \/ d = NaN -> w = NaN)) r2 /\
    (forall m q, r1 = Fin m -> r2 = Fin q -> 0 < m -> moments v m (Rabs (q - m * m))) /\
    (r1 = NaN -> get_mean_X v = NaN).
Proof. exact annual_structure. Qed.
Print Assumptions C79_structure.

(** A site with both fates and a group of two components. *)
Example C79_case : forall N, let m := Measure (fun x => x) (Curves (Some (LND (Fin 1) (Fin 1))) (Some (LND (Fin 0) (Fin 1)))) in
  limits_ok (default_settings ER) /\ (0 < count two)%Z /\ collapse (fates m) <> None /\ demolition (fates m) <> None /\
  part_costs (Building [fun _ => loss; fun _ => loss] m loss loss) <> [] /\
  (exists r, integrate (default_settings ER) (cost_integrand N exact_slope two (Fin 1)) = Done r /\ mr_successful r = true) /\
  moments loss mean1 var1.
Proof.
  intros N m. refine (conj _ (conj eq_refl (conj _ (conj _ (conj _ (conj _ loss_moments)))))); try discriminate.
  - split; split; vm_compute; discriminate || reflexivity.
  - destruct (moments_case N (Fin 1)) as (r1 & r2 & m1 & q & E & _ & S & _). exists r1. split; [exact E|exact S].
Qed.
