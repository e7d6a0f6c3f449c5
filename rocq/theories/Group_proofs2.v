(** * Proofs about component groups *)
From Coq Require Import Reals List Bool ZArith Lia Lra Permutation.
From Verif Require Import Num ER ER_proofs ERmath Maq Maq_spec Maq_proofs Maq_ER_spec Maq_ER_proofs Maq_ER_proofs2 Maq_ER_proofs3
  Maq_claims_proofs Lognormal Lognormal_spec Lognormal_proofs Lognormal_proofs2
  Damage Damage_spec Damage_proofs Damage_proofs2 Functions_proofs Group Group_spec.
Import ListNotations.
Local Open Scope R_scope.

(** ** The outcome of an integration *)

Lemma integrate_done : forall s f, limits_ok s -> exists r, integrate s f = Done r.
Proof.
  intros s f Hs. destruct (MAQ_spec ER f ER_order_ok s Hs) as [r [_ H]]. exists r. unfold integrate. apply H. lia.
Qed.

Theorem no_components : forall N D s g im c, (count g <= 0)%Z ->
  e_cost_im N D s g im = Done (Fin 0) /\ sd_ln_cost_im N D s g im = Done (Fin 0) /\
  e_annual_cost N D s g = Done (Fin 0) /\ lambda_cost N D s g c = Done (Fin 0) /\
  e_delay_im N D s g im = Done (Fin 0) /\ sd_ln_delay_im N D s g im = Done (Fin 0) /\
  exists d, cost_dist_im N D s g im = Done d /\ certain_zero d.
Proof.
  intros N D s g im c H. assert (Q : (0 <? count g)%Z = false) by (apply Z.ltb_ge; exact H).
  unfold cost_dist_im, sd_ln_cost_im, e_annual_cost, lambda_cost, e_delay_im, sd_ln_delay_im, e_cost_im. rewrite Q.
  repeat (split; [reflexivity|]). eexists. split; [reflexivity|]. exists 0. split; [|lra].
  unfold from_mean_sdln. rewrite mu_of_zero. reflexivity.
Qed.

Theorem no_components_edp : forall N c l mv f x g, normal_ok N -> spreads c -> all_moments l mv ->
  length l = length c -> 0 <= f -> 0 <= x ->
  fragility g = map curve c -> count g = 0%Z ->
  (cost_fn g = Some (SimpleLoss l) -> cost_factor g = Fin f -> get_mean_X (cost_edp N g (Fin x)) = Fin 0) /\
  (delay_fn g = Some (SimpleLoss l) -> delay_factor g = Fin f -> get_mean_X (delay_edp N g (Fin x)) = Fin 0).
Proof.
  intros N c l mv f x g OK H M E Hf Hx Ef Ec.
  destruct (loss_given_demand N c l mv 0 f x OK H M E (Z.le_refl 0) Hf Hx) as (hs & d & _ & _ & Ed & Em).
  split; intros E1 E2.
  - unfold cost_edp. rewrite Ef, Ec, E1, E2, Ed. cbn [or_nodist]. rewrite Em. f_equal. ring.
  - unfold delay_edp. rewrite Ef, Ec, E1, E2, Ed. cbn [or_nodist]. rewrite Em. f_equal. ring.
Qed.

(** A figure other than zero comes from an integration that succeeded. *)
Theorem reported : forall N D s g im, limits_ok s -> (0 < count g)%Z ->
  exists r v, integrate s (cost_integrand N D g im) = Done r /\ e_cost_im N D s g im = Done v /\
    (mr_successful r = true -> v = mr_integral r) /\ (mr_successful r = false -> v = Fin 0) /\
    (v <> Fin 0 -> mr_successful r = true).
Proof.
  intros N D s g im Hs Hc. destruct (integrate_done s (cost_integrand N D g im) Hs) as [r E].
  exists r, (integral_or (Fin 0) r). split; [exact E|]. unfold e_cost_im. rewrite (proj2 (Z.ltb_lt 0 _) Hc), E.
  split; [reflexivity|]. unfold integral_or. destruct (mr_successful r); repeat split; intros; try discriminate; try reflexivity.
  contradiction.
Qed.

(** The expected rate of a damage state is a number only if integration succeeded. *)
Theorem rate_reported : forall N D s g dist, limits_ok s ->
  exists r v, integrate s (fun im => if er_eqb im (Fin 0) then Fin 0
      else er_mul (value_or_nan (p_state_im N D s g dist im)) (er_abs (hazard_slope g im))) = Done r /\
    state_rate N D s g dist = Done v /\
    (mr_successful r = true -> v = mr_integral r) /\ (v <> NaN -> mr_successful r = true).
Proof.
  intros N D s g dist Hs. unfold state_rate.
  match goal with |- context [integrate s ?f] => destruct (integrate_done s f Hs) as [r E] end.
  exists r, (integral_or NaN r). split; [exact E|]. rewrite E. split; [reflexivity|].
  unfold integral_or. destruct (mr_successful r); split; intros; try reflexivity; try discriminate. contradiction.
Qed.

(** ** The directed search finds the whole range *)

Lemma directed_whole : forall (f : er -> er) fuel limit v, f (Fin 1) = Fin v -> / 4503599627370496 < v ->
  exists tr, directed_search ER f fuel limit = Done (mkSR ER (Some (Fin 0, Fin 1)) 2 tr).
Proof.
  intros f fuel limit v E Hv.
  assert (C : c0_mid ER = Fin (1 / 2)).
  { unfold c0_mid. cbn [ndiv nadd nofZ ER er_add]. rewrite er_div_fin by lra. f_equal. lra. }
  assert (X : x_from_t ER (Fin (1 / 2)) = Fin 1).
  { rewrite x_from_t_fin by lra. f_equal. lra. }
  unfold directed_search, search_start. rewrite C, X, E. cbn [ss_fc].
  assert (L : le_eps ER (Fin v) = false).
  { unfold le_eps. cbn [nleb neps ER er_leb]. apply Rleb_false. exact Hv. }
  rewrite L, andb_false_r. eexists. unfold search_whole, set_around, around. cbn [ss_c].
  assert (H : nltb ER (Fin (1 / 2)) (half ER) = false).
  { unfold half. cbn [nltb ndiv nofZ ER]. rewrite er_div_fin by lra. cbn [er_ltb]. apply Rltb_false. lra. }
  rewrite H. cbn [set_range ss_a ss_b ss_ev ss_tr ss_c ss_fc nsub nmul nofZ ER er_mul]. rewrite er_sub_fin.
  replace (2 * (1 / 2) - 1) with 0 by lra. reflexivity.
Qed.

Lemma MAQ_directed : forall (f : er -> er) s fuel v r, set_method s = DIRECTED -> f (Fin 1) = Fin v ->
  / 4503599627370496 < v -> MAQ ER f fuel s = Done r ->
  mr_range r = Some (Fin 0, Fin 1) /\ mr_search_evals r = 2%Z.
Proof.
  intros f s fuel v r Hm E Hv H. unfold MAQ in H. rewrite Hm in H. cbn [search] in H.
  destruct (directed_whole f fuel (set_search_limit s) v E Hv) as [tr E']. rewrite E' in H.
  cbn [obind sr_range sr_evals sr_trace nisnan ER er_isnan] in H.
  exact (integrate_range_shape _ _ _ _ _ _ _ _ _ _ H).
Qed.

Lemma MAQ_directed_limit : forall (f : er -> er) s fuel v r, set_method s = DIRECTED -> f (Fin 1) = Fin v ->
  / 4503599627370496 < v -> (set_eval_limit s <= 5)%Z -> MAQ ER f fuel s = Done r -> mr_successful r = false.
Proof.
  intros f s fuel v r Hm E Hv Hl H. unfold MAQ in H. rewrite Hm in H. cbn [search] in H.
  destruct (directed_whole f fuel (set_search_limit s) v E Hv) as [tr E']. rewrite E' in H.
  cbn [obind sr_range sr_evals sr_trace nisnan ER er_isnan] in H. unfold integrate_range in H.
  destruct (nisnan ER (eval_left ER f (Fin 0))); [injection H as <-; reflexivity|].
  destruct (nisnan ER (eval_at ER f (Fin 1))); [injection H as <-; reflexivity|].
  destruct (nisnan ER (eval_at ER f _)); [injection H as <-; reflexivity|].
  destruct fuel as [|k]; [discriminate|]. cbn [maq_loop] in H.
  change (u32 (u32 (2 + 3) + 1)) with 6%Z in H.
  assert (Q : (set_eval_limit s <? 6)%Z = true) by (apply Z.ltb_lt; lia).
  rewrite Q in H. cbn [obind] in H. injection H as <-. reflexivity.
Qed.

(** ** Zero although the cost is positive *)

(** A demand that exceeds [x] with probability 1/(1+x). *)
Definition some_exceedence (im x : er) : er :=
  match x with Fin x => Fin (1 / (1 + x)) | PInf => Fin 0 | _ => NaN end.

(** Differences with step 1E-8. *)
Definition step : R := 1 / 100000000.
Definition differences_of : derivs :=
  let h := Fin step in
  Derivs (fun f x => er_div (er_sub (f (er_add x h)) (f (er_sub x h))) (er_mul (Fin 2) h))
         (fun f x => er_div (er_sub (f (er_add x h)) (f x)) h)
         (fun f x => er_div (er_sub (f x) (f (er_sub x h))) h).

Definition costly (n : Z) : group :=
  Group some_exceedence (fun _ => Fin 1) [curve (0, 1)] (Some (SimpleLoss [curve (0, 1)])) None n (Fin 1) (Fin 1).

Lemma costly_mean : forall N x n, normal_ok N -> 0 < x -> (0 < n)%Z ->
  exists m, get_mean_X (cost_edp N (costly n) (Fin x)) = Fin (IZR n * (cdf N (ln x) * m)) /\ 1 < m.
Proof.
  intros N x n OK Hx Hn. exists (exp (0 + 1 * 1 / 2)). split.
  - assert (Sp : spreads [(0, 1)]) by (constructor; [cbn; lra|constructor]).
    assert (M : all_moments [curve (0, 1)] [(exp (0 + 1 * 1 / 2), (exp (1 * 1) - 1) * exp (2 * 0 + 1 * 1))]).
    { apply Forall2_cons; [|apply Forall2_nil]. left. exists 0, 1. split; [split; [reflexivity|lra]|split; reflexivity]. }
    destruct (loss_given_demand N [(0, 1)] _ _ n 1 x OK Sp M eq_refl ltac:(lia) ltac:(lra) ltac:(lra))
      as (hs & d & Eh & _ & Ed & Em).
    unfold cost_edp, costly. cbn [fragility cost_fn count cost_factor]. cbn [map] in Ed. rewrite Ed. cbn [or_nodist].
    rewrite Em. unfold p_highest, p_exceeded in Eh. cbn [map differences] in Eh.
    rewrite (curve_at N OK (0, 1)) in Eh by (cbn; lra). cbn [fst snd] in Eh.
    destruct hs as [|h [|h2 hs]]; cbn [map] in Eh; try discriminate. injection Eh as Eh.
    f_equal. unfold mix_mean, mix. rewrite <- Eh. replace ((ln x - 0) / 1) with (ln x) by field. ring.
  - rewrite <- exp_0 at 1. apply exp_increasing. lra.
Qed.

Lemma costly_integrand : forall N n, normal_ok N -> (0 < n)%Z ->
  exists v, cost_integrand N differences_of (costly n) (Fin 1) (Fin 1) = Fin v /\ / 10 < v.
Proof.
  intros N n OK Hn. destruct (costly_mean N 1 n OK ltac:(lra) Hn) as (m & Em & Hm).
  assert (Q : slope differences_of
    (fun x => if er_eqb (Fin 1) (Fin 0) || er_ltb x (Fin 0) then Fin 0 else exceedence (costly n) (Fin 1) x) (Fin 1) =
    Fin ((1 / (1 + (1 + step)) - 1 / (1 + (1 - step))) / (2 * step))).
  { unfold slope, differences_of. cbn [central].
    rewrite (er_eqb_fin0 1) by lra. cbn [orb er_add]. rewrite er_sub_fin.
    assert (Hst : 0 < step < 1) by (unfold step; lra).
    rewrite (proj2 (ltb_fin_false (1 + step) 0)), (proj2 (ltb_fin_false (1 - step) 0)) by lra. unfold costly. cbn [exceedence some_exceedence er_mul].
    rewrite er_sub_fin, er_div_fin by lra. reflexivity. }
  unfold cost_integrand. rewrite (er_eqb_fin0 1) by lra. rewrite (er_eqb_fin0 1) in Q by lra. rewrite Q, Em.
  cbn [er_abs er_mul]. eexists. split; [reflexivity|].
  rewrite ln_1, (cdf_half N OK).
  replace ((1 / (1 + (1 + step)) - 1 / (1 + (1 - step))) / (2 * step)) with (- (1 / (4 - step * step))).
  2:{ unfold step. field. }
  rewrite Rabs_Ropp, Rabs_pos_eq by (unfold step; lra).
  apply IZR_lt in Hn. assert (1 <= IZR n) by (apply IZR_le; apply lt_IZR in Hn; lia).
  assert (A : 1 / 4 < 1 / (4 - step * step)) by (unfold step; lra).
  assert (B : 1 / 2 < IZR n * (1 / 2 * m)).
  { apply Rlt_le_trans with (1 * (1 / 2 * m)); [lra|]. apply Rmult_le_compat_r; lra. }
  apply Rlt_trans with (1 / 2 * (1 / 4)); [lra|]. apply Rmult_gt_0_lt_compat; lra.
Qed.

Lemma refute_zero : forall N, normal_ok N -> exists D s g im,
  s = settings_run ER [OpSetEvalLimit ER 1] /\ limits_ok s /\ (0 < count g)%Z /\ D = differences_of /\
  (forall x, 0 <= x -> exceedence g im (Fin x) = Fin (1 / (1 + x))) /\
  (forall x, 0 < x -> exists m, get_mean_X (cost_edp N g (Fin x)) = Fin m /\ 0 < m) /\
  e_cost_im N D s g im = Done (Fin 0).
Proof.
  intros N OK. exists differences_of, (settings_run ER [OpSetEvalLimit ER 1]), (costly 1), (Fin 1).
  assert (Hs : limits_ok (settings_run ER [OpSetEvalLimit ER 1])) by (split; split; vm_compute; discriminate || reflexivity).
  split; [reflexivity|]. split; [exact Hs|]. split; [reflexivity|]. split; [reflexivity|].
  split; [intros x _; reflexivity|]. split.
  - intros x Hx. destruct (costly_mean N x 1 OK Hx ltac:(lia)) as (m & Em & Hm).
    eexists. split; [exact Em|]. pose proof (cdf_range N OK (ln x)) as [C _].
    rewrite Rmult_1_l. apply Rmult_lt_0_compat; lra.
  - destruct (reported N differences_of _ (costly 1) (Fin 1) Hs ltac:(cbn; lia)) as (r & v & Er & Ev & _ & F & _).
    rewrite Ev. f_equal. apply F.
    destruct (costly_integrand N 1 OK ltac:(lia)) as (w & Ew & Hw).
    refine (MAQ_directed_limit (cost_integrand N differences_of (costly 1) (Fin 1)) (settings_run ER [OpSetEvalLimit ER 1])
      _ w r eq_refl Ew _ _ Er); [lra|]. cbn. lia.
Qed.

(** ** What a zero means *)

Lemma image_value : forall (f : er -> er), (forall x, exists v, f x = Fin v /\ 0 <= v) ->
  forall t, image f t = Fin (fin (image f t)) /\ 0 <= fin (image f t).
Proof.
  intros f Hf t. unfold image. destruct (Req_EM_T t 0) as [Et|Et].
  - destruct (Hf PInf) as (v & -> & Hv). split; [reflexivity|exact Hv].
  - destruct (Hf (Fin (1 / t - 1))) as (v & -> & Hv). rewrite er_div_fin by (intros Q; apply Rmult_integral in Q; tauto).
    cbn [fin]. split; [reflexivity|]. apply Rmult_le_pos; [exact Hv|]. left. apply Rinv_0_lt_compat.
    pose proof (Rsqr_pos_lt _ Et) as P. exact P.
Qed.

Lemma sum_zero_all : forall l, (forall x, In x l -> 0 <= x) -> sumR l = 0 -> forall x, In x l -> x = 0.
Proof.
  intros l. induction l as [|y l IH]; intros P E x Hx; [contradiction|]. cbn [sumR fold_right] in E.
  assert (0 <= fold_right Rplus 0 l).
  { assert (Q : forall x, In x l -> 0 <= x) by (intros; apply P; right; assumption). clear - Q.
    induction l as [|z l IH]; cbn [fold_right]; [lra|].
    pose proof (Q z (or_introl eq_refl)). pose proof (IH (fun x Hx => Q x (or_intror Hx))). lra. }
  pose proof (P y (or_introl eq_refl)) as Py. destruct Hx as [<-|Hx]; [lra|].
  apply IH; [intros; apply P; right; assumption|unfold sumR; lra|exact Hx].
Qed.

Theorem zero_sampled : forall (f : er -> er) s fuel r, limits_ok s -> (forall x, exists v, f x = Fin v /\ 0 <= v) ->
  MAQ ER f fuel s = Done r -> mr_successful r = true -> mr_range r <> None -> mr_integral r = Fin 0 ->
  exists a b l, mr_range r = Some (Fin a, Fin b) /\ tiles a b l /\ Forall (vanishes f) l.
Proof.
  intros f s fuel r Hs Hf H Hsucc Hn Hz. destruct (mr_range r) as [ab|] eqn:Hr; [clear Hn|contradiction].
  destruct (MAQ_range_proper f s fuel r ab Hs H Hr) as (a & b & -> & Hab & _).
  destruct (MAQ_ER_post f s fuel r a b Hs Hab H Hr) as [n0 [it [_ P]]].
  destruct P as [_ _ _ _ P5 _ _ _ P9].
  apply P5 in Hsucc. destruct (P9 Hsucc) as [G1 [G2 [_ G4]]].
  pose proof (image_value f Hf) as I. set (p := fun t => fin (image f t)) in *.
  assert (B : forall x, In x (mr_accepted r) -> exists u v, acc_interval x = (Fin u, Fin v) /\ a <= u < v /\ v <= b /\
    ac_q2 x = Fin (fin (ac_q2 x)) /\ ac_corr x = Fin (fin (ac_corr x)) /\
    acc_value x = boole u v (p u) (p ((3 * u + v) / 4)) (p ((u + v) / 2)) (p ((u + 3 * v) / 4)) (p v)).
  { intros x Hx. rewrite Forall_forall in G1.
    destruct (acc_boole f a b (set_tolerance s) x p) as (u & v & _ & Ei & Hu & Hv & E1 & E2 & Ev);
      [lra|intros t _; apply I|apply G1; exact Hx|]. exists u, v. repeat split; try assumption; lra. }
  rewrite G4, running_sum_fin in Hz.
  2:{ intros x Hx. destruct (B x Hx) as (u & v & _ & _ & _ & E1 & E2 & _). split; assumption. }
  injection Hz as Hz.
  assert (Z : forall x, In x (mr_accepted r) -> acc_value x = 0).
  { intros x Hx. refine (sum_zero_all _ _ Hz _ (in_map acc_value _ _ Hx)).
    intros y Hy. apply in_map_iff in Hy. destruct Hy as (z & <- & Hy). destruct (B z Hy) as (u & v & _ & Hu & _ & _ & _ & ->).
    unfold boole. pose proof (proj2 (I u)); pose proof (proj2 (I v)); pose proof (proj2 (I ((3 * u + v) / 4)));
      pose proof (proj2 (I ((u + v) / 2))); pose proof (proj2 (I ((u + 3 * v) / 4))). unfold p. apply Rmult_le_pos; lra. }
  destruct G2 as (l' & Hp & Ht).
  assert (Hall : Forall (fun uv : er * er => exists u v, uv = (Fin u, Fin v) /\ vanishes f (u, v)) l').
  { eapply Permutation_Forall; [exact Hp|]. apply Forall_map, Forall_forall. intros x Hx.
    destruct (B x Hx) as (u & v & Ei & Hu & _ & _ & _ & Ev). exists u, v. split; [exact Ei|].
    rewrite (Z x Hx) in Ev. unfold boole in Ev.
    pose proof (proj2 (I u)) as Q0; pose proof (proj2 (I v)) as Q4; pose proof (proj2 (I ((3 * u + v) / 4))) as Q1;
      pose proof (proj2 (I ((u + v) / 2))) as Q2; pose proof (proj2 (I ((u + 3 * v) / 4))) as Q3.
    fold (p u) in Q0; fold (p v) in Q4; fold (p ((3 * u + v) / 4)) in Q1; fold (p ((u + v) / 2)) in Q2; fold (p ((u + 3 * v) / 4)) in Q3.
    symmetry in Ev. apply Rmult_integral in Ev. destruct Ev as [Ev|Ev]; [lra|].
    split; [cbn; lra|]. intros i Hi. cbn [fst snd].
    assert (C : (i = 0 \/ i = 1 \/ i = 2 \/ i = 3 \/ i = 4)%Z) by lia.
    assert (K : forall t w, t = w -> p w = 0 -> image f t = Fin 0).
    { intros t w -> E. rewrite (proj1 (I w)). f_equal. exact E. }
    destruct C as [->|[->|[->|[->| ->]]]].
    - apply (K _ u); [field|lra].
    - apply (K _ ((3 * u + v) / 4)); [field|lra].
    - apply (K _ ((u + v) / 2)); [field|lra].
    - apply (K _ ((u + 3 * v) / 4)); [field|lra].
    - apply (K _ v); [field|lra]. }
  destruct (tiles_fin (fun u v => vanishes f (u, v)) _ _ _ Ht a b eq_refl eq_refl Hall) as [l [T [F _]]].
  exists a, b, l. split; [reflexivity|]. split; [exact T|]. eapply Forall_impl; [|exact F]. intros [u v] Q. exact Q.
Qed.

(** ** Mean and spread at an intensity *)

Theorem group_moments : forall N D s g im r1 r2 m q, (0 < count g)%Z ->
  integrate s (cost_integrand N D g im) = Done r1 -> integrate s (cost_sq_integrand N D g im) = Done r2 ->
  mr_successful r1 = true -> mr_successful r2 = true -> mr_integral r1 = Fin m -> mr_integral r2 = Fin q ->
  0 <= m -> m * m <= q ->
  exists d, cost_dist_im N D s g im = Done d /\ (0 < m -> moments d m (q - m * m)) /\ (m = 0 -> certain_zero d).
Proof.
  intros N D s g im r1 r2 m q Hc E1 E2 S1 S2 I1 I2 Hm Hq.
  assert (Q : (0 <? count g)%Z = true) by (apply Z.ltb_lt; exact Hc).
  unfold cost_dist_im, sd_ln_cost_im, e_cost_im. rewrite Q, E1, E2. cbn [obind]. unfold integral_or. rewrite S1, S2, I1, I2.
  cbn [obind]. eexists. split; [reflexivity|]. unfold sd_ln_from. cbn [er_mul]. rewrite er_sub_fin, er_sqrt_pos by lra.
  cbn [er_isnan er_mul]. split.
  - intros Hp. rewrite er_eqb_fin0 by lra.
    pose proof (from_sd_moments m (q - m * m) Hm ltac:(lra) ltac:(lra)) as M.
    unfold from_mean_sd, sigma_from_sd in M. rewrite er_eqb_fin0 in M by lra. exact M.
  - intros ->. rewrite er_eqb_00. exists 0. split; [|lra]. unfold from_mean_sdln. rewrite mu_of_zero. reflexivity.
Qed.

(** If the second moment comes out too small, the spread is zero. *)
Theorem group_no_spread : forall N D s g im r1 r2 m q, (0 < count g)%Z ->
  integrate s (cost_integrand N D g im) = Done r1 -> integrate s (cost_sq_integrand N D g im) = Done r2 ->
  mr_successful r1 = true -> mr_successful r2 = true -> mr_integral r1 = Fin m -> mr_integral r2 = Fin q ->
  0 < m -> q < m * m -> exists d, cost_dist_im N D s g im = Done d /\ moments d m 0.
Proof.
  intros N D s g im r1 r2 m q Hc E1 E2 S1 S2 I1 I2 Hm Hq.
  assert (Q : (0 <? count g)%Z = true) by (apply Z.ltb_lt; exact Hc).
  unfold cost_dist_im, sd_ln_cost_im, e_cost_im. rewrite Q, E1, E2. cbn [obind]. unfold integral_or. rewrite S1, S2, I1, I2.
  cbn [obind]. eexists. split; [reflexivity|]. unfold sd_ln_from. cbn [er_mul]. rewrite er_sub_fin.
  replace (er_sqrt (Fin (q - m * m))) with NaN
    by (unfold er_sqrt; rewrite (proj2 (Rltb_true (q - m * m) 0)) by lra; reflexivity).
  cbn [er_isnan er_mul]. rewrite er_eqb_fin0 by lra.
  pose proof (from_sd_moments m 0 ltac:(lra) ltac:(lra) ltac:(lra)) as M. rewrite sqrt_0 in M.
  unfold from_mean_sd, sigma_from_sd in M. rewrite er_eqb_fin0 in M by lra. exact M.
Qed.
