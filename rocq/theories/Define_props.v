(** * Properties of definitions made from Python

    C71 (mistakes reach the script as exceptions), C72 (distributions are those given),
    C73 (states that cost nothing, groups without a delay function). *)
From Coq Require Import Reals List Bool ZArith Lra Lia.
From Verif Require Import Num ER ERmath Maq Maq_spec Maq_ER_spec Lognormal Lognormal_spec Lognormal_proofs Gauss_proofs
  Damage Damage_spec Damage_proofs Damage_proofs2 Group Group_proofs2 Define Define_spec Define_proofs.
Import ListNotations.
Local Open Scope R_scope.

(** ** C71 *)

(** Full statement: a mistake in a definition or in a request reaches the script as an
    exception it can handle.  False: a fragility or loss function without states, a
    fragility function whose states are in the wrong order, a request to a group whose
    loss function has the wrong number of states, and a group of another intensity
    measure all end the process. *)
Theorem C71_mistakes_refuted :
  (forall o, fragfn_user o [] = Ends) /\ (forall o, simplelossfn o [] = Ends) /\
  fragfn_user (Options (Some MEAN_LN_X) (Some SD_LN_X)) [(Fin 2, Fin 1); (Fin 1, Fin 1)] = Ends /\
  (forall N slopes delay edp, exists f g,
     simplelossfn (Options (Some MEAN_X) (Some SD_LN_X)) [(Fin 10, Fin 1)] = Fine f /\
     compgroup (Some slopes) (Some [LND (Fin 0) (Fin 1); LND (Fin 1) (Fin 1)]) (Some f) delay 5 (Fin 1) (Fin 1) = Fine g /\
     E_Cost_EDP N g edp = Ends) /\
  AddCompGroup [1%nat] (Some 2%nat) = Ends.
Proof. exact refute_mistakes. Qed.
Print Assumptions C71_mistakes_refuted.

(** What becomes of every definition.  Fragility functions with both options given:
    the states are those given, or the process ends, which is if there are none or one
    is not above the one before it. *)
Theorem C71_fragility_partial : forall mt st scalars,
  let l := map (fun d => make (fst d) mt (snd d) st) scalars in
  let made := fragfn_user (Options (Some mt) (Some st)) scalars in
  (made = Fine l /\ scalars <> [] /\ ~ out_of_order l) \/ (made = Ends /\ (scalars = [] \/ out_of_order l)).
Proof. exact fragility_defined. Qed.
Print Assumptions C71_fragility_partial.

(** With an option missing. *)
Theorem C71_fragility_options_partial : forall o scalars, o_mu o = None \/ o_sd o = None ->
  (scalars <> [] -> fragfn_user o scalars = Raises) /\ (scalars = [] -> fragfn_user o scalars = Ends).
Proof. exact fragility_undescribed. Qed.
Print Assumptions C71_fragility_options_partial.

(** Bi-level loss functions never end the process. *)
Theorem C71_bilevel : forall data,
  (bilevellossfn data = Fine (BiLevelLoss data) /\ data <> [] /\
   Forall (fun b => (-2147483648 <= count_min b <= 2147483647)%Z /\ (-2147483648 <= count_max b <= 2147483647)%Z) data) \/
  (bilevellossfn data = Raises /\ (data = [] \/
   Exists (fun b => ~ ((-2147483648 <= count_min b <= 2147483647)%Z /\ (-2147483648 <= count_max b <= 2147483647)%Z)) data)).
Proof. exact bilevel_defined. Qed.
Print Assumptions C71_bilevel.

(** Nor do component groups: whatever is missing raises an exception, and a missing
    delay function is replaced. *)
Theorem C71_group : forall edp frag cost delay n ca da,
  (exists p slope fr f, edp = Some (p, slope) /\ frag = Some fr /\ cost = Some f /\ is_int n = true /\
     compgroup edp frag cost delay n ca da =
       Fine (Group p slope fr (Some f) (Some (match delay with Some d => d | None => SimpleLoss [nodist] end)) n ca da)) \/
  (compgroup edp frag cost delay n ca da = Raises /\
   (edp = None \/ frag = None \/ cost = None \/ ~ (-2147483648 <= n <= 2147483647)%Z)).
Proof. exact group_defined. Qed.
Print Assumptions C71_group.

(** Groups added to structures. *)
Theorem C71_structure_partial : forall ims im,
  (im = None -> AddCompGroup ims im = Raises) /\
  (forall i, im = Some i -> ims = [] \/ (exists r, ims = i :: r) -> AddCompGroup ims im = Fine (ims ++ [i])) /\
  (forall i j r, im = Some i -> ims = j :: r -> i <> j -> AddCompGroup ims im = Ends).
Proof. exact add_requests. Qed.
Print Assumptions C71_structure_partial.

(** Requests given a demand, of the mean and the log standard deviation and for costs
    and delays alike: if the numbers of states differ the process ends; otherwise the
    figure is returned, unless the counts of a bi-level loss function overflow. *)
Theorem C71_edp_partial : forall N frag f n factor edp (fig : lnd -> er), f <> BaseLoss ->
  let asked := lib (bind (loss_given N frag (Some f) n factor edp) (fun d => Returns (fig d))) in
  (states_of f <> length frag -> asked = Ends) /\
  (states_of f = length frag -> small_counts f n -> exists d, loss_given N frag (Some f) n factor edp = Returns d /\ asked = Fine (fig d)) /\
  (states_of f = length frag -> ~ small_counts f n -> asked = Wild).
Proof. exact edp_requests. Qed.
Print Assumptions C71_edp_partial.

(** Requests given an intensity: without components nothing is asked of the loss
    function; otherwise, whatever the settings, the process ends if the numbers of
    states differ, and the figures of [Group.v] are returned if not. *)
Theorem C71_im_cost_partial : forall N D s g im f, cost_fn g = Some f -> f <> BaseLoss ->
  ((count g <= 0)%Z -> E_Cost_IM N D s g im = Fine (Fin 0) /\ SD_ln_Cost_IM N D s g im = Fine (Fin 0)) /\
  ((0 < count g)%Z -> states_of f <> length (fragility g) ->
     E_Cost_IM N D s g im = Ends /\ SD_ln_Cost_IM N D s g im = Ends) /\
  ((0 < count g)%Z -> states_of f = length (fragility g) -> small_counts f (count g) -> limits_ok s ->
     exists e sd, e_cost_im N D s g im = Done e /\ sd_ln_cost_im N D s g im = Done sd /\
       E_Cost_IM N D s g im = Fine e /\ SD_ln_Cost_IM N D s g im = Fine sd) /\
  ((0 < count g)%Z -> states_of f = length (fragility g) -> ~ small_counts f (count g) ->
     E_Cost_IM N D s g im = Wild /\ SD_ln_Cost_IM N D s g im = Wild).
Proof. exact im_cost_requests. Qed.
Print Assumptions C71_im_cost_partial.

Theorem C71_im_delay_partial : forall N D s g im f, delay_fn g = Some f -> f <> BaseLoss ->
  ((count g <= 0)%Z -> E_Delay_IM N D s g im = Fine (Fin 0) /\ SD_ln_Delay_IM N D s g im = Fine (Fin 0)) /\
  ((0 < count g)%Z -> states_of f <> length (fragility g) ->
     E_Delay_IM N D s g im = Ends /\ SD_ln_Delay_IM N D s g im = Ends) /\
  ((0 < count g)%Z -> states_of f = length (fragility g) -> small_counts f (count g) -> limits_ok s ->
     exists e sd, e_delay_im N D s g im = Done e /\ sd_ln_delay_im N D s g im = Done sd /\
       E_Delay_IM N D s g im = Fine e /\ SD_ln_Delay_IM N D s g im = Fine sd) /\
  ((0 < count g)%Z -> states_of f = length (fragility g) -> ~ small_counts f (count g) ->
     E_Delay_IM N D s g im = Wild /\ SD_ln_Delay_IM N D s g im = Wild).
Proof. exact im_delay_requests. Qed.
Print Assumptions C71_im_delay_partial.

Example C71_case :
  let ok := BiLevelLoss [BiLevel 5 9 (Fin 7) (Fin 3) (Fin 1); BiLevel 5 9 (Fin 9) (Fin 3) (Fin 1)] in
  let big := BiLevelLoss [BiLevel (-2147483648) 9 (Fin 7) (Fin 3) (Fin 1); BiLevel 5 9 (Fin 9) (Fin 3) (Fin 1)] in
  let g := some_group ok (SimpleLoss [nodist]) in
  ~ out_of_order (map (fun d => make (fst d) MEAN_LN_X (snd d) SD_LN_X) [(Fin 1, Fin 1); (Fin 2, Fin 1)]) /\
  cost_fn g = Some ok /\ (0 < count g)%Z /\ states_of ok = length (fragility g) /\ small_counts ok (count g) /\
  delay_fn g = Some (SimpleLoss [nodist]) /\ states_of (SimpleLoss [nodist]) <> length (fragility g) /\
  states_of big = length (fragility g) /\ ~ small_counts big (count g) /\ limits_ok (default_settings ER).
Proof.
  cbv zeta. cbn [some_group cost_fn delay_fn count fragility states_of small_counts length].
  refine (conj _ (conj eq_refl (conj eq_refl (conj eq_refl (conj _ (conj eq_refl (conj _ (conj eq_refl (conj _ _))))))))).
  - intros [i [H K]]. cbn [length map] in H. assert (i = 0%nat) by lia. subst i. cbn in K.
    unfold Rleb in K. destruct (Rle_dec 2 1); [lra|discriminate].
  - repeat (apply Forall_cons || apply Forall_nil); cbn; lia.
  - discriminate.
  - intros H. inversion H as [|b l K]. cbn in K. lia.
  - split; split; vm_compute; discriminate || reflexivity.
Qed.

(** ** C72 *)

(** Full statement: the states of a fragility or loss function are lognormal with the
    locations and spreads given, by default means and standard deviations of the log.
    False in three ways.  Omitted options: every fragility function, and every loss
    function with a location other than zero, raises an exception; *)
Theorem C72_default_fails : forall o, o_mu o = None \/ o_sd o = None ->
  (forall scalars, scalars <> [] -> fragfn_user o scalars = Raises) /\
  (forall data, Exists (fun d => er_eqb (fst d) (Fin 0) = false) data -> simplelossfn o data = Raises).
Proof.
  exact (fun o H => conj (fun scalars => proj1 (fragility_undescribed o scalars H))
                         (fun data => proj1 (proj2 (simple_undescribed o data H)))).
Qed.
Print Assumptions C72_default_fails.

(** combinations that are not supported: no exception, but states that are not
    distributions, and for every group with such a fragility function a mean cost of
    zero at every intensity; *)
Theorem C72_unsupported_fails : forall mt st scalars slopes cost delay n ca da N, ~ supported mt st -> scalars <> [] ->
  length cost = length scalars -> is_int n = true ->
  exists frag g, fragfn_user (Options (Some mt) (Some st)) scalars = Fine frag /\
    compgroup (Some slopes) (Some frag) (Some (SimpleLoss cost)) delay n ca da = Fine g /\
    (forall edp, E_Cost_EDP N g edp = Fine NaN /\ SD_ln_Cost_EDP N g edp = Fine NaN) /\
    (forall D s im, E_Cost_IM N D s g im = Fine (Fin 0) /\ SD_ln_Cost_IM N D s g im = Fine (Fin 0)).
Proof. exact unsupported_cost. Qed.
Print Assumptions C72_unsupported_fails.

(** and losses whose location is zero, also where zero is the mean of the log, for
    which there is a distribution: *)
Theorem C72_zero_refuted : exists d0 d, described MEAN_LN_X SD_LN_X (0, 1) d0 /\
  simplelossfn (Options (Some MEAN_LN_X) (Some SD_LN_X)) (map fin2 [(0, 1)]) = Fine (SimpleLoss [d]) /\
  ~ described MEAN_LN_X SD_LN_X (0, 1) d.
Proof. exact refute_described. Qed.
Print Assumptions C72_zero_refuted.

(** no such state is a distribution. *)
Theorem C72_zero_fails : forall mt st data i, (i < length data)%nat -> fst (nth i data (Fin 0, Fin 0)) = Fin 0 ->
  exists l, simplelossfn (Options (Some mt) (Some st)) data = Fine (SimpleLoss l) /\ length l = length data /\
    all_nan (nth i l nodist).
Proof. exact zero_location. Qed.
Print Assumptions C72_zero_fails.

(** What holds: with both options given and supported, every fragility function that is
    accepted has the states given, *)
Theorem C72_fragility_partial : forall mt st data l, supported mt st -> Forall (proper_pair mt) data ->
  fragfn_user (Options (Some mt) (Some st)) (map fin2 data) = Fine l -> Forall2 (described mt st) data l.
Proof. exact described_fragility. Qed.
Print Assumptions C72_fragility_partial.

(** and so has every loss function without zeros. *)
Theorem C72_losses_partial : forall mt st data, supported mt st -> Forall (proper_pair mt) data -> data <> [] ->
  Forall (fun d => fst d <> 0) data ->
  exists l, simplelossfn (Options (Some mt) (Some st)) (map fin2 data) = Fine (SimpleLoss l) /\
    Forall2 (described mt st) data l.
Proof. exact described_losses. Qed.
Print Assumptions C72_losses_partial.

Example C72_case : supported MEAN_LN_X SD_LN_X /\ Forall (proper_pair MEAN_LN_X) [(1, 1); (2, 1 / 2)] /\
  Forall (fun d => fst d <> 0) [(1, 1); (2, 1 / 2)] /\
  (exists l, fragfn_user (Options (Some MEAN_LN_X) (Some SD_LN_X)) (map fin2 [(1, 1); (2, 1 / 2)]) = Fine l) /\
  ~ supported MEDIAN_X SD_X /\
  simplelossfn (Options (Some MEAN_LN_X) (Some SD_LN_X)) [(Fin 0, Fin 1)] = Fine (SimpleLoss [nodist]) /\
  make (Fin 0) MEAN_LN_X (Fin 1) SD_LN_X = LND (Fin 0) (Fin 1).
Proof.
  unfold supported, proper_pair. split; [auto|].
  split; [repeat (apply Forall_cons || apply Forall_nil); cbn; split; auto; lra|].
  split; [repeat (apply Forall_cons || apply Forall_nil); cbn; lra|]. split; [|split; [intros [H|H]; discriminate|split; [|reflexivity]]].
  - destruct (fragility_defined MEAN_LN_X SD_LN_X (map fin2 [(1, 1); (2, 1 / 2)])) as [[E _]|[_ [E|[i [H K]]]]].
    + eexists. exact E.
    + discriminate.
    + cbn [length map] in H. assert (i = 0%nat) by lia. subst i. cbn in K.
      unfold Rleb in K. destruct (Rle_dec 2 1); [lra|discriminate].
  - rewrite simple_defined. cbn [map fst]. rewrite (proj2 (proj2 zero_eqb)). reflexivity.
Qed.

(** ** C73 *)

(** Full statement: the mean cost of a group is that of its damage states, where one
    that costs nothing contributes nothing.  False: with unit costs of 0 and 100 the
    second state has a positive probability at every demand, but the mean cost is not a
    number, and that given any intensity is reported as zero, whatever the settings. *)
Theorem C73_zero_refuted : forall N slopes delay, normal_ok N -> exists f g,
  simplelossfn (Options (Some MEAN_X) (Some SD_LN_X)) [(Fin 0, Fin 1); (Fin 100, Fin 1)] = Fine f /\
  compgroup (Some slopes) (Some (map curve [(0, 1); (1, 1)])) (Some f) delay 5 (Fin 1) (Fin 1) = Fine g /\
  forall x, 0 < x -> exists h1 h2,
    p_highest N (map curve [(0, 1); (1, 1)]) (Fin x) = [Fin h1; Fin h2] /\ 0 <= h1 /\ 0 < h2 /\
    E_Cost_EDP N g (Fin x) = Fine NaN /\ forall D s im, E_Cost_IM N D s g im = Fine (Fin 0).
Proof. exact refute_zero_cost. Qed.
Print Assumptions C73_zero_refuted.

(** This is so for every group with such a state. *)
Theorem C73_zero_fails : forall mt st data slopes frag delay n ca da N, length data = length frag ->
  Exists (fun d => fst d = Fin 0) data -> is_int n = true ->
  exists f g, simplelossfn (Options (Some mt) (Some st)) data = Fine f /\
    compgroup (Some slopes) (Some frag) (Some f) delay n ca da = Fine g /\
    (forall edp, E_Cost_EDP N g edp = Fine NaN /\ SD_ln_Cost_EDP N g edp = Fine NaN) /\
    (forall D s im, E_Cost_IM N D s g im = Fine (Fin 0) /\ SD_ln_Cost_IM N D s g im = Fine (Fin 0)).
Proof. exact zero_cost. Qed.
Print Assumptions C73_zero_fails.

(** What holds: where no location is zero, the mean cost given a demand is the count
    times the mean of the costs given, weighted with the probabilities of the states. *)
Theorem C73_cost_partial : forall N mt st c data slopes delay n f df, normal_ok N -> supported mt st -> spreads c -> c <> [] ->
  Forall (proper_pair mt) data -> Forall (fun d => fst d <> 0) data -> length data = length c ->
  (0 <= n <= 2147483647)%Z -> 0 <= f ->
  exists l mv g, simplelossfn (Options (Some mt) (Some st)) (map fin2 data) = Fine (SimpleLoss l) /\
    Forall2 (described mt st) data l /\ all_moments l mv /\
    compgroup (Some slopes) (Some (map curve c)) (Some (SimpleLoss l)) delay n (Fin f) df = Fine g /\
    forall x, 0 <= x -> exists hs, p_highest N (map curve c) (Fin x) = map Fin hs /\
      E_Cost_EDP N g (Fin x) = Fine (Fin (f * IZR n * mix_mean hs mv)).
Proof. exact defined_cost. Qed.
Print Assumptions C73_cost_partial.

(** Full statement: a group without a delay function has no delay.  Every such group
    can be defined, but its delays given a demand are not numbers if there is one
    damage state; if there are more, every request ends the process. *)
Theorem C73_delay_fails : forall slopes frag cost n ca da N, is_int n = true ->
  exists g, compgroup (Some slopes) (Some frag) (Some cost) None n ca da = Fine g /\
  (length frag = 1%nat ->
     (forall edp, E_Delay_EDP N g edp = Fine NaN /\ SD_ln_Delay_EDP N g edp = Fine NaN) /\
     (forall D s im, E_Delay_IM N D s g im = Fine (Fin 0) /\ SD_ln_Delay_IM N D s g im = Fine (Fin 0))) /\
  (length frag <> 1%nat ->
     (forall edp, E_Delay_EDP N g edp = Ends /\ SD_ln_Delay_EDP N g edp = Ends) /\
     ((0 < n)%Z -> forall D s im, E_Delay_IM N D s g im = Ends /\ SD_ln_Delay_IM N D s g im = Ends)).
Proof. exact no_delay. Qed.
Print Assumptions C73_delay_fails.

(** Nor are the figures numbers, for a group that a C++ program makes without a cost or a
    delay function. *)
Theorem C73_without_fails : forall N g edp,
  (cost_fn g = None -> E_Cost_EDP N g edp = Fine NaN /\ SD_ln_Cost_EDP N g edp = Fine NaN) /\
  (delay_fn g = None -> E_Delay_EDP N g edp = Fine NaN /\ SD_ln_Delay_EDP N g edp = Fine NaN).
Proof. exact without_functions. Qed.
Print Assumptions C73_without_fails.

Example C73_case : normal_ok gauss /\ supported MEAN_X SD_LN_X /\ spreads [(0, 1); (1, 1)] /\
  Forall (proper_pair MEAN_X) [(50, 1); (100, 1)] /\ Forall (fun d => fst d <> 0) [(50, 1); (100, 1)] /\
  Exists (fun d => fst d = Fin 0) [(Fin 50, Fin 1); (Fin 0, Fin 1)] /\ is_int 5 = true.
Proof.
  unfold supported, proper_pair, spreads. split; [exact gauss_ok|]. split; [auto|].
  split; [repeat (apply Forall_cons || apply Forall_nil); cbn; lra|].
  split; [repeat (apply Forall_cons || apply Forall_nil); cbn; lra|].
  split; [repeat (apply Forall_cons || apply Forall_nil); cbn; lra|].
  split; [apply Exists_cons_tl, Exists_cons_hd; reflexivity|reflexivity].
Qed.
