(** Properties C35-C40: damage, loss and fate, in exact arithmetic. *)
From Coq Require Import Reals List Lra Lia ZArith Permutation.
From Verif Require Import ER ERmath Lognormal Lognormal_spec Damage Damage_spec Damage_proofs Damage_proofs2.
Import ListNotations.
Local Open Scope R_scope.

(** ** C35 *)

(** Full statement: for every accepted fragility function and demand the
    probabilities of reaching the states do not increase and those of being in
    exactly each state add up to that of reaching the first.  False: an accepted
    function whose second state is likelier to be reached than its first, and
    whose probabilities add up to that of the second; *)
Theorem C35_refuted : forall N, normal_ok N -> exists f x p q,
  new_fragility f = Returns f /\ 0 < x /\
  p_exceeded N f (Fin x) = [Fin p; Fin q] /\ p_highest N f (Fin x) = [Fin 0; Fin q] /\ p < q.
Proof. exact refute_order. Qed.
Print Assumptions C35_refuted.

(** and one whose exact-state probabilities add up to more than one. *)
Theorem C35_sum_refuted : forall N, normal_ok N -> exists f x hs,
  new_fragility f = Returns f /\ 0 < x /\ p_highest N f (Fin x) = map Fin hs /\ 1 < total hs.
Proof. exact refute_sum. Qed.
Print Assumptions C35_sum_refuted.

(** For every function with positive spreads and every demand: both are lists
    of probabilities, the sum is at least the first, and the statement holds
    exactly if the demand is in order for the states. *)
Theorem C35_states_partial : forall N, normal_ok N -> forall c x, spreads c -> 0 < x ->
  exists ps hs, p_exceeded N (map curve c) (Fin x) = map Fin ps /\ p_highest N (map curve c) (Fin x) = map Fin hs /\
    length ps = length c /\ length hs = length c /\
    all_probabilities ps /\ all_probabilities hs /\ hd 0 ps <= total hs /\
    (descending ps <-> in_order (ln x) c) /\ (total hs = hd 0 ps <-> in_order (ln x) c).
Proof. exact states. Qed.
Print Assumptions C35_states_partial.

(** Which it is at every demand exactly if the states share one spread. *)
Theorem C35_spread_partial : forall c, spreads c -> new_fragility (map curve c) = Returns (map curve c) ->
  ((forall x, 0 < x -> in_order (ln x) c) <-> one_spread c).
Proof. exact order_everywhere. Qed.
Print Assumptions C35_spread_partial.

(** The full statement for one spread, no demand included. *)
Theorem C35_partial : forall N, normal_ok N -> forall c x,
  spreads c -> new_fragility (map curve c) = Returns (map curve c) -> one_spread c -> 0 <= x ->
  exists ps hs, p_exceeded N (map curve c) (Fin x) = map Fin ps /\ p_highest N (map curve c) (Fin x) = map Fin hs /\
    length ps = length c /\ length hs = length c /\
    all_probabilities ps /\ all_probabilities hs /\ descending ps /\ total hs = hd 0 ps.
Proof. exact one_spread_states. Qed.
Print Assumptions C35_partial.

Example C35_case : let c := [(0, 1 / 2); (1, 1 / 2); (2, 1 / 2)] in
  spreads c /\ one_spread c /\ new_fragility (map curve c) = Returns (map curve c).
Proof.
  cbn zeta. split; [|split].
  - repeat (constructor; [cbn; lra|]). constructor.
  - intros a b [<-|[<-|[<-|[]]]] [<-|[<-|[<-|[]]]]; reflexivity.
  - cbn. repeat (rewrite (proj2 (ER_proofs.Rleb_false _ _)) by lra; cbn). reflexivity.
Qed.

(** ** C36 *)

(** Full statement: accepted exactly if there is a state and the medians
    increase.  False: a state without a median is accepted and ends the
    comparison. *)
Theorem C36_refuted : exists l, new_fragility l = Returns l /\ ~ increasing_medians l /\
  exists i j, (i < j < length l)%nat /\
    er_ltb (get_median_X (nth j l nodist)) (get_median_X (nth i l nodist)) = true.
Proof. exact refute_accepted. Qed.
Print Assumptions C36_refuted.

(** True if all medians are known; and what is not accepted is rejected. *)
Theorem C36_partial : forall l, known_medians l ->
  (new_fragility l = Returns l <-> l <> [] /\ increasing_medians l) /\
  (new_fragility l = Returns l \/ new_fragility l = Throws).
Proof. exact accepted. Qed.
Print Assumptions C36_partial.

Example C36_case : known_medians [LND MInf (Fin 1); LND (Fin 1) (Fin 1)].
Proof. repeat (constructor; [discriminate|]). constructor. Qed.

(** ** C37 *)

(** Mean and variance of the cost given a demand. *)
Theorem C37_loss : forall l mv ws n f, all_moments l mv -> length l = length ws ->
  Forall (fun w => 0 <= w) ws -> (0 <= n)%Z -> 0 <= f ->
  exists d, calculate_loss (SimpleLoss l) (map Fin ws) n (Fin f) = Returns d /\
    moments d (f * IZR n * mix_mean ws mv) ((f * IZR n) * (f * IZR n) * Rabs (mix_var ws mv)).
Proof. exact simple_loss. Qed.
Print Assumptions C37_loss.

(** The same for bi-level costs, whose unit costs depend on the count. *)
Theorem C37_levels : forall l ds mv ws n f, levels l n = Returns ds -> all_moments ds mv ->
  length l = length ws -> Forall (fun w => 0 <= w) ws -> (0 <= n)%Z -> 0 <= f ->
  exists d, calculate_loss (BiLevelLoss l) (map Fin ws) n (Fin f) = Returns d /\
    moments d (f * IZR n * mix_mean ws mv) ((f * IZR n) * (f * IZR n) * Rabs (mix_var ws mv)).
Proof. exact bilevel_loss. Qed.
Print Assumptions C37_levels.

(** The mean, from the fragility function and the demand. *)
Theorem C37_demand : forall N c l mv n f x, normal_ok N -> spreads c -> all_moments l mv ->
  length l = length c -> (0 <= n)%Z -> 0 <= f -> 0 <= x ->
  exists hs d, p_highest N (map curve c) (Fin x) = map Fin hs /\ all_probabilities hs /\
    loss_given N (map curve c) (Some (SimpleLoss l)) n (Fin f) (Fin x) = Returns d /\
    get_mean_X d = Fin (f * IZR n * mix_mean hs mv).
Proof. exact loss_given_demand. Qed.
Print Assumptions C37_demand.

(** Linear in the count; *)
Theorem C37_linear : forall l ws n1 n2 f, Forall cost l -> length l = length ws ->
  Forall (fun w => 0 <= w) ws -> (0 <= n1)%Z -> (0 <= n2)%Z -> 0 <= f ->
  exists d1 d2 d m1 m2, calculate_loss (SimpleLoss l) (map Fin ws) n1 (Fin f) = Returns d1 /\
    calculate_loss (SimpleLoss l) (map Fin ws) n2 (Fin f) = Returns d2 /\
    calculate_loss (SimpleLoss l) (map Fin ws) (n1 + n2)%Z (Fin f) = Returns d /\
    get_mean_X d1 = Fin m1 /\ get_mean_X d2 = Fin m2 /\ get_mean_X d = Fin (m1 + m2).
Proof. exact simple_linear. Qed.
Print Assumptions C37_linear.

(** monotone in each unit cost; *)
Theorem C37_monotone : forall l l' mv mv' ws n f, all_moments l mv -> all_moments l' mv' ->
  Forall2 (fun p q => fst p <= fst q) mv mv' -> length l = length ws ->
  Forall (fun w => 0 <= w) ws -> (0 <= n)%Z -> 0 <= f ->
  exists d d' m m', calculate_loss (SimpleLoss l) (map Fin ws) n (Fin f) = Returns d /\
    calculate_loss (SimpleLoss l') (map Fin ws) n (Fin f) = Returns d' /\
    get_mean_X d = Fin m /\ get_mean_X d' = Fin m' /\ m <= m'.
Proof. exact simple_monotone. Qed.
Print Assumptions C37_monotone.

(** never negative, and undefined for a negative count. *)
Theorem C37_negative : forall l mv ws n f, all_moments l mv -> length l = length ws ->
  Forall (fun w => 0 <= w) ws -> (n < 0)%Z -> 0 < f -> 0 < mix_mean ws mv ->
  exists d, calculate_loss (SimpleLoss l) (map Fin ws) n (Fin f) = Returns d /\ get_mean_X d = NaN.
Proof. exact negative_count. Qed.
Print Assumptions C37_negative.

Example C37_case : exists mv, all_moments [from_mean_sdln (Fin 7) (Fin 1); from_mean_sdln (Fin 0) (Fin 1)] mv /\
  Forall (fun w => 0 <= w) [1 / 2; 1 / 4] /\ mix_mean [1 / 2; 1 / 4] mv = 7 / 2 /\
  exists ds, levels [BiLevel 5 9 (Fin 7) (Fin 3) (Fin 1)] 7 = Returns ds.
Proof.
  exists [(7, (exp (1 * 1) - 1) * (7 * 7)); (0, (exp (1 * 1) - 1) * (0 * 0))]. split; [constructor; [apply (sdln_moments 7 1); lra|constructor; [apply (sdln_moments 0 1); lra|constructor]]|].
  split; [repeat (constructor; [lra|]); constructor|]. split; [unfold mix_mean; cbn; lra|].
  cbn. eexists. reflexivity.
Qed.

(** ** C38 *)

(** Full statement: for every parameter set and every count the unit cost is
    defined, the first cost up to the lower threshold, the second from the upper
    one, and between the two in between.  Undefined behaviour: *)
Theorem C38_refuted : exists b n,
  is_int (count_min b) = true /\ is_int (count_max b) = true /\ is_int n = true /\
  (count_min b < count_max b)%Z /\ (0 < n)%Z /\
  cost_at_min b = Fin 2 /\ cost_at_max b = Fin 1 /\ dispersion b = Fin 0 /\ level_dist b n = Undefined.
Proof. exact refute_level. Qed.
Print Assumptions C38_refuted.

(** and with thresholds not in order, the first cost at the upper threshold. *)
Theorem C38_threshold_refuted : exists b n d,
  (count_max b <= n)%Z /\ level_dist b n = Returns d /\
  cost_at_min b = Fin 2 /\ cost_at_max b = Fin 1 /\ get_mean_X d = Fin 2.
Proof. exact refute_threshold. Qed.
Print Assumptions C38_threshold_refuted.

(** It is undefined only if the thresholds are too far apart for an [int], and
    the count between them. *)
Theorem C38_defined_partial : forall b n,
  is_int (count_min b) = true -> is_int (count_max b) = true -> is_int n = true ->
  (level_dist b n = Undefined <-> (count_min b < n < count_max b)%Z /\ (count_max b - count_min b > int_max)%Z) /\
  level_dist b n <> Throws.
Proof. exact level_defined. Qed.
Print Assumptions C38_defined_partial.

(** Otherwise, with thresholds in order, it is as stated, *)
Theorem C38_partial : forall lo hi a b s n, (lo < hi)%Z -> (hi - lo <= int_max)%Z -> 0 <= a -> 0 <= b -> 0 <= s ->
  exists d m, level_dist (BiLevel lo hi (Fin a) (Fin b) (Fin s)) n = Returns d /\
    unit_cost lo hi a b n m /\ Rmin a b <= m <= Rmax a b /\
    get_mean_X d = Fin m /\ get_sigma_lnX d = Fin s.
Proof. exact level_cost. Qed.
Print Assumptions C38_partial.

(** and monotone. *)
Theorem C38_monotone_partial : forall lo hi a b n n' m m', (lo < hi)%Z -> (n <= n')%Z ->
  unit_cost lo hi a b n m -> unit_cost lo hi a b n' m' ->
  (a <= b -> m <= m') /\ (b <= a -> m' <= m).
Proof. exact unit_monotone. Qed.
Print Assumptions C38_monotone_partial.

Example C38_case : (5 < 9)%Z /\ (9 - 5 <= int_max)%Z /\ unit_cost 5 9 10 2 7 6 /\ unit_cost 5 9 10 2 5 10.
Proof.
  split; [lia|]. split; [unfold int_max; lia|]. split; [right; right; split; [lia|lra]|left; split; [lia|lra]].
Qed.

(** ** C39 *)

Theorem C39_loss : forall f p n factor k, n_states f = Returns k -> length p <> k ->
  calculate_loss f p n factor = Throws.
Proof. exact loss_rejected. Qed.
Print Assumptions C39_loss.

Theorem C39_rejected : forall N frag f n factor edp k, n_states f = Returns k -> length frag <> k ->
  loss_given N frag (Some f) n factor edp = Throws.
Proof. exact mismatch_rejected. Qed.
Print Assumptions C39_rejected.

(** Matching ones are not rejected. *)
Theorem C39_accepted : forall f p n factor, n_states f = Returns (length p) ->
  calculate_loss f p n factor <> Throws.
Proof. exact match_accepted. Qed.
Print Assumptions C39_accepted.

Example C39_case : n_states (SimpleLoss [nodist; nodist]) = Returns 2%nat /\
  length [LND (Fin 0) (Fin 1)] <> 2%nat /\
  n_states (BiLevelLoss [BiLevel 1 2 (Fin 1) (Fin 2) (Fin 3)]) = Returns (length [Fin 1]).
Proof. repeat split. discriminate. Qed.

(** ** C40 *)

(** Full statement: the three fates have probabilities that add up to one.
    False: demolition can have a negative one. *)
Theorem C40_refuted : forall N, normal_ok N ->
  exists c x y, 0 < x /\ defined_at c (Fin x) /\ p_demolition N c (Fin x) = Fin y /\ y < 0.
Proof. exact refute_fates. Qed.
Print Assumptions C40_refuted.

(** They always add up to one where the curves have probabilities, and repair
    and collapse have proper ones. *)
Theorem C40_sum_partial : forall N, normal_ok N -> forall c im, defined_at c im ->
  exists x y z, p_repair N c im = Fin x /\ p_demolition N c im = Fin y /\ p_collapse N c im = Fin z /\
    0 <= x <= 1 /\ y <= 1 /\ 0 <= z <= 1 /\ x + y + z = 1.
Proof. exact fate_sum. Qed.
Print Assumptions C40_sum_partial.

(** All are proper exactly if there is no demolition curve or it is not below
    the collapse curve. *)
Theorem C40_partial : forall N, normal_ok N -> forall c im, defined_at c im ->
  (fates (p_repair N c im) (p_demolition N c im) (p_collapse N c im) <->
   match demolition c with
   | Some d => exists p q, p_collapse N c im = Fin p /\ p_at_most N d im = Fin q /\ p <= q
   | None => True
   end).
Proof. exact fate_proper. Qed.
Print Assumptions C40_partial.

(** For two curves with spread that is so at every intensity exactly if the
    spreads are equal and the demolition median is not above that of
    collapse. *)
Theorem C40_curves_partial : forall N, normal_ok N -> forall mc sc md sd, 0 < sc -> 0 < sd ->
  let c := Curves (Some (LND (Fin mc) (Fin sc))) (Some (LND (Fin md) (Fin sd))) in
  (forall x, 0 <= x -> fates (p_repair N c (Fin x)) (p_demolition N c (Fin x)) (p_collapse N c (Fin x))) <->
  sc = sd /\ md <= mc.
Proof. exact fate_curves. Qed.
Print Assumptions C40_curves_partial.

(** Without curves repair is certain. *)
Theorem C40_none_partial : forall N im, p_repair N (Curves None None) im = Fin 1 /\
  p_demolition N (Curves None None) im = Fin 0 /\ p_collapse N (Curves None None) im = Fin 0.
Proof. exact no_curves. Qed.
Print Assumptions C40_none_partial.

(** The vector forms agree with the scalar ones, in whatever order their
    iterations are run. *)
Theorem C40_vector_partial : forall N c ims o, Permutation o (seq 0 (length ims)) ->
  p_repair_all N c ims o = map (p_repair N c) ims /\
  p_demolition_all N c ims o = map (p_demolition N c) ims /\
  p_collapse_all N c ims o = map (p_collapse N c) ims.
Proof. exact vector_forms. Qed.
Print Assumptions C40_vector_partial.

Example C40_case : defined_at (Curves (Some (LND (Fin 1) (Fin 1))) (Some (LND (Fin 0) (Fin 1)))) (Fin 2) /\
  Permutation [1%nat; 0%nat] (seq 0 (length [Fin 1; Fin 2])).
Proof. split; [split; apply proper_comparable; lra|apply perm_swap]. Qed.
