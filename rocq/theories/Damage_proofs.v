(** * Proofs about fragility functions (C35, C36) *)
From Coq Require Import Reals List Lra Lia ZArith Bool.
From Verif Require Import Num ER ERmath ER_proofs Lognormal Lognormal_spec Lognormal_proofs Damage Damage_spec.
Import ListNotations.
Local Open Scope R_scope.

(** ** C36 *)

Lemma leb_ltb : forall a b, a <> NaN -> b <> NaN -> er_leb a b = negb (er_ltb b a).
Proof.
  intros [| | |a] [| | |b] Ha Hb; try contradiction; cbn; auto.
  destruct (Rle_dec a b) as [H|H].
  - rewrite (proj2 (Rleb_true a b)), (proj2 (Rltb_false b a)) by lra. reflexivity.
  - rewrite (proj2 (Rleb_false a b)), (proj2 (Rltb_true b a)) by lra. reflexivity.
Qed.

Lemma ltb_trans : forall a b c, er_ltb a b = true -> er_ltb b c = true -> er_ltb a c = true.
Proof.
  intros [| | |a] [| | |b] [| | |c]; cbn; intros H1 H2; try discriminate; auto.
  apply Rltb_true in H1. apply Rltb_true in H2. apply Rltb_true. lra.
Qed.

Lemma exp_ltb : forall a b, a <> NaN -> b <> NaN -> er_ltb (er_exp a) (er_exp b) = er_ltb a b.
Proof.
  intros [| | |a] [| | |b] Ha Hb; try contradiction; cbn; auto.
  - apply Rltb_false. lra.
  - apply Rltb_true. apply exp_pos.
  - apply Rltb_false. left. apply exp_pos.
  - destruct (Rlt_dec a b) as [H|H].
    + rewrite (proj2 (Rltb_true a b) H). apply Rltb_true. apply exp_increasing. auto.
    + rewrite (proj2 (Rltb_false a b)) by lra. apply Rltb_false. apply Rnot_lt_le in H. destruct H as [H|H].
      * left. apply exp_increasing. auto.
      * subst. lra.
Qed.

Lemma median_known : forall d, get_median_X d <> NaN <-> mu_lnX d <> NaN.
Proof. intros [[| | |m] s]; cbn; split; intros H Q; try discriminate; auto. Qed.

(** The onsets after [m] increase from it. *)
Lemma onsets_chain : forall l m, known_medians l -> m <> NaN ->
  (onsets_ok m l = true <->
   (forall d, In d l -> er_ltb m (mu_lnX d) = true) /\ increasing_medians l).
Proof.
  induction l as [|d l IH]; intros m K Hm.
  - cbn. split; auto. intros _. split; [intros d []|]. intros i j H. cbn in H. lia.
  - inversion K as [|? ? Kd Kl]; subst. apply median_known in Kd.
    cbn [onsets_ok]. unfold get_mu_lnX. rewrite leb_ltb by auto.
    destruct (er_ltb m (mu_lnX d)) eqn:E; cbn [negb].
    + rewrite (IH _ Kl Kd). split.
      * intros [A B]. split.
        -- intros e [->|He]; auto. eapply ltb_trans; eauto.
        -- intros [|i] [|j] H; cbn [length] in H; try lia; cbn [nth].
           ++ unfold get_median_X. rewrite exp_ltb; [apply A; apply nth_In; lia|auto|].
              apply median_known. unfold known_medians in Kl. rewrite Forall_forall in Kl. apply Kl. apply nth_In. lia.
           ++ apply B. lia.
      * intros [A B]. split.
        -- intros e He. destruct (In_nth _ _ nodist He) as (n & Hn & <-).
           specialize (B O (S n)). cbn [length nth] in B. unfold get_median_X in B. rewrite exp_ltb in B; [apply B; lia|auto|].
           apply median_known. unfold known_medians in Kl. rewrite Forall_forall in Kl. auto.
        -- intros i j H. apply (B (S i) (S j)). cbn [length]. lia.
    + split; [discriminate|]. intros [A _]. rewrite A in E by (left; reflexivity). discriminate.
Qed.

Lemma leb_nan : forall a, er_leb a NaN = false.
Proof. intros [| | |a]; reflexivity. Qed.

Theorem accepted : forall l, known_medians l ->
  (new_fragility l = Returns l <-> l <> [] /\ increasing_medians l) /\
  (new_fragility l = Returns l \/ new_fragility l = Throws).
Proof.
  intros l K. destruct l as [|d l]; cbn [new_fragility].
  - split; auto. split; [discriminate|]. intros [H _]. contradiction.
  - cbn [onsets_ok]. rewrite leb_nan. pose proof K as K'. inversion K as [|? ? Kd Kl]; subst.
    apply median_known in Kd. pose proof (onsets_chain l (get_mu_lnX d) Kl Kd) as Oc.
    split; [|destruct (onsets_ok (get_mu_lnX d) l); auto].
    destruct (onsets_ok (get_mu_lnX d) l) eqn:E.
    + split; auto. intros _. split; [discriminate|]. destruct Oc as [Oc _]. destruct (Oc eq_refl) as [A B]. intros [|i] [|j] H; cbn [length] in H; try lia; cbn [nth].
      * unfold get_median_X. rewrite exp_ltb; [apply A; apply nth_In; lia|auto|].
        apply median_known. unfold known_medians in Kl. rewrite Forall_forall in Kl. apply Kl. apply nth_In. lia.
      * apply B. lia.
    + split; [discriminate|]. intros [_ B]. exfalso. destruct Oc as [_ Oc]. assert (Q : false = true); [|discriminate].
      apply Oc. split.
      * intros e He. destruct (In_nth _ _ nodist He) as (n & Hn & <-).
        specialize (B O (S n)). cbn [length nth] in B. unfold get_median_X in B. rewrite exp_ltb in B; [apply B; lia|auto|].
        apply median_known. unfold known_medians in Kl. rewrite Forall_forall in Kl. auto.
      * intros i j H. apply (B (S i) (S j)). cbn [length]. lia.
Qed.

Lemma refute_accepted : exists l, new_fragility l = Returns l /\ ~ increasing_medians l /\
  exists i j, (i < j < length l)%nat /\
    er_ltb (get_median_X (nth j l nodist)) (get_median_X (nth i l nodist)) = true.
Proof.
  exists [LND (Fin 1) (Fin 1); make (Fin 1) MEDIAN_X (Fin 1) SD_X; LND (Fin 0) (Fin 1)].
  assert (L : exp 0 < exp 1) by (apply exp_increasing; lra).
  split; [|split].
  - reflexivity.
  - intros H. specialize (H 0%nat 2%nat). cbn in H. specialize (H ltac:(lia)). apply Rltb_true in H. lra.
  - exists 0%nat, 2%nat. split; [cbn; lia|]. cbn. apply Rltb_true. exact L.
Qed.

(** ** C35 *)

(** What [differences] computes. *)
Fixpoint falls (l : list R) : list R :=
  match l with a :: (b :: _) as r => Rmax 0 (a - b) :: falls r | _ => l end.

Lemma differences_falls : forall l, differences (map Fin l) = map Fin (falls l).
Proof.
  induction l as [|a [|b l] IH]; auto. cbn [map differences falls] in *. rewrite IH. f_equal.
  rewrite er_sub_fin. cbn [er_ltb]. destruct (Rlt_dec (a - b) 0) as [H|H].
  - rewrite (proj2 (Rltb_true _ _) H). rewrite Rmax_left by lra. reflexivity.
  - rewrite (proj2 (Rltb_false (a - b) 0)) by lra. rewrite Rmax_right by lra. reflexivity.
Qed.

Lemma falls_length : forall l, length (falls l) = length l.
Proof. induction l as [|a [|b l] IH]; auto. cbn [falls length] in *. rewrite IH. reflexivity. Qed.

Lemma falls_prob : forall l, all_probabilities l -> all_probabilities (falls l).
Proof.
  induction l as [|a [|b l] IH]; intros H; auto. inversion H as [|? ? Ha H']; subst. inversion H' as [|? ? Hb _]; subst.
  change (falls (a :: b :: l)) with (Rmax 0 (a - b) :: falls (b :: l)). constructor; [|apply IH; auto].
  unfold Rmax. destruct (Rle_dec 0 (a - b)); lra.
Qed.

(** Neighbours in order. *)
Fixpoint stepwise (l : list R) : Prop :=
  match l with a :: (b :: _) as r => b <= a /\ stepwise r | _ => True end.

Lemma stepwise_first : forall l a i, stepwise (a :: l) -> (i < length l)%nat -> nth i l 0 <= a.
Proof.
  induction l as [|b l IH]; intros a i H Hi; cbn in Hi; [lia|]. destruct H as [H1 H2]. destruct i as [|i]; cbn [nth]; auto.
  specialize (IH b i H2 ltac:(lia)). lra.
Qed.

Lemma stepwise_descending : forall l, stepwise l <-> descending l.
Proof.
  induction l as [|a l IH].
  - split; cbn; auto. intros _ i j H. cbn in H. lia.
  - split.
    + intros H i j Hij. destruct i as [|i], j as [|j]; cbn [length nth] in *; try lia; try lra.
      * apply stepwise_first; auto. lia.
      * apply IH; [|lia]. destruct l as [|b l]; cbn; auto. destruct H as [_ H]. exact H.
    + intros D. destruct l as [|b l]; cbn; auto. split.
      * apply (D 0%nat 1%nat). cbn. lia.
      * change (stepwise (b :: l)). apply IH. intros i j H. apply (D (S i) (S j)). cbn [length] in *. lia.
Qed.

Lemma falls_total : forall l, hd 0 l <= total (falls l) /\ (total (falls l) = hd 0 l <-> stepwise l).
Proof.
  induction l as [|a [|b l] IH].
  - cbn. split; [lra|]. split; auto.
  - cbn. split; [lra|]. split; auto. intros; lra.
  - change (falls (a :: b :: l)) with (Rmax 0 (a - b) :: falls (b :: l)).
    change (total (Rmax 0 (a - b) :: falls (b :: l))) with (Rmax 0 (a - b) + total (falls (b :: l))).
    destruct IH as [I1 I2]. cbn [hd] in *. change (stepwise (a :: b :: l)) with (b <= a /\ stepwise (b :: l)).
    unfold Rmax. destruct (Rle_dec 0 (a - b)) as [H|H]; (split; [lra|]).
    + split.
      * intros E. split; [lra|]. apply I2. lra.
      * intros [_ S1]. apply I2 in S1. lra.
    + split; [intros; lra|]. intros [Q _]. lra.
Qed.

Section States.

Variable N : normal.
Hypothesis OK : normal_ok N.

Lemma curve_at : forall c x, 0 < snd c -> 0 < x ->
  p_at_most N (curve c) (Fin x) = Fin (cdf N ((ln x - fst c) / snd c)).
Proof. intros [m s] x Hs Hx. apply at_most_mid; auto. Qed.

Lemma curves_at : forall c x, spreads c -> 0 < x ->
  p_exceeded N (map curve c) (Fin x) = map Fin (map (fun c => cdf N ((ln x - fst c) / snd c)) c).
Proof.
  induction c as [|a c IH]; intros x H Hx; auto. inversion H; subst. cbn [map p_exceeded] in *.
  unfold p_exceeded in *. cbn [map]. rewrite IH by auto. f_equal. apply curve_at; auto.
Qed.

Lemma cdf_le : forall a b, cdf N a <= cdf N b <-> a <= b.
Proof.
  intros a b. split; intros H; [|apply cdf_mono; auto]. destruct (Rle_dec a b) as [Q|Q]; auto.
  apply Rnot_le_lt in Q. pose proof (cdf_increasing N OK _ _ Q). lra.
Qed.

Lemma nth_cdf : forall c l i, (i < length c)%nat ->
  nth i (map (fun c => cdf N ((l - fst c) / snd c)) c) 0 =
  cdf N ((l - fst (nth i c (0, 1))) / snd (nth i c (0, 1))).
Proof.
  intros c l i H. rewrite (nth_indep _ 0 (cdf N ((l - fst (0, 1)) / snd (0, 1)))) by (rewrite map_length; auto).
  rewrite (map_nth (fun c => cdf N ((l - fst c) / snd c)) c (0, 1) i). reflexivity.
Qed.

Theorem states : forall c x, spreads c -> 0 < x ->
  exists ps hs, p_exceeded N (map curve c) (Fin x) = map Fin ps /\ p_highest N (map curve c) (Fin x) = map Fin hs /\
    length ps = length c /\ length hs = length c /\
    all_probabilities ps /\ all_probabilities hs /\ hd 0 ps <= total hs /\
    (descending ps <-> in_order (ln x) c) /\ (total hs = hd 0 ps <-> in_order (ln x) c).
Proof.
  intros c x H Hx. set (ps := map (fun c => cdf N ((ln x - fst c) / snd c)) c).
  assert (P : all_probabilities ps).
  { unfold ps, all_probabilities. rewrite Forall_map. apply Forall_forall. intros a _. pose proof (cdf_range N OK ((ln x - fst a) / snd a)). lra. }
  assert (D : descending ps <-> in_order (ln x) c).
  { unfold descending, in_order, ps. rewrite map_length. split; intros Q i j Hij.
    - specialize (Q i j Hij). rewrite !nth_cdf in Q by lia. apply (proj1 (cdf_le _ _)) in Q. exact Q.
    - rewrite !nth_cdf by lia. apply (proj2 (cdf_le _ _)). apply Q. auto. }
  exists ps, (falls ps). pose proof (curves_at c x H Hx) as E. fold ps in E.
  assert (E2 : p_highest N (map curve c) (Fin x) = map Fin (falls ps)).
  { unfold p_highest. rewrite E. apply differences_falls. }
  destruct (falls_total ps) as [F1 F2].
  refine (conj E (conj E2 (conj _ (conj _ (conj P (conj _ (conj F1 (conj D _)))))))).
  - unfold ps. apply map_length.
  - rewrite falls_length. unfold ps. apply map_length.
  - apply falls_prob. auto.
  - rewrite F2, stepwise_descending. exact D.
Qed.

Lemma curve_zero : forall c, 0 < snd c -> p_at_most N (curve c) (Fin 0) = Fin 0.
Proof. intros [m s] H. apply (quantiles N OK m s H). Qed.

(** At zero demand there is no damage. *)
Theorem no_demand : forall c, spreads c ->
  p_exceeded N (map curve c) (Fin 0) = map Fin (map (fun _ => 0) c) /\
  p_highest N (map curve c) (Fin 0) = map Fin (map (fun _ => 0) c).
Proof.
  intros c H.
  assert (E : p_exceeded N (map curve c) (Fin 0) = map Fin (map (fun _ => 0) c)).
  { unfold p_exceeded. rewrite !map_map. induction H as [|a c Ha _ IH]; auto. cbn [map]. rewrite IH. rewrite curve_zero by auto. reflexivity. }
  split; auto. unfold p_highest. rewrite E, differences_falls. f_equal. clear. induction c as [|a [|b c] IH]; auto.
  cbn [map falls] in *. rewrite IH. f_equal. apply Rmax_left. lra.
Qed.

(** Accepted curves: log means increase. *)
Lemma accepted_means : forall c i j, new_fragility (map curve c) = Returns (map curve c) -> (i < j < length c)%nat ->
  fst (nth i c (0, 1)) < fst (nth j c (0, 1)).
Proof.
  intros c i j A H.
  assert (K : known_medians (map curve c)).
  { unfold known_medians. rewrite Forall_map. apply Forall_forall. intros a _ Q. discriminate. }
  destruct (accepted _ K) as [[B _] _]. destruct (B A) as [_ M]. specialize (M i j). rewrite map_length in M. specialize (M H).
  rewrite (nth_indep _ nodist (curve (0, 1))) in M by (rewrite map_length; lia).
  rewrite (nth_indep (map curve c) nodist (curve (0, 1)) (n := j)) in M by (rewrite map_length; lia).
  rewrite !map_nth in M. unfold get_median_X in M. rewrite exp_ltb in M by discriminate. cbn in M. apply Rltb_true in M. exact M.
Qed.

Lemma spread_nth : forall c i, spreads c -> 0 < snd (nth i c (0, 1)).
Proof.
  intros c i H. destruct (Nat.lt_ge_cases i (length c)) as [L|L].
  - unfold spreads in H. rewrite Forall_forall in H. apply H. apply nth_In. auto.
  - rewrite nth_overflow by auto. cbn. lra.
Qed.

(** With unequal spreads two curves cross. *)
Lemma cross_at : forall m1 s1 m2 s2, 0 < s1 -> 0 < s2 -> s1 <> s2 ->
  exists l, (l - m1) / s1 < (l - m2) / s2.
Proof.
  intros m1 s1 m2 s2 H1 H2 Hn.
  assert (Q : forall l, (l - m1) / s1 < (l - m2) / s2 <-> (l - m1) * s2 < (l - m2) * s1).
  { intros l. replace ((l - m1) / s1) with ((l - m1) * s2 / (s1 * s2)) by (field; lra).
    replace ((l - m2) / s2) with ((l - m2) * s1 / (s1 * s2)) by (field; lra).
    assert (P : 0 < s1 * s2) by (apply Rmult_lt_0_compat; auto).
    split; intros H.
    - apply Rmult_lt_reg_r with (/ (s1 * s2)); auto. apply Rinv_0_lt_compat. auto.
    - apply Rmult_lt_compat_r; auto. apply Rinv_0_lt_compat. auto. }
  exists ((m1 * s2 - m2 * s1 - 1) / (s2 - s1)). apply Q.
  set (l := (m1 * s2 - m2 * s1 - 1) / (s2 - s1)).
  assert (E : l * (s2 - s1) = m1 * s2 - m2 * s1 - 1) by (unfold l; field; lra). lra.
Qed.

Lemma order_le : forall l m1 m2 s, 0 < s -> m1 <= m2 -> (l - m2) / s <= (l - m1) / s.
Proof.
  intros l m1 m2 s H L. unfold Rdiv. apply Rmult_le_compat_r; [|lra]. left. apply Rinv_0_lt_compat. auto.
Qed.

(** The states of an accepted function are in order at every demand exactly if
    the spreads are all the same. *)
Theorem order_everywhere : forall c, spreads c -> new_fragility (map curve c) = Returns (map curve c) ->
  ((forall x, 0 < x -> in_order (ln x) c) <-> one_spread c).
Proof.
  intros c H A. split.
  - intros O a b Ha Hb. destruct (Req_dec (snd a) (snd b)) as [E|E]; auto. exfalso.
    destruct (In_nth _ _ (0, 1) Ha) as (i & Hi & Ei), (In_nth _ _ (0, 1) Hb) as (j & Hj & Ej).
    assert (W : forall i j, (i < j < length c)%nat -> snd (nth i c (0, 1)) = snd (nth j c (0, 1))).
    { intros u v Huv. destruct (Req_dec (snd (nth u c (0, 1))) (snd (nth v c (0, 1)))) as [F|F]; auto. exfalso.
      destruct (cross_at (fst (nth u c (0, 1))) _ (fst (nth v c (0, 1))) _ (spread_nth c u H) (spread_nth c v H) F) as (l & Hl).
      specialize (O (exp l) (exp_pos l)). rewrite ln_exp in O. specialize (O u v ltac:(lia)). lra. }
    apply E. rewrite <- Ei, <- Ej. destruct (Nat.lt_trichotomy i j) as [L|[L|L]].
    + apply W. lia.
    + subst j. reflexivity.
    + symmetry. apply W. lia.
  - intros O x Hx i j Hij. rewrite (O (nth j c (0, 1)) (nth i c (0, 1))) by (apply nth_In; lia).
    apply order_le; [apply spread_nth; auto|]. destruct (Nat.eq_dec i j) as [->|Hn]; [lra|].
    left. apply accepted_means; auto. lia.
Qed.

(** The full statement for a function with one spread. *)
Theorem one_spread_states : forall c x, spreads c -> new_fragility (map curve c) = Returns (map curve c) ->
  one_spread c -> 0 <= x ->
  exists ps hs, p_exceeded N (map curve c) (Fin x) = map Fin ps /\ p_highest N (map curve c) (Fin x) = map Fin hs /\
    length ps = length c /\ length hs = length c /\
    all_probabilities ps /\ all_probabilities hs /\ descending ps /\ total hs = hd 0 ps.
Proof.
  intros c x H A O [Hx|Hx].
  - destruct (states c x H Hx) as (ps & hs & E1 & E2 & L1 & L2 & P1 & P2 & _ & D & T).
    assert (I : in_order (ln x) c) by (apply order_everywhere; auto).
    exists ps, hs. apply D in I as I1. apply T in I as I2. auto 10.
  - subst x. destruct (no_demand c H) as [E1 E2]. exists (map (fun _ => 0) c), (map (fun _ => 0) c).
    assert (Z : all_probabilities (map (fun _ => 0) c)).
    { unfold all_probabilities. rewrite Forall_map. apply Forall_forall. intros; lra. }
    assert (Z0 : forall i, nth i (map (fun _ => 0) c) 0 = 0).
    { intros i. clear. revert i. induction c as [|a c IH]; intros [|i]; cbn; auto. }
    rewrite !map_length. refine (conj E1 (conj E2 (conj eq_refl (conj eq_refl (conj Z (conj Z (conj _ _))))))).
    + intros i j _. rewrite !Z0. lra.
    + clear. induction c as [|a c IH]; auto. change (0 + total (map (fun _ => 0) c) = 0). rewrite IH.
      destruct c; cbn; lra.
Qed.

Lemma cdf_half : cdf N 0 = 1 / 2.
Proof. pose proof (cdf_symmetric N OK 0) as H. rewrite Ropp_0 in H. lra. Qed.

Lemma quantile_neg : forall p, 0 < p < 1 / 2 -> quantile N p < 0.
Proof.
  intros p H. destruct (Rlt_dec (quantile N p) 0) as [L|L]; auto. exfalso. apply Rnot_lt_le in L.
  apply (cdf_mono N OK) in L. rewrite cdf_half, (cdf_quantile N OK) in L by lra. lra.
Qed.

(** An accepted function whose later state is likelier than its earlier one. *)
Theorem refute_order : exists f x p q,
  new_fragility f = Returns f /\ 0 < x /\
  p_exceeded N f (Fin x) = [Fin p; Fin q] /\ p_highest N f (Fin x) = [Fin 0; Fin q] /\ p < q.
Proof.
  set (p := cdf N (-1)). set (q := cdf N (- (1 / 2))).
  assert (L : p < q) by (apply (cdf_increasing N OK); lra).
  assert (E : p_exceeded N (map curve [(0, 1); (1, 4)]) (Fin (exp (-1))) = map Fin [p; q]).
  { rewrite curves_at; [|constructor; [cbn; lra|constructor; [cbn; lra|constructor]]|apply exp_pos].
    cbn [map fst snd]. rewrite ln_exp. unfold p, q. do 3 f_equal; [f_equal; lra|]. do 2 f_equal. lra. }
  exists (map curve [(0, 1); (1, 4)]), (exp (-1)), p, q.
  refine (conj _ (conj (exp_pos _) (conj E (conj _ L)))).
  - cbn. rewrite (proj2 (Rleb_false 1 0)) by lra. reflexivity.
  - unfold p_highest. rewrite E, differences_falls. cbn. rewrite Rmax_left by lra. reflexivity.
Qed.

(** An accepted function whose states together are likelier than certain. *)
Theorem refute_sum : exists f x hs,
  new_fragility f = Returns f /\ 0 < x /\ p_highest N f (Fin x) = map Fin hs /\ 1 < total hs.
Proof.
  assert (Qa : quantile N (1 / 10) < 0) by (apply quantile_neg; lra).
  assert (Qb : quantile N (2 / 5) < 0) by (apply quantile_neg; lra).
  set (a := - quantile N (1 / 10)). set (b := - quantile N (2 / 5)).
  assert (Ha : 0 < a) by (unfold a; lra). assert (Hb : 0 < b) by (unfold b; lra).
  set (c := [(1, 1 / a); (2, 2 / b); (3, 3 / a); (4, 4 / b); (5, 5 / a); (6, 6 / b); (7, 7 / a); (8, 8 / b)]).
  assert (I : forall k, 0 < k -> 0 < k / a /\ 0 < k / b).
  { intros k Hk. split; apply Rdiv_lt_0_compat; auto. }
  assert (Sp : spreads c).
  { unfold c, spreads. repeat (constructor; [cbn [snd]; apply I; lra|]). constructor. }
  assert (Za : forall k, 0 < k -> cdf N ((ln 1 - k) / (k / a)) = 1 / 10).
  { intros k Hk. rewrite ln_1. replace ((0 - k) / (k / a)) with (quantile N (1 / 10)).
    - apply (cdf_quantile N OK). lra.
    - unfold a. field. lra. }
  assert (Zb : forall k, 0 < k -> cdf N ((ln 1 - k) / (k / b)) = 2 / 5).
  { intros k Hk. rewrite ln_1. replace ((0 - k) / (k / b)) with (quantile N (2 / 5)).
    - apply (cdf_quantile N OK). lra.
    - unfold b. field. lra. }
  exists (map curve c), 1, (falls [1 / 10; 2 / 5; 1 / 10; 2 / 5; 1 / 10; 2 / 5; 1 / 10; 2 / 5]).
  refine (conj _ (conj Rlt_0_1 (conj _ _))).
  - unfold c. cbn. repeat (rewrite (proj2 (Rleb_false _ _)) by lra; cbn). reflexivity.
  - unfold p_highest. rewrite curves_at by (auto; lra). rewrite differences_falls. do 2 f_equal.
    unfold c. cbn [map fst snd]. rewrite !Za, !Zb by lra. reflexivity.
  - cbn [falls]. rewrite (Rmax_left 0 (1 / 10 - 2 / 5)), (Rmax_right 0 (2 / 5 - 1 / 10)) by lra.
    unfold total. cbn. lra.
Qed.

End States.
