(** * Proofs about losses and fates (C37-C40) *)
From Coq Require Import Reals List Lra Lia ZArith Bool Permutation.
From Verif Require Import Num ER ERmath ER_proofs Lognormal Lognormal_spec Lognormal_proofs Lognormal_proofs2.
From Verif Require Import Damage Damage_spec Damage_proofs.
Import ListNotations.
Local Open Scope R_scope.

(** ** C37 *)

Lemma scale_moments : forall d a v f, moments d a v -> 0 <= f -> moments (adjust d (Fin f)) (f * a) (f * f * v).
Proof.
  intros d a v f M [Hf|Hf].
  - destruct M as [(m & s & [-> H] & -> & ->)|[(s & -> & H) [-> ->]]].
    + rewrite adjust_proper by auto. left. exists (ln f + m), s. split; [split; auto|].
      split.
      * replace (ln f + m + s * s / 2) with (ln f + (m + s * s / 2)) by lra. rewrite (exp_plus (ln f)), exp_ln by auto. reflexivity.
      * replace (2 * (ln f + m) + s * s) with (ln f + (ln f + (2 * m + s * s))) by lra.
        rewrite (exp_plus (ln f)), (exp_plus (ln f)), exp_ln by auto. ring.
    + rewrite adjust_zero. right. split; [exists s; auto|]. split; lra.
  - subst f. replace (0 * a) with 0 by lra. replace (0 * 0 * v) with 0 by lra. eapply adjust_by_zero; eauto.
Qed.

Theorem simple_loss : forall l mv ws n f, all_moments l mv -> length l = length ws ->
  Forall (fun w => 0 <= w) ws -> (0 <= n)%Z -> 0 <= f ->
  exists d, calculate_loss (SimpleLoss l) (map Fin ws) n (Fin f) = Returns d /\
    moments d (f * IZR n * mix_mean ws mv) ((f * IZR n) * (f * IZR n) * Rabs (mix_var ws mv)).
Proof.
  intros l mv ws n f M E W Hn Hf. destruct (mixture_any _ _ _ M E W) as (d & Ed & Md).
  unfold calculate_loss, unadjusted_loss, weighted_loss. rewrite Ed. cbn [bind].
  eexists. split; [reflexivity|]. apply IZR_le in Hn.
  apply (scale_moments _ _ _ (IZR n)) in Md; auto. apply (scale_moments _ _ _ f) in Md; auto.
  unfold scale_count.
  replace (f * IZR n * mix_mean ws mv) with (f * (IZR n * mix_mean ws mv)) by ring.
  replace (f * IZR n * (f * IZR n) * Rabs (mix_var ws mv)) with (f * f * (IZR n * IZR n * Rabs (mix_var ws mv))) by ring.
  exact Md.
Qed.

(** The distribution made from mean and log standard deviation. *)
Lemma sdln_moments : forall m s, 0 <= m -> 0 <= s ->
  moments (from_mean_sdln (Fin m) (Fin s)) m ((exp (s * s) - 1) * (m * m)).
Proof.
  intros m s [Hm|Hm] Hs; unfold from_mean_sdln.
  - rewrite mu_of_mean by auto. left. exists (ln m - s * s / 2), s. split; [split; auto|]. split.
    + replace (ln m - s * s / 2 + s * s / 2) with (ln m) by lra. rewrite exp_ln; auto.
    + replace (2 * (ln m - s * s / 2) + s * s) with (ln m + ln m) by lra. rewrite exp_plus, exp_ln by auto. ring.
  - subst m. rewrite mu_of_zero. right. split; [exists s; auto|]. split; lra.
Qed.

Theorem bilevel_loss : forall l ds mv ws n f, levels l n = Returns ds -> all_moments ds mv ->
  length l = length ws -> Forall (fun w => 0 <= w) ws -> (0 <= n)%Z -> 0 <= f ->
  exists d, calculate_loss (BiLevelLoss l) (map Fin ws) n (Fin f) = Returns d /\
    moments d (f * IZR n * mix_mean ws mv) ((f * IZR n) * (f * IZR n) * Rabs (mix_var ws mv)).
Proof.
  intros l ds mv ws n f L M E W Hn Hf.
  assert (E' : length ds = length ws).
  { rewrite <- E. clear - L. revert ds L. induction l as [|b l IH]; intros ds L; cbn in L; [inversion L; auto|].
    destruct (level_dist b n); try discriminate. cbn in L. destruct (levels l n) eqn:Q; try discriminate.
    cbn in L. inversion L. cbn. f_equal. auto. }
  destruct (simple_loss ds mv ws n f M E' W Hn Hf) as (d & Ed & Md).
  exists d. split; auto. unfold calculate_loss, unadjusted_loss. rewrite map_length, E, Nat.eqb_refl, L. exact Ed.
Qed.

(** Negative counts. *)
Theorem negative_count : forall l mv ws n f, all_moments l mv -> length l = length ws ->
  Forall (fun w => 0 <= w) ws -> (n < 0)%Z -> 0 < f -> 0 < mix_mean ws mv ->
  exists d, calculate_loss (SimpleLoss l) (map Fin ws) n (Fin f) = Returns d /\ get_mean_X d = NaN.
Proof.
  intros l mv ws n f M E W Hn Hf Hm. destruct (mixture_any _ _ _ M E W) as (d & Ed & Md).
  unfold calculate_loss, unadjusted_loss, weighted_loss. rewrite Ed. cbn [bind].
  eexists. split; [reflexivity|]. apply IZR_lt in Hn. destruct (moments_mean _ _ _ Md) as [Em _].
  assert (Q : scale_count d (Fin (IZR n)) = LND NaN (get_sigma_lnX d)).
  { unfold scale_count, adjust, from_mean_sdln, mu_from_mean. rewrite Em. cbn [er_mul]. rewrite er_log_neg; [reflexivity|].
    apply Ropp_lt_cancel. rewrite Ropp_0, <- Ropp_mult_distr_l_reverse. apply Rmult_lt_0_compat; lra. }
  rewrite Q. reflexivity.
Qed.

Lemma forall2_length : forall A B (P : A -> B -> Prop) l m, Forall2 P l m -> length l = length m.
Proof. induction 1; cbn; auto. Qed.

(** Costlier states cost more. *)
Lemma mix_mono : forall ws mv mv', Forall (fun w => 0 <= w) ws ->
  Forall2 (fun p q => fst p <= fst q) mv mv' -> mix_mean ws mv <= mix_mean ws mv'.
Proof.
  intros ws mv mv' W H. revert ws W. induction H as [|[a v] [a' v'] mv mv' H _ IH]; intros [|w ws] W;
    unfold mix_mean in *; cbn; try lra.
  inversion W; subst. cbn in H. specialize (IH ws ltac:(auto)). 
  assert (w * a <= w * a') by (apply Rmult_le_compat_l; auto). lra.
Qed.

(** The mean in words: linear in the count, larger for costlier states, not
    negative. *)
Theorem simple_mean : forall l mv ws n f, all_moments l mv -> length l = length ws ->
  Forall (fun w => 0 <= w) ws -> (0 <= n)%Z -> 0 <= f ->
  exists d, calculate_loss (SimpleLoss l) (map Fin ws) n (Fin f) = Returns d /\
    get_mean_X d = Fin (f * IZR n * mix_mean ws mv) /\ 0 <= f * IZR n * mix_mean ws mv.
Proof.
  intros l mv ws n f M E W Hn Hf. destruct (simple_loss l mv ws n f M E W Hn Hf) as (d & Ed & Md).
  exists d. split; auto. apply (moments_mean _ _ _ Md).
Qed.

Theorem simple_linear : forall l ws n1 n2 f, Forall cost l -> length l = length ws ->
  Forall (fun w => 0 <= w) ws -> (0 <= n1)%Z -> (0 <= n2)%Z -> 0 <= f ->
  exists d1 d2 d m1 m2, calculate_loss (SimpleLoss l) (map Fin ws) n1 (Fin f) = Returns d1 /\
    calculate_loss (SimpleLoss l) (map Fin ws) n2 (Fin f) = Returns d2 /\
    calculate_loss (SimpleLoss l) (map Fin ws) (n1 + n2)%Z (Fin f) = Returns d /\
    get_mean_X d1 = Fin m1 /\ get_mean_X d2 = Fin m2 /\ get_mean_X d = Fin (m1 + m2).
Proof.
  intros l ws n1 n2 f C E W H1 H2 Hf. destruct (all_costs _ C) as (mv & M).
  destruct (simple_mean l mv ws n1 f M E W H1 Hf) as (d1 & E1 & M1 & _).
  destruct (simple_mean l mv ws n2 f M E W H2 Hf) as (d2 & E2 & M2 & _).
  destruct (simple_mean l mv ws (n1 + n2) f M E W ltac:(lia) Hf) as (d & E3 & M3 & _).
  exists d1, d2, d, (f * IZR n1 * mix_mean ws mv), (f * IZR n2 * mix_mean ws mv).
  do 5 (split; auto). rewrite M3, plus_IZR. f_equal. ring.
Qed.

Theorem simple_monotone : forall l l' mv mv' ws n f, all_moments l mv -> all_moments l' mv' ->
  Forall2 (fun p q => fst p <= fst q) mv mv' -> length l = length ws ->
  Forall (fun w => 0 <= w) ws -> (0 <= n)%Z -> 0 <= f ->
  exists d d' m m', calculate_loss (SimpleLoss l) (map Fin ws) n (Fin f) = Returns d /\
    calculate_loss (SimpleLoss l') (map Fin ws) n (Fin f) = Returns d' /\
    get_mean_X d = Fin m /\ get_mean_X d' = Fin m' /\ m <= m'.
Proof.
  intros l l' mv mv' ws n f M M' Le E W Hn Hf.
  assert (E' : length l' = length ws).
  { unfold all_moments in *. apply forall2_length in M, M'. apply forall2_length in Le. congruence. }
  destruct (simple_mean l mv ws n f M E W Hn Hf) as (d & E1 & M1 & _).
  destruct (simple_mean l' mv' ws n f M' E' W Hn Hf) as (d' & E2 & M2 & _).
  exists d, d', (f * IZR n * mix_mean ws mv), (f * IZR n * mix_mean ws mv'). do 4 (split; auto).
  apply Rmult_le_compat_l; [apply Rmult_le_pos; [auto|apply IZR_le; auto]|]. apply mix_mono; auto.
Qed.

(** Together with the fragility function. *)
Theorem loss_given_demand : forall N c l mv n f x, normal_ok N -> spreads c -> all_moments l mv ->
  length l = length c -> (0 <= n)%Z -> 0 <= f -> 0 <= x ->
  exists hs d, p_highest N (map curve c) (Fin x) = map Fin hs /\ all_probabilities hs /\
    loss_given N (map curve c) (Some (SimpleLoss l)) n (Fin f) (Fin x) = Returns d /\
    get_mean_X d = Fin (f * IZR n * mix_mean hs mv).
Proof.
  intros N c l mv n f x OK H M E Hn Hf Hx.
  assert (S1 : exists hs, p_highest N (map curve c) (Fin x) = map Fin hs /\ all_probabilities hs /\ length hs = length c).
  { destruct Hx as [Hx|Hx].
    - destruct (states N OK c x H Hx) as (ps & hs & _ & E2 & _ & L & _ & P & _). eauto.
    - subst x. destruct (no_demand N OK c H) as [_ E2]. exists (map (fun _ => 0) c). split; auto. split; [|apply map_length].
      unfold all_probabilities. rewrite Forall_map. apply Forall_forall. intros; lra. }
  destruct S1 as (hs & E1 & P & L).
  assert (W : Forall (fun w => 0 <= w) hs) by (eapply Forall_impl; [|exact P]; cbn; intros; lra).
  destruct (simple_mean l mv hs n f M ltac:(congruence) W Hn Hf) as (d & Ed & Md & _).
  exists hs, d. unfold loss_given. rewrite E1. auto.
Qed.

(** ** C38 *)

Lemma in_int : forall z, is_int z = true <-> (int_min <= z <= int_max)%Z.
Proof. intros z. unfold is_int. rewrite andb_true_iff, !Z.leb_le. reflexivity. Qed.

Theorem level_defined : forall b n, is_int (count_min b) = true -> is_int (count_max b) = true -> is_int n = true ->
  (level_dist b n = Undefined <-> (count_min b < n < count_max b)%Z /\ (count_max b - count_min b > int_max)%Z) /\
  level_dist b n <> Throws.
Proof.
  intros b n I1 I2 I3. apply in_int in I1, I2, I3. unfold level_dist, level_mean.
  destruct (Z.leb_spec n (count_min b)) as [H|H]; cbn [bind]; [split; [split; [discriminate|lia]|discriminate]|].
  destruct (Z.leb_spec (count_max b) n) as [H'|H']; cbn [bind]; [split; [split; [discriminate|lia]|discriminate]|].
  unfold int_sub. destruct (is_int (n - count_min b)) eqn:E1; cbn [bind].
  - destruct (is_int (count_max b - count_min b)) eqn:E2; cbn [bind].
    + apply in_int in E2. split; [split; [discriminate|lia]|discriminate].
    + split; [|discriminate]. split; auto. intros _. split; [lia|].
      destruct (Z_gt_le_dec (count_max b - count_min b) int_max) as [G|G]; auto. exfalso.
      assert (Q : is_int (count_max b - count_min b) = true) by (apply in_int; unfold int_min in *; lia). congruence.
  - split; [|discriminate]. split; auto. intros _. split; [lia|].
    destruct (Z_gt_le_dec (count_max b - count_min b) int_max) as [G|G]; auto. exfalso.
    assert (Q : is_int (n - count_min b) = true) by (apply in_int; unfold int_min in *; lia). congruence.
Qed.

Lemma unit_range : forall lo hi a b n m, (lo < hi)%Z -> unit_cost lo hi a b n m -> Rmin a b <= m <= Rmax a b.
Proof.
  intros lo hi a b n m L [[_ ->]|[[_ ->]|[H E]]].
  - split; [apply Rmin_l|apply Rmax_l].
  - split; [apply Rmin_r|apply Rmax_r].
  - destruct H as [H1 H2]. apply IZR_lt in H1, H2. assert (D : 0 < IZR hi - IZR lo) by lra.
    assert (R1 : Rmin a b <= a) by apply Rmin_l. assert (R2 : Rmin a b <= b) by apply Rmin_r.
    assert (R3 : a <= Rmax a b) by apply Rmax_l. assert (R4 : b <= Rmax a b) by apply Rmax_r.
    split; apply Rmult_le_reg_r with (IZR hi - IZR lo); auto; rewrite E.
    + replace (Rmin a b * (IZR hi - IZR lo)) with (Rmin a b * (IZR hi - IZR n) + Rmin a b * (IZR n - IZR lo)) by ring.
      apply Rplus_le_compat; apply Rmult_le_compat_r; lra.
    + replace (Rmax a b * (IZR hi - IZR lo)) with (Rmax a b * (IZR hi - IZR n) + Rmax a b * (IZR n - IZR lo)) by ring.
      apply Rplus_le_compat; apply Rmult_le_compat_r; lra.
Qed.

(** The unit cost as an increasing share of the second cost. *)
Lemma unit_share : forall lo hi a b n m, (lo < hi)%Z -> unit_cost lo hi a b n m ->
  exists t, m = a + t * (b - a) /\ t * (IZR hi - IZR lo) = Rmax 0 (Rmin (IZR hi - IZR lo) (IZR n - IZR lo)).
Proof.
  intros lo hi a b n m L H. apply IZR_lt in L as D.
  destruct H as [[H ->]|[[H ->]|[[H1 H2] E]]].
  - exists 0. split; [ring|]. apply IZR_le in H. rewrite Rmin_right by lra. rewrite Rmax_left by lra. ring.
  - exists 1. split; [ring|]. apply IZR_le in H. rewrite Rmin_left by lra. rewrite Rmax_right by lra. ring.
  - exists ((IZR n - IZR lo) / (IZR hi - IZR lo)). apply IZR_lt in H1, H2. split.
    + apply Rmult_eq_reg_r with (IZR hi - IZR lo); [|lra]. rewrite E. field. lra.
    + rewrite Rmin_right, Rmax_right by lra. field. lra.
Qed.

Theorem unit_monotone : forall lo hi a b n n' m m', (lo < hi)%Z -> (n <= n')%Z ->
  unit_cost lo hi a b n m -> unit_cost lo hi a b n' m' ->
  (a <= b -> m <= m') /\ (b <= a -> m' <= m).
Proof.
  intros lo hi a b n n' m m' L Hn U U'.
  destruct (unit_share _ _ _ _ _ _ L U) as (t & -> & Et), (unit_share _ _ _ _ _ _ L U') as (t' & -> & Et').
  apply IZR_lt in L. apply IZR_le in Hn.
  assert (Q : t <= t').
  { apply Rmult_le_reg_r with (IZR hi - IZR lo); [lra|]. rewrite Et, Et'.
    apply Rle_max_compat_l. apply Rle_min_compat_l. lra. }
  split; intros H.
  - apply Rplus_le_compat_l. apply Rmult_le_compat_r; lra.
  - apply Rplus_le_compat_l. apply Ropp_le_cancel.
    replace (- (t * (b - a))) with (t * (a - b)) by ring. replace (- (t' * (b - a))) with (t' * (a - b)) by ring.
    apply Rmult_le_compat_r; lra.
Qed.

Theorem level_cost : forall lo hi a b s n, (lo < hi)%Z -> (hi - lo <= int_max)%Z -> 0 <= a -> 0 <= b -> 0 <= s ->
  exists d m, level_dist (BiLevel lo hi (Fin a) (Fin b) (Fin s)) n = Returns d /\
    unit_cost lo hi a b n m /\ Rmin a b <= m <= Rmax a b /\
    get_mean_X d = Fin m /\ get_sigma_lnX d = Fin s.
Proof.
  intros lo hi a b s n L I Ha Hb Hs.
  assert (Q : exists m, level_mean (BiLevel lo hi (Fin a) (Fin b) (Fin s)) n = Returns (Fin m) /\ unit_cost lo hi a b n m).
  { unfold level_mean. cbn [count_min count_max cost_at_min cost_at_max].
    destruct (Z.leb_spec n lo) as [H|H]; [exists a; split; auto; left; auto|].
    destruct (Z.leb_spec hi n) as [H'|H']; [exists b; split; auto; right; left; auto|].
    unfold int_sub. rewrite (proj2 (in_int (n - lo))), (proj2 (in_int (hi - lo))) by (unfold int_min, int_max in *; lia).
    cbn [bind]. assert (D : IZR (hi - lo) <> 0) by (apply not_0_IZR; lia).
    exists (a + IZR (n - lo) / IZR (hi - lo) * (b - a)). split.
    - rewrite er_div_fin by auto. reflexivity.
    - right. right. split; [lia|]. rewrite !minus_IZR in *. field. auto. }
  destruct Q as (m & E & U). pose proof (unit_range _ _ _ _ _ _ L U) as R.
  assert (Hm : 0 <= m). { assert (0 <= Rmin a b) by (unfold Rmin; destruct (Rle_dec a b); auto). lra. }
  exists (from_mean_sdln (Fin m) (Fin s)), m. unfold level_dist. rewrite E. cbn [bind dispersion].
  refine (conj eq_refl (conj U (conj R (conj _ eq_refl)))).
  apply (moments_mean _ _ _ (sdln_moments m s Hm Hs)).
Qed.

Lemma refute_level : exists b n,
  is_int (count_min b) = true /\ is_int (count_max b) = true /\ is_int n = true /\
  (count_min b < count_max b)%Z /\ (0 < n)%Z /\
  cost_at_min b = Fin 2 /\ cost_at_max b = Fin 1 /\ dispersion b = Fin 0 /\ level_dist b n = Undefined.
Proof.
  exists (BiLevel (-1) int_max (Fin 2) (Fin 1) (Fin 0)), 1%Z. repeat split.
Qed.

Lemma refute_threshold : exists b n d,
  (count_max b <= n)%Z /\ level_dist b n = Returns d /\
  cost_at_min b = Fin 2 /\ cost_at_max b = Fin 1 /\ get_mean_X d = Fin 2.
Proof.
  exists (BiLevel 10 10 (Fin 2) (Fin 1) (Fin 0)), 10%Z, (from_mean_sdln (Fin 2) (Fin 0)).
  refine (conj _ (conj eq_refl (conj eq_refl (conj eq_refl _)))); [cbn; lia|].
  apply (moments_mean _ _ _ (sdln_moments 2 0 ltac:(lra) ltac:(lra))).
Qed.

(** ** C39 *)

Theorem loss_rejected : forall f p n factor k, n_states f = Returns k -> length p <> k ->
  calculate_loss f p n factor = Throws.
Proof.
  intros [|l|l] p n factor k E H; cbn in E; inversion E; subst; unfold calculate_loss, unadjusted_loss.
  - unfold weighted_loss. rewrite mixture_rejected by auto. reflexivity.
  - apply Nat.eqb_neq in H. rewrite H. reflexivity.
Qed.

Lemma differences_length : forall l, length (differences l) = length l.
Proof. induction l as [|a [|b l] IH]; auto. cbn [differences length] in *. rewrite IH. reflexivity. Qed.

Lemma highest_length : forall N f x, length (p_highest N f x) = length f.
Proof. intros. unfold p_highest, p_exceeded. rewrite differences_length, map_length. reflexivity. Qed.

Theorem mismatch_rejected : forall N frag f n factor edp k, n_states f = Returns k -> length frag <> k ->
  loss_given N frag (Some f) n factor edp = Throws.
Proof.
  intros N frag f n factor edp k E H. unfold loss_given. eapply loss_rejected; eauto. rewrite highest_length. auto.
Qed.

Lemma levels_length : forall l n ds, levels l n = Returns ds -> length ds = length l.
Proof.
  induction l as [|b l IH]; intros n ds L; cbn in L; [inversion L; auto|].
  destruct (level_dist b n); try discriminate. cbn in L. destruct (levels l n) eqn:Q; try discriminate.
  cbn in L. inversion L. cbn. f_equal. eauto.
Qed.

Lemma levels_throw : forall l n, levels l n <> Throws.
Proof.
  induction l as [|b l IH]; intros n; cbn; [discriminate|]. specialize (IH n).
  assert (A : level_dist b n <> Throws).
  { unfold level_dist, level_mean, int_sub. destruct (n <=? count_min b)%Z; cbn; [discriminate|].
    destruct (count_max b <=? n)%Z; cbn; [discriminate|]. destruct (is_int (n - count_min b)); cbn; [|discriminate].
    destruct (is_int (count_max b - count_min b)); cbn; discriminate. }
  destruct (level_dist b n); cbn; try discriminate; auto. destruct (levels l n); cbn; try discriminate; auto.
Qed.

Lemma weighted_accepted : forall l p n, length l = length p -> exists d, weighted_loss l p n = Returns d.
Proof.
  intros l p n E. unfold weighted_loss, add_weighted. rewrite E, Nat.eqb_refl.
  destruct (weigh l p (Fin 0) (Fin 0)). eauto.
Qed.

(** A matching number is not rejected. *)
Theorem match_accepted : forall f p n factor, n_states f = Returns (length p) ->
  calculate_loss f p n factor <> Throws.
Proof.
  intros [|l|l] p n factor E; cbn in E; inversion E; unfold calculate_loss, unadjusted_loss.
  - destruct (weighted_accepted l p n ltac:(auto)) as (d & ->). cbn. discriminate.
  - match goal with H : length l = length p |- _ => rewrite <- H, Nat.eqb_refl; rename H into L end.
    destruct (levels l n) eqn:Q; cbn; try discriminate; [|exfalso; eapply levels_throw; eauto].
    destruct (weighted_accepted a p n) as (d & ->); [erewrite levels_length by eauto; auto|]. cbn. discriminate.
Qed.

(** ** C40 *)

Section Fates.

Variable N : normal.
Hypothesis OK : normal_ok N.

Lemma at_most_defined : forall d x, comparable d x -> exists p, p_at_most N d x = Fin p /\ 0 <= p <= 1.
Proof. intros d x H. destruct (probabilities N OK d x H) as (p & q & _ & E & _ & R & _). eauto. Qed.

Lemma no_curves : forall im, p_repair N (Curves None None) im = Fin 1 /\
  p_demolition N (Curves None None) im = Fin 0 /\ p_collapse N (Curves None None) im = Fin 0.
Proof. intros im. unfold p_repair, p_demolition, p_collapse. cbn [collapse demolition er_add]. rewrite er_sub_fin. repeat split. f_equal. lra. Qed.

(** The three add up to one, and the probabilities of repair and collapse are
    proper. *)
Theorem fate_sum : forall c im, defined_at c im ->
  exists x y z, p_repair N c im = Fin x /\ p_demolition N c im = Fin y /\ p_collapse N c im = Fin z /\
    0 <= x <= 1 /\ y <= 1 /\ 0 <= z <= 1 /\ x + y + z = 1.
Proof.
  intros [c d] im [Hc Hd]. cbn [collapse demolition] in *.
  assert (C : exists z, p_collapse N (Curves c d) im = Fin z /\ 0 <= z <= 1).
  { unfold p_collapse. cbn [collapse]. destruct c as [c|]; [apply at_most_defined; auto|]. exists 0. split; auto. lra. }
  destruct C as (z & Ez & Hz). destruct d as [d|].
  - destruct (at_most_defined d im Hd) as (y & Ey & Hy). unfold p_repair, p_demolition. cbn [demolition]. rewrite Ez, Ey.
    cbn [er_add]. rewrite !er_sub_fin. cbn [er_add]. rewrite er_sub_fin. exists (1 - (y - z + z)), (y - z), z. repeat split; lra.
  - unfold p_repair, p_demolition. cbn [demolition]. rewrite Ez. cbn [er_add]. rewrite er_sub_fin.
    exists (1 - (0 + z)), 0, z. repeat split; lra.
Qed.

(** They are proper exactly if collapse is not likelier than demolition or
    collapse. *)
Theorem fate_proper : forall c im, defined_at c im ->
  (fates (p_repair N c im) (p_demolition N c im) (p_collapse N c im) <->
   match demolition c with
   | Some d => exists p q, p_collapse N c im = Fin p /\ p_at_most N d im = Fin q /\ p <= q
   | None => True
   end).
Proof.
  intros c im D. destruct (fate_sum c im D) as (x & y & z & E1 & E2 & E3 & H1 & H2 & H3 & H4).
  unfold fates. rewrite E1, E2, E3. destruct (demolition c) as [d|] eqn:Ed.
  - unfold p_demolition in E2. rewrite Ed, E3 in E2. destruct D as [_ D]. rewrite Ed in D.
    destruct (at_most_defined d im D) as (q & Eq & Hq). rewrite Eq in *. rewrite er_sub_fin in E2. inversion E2; subst.
    split.
    + intros (a & b & e & Q1 & Q2 & Q3 & ? & ? & ? & ?). inversion Q2; subst. exists z, q. repeat split; auto. lra.
    + intros (p & r & Q1 & Q2 & Hl). inversion Q1; inversion Q2; subst. exists x, (r - p), p. repeat split; try lra; auto.
  - split; auto. intros _. unfold p_demolition in E2. rewrite Ed in E2. inversion E2; subst. exists x, 0, z. repeat split; auto; lra.
Qed.

Lemma proper_comparable : forall m s x, 0 < s -> 0 <= x -> comparable (LND (Fin m) (Fin s)) (Fin x).
Proof.
  intros m s x Hs Hx. split; [right; exists x; auto|]. exists s. cbn. repeat split; try lra.
Qed.

(** With lognormal curves: at every intensity exactly if the spreads are equal
    and demolition begins no later than collapse. *)
Theorem fate_curves : forall mc sc md sd, 0 < sc -> 0 < sd ->
  let c := Curves (Some (LND (Fin mc) (Fin sc))) (Some (LND (Fin md) (Fin sd))) in
  (forall x, 0 <= x -> fates (p_repair N c (Fin x)) (p_demolition N c (Fin x)) (p_collapse N c (Fin x))) <->
  sc = sd /\ md <= mc.
Proof.
  intros mc sc md sd Hc Hd c.
  assert (D : forall x, 0 <= x -> defined_at c (Fin x)) by (intros x Hx; split; apply proper_comparable; auto).
  assert (P : forall x, 0 < x ->
    (fates (p_repair N c (Fin x)) (p_demolition N c (Fin x)) (p_collapse N c (Fin x)) <->
     (ln x - mc) / sc <= (ln x - md) / sd)).
  { intros x Hx. rewrite (fate_proper c (Fin x)) by (apply D; lra). unfold c, p_collapse. cbn [demolition collapse].
    rewrite !(at_most_mid N OK) by auto. split.
    - intros (p & q & Q1 & Q2 & L). inversion Q1; inversion Q2; subst. apply (proj1 (cdf_le N OK _ _)) in L. exact L.
    - intros L. eexists. eexists. split; [reflexivity|]. split; [reflexivity|]. apply (proj2 (cdf_le N OK _ _)). exact L. }
  split.
  - intros F. destruct (Req_dec sc sd) as [E|E].
    + split; auto. subst sd. specialize (F 1 ltac:(lra)). apply P in F; [|lra].
      destruct (Rle_dec md mc) as [L|L]; auto. exfalso.
      assert ((ln 1 - md) / sc < (ln 1 - mc) / sc); [|lra].
      unfold Rdiv. apply Rmult_lt_compat_r; [apply Rinv_0_lt_compat; auto|lra].
    + exfalso. destruct (cross_at md sd mc sc Hd Hc ltac:(auto)) as (l & Hl).
      specialize (F (exp l) ltac:(left; apply exp_pos)). apply P in F; [|apply exp_pos]. rewrite ln_exp in F. lra.
  - intros [-> L] x [Hx|Hx].
    + apply P; auto. apply order_le; auto.
    + subst x. apply fate_proper; [apply D; lra|]. unfold c, p_collapse. cbn [collapse demolition].
      pose proof (curve_zero N OK (mc, sd) Hd) as Z1. pose proof (curve_zero N OK (md, sd) Hd) as Z2.
      unfold curve in Z1, Z2. cbn [fst snd] in Z1, Z2. rewrite Z1, Z2. exists 0, 0. repeat split; lra.
Qed.

Lemma refute_fates : exists c x y, 0 < x /\ defined_at c (Fin x) /\ p_demolition N c (Fin x) = Fin y /\ y < 0.
Proof.
  set (c := Curves (Some (LND (Fin 0) (Fin 1))) (Some (LND (Fin 1) (Fin 1)))).
  exists c, 1, (cdf N (- 1) - cdf N 0). split; [lra|]. split; [split; apply proper_comparable; lra|]. split.
  - unfold c, p_demolition, p_collapse. cbn [demolition collapse]. rewrite !(at_most_mid N OK) by lra.
    rewrite er_sub_fin, ln_1. f_equal. f_equal; f_equal; lra.
  - assert (cdf N (-1) < cdf N 0) by (apply (cdf_increasing N OK); lra). lra.
Qed.

End Fates.

(** The vector forms. *)

Lemma set_length : forall A i (v : A) l, length (set_nth i v l) = length l.
Proof. intros A i v l. revert i. induction l as [|a l IH]; intros [|i]; cbn; auto. Qed.

Lemma set_same : forall A i (v d : A) l, (i < length l)%nat -> nth i (set_nth i v l) d = v.
Proof. intros A i v d l. revert i. induction l as [|a l IH]; intros [|i] H; cbn in *; try lia; auto. apply IH. lia. Qed.

Lemma set_other : forall A i j (v d : A) l, i <> j -> nth j (set_nth i v l) d = nth j l d.
Proof. intros A i j v d l. revert i j. induction l as [|a l IH]; intros [|i] [|j] H; cbn; try lia; auto. Qed.

Lemma for_each_length : forall f ims o r, length (for_each f ims o r) = length r.
Proof. intros f ims o. induction o as [|i o IH]; intros r; cbn; auto. rewrite IH, set_length. reflexivity. Qed.

Lemma for_each_nth : forall f ims o r j, (j < length r)%nat ->
  nth j (for_each f ims o r) NaN = if existsb (Nat.eqb j) o then f (nth j ims NaN) else nth j r NaN.
Proof.
  intros f ims o. induction o as [|i o IH]; intros r j H; cbn; auto. rewrite IH by (rewrite set_length; auto).
  destruct (Nat.eqb_spec j i) as [->|Hn]; cbn.
  - destruct (existsb (Nat.eqb i) o); auto. apply set_same. auto.
  - destruct (existsb (Nat.eqb j) o); auto. apply set_other. auto.
Qed.

Theorem for_each_map : forall f ims o, Permutation o (seq 0 (length ims)) ->
  for_each f ims o (repeat (Fin 0) (length ims)) = map f ims.
Proof.
  intros f ims o P. apply nth_ext with (d := NaN) (d' := f NaN).
  - rewrite for_each_length, repeat_length, map_length. reflexivity.
  - rewrite for_each_length, repeat_length. intros j H. rewrite for_each_nth by (rewrite repeat_length; auto).
    rewrite map_nth. replace (existsb (Nat.eqb j) o) with true; auto. symmetry. apply existsb_exists.
    exists j. split; [|apply Nat.eqb_refl]. eapply Permutation_in; [symmetry; exact P|]. apply in_seq. lia.
Qed.

Theorem vector_forms : forall N c ims o, Permutation o (seq 0 (length ims)) ->
  p_repair_all N c ims o = map (p_repair N c) ims /\
  p_demolition_all N c ims o = map (p_demolition N c) ims /\
  p_collapse_all N c ims o = map (p_collapse N c) ims.
Proof. intros N c ims o P. repeat split; apply for_each_map; auto. Qed.
