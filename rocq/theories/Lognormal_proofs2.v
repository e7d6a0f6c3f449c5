(** * Proofs about sums and mixtures of lognormal distributions *)
From Coq Require Import Reals List Bool Lra Lia Permutation.
From Verif Require Import Num ER ER_proofs ERmath Lognormal Lognormal_spec Lognormal_proofs.
Import ListNotations.
Local Open Scope R_scope.

(** ** C33 *)

Definition tm (mv : list (R * R)) : R := total (map fst mv).
Definition tv (mv : list (R * R)) : R := total (map snd mv).

Lemma cross_ok : forall l mv s v, all_moments l mv -> cross (Fin s) l (Fin v) = Fin v.
Proof.
  intros l mv s v H. revert v. induction H as [|d [a b] l mv H0 H1 IH]; intros v; cbn [cross]; auto.
  destruct (moments_sd _ _ _ H0) as [E _]. rewrite E. cbn [er_mul er_add]. rewrite IH. f_equal. lra.
Qed.

Lemma accumulate_ok : forall l mv m v, all_moments l mv ->
  accumulate l (Fin m) (Fin v) = (Fin (m + tm mv), Fin (v + tv mv)).
Proof.
  intros l mv m v H. revert m v. induction H as [|d [a b] l mv H0 H1 IH]; intros m v.
  - cbn. f_equal; f_equal; lra.
  - cbn [accumulate]. destruct (moments_sd _ _ _ H0) as [E2 P2]. destruct (moments_mean _ _ _ H0) as [E1 P1].
    cbn in E1, E2, P1, P2. rewrite E1, E2. cbn [er_mul er_add]. rewrite sqrt_sqrt by auto.
    rewrite (cross_ok _ _ _ _ H1). rewrite IH.
    change (tm ((a, b) :: mv)) with (a + tm mv). change (tv ((a, b) :: mv)) with (b + tv mv). f_equal; f_equal; lra.
Qed.

Lemma totals_nonneg : forall l mv, all_moments l mv -> 0 <= tm mv /\ 0 <= tv mv /\ (tm mv = 0 -> tv mv = 0).
Proof.
  intros l mv H. induction H as [|d [a b] l mv H0 H1 IH].
  - cbn. repeat split; try (unfold tm, tv; cbn; lra).
  - destruct IH as (I1 & I2 & I3). destruct (moments_sd _ _ _ H0) as [_ P2]. destruct (moments_mean _ _ _ H0) as [_ P1].
    pose proof (moments_zero _ _ _ H0) as P3. cbn in P1, P2, P3.
    change (tm ((a, b) :: mv)) with (a + tm mv). change (tv ((a, b) :: mv)) with (b + tv mv). repeat split; try lra.
Qed.

Lemma add_is : forall l mv, all_moments l mv -> add_dists l = from_mean_sd (Fin (tm mv)) (Fin (sqrt (tv mv))).
Proof.
  intros l mv H. unfold add_dists. rewrite (accumulate_ok _ _ _ _ H). rewrite !Rplus_0_l.
  rewrite er_sqrt_pos; auto. apply (totals_nonneg _ _ H).
Qed.

Theorem sum_moments : forall l mv, all_moments l mv ->
  moments (add_dists l) (total (map fst mv)) (total (map snd mv)).
Proof.
  intros l mv H. rewrite (add_is _ _ H). destruct (totals_nonneg _ _ H) as (A & B & D).
  apply from_sd_moments; auto.
Qed.

Lemma all_costs : forall l, Forall cost l -> exists mv, all_moments l mv.
Proof.
  induction 1 as [|d l (a & v & H) _ (mv & IH)]; [exists []; constructor|].
  exists ((a, v) :: mv). constructor; auto.
Qed.

Lemma total_app : forall a b, total (a ++ b) = total a + total b.
Proof. induction a as [|x a IH]; intros b; [change (total b = 0 + total b); lra|].
  change (x + total (a ++ b) = x + total a + total b). rewrite IH. lra.
Qed.

Lemma tm_app : forall a b, tm (a ++ b) = tm a + tm b.
Proof. intros. unfold tm. rewrite map_app. apply total_app. Qed.
Lemma tv_app : forall a b, tv (a ++ b) = tv a + tv b.
Proof. intros. unfold tv. rewrite map_app. apply total_app. Qed.

Lemma total_perm : forall a b, Permutation a b -> total a = total b.
Proof.
  induction 1; auto.
  - change (x + total l = x + total l'). lra.
  - change (y + (x + total l) = x + (y + total l)). lra.
  - lra.
Qed.

Lemma moments_perm : forall l l', Permutation l l' -> forall mv, all_moments l mv ->
  exists mv', all_moments l' mv' /\ Permutation mv mv'.
Proof.
  induction 1; intros mv M.
  - exists mv. split; [auto|apply Permutation_refl].
  - inversion M as [|? y ? r Hy Hr]; subst. destruct (IHPermutation _ Hr) as (mv' & Q1 & Q2). exists (y :: mv').
    split; [constructor; auto|]. constructor. auto.
  - inversion M as [|? y1 ? r Hy Hr]; subst. inversion Hr as [|? y2 ? r2 Hy2 Hr2]; subst.
    exists (y2 :: y1 :: r2). split; [constructor; [auto|constructor; auto]|apply perm_swap].
  - destruct (IHPermutation1 _ M) as (mv1 & Q1 & Q2). destruct (IHPermutation2 _ Q1) as (mv2 & Q3 & Q4).
    exists mv2. split; auto. eapply Permutation_trans; eauto.
Qed.

Theorem sum_order : forall l l', Forall cost l -> Permutation l l' -> add_dists l = add_dists l'.
Proof.
  intros l l' H Pm. destruct (all_costs _ H) as (mv & M). destruct (moments_perm _ _ Pm _ M) as (mv' & M' & Q).
  rewrite (add_is _ _ M), (add_is _ _ M'). unfold tm, tv.
  rewrite (total_perm _ _ (Permutation_map fst Q)), (total_perm _ _ (Permutation_map snd Q)). reflexivity.
Qed.

Theorem sum_grouping : forall ls, Forall (Forall cost) ls ->
  add_dists (map add_dists ls) = add_dists (concat ls).
Proof.
  intros ls H.
  assert (Q : exists mvs mv, all_moments (map add_dists ls) mvs /\ all_moments (concat ls) mv /\ tm mvs = tm mv /\ tv mvs = tv mv).
  { induction H as [|l ls Hl _ (mvs & mv & I1 & I2 & I3 & I4)].
    - exists [], []. repeat split; constructor.
    - destruct (all_costs _ Hl) as (nv & M). exists ((tm nv, tv nv) :: mvs), (nv ++ mv).
      split; [constructor; auto; apply sum_moments; auto|]. split; [apply Forall2_app; auto|].
      rewrite tm_app, tv_app. change (tm ((tm nv, tv nv) :: mvs)) with (tm nv + tm mvs).
      change (tv ((tm nv, tv nv) :: mvs)) with (tv nv + tv mvs). lra. }
  destruct Q as (mvs & mv & Q1 & Q2 & Q3 & Q4). rewrite (add_is _ _ Q1), (add_is _ _ Q2), Q3, Q4. reflexivity.
Qed.

Theorem sum_zero : forall l1 l2 z, Forall cost l1 -> Forall cost l2 -> certain_zero z ->
  add_dists (l1 ++ z :: l2) = add_dists (l1 ++ l2).
Proof.
  intros l1 l2 z H1 H2 Z. destruct (all_costs _ H1) as (m1 & M1). destruct (all_costs _ H2) as (m2 & M2).
  assert (A : all_moments (l1 ++ z :: l2) (m1 ++ (0, 0) :: m2)).
  { apply Forall2_app; auto. constructor; auto. right. auto. }
  rewrite (add_is _ _ A), (add_is (l1 ++ l2) (m1 ++ m2)) by (apply Forall2_app; auto).
  rewrite !tm_app, !tv_app. change (tm ((0, 0) :: m2)) with (0 + tm m2). change (tv ((0, 0) :: m2)) with (0 + tv m2).
  rewrite !Rplus_0_l. reflexivity.
Qed.

Theorem sum_single : forall d, cost d -> same_cost (add_dists [d]) d.
Proof.
  intros d (a & v & M). assert (A : all_moments [d] [(a, v)]) by (constructor; [exact M|constructor]).
  apply sum_moments in A. cbn in A. rewrite !Rplus_0_r in A. eapply moments_unique; eauto.
Qed.

(** ** C34 *)

Lemma weigh_ok : forall l mv ws m v, all_moments l mv -> length l = length ws ->
  weigh l (map Fin ws) (Fin m) (Fin v) =
  (Fin (m + mix (fun a _ => a) ws mv), Fin (v + mix (fun a v => v + a * a) ws mv)).
Proof.
  intros l mv ws m v H. revert ws m v. induction H as [|d [a b] l mv H0 H1 IH]; intros [|w ws] m v E; cbn in E; try lia.
  - cbn. f_equal; f_equal; lra.
  - cbn [weigh map]. destruct (moments_sd _ _ _ H0) as [E2 P2]. destruct (moments_mean _ _ _ H0) as [E1 P1].
    cbn in E1, E2, P1, P2. rewrite E1, E2. cbn [er_mul er_add]. rewrite sqrt_sqrt by auto.
    rewrite IH by lia. cbn [mix]. f_equal; f_equal; lra.
Qed.

Lemma weighted_is : forall l mv ws, all_moments l mv -> length l = length ws ->
  add_weighted l (map Fin ws) =
  Some (from_mean_sd (Fin (mix_mean ws mv)) (Fin (sqrt (Rabs (mix_var ws mv))))).
Proof.
  intros l mv ws H E. unfold add_weighted. rewrite map_length, E, Nat.eqb_refl.
  rewrite (weigh_ok _ _ _ _ _ H E). rewrite !Rplus_0_l. cbn [er_mul]. rewrite er_sub_fin. cbn [er_abs].
  rewrite er_sqrt_pos by apply Rabs_pos. reflexivity.
Qed.

Lemma mix_nonneg : forall l mv ws, all_moments l mv -> Forall (fun w => 0 <= w) ws ->
  0 <= mix_mean ws mv /\ 0 <= mix (fun a v => v + a * a) ws mv /\
  (mix_mean ws mv = 0 -> mix (fun a v => v + a * a) ws mv = 0).
Proof.
  intros l mv ws H. revert ws. induction H as [|d [a b] l mv H0 H1 IH]; intros ws Hw.
  - destruct ws; cbn; unfold mix_mean; cbn; repeat split; intros; lra.
  - destruct Hw as [|w ws Hw Hws]; [unfold mix_mean; cbn; repeat split; intros; lra|].
    specialize (IH ws Hws). destruct IH as (I1 & I2 & I3). unfold mix_mean in *. cbn [mix].
    destruct (moments_sd _ _ _ H0) as [_ P2]. destruct (moments_mean _ _ _ H0) as [_ P1].
    pose proof (moments_zero _ _ _ H0) as P3. cbn in P1, P2, P3.
    assert (0 <= w * a) by (apply Rmult_le_pos; auto).
    assert (0 <= w * (b + a * a)).
    { apply Rmult_le_pos; auto. pose proof (sqr_pos a). lra. }
    repeat split; try lra. intros E. rewrite I3 by lra. assert (Ez : w * a = 0) by lra.
    apply Rmult_integral in Ez. destruct Ez as [-> | ->]; [lra|]. rewrite P3 by auto. lra.
Qed.

Theorem mixture_any : forall l mv ws, all_moments l mv -> length l = length ws -> Forall (fun w => 0 <= w) ws ->
  exists d, add_weighted l (map Fin ws) = Some d /\ moments d (mix_mean ws mv) (Rabs (mix_var ws mv)).
Proof.
  intros l mv ws H E Hw. rewrite (weighted_is _ _ _ H E). eexists. split; [reflexivity|].
  destruct (mix_nonneg _ _ _ H Hw) as (A & B & D). apply from_sd_moments; auto using Rabs_pos.
  intros Z. unfold mix_var. rewrite Z, D by auto. rewrite Rmult_0_l, Rminus_0_r. apply Rabs_R0.
Qed.

Lemma cauchy : forall ws mv, Forall (fun w => 0 <= w) ws -> Forall (fun p => 0 <= snd p) mv ->
  length ws = length mv ->
  0 <= total ws /\ 0 <= mix (fun a v => v + a * a) ws mv /\
  mix_mean ws mv * mix_mean ws mv <= total ws * mix (fun a v => v + a * a) ws mv.
Proof.
  induction ws as [|w ws IH]; intros [|[a v] mv] Hw Hv E; cbn in E; try lia.
  - unfold mix_mean; cbn; lra.
  - inversion Hw; subst. inversion Hv; subst. cbn in H3. destruct (IH mv H2 H4 ltac:(lia)) as (I1 & I2 & I3).
    unfold mix_mean in *. cbn [mix total fold_right]. fold (total ws).
    set (W := total ws) in *. set (A := mix (fun a0 _ => a0) ws mv) in *. set (B := mix (fun a0 v0 => v0 + a0 * a0) ws mv) in *.
    pose proof (sqr_pos a). assert (0 <= w * (v + a * a)) by (apply Rmult_le_pos; lra).
    split; [lra|]. split; [lra|].
    assert (K : 2 * A * a <= W * (a * a) + B).
    { destruct I1 as [I1|I1].
      - apply Rmult_le_reg_l with W; auto. pose proof (sqr_pos (W * a - A)). nra.
      - rewrite <- I1 in *. assert (A = 0) by nra. rewrite H5. lra. }
    assert (w * (2 * A * a) <= w * (W * (a * a) + B)) by (apply Rmult_le_compat_l; auto).
    assert (0 <= w * v) by (apply Rmult_le_pos; auto).
    assert (0 <= (w + W) * (w * v)) by (apply Rmult_le_pos; lra). nra.
Qed.

Theorem mixture : forall l mv ws, all_moments l mv -> length l = length ws ->
  Forall (fun w => 0 <= w) ws -> total ws <= 1 ->
  0 <= mix_var ws mv /\
  exists d, add_weighted l (map Fin ws) = Some d /\ moments d (mix_mean ws mv) (mix_var ws mv).
Proof.
  intros l mv ws H E Hw Ht.
  assert (Hv : Forall (fun p => 0 <= snd p) mv).
  { clear - H. induction H as [|d [a b] l mv H0 H1 IH]; constructor; auto. apply (moments_sd _ _ _ H0). }
  assert (El : length ws = length mv).
  { rewrite <- E. clear - H. induction H; cbn; auto. }
  destruct (cauchy ws mv Hw Hv El) as (A & B & D).
  assert (P : 0 <= mix_var ws mv).
  { unfold mix_var. assert (total ws * mix (fun a v => v + a * a) ws mv <= 1 * mix (fun a v => v + a * a) ws mv)
      by (apply Rmult_le_compat_r; auto). lra. }
  split; auto. destruct (mixture_any l mv ws H E Hw) as (d & Q1 & Q2). exists d. split; auto.
  rewrite Rabs_pos_eq in Q2; auto.
Qed.

Theorem mixture_rejected : forall l w, length l <> length w -> add_weighted l w = None.
Proof. intros l w H. unfold add_weighted. apply Nat.eqb_neq in H. rewrite H. reflexivity. Qed.
