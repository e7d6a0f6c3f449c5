(** * Proofs about interpolation (C41, C59) *)
From Coq Require Import Reals List Lra Lia Bool Arith.
From Verif Require Import Num ER ERmath ER_proofs Lognormal Lognormal_spec Lognormal_proofs Damage Damage_proofs2.
From Verif Require Import Functions Functions_spec.
Import ListNotations.
Local Open Scope R_scope.

Lemma nthF : forall us i, (i < length us)%nat -> nth i (map Fin us) NaN = Fin (nth i us 0).
Proof. intros us i H. rewrite (nth_indep _ NaN (Fin 0)) by (rewrite map_length; auto). apply map_nth. Qed.

Lemma hd_nth : forall us : list R, hd 0 us = nth 0 us 0.
Proof. destruct us; reflexivity. Qed.
Lemma last_nth : forall us : list R, last us 0 = nth (length us - 1) us 0.
Proof.
  induction us as [|a [|b us] IH]; auto. change (last (a :: b :: us) 0) with (last (b :: us) 0). rewrite IH.
  cbn [length]. replace (S (S (length us)) - 1)%nat with (S (S (length us) - 1)) by lia. reflexivity.
Qed.

Lemma ltb_fin : forall a b, er_ltb (Fin a) (Fin b) = true <-> a < b.
Proof. intros. apply Rltb_true. Qed.
Lemma ltb_fin_false : forall a b, er_ltb (Fin a) (Fin b) = false <-> b <= a.
Proof. intros. apply Rltb_false. Qed.
Lemma leb_fin : forall a b, er_leb (Fin a) (Fin b) = true <-> a <= b.
Proof. intros. apply Rleb_true. Qed.
Lemma leb_fin_false : forall a b, er_leb (Fin a) (Fin b) = false <-> b < a.
Proof. intros. apply Rleb_false. Qed.

Lemma sorted_le : forall us i j, sorted us -> (i <= j < length us)%nat -> nth i us 0 <= nth j us 0.
Proof.
  intros us i j H L. destruct (Nat.eq_dec i j) as [->|N]; [lra|]. left. apply H. lia.
Qed.

Lemma bsearch_ok : forall fuel us x lo hi, (lo < hi < length us)%nat -> (hi - lo <= fuel)%nat -> nth lo us 0 <= x ->
  exists i, bsearch fuel (map Fin us) (Fin x) lo hi = Some i /\ (lo <= i < hi)%nat /\ nth i us 0 <= x /\
    (x < nth (S i) us 0 \/ S i = hi).
Proof.
  induction fuel as [|fuel IH]; intros us x lo hi H F L; [lia|]. cbn [bsearch].
  destruct (Nat.ltb_spec (S lo) hi) as [G|G].
  - set (i := ((hi + lo) / 2)%nat).
    assert (I : (lo < i < hi)%nat).
    { unfold i. split.
      - apply Nat.div_le_lower_bound; lia.
      - apply Nat.div_lt_upper_bound; lia. }
    rewrite nthF by lia. destruct (er_ltb (Fin x) (Fin (nth i us 0))) eqn:E.
    + apply ltb_fin in E. destruct (IH us x lo i) as (k & E1 & E2 & E3 & E4); try lia; auto.
      exists k. split; auto. split; [lia|]. split; auto. destruct E4 as [E4|E4]; auto. left. rewrite E4. auto.
    + apply ltb_fin_false in E. destruct (IH us x i hi) as (k & E1 & E2 & E3 & E4); try lia; auto.
      exists k. split; auto. split; [lia|]. auto.
  - exists lo. split; auto. split; [lia|]. split; auto. right. lia.
Qed.

(** [i] is where [x] belongs. *)
Definition located (us : list R) (x : R) (i : nat) : Prop :=
  (S i < length us)%nat /\ nth i us 0 <= x <= nth (S i) us 0 /\
  (x < nth (S i) us 0 \/ S (S i) = length us).

Lemma located_unique : forall us x i j, sorted us -> located us x i -> located us x j -> i = j.
Proof.
  intros us x i j So (A1 & A2 & A3) (B1 & B2 & B3).
  destruct (Nat.lt_trichotomy i j) as [L|[L|L]]; auto; exfalso.
  - assert (nth (S i) us 0 <= nth j us 0) by (apply sorted_le; auto; lia). destruct A3 as [A3|A3]; [lra|lia].
  - assert (nth (S j) us 0 <= nth i us 0) by (apply sorted_le; auto; lia). destruct B3 as [B3|B3]; [lra|lia].
Qed.

(** The search, from any remembered index. *)
Lemma search_ok : forall us x cache, (S cache < length us)%nat -> hd 0 us <= x <= last us 0 ->
  (located us x cache /\ accel_search (map Fin us) (Fin x) cache = Some None) \/
  (exists i, located us x i /\ accel_search (map Fin us) (Fin x) cache = Some (Some i)).
Proof.
  intros us x cache H [H0 H1]. rewrite hd_nth in H0. rewrite last_nth in H1. unfold accel_search. rewrite !nthF by lia. rewrite map_length.
  destruct (er_ltb (Fin x) (Fin (nth cache us 0))) eqn:E.
  - apply ltb_fin in E. assert (C : (0 < cache)%nat) by (destruct cache; [lra|lia]).
    destruct (bsearch_ok (length us) us x 0 cache) as (i & E1 & E2 & E3 & E4); try lia; auto.
    right. exists i. rewrite E1. split; auto. unfold located. split; [lia|].
    assert (x < nth (S i) us 0) by (destruct E4 as [E4|E4]; [auto|rewrite E4; auto]). split; [lra|]. auto.
  - apply ltb_fin_false in E. destruct (er_leb (Fin (nth (S cache) us 0)) (Fin x)) eqn:E'.
    + apply leb_fin in E'. right.
      destruct (bsearch_ok (length us) us x cache (length us - 1)) as (i & E1 & E2 & E3 & E4); try lia; auto.
      exists i. rewrite E1. split; auto. unfold located. split; [lia|]. destruct E4 as [E4|E4].
      * split; [lra|]. auto.
      * rewrite E4. split; [lra|]. right. lia.
    + apply leb_fin_false in E'. left. split; auto. unfold located. split; auto. split; [lra|]. auto.
Qed.

Lemma find_ok : forall us x cache, (S cache < length us)%nat -> hd 0 us <= x <= last us 0 ->
  exists i, accel_find (map Fin us) (Fin x) cache = Some i /\ located us x i.
Proof.
  intros us x cache H Hx. unfold accel_find. destruct (search_ok us x cache H Hx) as [[L ->]|(i & L & ->)]; eauto.
Qed.

Lemma segment_ok : forall us vs x i, length us = length vs -> sorted us -> (S i < length us)%nat ->
  exists y, segment (map Fin us) (map Fin vs) (Fin x) i = Fin y /\
    (y - nth i vs 0) * (nth (S i) us 0 - nth i us 0) = (x - nth i us 0) * (nth (S i) vs 0 - nth i vs 0).
Proof.
  intros us vs x i E So H. unfold segment. rewrite !nthF by lia. rewrite !er_sub_fin.
  assert (D : nth i us 0 < nth (S i) us 0) by (apply So; lia).
  rewrite (proj2 (ltb_fin 0 (nth (S i) us 0 - nth i us 0))) by lra. rewrite er_div_fin by lra. cbn [er_mul er_add].
  eexists. split; [reflexivity|]. field. lra.
Qed.

Lemma located_segment : forall us vs x y i, located us x i ->
  (y - nth i vs 0) * (nth (S i) us 0 - nth i us 0) = (x - nth i us 0) * (nth (S i) vs 0 - nth i vs 0) ->
  on_segment us vs x y.
Proof. intros us vs x y i (A & B & _) E. exists i. auto. Qed.

Lemma spline_ok : forall us vs x cache, tabled us vs -> (S cache < length us)%nat -> hd 0 us <= x <= last us 0 ->
  exists y i, spline_eval (map Fin us) (map Fin vs) (Fin x) cache = Some (Fin y, i) /\
    (S i < length us)%nat /\ on_segment us vs x y.
Proof.
  intros us vs x cache (L & E & So) H Hx. unfold spline_eval. rewrite map_length, !nthF by lia.
  rewrite <- hd_nth, <- last_nth. rewrite (proj2 (ltb_fin_false _ _)), (proj2 (ltb_fin_false _ _)) by lra. cbn [orb].
  destruct (find_ok us x cache H Hx) as (i & -> & Li).
  destruct (segment_ok us vs x i E So) as (y & -> & Ey); [apply Li|].
  exists y, i. split; auto. split; [apply Li|]. eapply located_segment; eauto.
Qed.

Lemma increasing_ok : forall us, sorted us -> increasing (map Fin us) = true.
Proof.
  induction us as [|a [|b us] IH]; intros So; auto. cbn [map increasing]. apply andb_true_iff. split.
  - apply ltb_fin. apply (So 0%nat 1%nat). cbn. lia.
  - apply IH. intros i j H. apply (So (S i) (S j)). cbn [length] in *. lia.
Qed.

Lemma clip_ok : forall us vs a b x, (2 <= length us)%nat -> length us = length vs ->
  let t := Table (map Fin us) (map Fin vs) a b in
  (exists y, clip t (Fin x) = Some (Fin y) /\ beyond us vs x y) \/
  (clip t (Fin x) = None /\ hd 0 us <= x <= last us 0).
Proof.
  intros us vs a b x L E t. unfold clip, t. cbn [tx ty]. rewrite map_length, !nthF by lia.
  rewrite <- hd_nth, <- last_nth. replace (length us - 1)%nat with (length vs - 1)%nat by lia. rewrite <- hd_nth, <- last_nth.
  destruct (er_ltb (Fin x) (Fin (hd 0 us))) eqn:E1.
  - left. eexists. split; [reflexivity|]. left. apply ltb_fin in E1. auto.
  - apply ltb_fin_false in E1. destruct (er_ltb (Fin (last us 0)) (Fin x)) eqn:E2.
    + left. eexists. split; [reflexivity|]. right. apply ltb_fin in E2. auto.
    + apply ltb_fin_false in E2. right. split; auto.
Qed.

Theorem linear_value : forall us vs, tabled us vs -> exists t, new_linear (map Fin us) (map Fin vs) = Some t /\
  forall x cache, (S cache < length us)%nat ->
    exists y i, linear t (Fin x) cache = Some (Fin y, i) /\ (S i < length us)%nat /\ interpolates us vs x y.
Proof.
  intros us vs T. pose proof T as (L & E & So). unfold new_linear. rewrite increasing_ok by auto.
  eexists. split; [reflexivity|]. intros x cache H. unfold linear. cbn [gx gy].
  destruct (clip_ok us vs (map Fin us) (map Fin vs) x L E) as [(y & -> & B)|[-> B]].
  - exists y, cache. split; auto. split; auto. left. auto.
  - destruct (spline_ok us vs x cache T H B) as (y & i & -> & Hi & Sg). exists y, i. split; auto. split; auto. right. auto.
Qed.

(** ** The relation is what the claim says *)

Lemma segment_between : forall u0 u1 v0 v1 x y, u0 < u1 -> u0 <= x <= u1 ->
  (y - v0) * (u1 - u0) = (x - u0) * (v1 - v0) -> Rmin v0 v1 <= y <= Rmax v0 v1.
Proof.
  intros u0 u1 v0 v1 x y H Hx E.
  assert (R1 : Rmin v0 v1 <= v0) by apply Rmin_l. assert (R2 : Rmin v0 v1 <= v1) by apply Rmin_r.
  assert (R3 : v0 <= Rmax v0 v1) by apply Rmax_l. assert (R4 : v1 <= Rmax v0 v1) by apply Rmax_r.
  assert (F : y * (u1 - u0) = v0 * (u1 - x) + v1 * (x - u0)) by lra.
  split; apply Rmult_le_reg_r with (u1 - u0); try lra; rewrite F.
  - replace (Rmin v0 v1 * (u1 - u0)) with (Rmin v0 v1 * (u1 - x) + Rmin v0 v1 * (x - u0)) by ring.
    apply Rplus_le_compat; apply Rmult_le_compat_r; lra.
  - replace (Rmax v0 v1 * (u1 - u0)) with (Rmax v0 v1 * (u1 - x) + Rmax v0 v1 * (x - u0)) by ring.
    apply Rplus_le_compat; apply Rmult_le_compat_r; lra.
Qed.

Lemma beyond_not : forall us vs x y, tabled us vs -> beyond us vs x y -> ~ hd 0 us <= x <= last us 0.
Proof. intros us vs x y T [[H _]|[H _]]; lra. Qed.

Lemma segment_within : forall us vs x y, sorted us -> on_segment us vs x y -> hd 0 us <= x <= last us 0.
Proof.
  intros us vs x y So (i & H & Hx & _). rewrite hd_nth, last_nth.
  assert (nth 0 us 0 <= nth i us 0) by (apply sorted_le; auto; lia).
  assert (nth (S i) us 0 <= nth (length us - 1) us 0) by (apply sorted_le; auto; lia). lra.
Qed.

Lemma segment_at : forall us vs x y i, sorted us -> (S i < length us)%nat -> nth i us 0 <= x <= nth (S i) us 0 ->
  on_segment us vs x y ->
  (y - nth i vs 0) * (nth (S i) us 0 - nth i us 0) = (x - nth i us 0) * (nth (S i) vs 0 - nth i vs 0).
Proof.
  intros us vs x y i So Hi Hx (j & Hj & Hxj & E).
  assert (Di : nth i us 0 < nth (S i) us 0) by (apply So; lia).
  assert (Dj : nth j us 0 < nth (S j) us 0) by (apply So; lia).
  destruct (Nat.lt_trichotomy i j) as [L|[L|L]].
  - assert (nth (S i) us 0 <= nth j us 0) by (apply sorted_le; auto; lia).
    assert (Q : S i = j).
    { destruct (Nat.eq_dec (S i) j) as [Q|Q]; auto. assert (nth (S i) us 0 < nth j us 0) by (apply So; lia). lra. }
    subst j. assert (X : x = nth (S i) us 0) by lra. subst x.
    assert (Y : y = nth (S i) vs 0).
    { assert (F : (y - nth (S i) vs 0) * (nth (S (S i)) us 0 - nth (S i) us 0) = 0) by (rewrite E; ring).
      apply Rmult_integral in F. lra. }
    subst y. ring.
  - subst j. exact E.
  - assert (nth (S j) us 0 <= nth i us 0) by (apply sorted_le; auto; lia).
    assert (Q : S j = i).
    { destruct (Nat.eq_dec (S j) i) as [Q|Q]; auto. assert (nth (S j) us 0 < nth i us 0) by (apply So; lia). lra. }
    subst i. assert (X : x = nth (S j) us 0) by lra. subst x.
    assert (Y : y = nth (S j) vs 0).
    { assert (F : (y - nth (S j) vs 0) * (nth (S j) us 0 - nth j us 0) = 0).
      { rewrite Rmult_minus_distr_r. replace (y * (nth (S j) us 0 - nth j us 0)) with
          ((y - nth j vs 0) * (nth (S j) us 0 - nth j us 0) + nth j vs 0 * (nth (S j) us 0 - nth j us 0)) by ring.
        rewrite E. ring. }
      apply Rmult_integral in F. lra. }
    subst y. ring.
Qed.

Theorem interpolation_meaning : forall us vs x y, tabled us vs -> interpolates us vs x y ->
  (forall i, (i < length us)%nat -> x = nth i us 0 -> y = nth i vs 0) /\
  (forall i, (S i < length us)%nat -> nth i us 0 <= x <= nth (S i) us 0 ->
     Rmin (nth i vs 0) (nth (S i) vs 0) <= y <= Rmax (nth i vs 0) (nth (S i) vs 0)) /\
  (x <= hd 0 us -> y = hd 0 vs) /\ (last us 0 <= x -> y = last vs 0) /\
  (forall y', interpolates us vs x y' -> y' = y).
Proof.
  intros us vs x y T I. pose proof T as (L & E & So).
  assert (W : forall i, (i < length us)%nat -> hd 0 us <= nth i us 0 <= last us 0).
  { intros i H. rewrite hd_nth, last_nth. split; apply sorted_le; auto; lia. }
  assert (P : forall i z, (i < length us)%nat -> on_segment us vs (nth i us 0) z -> z = nth i vs 0).
  { intros i z H Sg. destruct (Nat.lt_ge_cases (S i) (length us)) as [G|G].
    - assert (Di : nth i us 0 < nth (S i) us 0) by (apply So; lia).
      pose proof (segment_at us vs (nth i us 0) z i So G ltac:(lra) Sg) as Q.
      assert (F : (z - nth i vs 0) * (nth (S i) us 0 - nth i us 0) = 0) by (rewrite Q; ring).
      apply Rmult_integral in F. lra.
    - destruct i as [|i]; [lia|]. assert (Di : nth i us 0 < nth (S i) us 0) by (apply So; lia).
      pose proof (segment_at us vs (nth (S i) us 0) z i So ltac:(lia) ltac:(lra) Sg) as Q.
      assert (F : (z - nth (S i) vs 0) * (nth (S i) us 0 - nth i us 0) = 0).
      { rewrite Rmult_minus_distr_r. replace (z * (nth (S i) us 0 - nth i us 0)) with
          ((z - nth i vs 0) * (nth (S i) us 0 - nth i us 0) + nth i vs 0 * (nth (S i) us 0 - nth i us 0)) by ring.
        rewrite Q. ring. }
      apply Rmult_integral in F. lra. }
  assert (H0 : nth 0 us 0 < nth (length us - 1) us 0) by (apply So; lia).
  rewrite <- hd_nth, <- last_nth in H0.
  refine (conj _ (conj _ (conj _ (conj _ _)))).
  - intros i H X. subst x. destruct I as [B|Sg]; [exfalso; eapply beyond_not; eauto|]. apply P; auto.
  - intros i H Hx. assert (Di : nth i us 0 < nth (S i) us 0) by (apply So; lia).
    destruct I as [B|Sg].
    + exfalso. eapply beyond_not; eauto. pose proof (W i ltac:(lia)). pose proof (W (S i) ltac:(lia)). lra.
    + eapply segment_between; [exact Di|exact Hx|]. apply segment_at; auto.
  - intros H. destruct I as [[[_ B]|[B _]]|Sg]; [auto|exfalso; lra|].
    pose proof (segment_within _ _ _ _ So Sg). assert (X : x = nth 0 us 0) by (rewrite <- hd_nth; lra). subst x.
    rewrite hd_nth. apply P; auto. lia.
  - intros H. destruct I as [[[B _]|[_ B]]|Sg]; [exfalso; lra|auto|].
    pose proof (segment_within _ _ _ _ So Sg). assert (X : x = nth (length us - 1) us 0) by (rewrite <- last_nth; lra). subst x.
    rewrite last_nth. rewrite <- E. apply P; auto. lia.
  - intros y' I'. destruct I as [B|Sg], I' as [B'|Sg'].
    + destruct B as [[? ->]|[? ->]], B' as [[? ->]|[? ->]]; auto; lra.
    + exfalso. eapply beyond_not; eauto. eapply segment_within; eauto.
    + exfalso. eapply beyond_not; eauto. eapply segment_within; eauto.
    + destruct Sg as (i & Hi & Hx & Q). pose proof (segment_at us vs x y' i So Hi Hx Sg') as Q'.
      assert (Di : nth i us 0 < nth (S i) us 0) by (apply So; lia).
      assert (F : (y' - y) * (nth (S i) us 0 - nth i us 0) = 0) by lra.
      apply Rmult_integral in F. lra.
Qed.

(** Whatever was evaluated before. *)
Lemma history : forall (us : list R) eval (P : R -> R -> Prop),
  (forall x c, (S c < length us)%nat -> exists y i, eval (Fin x) c = Some (Fin y, i) /\ (S i < length us)%nat /\ P x y) ->
  forall xs c, (S c < length us)%nat ->
  exists ys, evaluate_all eval (map Fin xs) c = Some (map Fin ys) /\ Forall2 P xs ys.
Proof.
  intros us eval P H xs. induction xs as [|x xs IH]; intros c Hc; [exists []; split; auto|].
  cbn [map evaluate_all]. destruct (H x c Hc) as (y & i & -> & Hi & Py). destruct (IH i Hi) as (ys & -> & F).
  exists (y :: ys). split; auto.
Qed.

Theorem linear_history : forall us vs xs, tabled us vs -> exists t ys,
  new_linear (map Fin us) (map Fin vs) = Some t /\
  evaluate_all (linear t) (map Fin xs) 0 = Some (map Fin ys) /\ Forall2 (interpolates us vs) xs ys.
Proof.
  intros us vs xs T. destruct (linear_value us vs T) as (t & E & V). exists t.
  destruct (history us (linear t) (interpolates us vs) V xs 0%nat) as (ys & A & B); [destruct T; lia|]. eauto.
Qed.

(** Infinite and undefined arguments. *)
Theorem linear_special : forall us vs t cache, tabled us vs -> new_linear (map Fin us) (map Fin vs) = Some t ->
  (S cache < length us)%nat ->
  linear t PInf cache = Some (Fin (last vs 0), cache) /\ linear t MInf cache = Some (Fin (hd 0 vs), cache) /\
  linear t NaN cache = Some (NaN, cache).
Proof.
  intros us vs t cache (L & E & So) N H. unfold new_linear in N. destruct (increasing (map Fin us)); inversion N; subst.
  unfold linear, clip, spline_eval, accel_find, accel_search. cbn [tx ty gx gy]. rewrite map_length, !nthF by lia.
  rewrite last_nth, <- E, hd_nth. cbn. repeat split.
  unfold segment. rewrite !nthF by lia. rewrite !er_sub_fin. cbn [er_ltb].
  assert (D : nth cache us 0 < nth (S cache) us 0) by (apply So; lia).
  rewrite (proj2 (Rltb_true 0 (nth (S cache) us 0 - nth cache us 0))) by lra. reflexivity.
Qed.

(** ** Logarithms *)

Lemma log_map : forall l, positive l -> map er_log (map Fin l) = map Fin (map ln l).
Proof.
  intros l H. induction H as [|a l Ha _ IH]; auto. cbn [map]. rewrite IH, er_log_pos by auto. reflexivity.
Qed.

Lemma positive_nth : forall l i, positive l -> (i < length l)%nat -> 0 < nth i l 0.
Proof. intros l i H L. unfold positive in H. rewrite Forall_forall in H. apply H. apply nth_In. auto. Qed.

Lemma nth_ln : forall l i, (i < length l)%nat -> nth i (map ln l) 0 = ln (nth i l 0).
Proof.
  intros l i H. rewrite (nth_indep _ 0 (ln 0)) by (rewrite map_length; auto). apply map_nth.
Qed.

Lemma log_sorted : forall us, positive us -> sorted us -> sorted (map ln us).
Proof.
  intros us P So i j H. rewrite map_length in H. rewrite !nth_ln by lia. apply ln_increasing; [apply positive_nth; auto; lia|].
  apply So. auto.
Qed.

Theorem loglog_value : forall us vs, tabled us vs -> positive us -> positive vs ->
  exists t, new_loglog (map Fin us) (map Fin vs) = Some t /\
  forall x cache, (S cache < length us)%nat ->
    exists y i, loglog t (Fin x) cache = Some (Fin y, i) /\ (S i < length us)%nat /\ log_interpolates us vs x y.
Proof.
  intros us vs T Pu Pv. pose proof T as (L & E & So). unfold new_loglog. rewrite !log_map by auto.
  pose proof (log_sorted us Pu So) as Sl. rewrite increasing_ok by auto.
  eexists. split; [reflexivity|]. intros x cache H. unfold loglog. cbn [gx gy].
  destruct (clip_ok us vs (map Fin (map ln us)) (map Fin (map ln vs)) x L E) as [(y & -> & B)|[-> B]].
  - exists y, cache. split; auto. split; auto. left. auto.
  - assert (X : 0 < x).
    { assert (0 < hd 0 us) by (rewrite hd_nth; apply positive_nth; auto; lia). lra. }
    rewrite er_log_pos by auto.
    assert (T' : tabled (map ln us) (map ln vs)) by (unfold tabled; rewrite !map_length; auto).
    destruct (spline_ok (map ln us) (map ln vs) (ln x) cache T') as (y & i & -> & Hi & Sg).
    + rewrite map_length. auto.
    + rewrite hd_nth, last_nth, map_length, !nth_ln by lia. rewrite hd_nth, last_nth in B.
      assert (A0 : 0 < nth 0 us 0) by (apply positive_nth; auto; lia).
      assert (A1 : forall a b, 0 < a -> a <= b -> ln a <= ln b).
      { intros a b Ha [Hab|Hab]; [left; apply ln_increasing; auto|subst; lra]. }
      split; apply A1; auto; lra.
    + rewrite map_length in Hi. exists (exp y), i. split; auto. split; auto. right. split; auto. split; [apply exp_pos|].
      rewrite ln_exp. exact Sg.
Qed.

Theorem loglog_history : forall us vs xs, tabled us vs -> positive us -> positive vs -> exists t ys,
  new_loglog (map Fin us) (map Fin vs) = Some t /\
  evaluate_all (loglog t) (map Fin xs) 0 = Some (map Fin ys) /\ Forall2 (log_interpolates us vs) xs ys.
Proof.
  intros us vs xs T Pu Pv. destruct (loglog_value us vs T Pu Pv) as (t & E & V). exists t.
  destruct (history us (loglog t) (log_interpolates us vs) V xs 0%nat) as (ys & A & B); [destruct T; lia|]. eauto.
Qed.

Lemma exp_min : forall a b, exp (Rmin a b) = Rmin (exp a) (exp b).
Proof.
  intros a b. unfold Rmin. destruct (Rle_dec a b) as [H|H], (Rle_dec (exp a) (exp b)) as [G|G]; auto; exfalso.
  - apply G. destruct H as [H|H]; [left; apply exp_increasing; auto|subst; lra].
  - apply Rnot_le_lt in H. apply exp_increasing in H. lra.
Qed.
Lemma exp_max : forall a b, exp (Rmax a b) = Rmax (exp a) (exp b).
Proof.
  intros a b. unfold Rmax. destruct (Rle_dec a b) as [H|H], (Rle_dec (exp a) (exp b)) as [G|G]; auto; exfalso.
  - apply G. destruct H as [H|H]; [left; apply exp_increasing; auto|subst; lra].
  - apply Rnot_le_lt in H. apply exp_increasing in H. lra.
Qed.

Theorem log_meaning : forall us vs x y, tabled us vs -> positive us -> positive vs -> log_interpolates us vs x y ->
  (forall i, (i < length us)%nat -> x = nth i us 0 -> y = nth i vs 0) /\
  (forall i, (S i < length us)%nat -> nth i us 0 <= x <= nth (S i) us 0 ->
     Rmin (nth i vs 0) (nth (S i) vs 0) <= y <= Rmax (nth i vs 0) (nth (S i) vs 0)) /\
  (x < hd 0 us -> y = hd 0 vs) /\ (last us 0 < x -> y = last vs 0).
Proof.
  intros us vs x y T Pu Pv I. pose proof T as (L & E & So).
  assert (W : forall i, (i < length us)%nat -> hd 0 us <= nth i us 0 <= last us 0).
  { intros i H. rewrite hd_nth, last_nth. split; apply sorted_le; auto; lia. }
  destruct I as [B|(B & Py & Sg)].
  - refine (conj _ (conj _ (conj _ _))).
    + intros i H ->. exfalso. eapply beyond_not; eauto.
    + intros i H Hx. exfalso. eapply beyond_not; eauto. pose proof (W i ltac:(lia)). pose proof (W (S i) ltac:(lia)). lra.
    + intros H. destruct B as [[_ B]|[B _]]; auto. exfalso. pose proof (W 0%nat ltac:(lia)). lra.
    + intros H. destruct B as [[B _]|[_ B]]; auto. exfalso. pose proof (W 0%nat ltac:(lia)). lra.
  - assert (T' : tabled (map ln us) (map ln vs)) by (unfold tabled; rewrite !map_length; auto using log_sorted).
    destruct (interpolation_meaning (map ln us) (map ln vs) (ln x) (ln y) T' (or_intror Sg)) as (A1 & A2 & _).
    rewrite map_length in *. assert (X : 0 < x). { assert (0 < hd 0 us) by (rewrite hd_nth; apply positive_nth; auto; lia). lra. }
    assert (Ln : forall a b, 0 < a -> a <= b -> ln a <= ln b).
    { intros a b Ha [Hab|Hab]; [left; apply ln_increasing; auto|subst; lra]. }
    refine (conj _ (conj _ (conj _ _))).
    + intros i H ->. apply ln_inv; auto; [apply positive_nth; auto; lia|]. rewrite <- nth_ln by lia. apply A1; auto. rewrite nth_ln by lia. reflexivity.
    + intros i H Hx. assert (Pi : 0 < nth i us 0) by (apply positive_nth; auto; lia).
      specialize (A2 i H). rewrite !nth_ln in A2 by lia. specialize (A2 ltac:(split; apply Ln; lra)).
      assert (V0 : 0 < nth i vs 0) by (apply positive_nth; auto; lia).
      assert (V1 : 0 < nth (S i) vs 0) by (apply positive_nth; auto; lia).
      assert (Ex : forall a b, a <= b -> exp a <= exp b).
      { intros a b [Hab|Hab]; [left; apply exp_increasing; auto|subst; lra]. }
      destruct A2 as [B1 B2]. apply Ex in B1, B2. rewrite exp_min in B1. rewrite exp_max in B2. rewrite !exp_ln in * by auto. auto.
    + intros H. exfalso. lra.
    + intros H. exfalso. lra.
Qed.

(** A table with a zero value: undefined even at a point of the table. *)
Lemma refute_loglog : exists us vs t i y, tabled us vs /\ positive us /\
  new_loglog (map Fin us) (map Fin vs) = Some t /\
  nth 0 us 0 = 1 /\ nth 0 vs 0 = 1 /\ loglog t (Fin 1) 0 = Some (y, i) /\ y = NaN.
Proof.
  assert (P2 : ln 1 < ln 2) by (apply ln_increasing; lra).
  exists [1; 2], [1; 0], (Table (map Fin [1; 2]) (map Fin [1; 0]) [Fin (ln 1); Fin (ln 2)] [Fin (ln 1); MInf]), 0%nat, NaN.
  refine (conj _ (conj _ (conj _ (conj eq_refl (conj eq_refl (conj _ eq_refl)))))).
  - split; [cbn; lia|]. split; [reflexivity|]. intros i j H. cbn in H. assert (i = 0%nat /\ j = 1%nat) as [-> ->] by lia. cbn. lra.
  - constructor; [lra|]. constructor; [lra|]. constructor.
  - unfold new_loglog. cbn [map]. rewrite er_log_zero, !er_log_pos by lra. cbn [increasing].
    rewrite (proj2 (ltb_fin _ _)) by auto. reflexivity.
  - unfold loglog, clip. cbn [tx ty gx gy map length Nat.sub nth].
    rewrite (proj2 (ltb_fin_false 1 1)), (proj2 (ltb_fin_false 2 1)) by lra. rewrite er_log_pos by lra.
    unfold spline_eval, accel_find, accel_search. cbn [length Nat.sub nth].
    rewrite (proj2 (ltb_fin_false (ln 1) (ln 1))), (proj2 (ltb_fin_false (ln 2) (ln 1))) by lra. cbn [orb].
    rewrite (proj2 (leb_fin_false (ln 2) (ln 1))) by lra.
    unfold segment. cbn [nth]. rewrite er_sub_fin. rewrite (proj2 (ltb_fin 0 (ln 2 - ln 1))) by lra.
    rewrite er_sub_fin. rewrite er_div_fin by lra. cbn.
    replace ((ln 1 - ln 1) / (ln 2 - ln 1)) with 0 by (field; lra).
    unfold er_inf_times. rewrite (proj2 (Rltb_false 0 0)) by lra. reflexivity.
Qed.

(** ** Several threads *)

(** The remembered index and those the threads hold are in the table. *)
Definition safe_point (us : list R) (e : evaluator) : Prop :=
  (exists x, arg e = Fin x /\ hd 0 us <= x <= last us 0) /\
  match point e with Store i | Found i => (S i < length us)%nat | _ => True end.

Lemma advance_ok : forall us e cache, safe_point us e -> (S cache < length us)%nat ->
  exists c e', advance (map Fin us) e cache = Some (c, e') /\ (S c < length us)%nat /\ safe_point us e' /\ arg e' = arg e.
Proof.
  intros us [a p] cache [(x & Ea & Hx) Hp] H. cbn [arg point] in *. subst a. unfold advance. cbn [point arg].
  destruct p as [|i| |i].
  - destruct (search_ok us x cache H Hx) as [[_ ->]|(i & Li & ->)].
    + eexists. eexists. split; [reflexivity|]. split; auto. split; [split; cbn; eauto|reflexivity].
    + eexists. eexists. split; [reflexivity|]. split; auto. split; [split; cbn; eauto|reflexivity]. apply Li.
  - eexists. eexists. split; [reflexivity|]. split; auto. split; [split; cbn; eauto|reflexivity].
  - eexists. eexists. split; [reflexivity|]. split; auto. split; [split; cbn; eauto|reflexivity].
  - eexists. eexists. split; [reflexivity|]. split; auto. split; [split; cbn; eauto|reflexivity].
Qed.

Lemma set_forall : forall A (P : A -> Prop) k v l, Forall P l -> P v -> Forall P (set_nth k v l).
Proof. intros A P k v l H. revert k. induction H as [|a l Ha H IH]; intros [|k] Hv; cbn; constructor; auto. Qed.

Lemma set_args : forall k e es, nth_error es k = Some e -> forall e', arg e' = arg e ->
  map arg (set_nth k e' es) = map arg es.
Proof.
  intros k e es. revert k. induction es as [|a es IH]; intros [|k] E e' Q; cbn in *; try discriminate.
  - inversion E; subst. rewrite Q. reflexivity.
  - f_equal. eapply IH; eauto.
Qed.

Lemma interleave_ok : forall us sched es cache, Forall (safe_point us) es -> (S cache < length us)%nat ->
  exists es' c, interleave (map Fin us) sched es cache = Some (es', c) /\ (S c < length us)%nat /\
    Forall (safe_point us) es' /\ map arg es' = map arg es.
Proof.
  intros us sched. induction sched as [|k sched IH]; intros es cache F H; cbn [interleave]; [exists es, cache; auto|].
  destruct (nth_error es k) as [e|] eqn:E; [|auto].
  assert (Pe : safe_point us e) by (rewrite Forall_forall in F; apply F; eapply nth_error_In; eauto).
  destruct (advance_ok us e cache Pe H) as (c & e' & -> & Hc & Pe' & Q).
  destruct (IH (set_nth k e' es) c) as (es' & c' & E1 & E2 & E3 & E4); auto.
  { apply set_forall; auto. }
  exists es', c'. split; auto. split; auto. split; auto. rewrite E4. eapply set_args; eauto.
Qed.

Theorem threads_safe : forall us vs xs sched cache, tabled us vs -> within us xs -> (S cache < length us)%nat ->
  exists es c, interleave (map Fin us) sched (threads_at (map Fin xs)) cache = Some (es, c) /\ map arg es = map Fin xs /\
    forall e y, In e es -> outcome_of (map Fin us) (map Fin vs) e = Some y ->
      exists x z, arg e = Fin x /\ y = Fin z /\ on_line us vs x z.
Proof.
  intros us vs xs sched cache (L & E & So) W H.
  assert (F : Forall (safe_point us) (threads_at (map Fin xs))).
  { unfold threads_at. rewrite map_map, Forall_map. eapply Forall_impl; [|exact W]. cbn. intros x Hx. split; cbn; eauto. }
  destruct (interleave_ok us sched _ cache F H) as (es & c & E1 & _ & E3 & E4).
  exists es, c. split; auto. split.
  - rewrite E4. unfold threads_at. rewrite map_map. cbn. apply map_id.
  - intros e y He O. rewrite Forall_forall in E3. destruct (E3 e He) as [(x & Ex & _) Hp].
    unfold outcome_of in O. destruct (point e) as [|i| |i]; try discriminate. inversion O; subst. rewrite Ex.
    destruct (segment_ok us vs x i E So Hp) as (z & Ez & Eq). exists x, z. split; auto. split; auto. exists i. auto.
Qed.

(** A thread that is not disturbed. *)
Theorem thread_alone : forall us vs x cache, tabled us vs -> hd 0 us <= x <= last us 0 -> (S cache < length us)%nat ->
  exists e y c, interleave (map Fin us) [0; 0; 0]%nat (threads_at [Fin x]) cache = Some ([e], c) /\
    outcome_of (map Fin us) (map Fin vs) e = Some (Fin y) /\ interpolates us vs x y.
Proof.
  intros us vs x cache (L & E & So) Hx H. cbn [threads_at map interleave nth_error advance point arg].
  destruct (search_ok us x cache H Hx) as [[Lo ->]|(i & Lo & ->)]; cbn [set_nth nth_error advance point arg].
  - destruct (segment_ok us vs x cache E So H) as (y & Ey & Q).
    eexists. exists y. eexists. split; [reflexivity|]. unfold outcome_of. cbn [point arg]. rewrite Ey. split; auto.
    right. eapply located_segment; eauto.
  - destruct (segment_ok us vs x i E So) as (y & Ey & Q); [apply Lo|].
    eexists. exists y. eexists. split; [reflexivity|]. unfold outcome_of. cbn [point arg]. rewrite Ey. split; auto.
    right. eapply located_segment; eauto.
Qed.

(** Two threads: a negative value from a table without one. *)
Lemma refute_threads : exists us vs xs sched es c e y,
  tabled us vs /\ within us xs /\ Forall (fun v => 0 <= v) vs /\
  interleave (map Fin us) sched (threads_at (map Fin xs)) 0 = Some (es, c) /\ In e es /\
  outcome_of (map Fin us) (map Fin vs) e = Some (Fin y) /\ y < 0.
Proof.
  exists [0; 1; 2], [0; 0; 4], [1 / 2; 3 / 2], [0; 1; 1; 0]%nat.
  exists [Evaluator (Fin (1 / 2)) (Found 1); Evaluator (Fin (3 / 2)) Reload], 1%nat.
  exists (Evaluator (Fin (1 / 2)) (Found 1)), (-2).
  refine (conj _ (conj _ (conj _ (conj _ (conj _ (conj _ _)))))).
  - split; [cbn; lia|]. split; [reflexivity|]. intros i j H. cbn in H.
    destruct i as [|[|i]], j as [|[|[|j]]]; try lia; cbn; lra.
  - constructor; [cbn; lra|]. constructor; [cbn; lra|]. constructor.
  - repeat (constructor; [lra|]). constructor.
  - cbn [map threads_at interleave nth_error]. unfold advance at 1. cbn [point arg]. unfold accel_search. cbn [nth].
    rewrite (proj2 (ltb_fin_false (1 / 2) 0)), (proj2 (leb_fin_false 1 (1 / 2))) by lra.
    cbn [set_nth interleave nth_error]. unfold advance at 1. cbn [point arg]. unfold accel_search. cbn [nth length Nat.sub].
    rewrite (proj2 (ltb_fin_false (3 / 2) 0)), (proj2 (leb_fin 1 (3 / 2))) by lra.
    cbn [bsearch Nat.ltb Nat.leb]. change ((2 + 0) / 2)%nat with 1%nat. cbn [nth].
    rewrite (proj2 (ltb_fin_false (3 / 2) 1)) by lra. cbn [bsearch Nat.ltb Nat.leb option_map]. reflexivity.
  - left. reflexivity.
  - unfold outcome_of. cbn [point arg]. unfold segment. cbn [nth map]. rewrite !er_sub_fin.
    rewrite (proj2 (ltb_fin 0 (2 - 1))) by lra. rewrite er_div_fin by lra. cbn. do 2 f_equal. lra.
  - lra.
Qed.
