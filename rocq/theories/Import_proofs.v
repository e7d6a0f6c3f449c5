(** * Proofs about imported functions (C69) *)
From Coq Require Import Reals List Lra Lia Bool Arith.
From Verif Require Import Num ER ERmath ER_proofs Lognormal Lognormal_spec Lognormal_proofs Damage Damage_proofs2.
From Verif Require Import Functions Functions_spec Functions_proofs Functions_proofs2 Import Import_spec.
Import ListNotations.
Local Open Scope R_scope.

(** ** One row *)

Lemma ln_values_ok : forall ys, Forall (fun y => 0 <= y) ys ->
  ln_values (map Fin ys) = Returns (map Fin (map ln (survived ys))).
Proof.
  induction ys as [|y ys IH]; intros F; auto. inversion F; subst. cbn [map ln_values survived filter].
  cbn [er_eqb]. destruct (Reqb y 0) eqn:E; cbn [negb].
  - apply IH; auto.
  - apply Reqb_false in E. rewrite (proj2 (ltb_fin_false y 0)) by lra. rewrite IH by auto. cbn [bind map].
    rewrite er_log_pos by lra. reflexivity.
Qed.

Lemma sum_ok : forall l, np_sum (map Fin l) = Fin (total l).
Proof. induction l as [|a l IH]; auto. unfold np_sum in *. cbn [map fold_right]. rewrite IH. reflexivity. Qed.

Lemma INR_pos : forall n, (0 < n)%nat -> INR n <> 0.
Proof. intros n H. apply not_0_INR. lia. Qed.

Definition avg (l : list R) : R := total l / INR (length l).
Definition sd (l : list R) : R := sqrt (total (map (fun v => (v - avg l) * (v - avg l)) l) / INR (length l - 1)).

Lemma mean_ok : forall l, (0 < length l)%nat -> np_mean (map Fin l) = Fin (avg l).
Proof. intros l H. unfold np_mean. rewrite sum_ok, map_length. apply er_div_fin. apply INR_pos. auto. Qed.

Lemma squares_nonneg : forall m l, 0 <= total (map (fun v => (v - m) * (v - m)) l).
Proof.
  induction l as [|a l IH]; [cbn; lra|]. cbn [map total fold_right]. unfold total in IH.
  pose proof (Rle_0_sqr (a - m)). unfold Rsqr in *. lra.
Qed.

Lemma std_ok : forall l, (2 <= length l)%nat -> np_std (map Fin l) = Fin (sd l).
Proof.
  intros l H. unfold np_std. rewrite mean_ok by lia. rewrite map_map, map_length.
  rewrite (map_ext _ (fun v => Fin ((v - avg l) * (v - avg l)))) by (intros; rewrite er_sub_fin; reflexivity).
  rewrite <- (map_map (fun v => (v - avg l) * (v - avg l)) Fin), sum_ok.
  rewrite er_div_fin by (apply INR_pos; lia). cbn [er_sqrt].
  assert (P : 0 < INR (length l - 1)) by (apply lt_0_INR; lia).
  rewrite (proj2 (Rltb_false _ 0)); [reflexivity|].
  apply Rmult_le_pos; [apply squares_nonneg|]. left. apply Rinv_0_lt_compat. auto.
Qed.

Lemma std_none : forall l, (length l <= 1)%nat -> np_std (map Fin l) = NaN.
Proof.
  intros [|a [|b l]] H; [| |cbn in H; lia]; unfold np_std.
  - cbn. rewrite (proj2 (Reqb_true 0 0)) by reflexivity. unfold er_inf_times.
    rewrite (proj2 (Rltb_false 0 0)) by lra. reflexivity.
  - rewrite mean_ok by (cbn; lia). unfold avg. cbn [map length Nat.sub]. rewrite er_sub_fin. cbn [er_mul].
    unfold np_sum. cbn [fold_right er_add er_div INR]. rewrite (proj2 (Reqb_true 0 0)) by reflexivity.
    replace ((a - total [a] / 1) * (a - total [a] / 1) + 0) with 0 by (unfold total; cbn; field).
    unfold er_inf_times. rewrite (proj2 (Rltb_false 0 0)) by lra. reflexivity.
Qed.

Lemma fits_ok : forall ys, (2 <= length (survived ys))%nat ->
  fits ys (avg (map ln (survived ys))) (sd (map ln (survived ys))).
Proof.
  intros ys H. unfold fits. set (l := map ln (survived ys)). assert (L : (2 <= length l)%nat) by (unfold l; rewrite map_length; auto).
  assert (A : average l (avg l)).
  { unfold average, avg. field. apply INR_pos. lia. }
  split; [exact A|]. exists (avg l). split; [exact A|]. split; [apply sqrt_pos|].
  assert (P : 0 < INR (length l - 1)) by (apply lt_0_INR; lia).
  unfold sd. rewrite sqrt_sqrt.
  - replace (INR (length l) - 1) with (INR (length l - 1)) by (rewrite minus_INR by lia; reflexivity).
    unfold Rdiv. rewrite Rmult_assoc, Rinv_l by lra. apply Rmult_1_r.
  - apply Rmult_le_pos; [apply squares_nonneg|]. left. apply Rinv_0_lt_compat. auto.
Qed.

(** ** The file *)

Lemma load_ok : forall data, (2 <= length data)%nat ->
  (exists n, (0 < n)%nat /\ Forall (fun r => length (snd r) = n) data) -> load (as_file data) = Returns (as_file data).
Proof.
  intros data H (n & N & F). unfold load. destruct data as [|r [|r' data]]; try (cbn in H; lia).
  change (as_file (r :: r' :: data)) with ((Fin (fst r) :: map Fin (snd r)) :: (Fin (fst r') :: map Fin (snd r')) :: as_file data) at 1.
  cbv iota beta. rewrite (proj2 (andb_true_iff _ _)); [reflexivity|]. split.
  - apply forallb_forall. intros s I. apply in_map_iff in I. destruct I as (q & <- & I).
    rewrite Forall_forall in F. cbn [length]. rewrite !map_length, (F q I), (F r (or_introl eq_refl)). apply Nat.eqb_refl.
  - inversion F; subst. cbn [length]. rewrite map_length. apply Nat.leb_le. lia.
Qed.

Definition result (r : row) : er * er * er :=
  let l := map Fin (map ln (survived (snd r))) in (Fin (fst r), er_exp (np_mean l), np_std l).

Lemma rows_ok : forall data, Forall (fun r => Forall (fun y => 0 <= y) (snd r)) data ->
  import_rows (as_file data) = Returns (map result data).
Proof.
  induction data as [|r data IH]; intros F; auto. inversion F; subst. cbn [as_file map import_rows import_row].
  rewrite ln_values_ok by auto. cbn [bind]. unfold as_file in IH. rewrite IH by auto. reflexivity.
Qed.

Lemma rectangular_parts : forall data, rectangular data ->
  (2 <= length data)%nat /\ (exists n, (0 < n)%nat /\ Forall (fun r => length (snd r) = n) data) /\
  Forall (fun r => Forall (fun y => 0 <= y) (snd r)) data.
Proof.
  intros data (L & n & N & F). split; auto. split.
  - exists n. split; auto. eapply Forall_impl; [|exact F]. intros r H. apply H.
  - eapply Forall_impl; [|exact F]. intros r H. apply H.
Qed.

Definition xs_of (data : list row) : list R := 0 :: map fst data.
Definition mus_of (data : list row) : list er := Fin 0 :: map (fun r => snd (fst (result r))) data.
Definition sds_of (data : list row) : list er := Fin 0 :: map (fun r => snd (result r)) data.

Lemma import_shape : forall data, rectangular data ->
  import_probfn (as_file data) =
  if increasing (map Fin (xs_of data))
  then Returns (Tabulated LIN (Table (map Fin (xs_of data)) (mus_of data) (map Fin (xs_of data)) (mus_of data)),
                Tabulated LIN (Table (map Fin (xs_of data)) (sds_of data) (map Fin (xs_of data)) (sds_of data)))
  else Undefined.
Proof.
  intros data Re. destruct (rectangular_parts data Re) as (L & W & P). unfold import_probfn.
  rewrite load_ok by auto. cbn [bind]. rewrite rows_ok by auto. cbn [bind].
  replace (map (fun t => fst (fst t)) (map result data)) with (map Fin (map fst data)) by (rewrite !map_map; reflexivity).
  change (Fin 0 :: map Fin (map fst data)) with (map Fin (xs_of data)). cbv zeta.
  replace (Fin 0 :: map (fun t => snd (fst t)) (map result data)) with (mus_of data) by (unfold mus_of; rewrite map_map; reflexivity).
  replace (Fin 0 :: map snd (map result data)) with (sds_of data) by (unfold sds_of; rewrite map_map; reflexivity).
  cbn [detfn factory3].
  assert (K : forall l, length l = length data -> forall z,
    (length (map Fin (xs_of data)) <? 2)%nat || negb (length (map Fin (xs_of data)) =? length ((z : er) :: l))%nat = false).
  { intros l E z. unfold xs_of. rewrite map_length. cbn [length]. rewrite map_length, E, Nat.eqb_refl. cbn [negb].
    rewrite orb_false_r. apply Nat.ltb_ge. exact (le_S _ _ L). }
  unfold mus_of, sds_of. rewrite !K by (rewrite map_length; auto). unfold new_linear.
  destruct (increasing (map Fin (xs_of data))); reflexivity.
Qed.

Lemma increasing_sorted : forall us, increasing (map Fin us) = true -> sorted us.
Proof.
  induction us as [|a [|b us] IH]; intros H i j K; [cbn in K; lia|cbn in K; lia|].
  cbn [map increasing] in H. apply andb_true_iff in H. destruct H as [A B]. apply ltb_fin in A.
  assert (So : sorted (b :: us)) by (apply IH; exact B).
  destruct j as [|j]; [lia|]. destruct i as [|i].
  - change (a < nth j (b :: us) 0). assert (Q : b <= nth j (b :: us) 0).
    { apply (sorted_le (b :: us) 0 j); auto. cbn [length] in *. lia. }
    lra.
  - change (nth i (b :: us) 0 < nth j (b :: us) 0). apply So. cbn [length] in *. lia.
Qed.

Theorem import_disorder : forall data, rectangular data -> ~ ordered data -> import_probfn (as_file data) = Undefined.
Proof.
  intros data Re O. rewrite import_shape by auto. destruct (increasing (map Fin (xs_of data))) eqn:E; auto.
  exfalso. apply O. apply increasing_sorted in E. exact E.
Qed.

(** ** Values *)

Lemma value_linear : forall us vs x i, tabled us vs -> (S i < length us)%nat ->
  exists y, value_at (Tabulated LIN (Table (map Fin us) (map Fin vs) (map Fin us) (map Fin vs))) (Fin x) i = Returns (Fin y) /\
    interpolates us vs x y.
Proof.
  intros us vs x i T H. destruct (linear_value us vs T) as (t & E & V). unfold new_linear in E.
  rewrite increasing_ok in E by apply T. inversion E; subst t. destruct (V x i H) as (y & j & Ey & _ & I).
  exists y. cbn [value_at]. rewrite Ey. auto.
Qed.

Definition medians (data : list row) : list R := map (fun r => exp (avg (map ln (survived (snd r))))) data.
Definition spreads (data : list row) : list R := map (fun r => sd (map ln (survived (snd r)))) data.

Lemma columns : forall data, enough data ->
  mus_of data = map Fin (0 :: medians data) /\ sds_of data = map Fin (0 :: spreads data).
Proof.
  intros data En. unfold mus_of, sds_of, medians, spreads. cbn [map]. rewrite !map_map.
  split; f_equal; apply map_ext_in; intros r I; unfold enough in En; rewrite Forall_forall in En; specialize (En r I);
    unfold result; cbn [fst snd].
  - rewrite mean_ok by (rewrite map_length; lia). reflexivity.
  - apply std_ok. rewrite map_length. auto.
Qed.

Lemma blend : forall u0 u1 v0 v1 x y, (y - v0) * (u1 - u0) = (x - u0) * (v1 - v0) ->
  y * (u1 - u0) = v0 * (u1 - x) + v1 * (x - u0).
Proof. intros. lra. Qed.

Lemma interp_pos : forall us vs x y, tabled (0 :: us) (0 :: vs) -> positive vs -> 0 < x ->
  interpolates (0 :: us) (0 :: vs) x y -> 0 < y.
Proof.
  intros us vs x y T P X I. pose proof T as (L & E & So). cbn [length] in L, E.
  assert (N : forall i, (i < length vs)%nat -> 0 < nth i vs 0) by (intros; apply positive_nth; auto).
  destruct I as [[[H _]|[_ ->]]|(i & Hi & Hx & Q)].
  - cbn [hd] in H. lra.
  - rewrite last_nth. cbn [length]. replace (S (length vs) - 1)%nat with (S (length vs - 1)) by lia. cbn [nth]. apply N. lia.
  - cbn [length] in Hi. assert (D : nth i (0 :: us) 0 < nth (S i) (0 :: us) 0) by (apply So; cbn [length]; lia).
    apply blend in Q. assert (V1 : 0 < nth (S i) (0 :: vs) 0) by (cbn [nth]; apply N; lia).
    assert (V0 : 0 <= nth i (0 :: vs) 0) by (destruct i; cbn [nth]; [lra|left; apply N; lia]).
    assert (Z : 0 < y * (nth (S i) (0 :: us) 0 - nth i (0 :: us) 0)).
    { rewrite Q. destruct (Rle_lt_or_eq_dec _ _ (proj1 Hx)) as [G|G].
      - apply Rplus_le_lt_0_compat; [apply Rmult_le_pos; lra|apply Rmult_lt_0_compat; lra].
      - destruct i as [|i]; [cbn [nth] in G; lra|]. apply Rplus_lt_le_0_compat; [|apply Rmult_le_pos; lra].
        apply Rmult_lt_0_compat; [cbn [nth]; apply N; lia|lra]. }
    apply Rmult_lt_reg_r with (nth (S i) (0 :: us) 0 - nth i (0 :: us) 0); lra.
Qed.

Lemma interp_nonneg : forall us vs x y, tabled us vs -> Forall (fun v => 0 <= v) vs -> interpolates us vs x y -> 0 <= y.
Proof.
  intros us vs x y (L & E & So) P I.
  assert (N : forall i, 0 <= nth i vs 0).
  { intros i. destruct (Nat.lt_ge_cases i (length vs)) as [H|H]; [|rewrite nth_overflow by auto; lra].
    rewrite Forall_forall in P. apply P. apply nth_In. auto. }
  destruct I as [[[_ ->]|[_ ->]]|(i & Hi & Hx & Q)].
  - rewrite hd_nth. apply N.
  - rewrite last_nth. apply N.
  - assert (D : nth i us 0 < nth (S i) us 0) by (apply So; lia). apply blend in Q.
    pose proof (N i). pose proof (N (S i)).
    apply Rmult_le_reg_r with (nth (S i) us 0 - nth i us 0); [lra|]. rewrite Q, Rmult_0_l.
    apply Rplus_le_le_0_compat; apply Rmult_le_pos; lra.
Qed.

Definition imported (data : list row) : made * made :=
  (Tabulated LIN (Table (map Fin (xs_of data)) (map Fin (0 :: medians data)) (map Fin (xs_of data)) (map Fin (0 :: medians data))),
   Tabulated LIN (Table (map Fin (xs_of data)) (map Fin (0 :: spreads data)) (map Fin (xs_of data)) (map Fin (0 :: spreads data)))).

Lemma imported_ok : forall data, rectangular data -> ordered data -> enough data ->
  import_probfn (as_file data) = Returns (imported data).
Proof.
  intros data Re O En. rewrite import_shape by auto. rewrite increasing_ok by exact O.
  destruct (columns data En) as [-> ->]. reflexivity.
Qed.

Lemma imported_tabled : forall data, rectangular data -> ordered data ->
  tabled (xs_of data) (0 :: medians data) /\ tabled (xs_of data) (0 :: spreads data).
Proof.
  intros data (L & _) O. unfold tabled, xs_of, medians, spreads. cbn [length]. rewrite !map_length.
  repeat split; try lia; exact O.
Qed.

Lemma medians_pos : forall data, positive (medians data).
Proof. intros data. apply Forall_forall. intros v I. apply in_map_iff in I. destruct I as (r & <- & _). apply exp_pos. Qed.
Lemma spreads_nonneg : forall data, Forall (fun v => 0 <= v) (0 :: spreads data).
Proof.
  intros data. constructor; [lra|]. apply Forall_forall. intros v I. apply in_map_iff in I. destruct I as (r & <- & _). apply sqrt_pos.
Qed.

Theorem import_values : forall data, rectangular data -> ordered data -> enough data ->
  exists f fitted, import_probfn (as_file data) = Returns f /\
    Forall2 (fun r p => fits (snd r) (fst p) (snd p)) data fitted /\
    forall x i j, (i < length data)%nat -> (j < length data)%nat ->
      (x <= 0 -> imported_at f (Fin x) i j = Returns (LND MInf (Fin 0))) /\
      (0 < x -> exists v s, imported_at f (Fin x) i j = Returns (LND (Fin (ln v)) (Fin s)) /\ 0 < v /\ 0 <= s /\
         interpolates (0 :: map fst data) (0 :: map (fun p => exp (fst p)) fitted) x v /\
         interpolates (0 :: map fst data) (0 :: map snd fitted) x s).
Proof.
  intros data Re O En. exists (imported data),
    (map (fun r => (avg (map ln (survived (snd r))), sd (map ln (survived (snd r))))) data).
  split; [apply imported_ok; auto|]. split.
  { clear - En. unfold enough in En. induction En as [|r data H En IH]; cbn [map]; constructor; auto. apply fits_ok. auto. }
  intros x i j Hi Hj. rewrite !map_map. cbn [fst snd].
  destruct (imported_tabled data Re O) as [T1 T2].
  assert (Li : (S i < length (xs_of data))%nat) by (unfold xs_of; cbn [length]; rewrite map_length; lia).
  assert (Lj : (S j < length (xs_of data))%nat) by (unfold xs_of; cbn [length]; rewrite map_length; lia).
  destruct (value_linear _ _ x i T1 Li) as (v & Ev & Iv). destruct (value_linear _ _ x j T2 Lj) as (s & Es & Is).
  unfold imported_at, imported. cbn [fst snd]. rewrite Ev. cbn [bind]. rewrite Es. cbn [bind].
  destruct (interpolation_meaning _ _ _ _ T1 Iv) as (_ & _ & B1 & _ & _).
  destruct (interpolation_meaning _ _ _ _ T2 Is) as (_ & _ & B2 & _ & _).
  split.
  - intros X. rewrite (B1 X), (B2 X). unfold distribution. cbn. rewrite (proj2 (Rltb_false 0 0)) by lra.
    rewrite (proj2 (Reqb_true 0 0)) by reflexivity. reflexivity.
  - intros X. exists v, s. assert (V : 0 < v) by (eapply interp_pos; [exact T1|apply medians_pos|exact X|exact Iv]).
    split; [|split; [exact V|split; [|split; [exact Iv|exact Is]]]].
    + unfold distribution. cbn [member_at option_map]. rewrite er_log_pos by auto. reflexivity.
    + eapply interp_nonneg; [exact T2|apply spreads_nonneg|exact Is].
Qed.

Theorem import_rows_fit : forall data, rectangular data -> ordered data -> enough data ->
  exists f, import_probfn (as_file data) = Returns f /\
    forall r i j, In r data -> (i < length data)%nat -> (j < length data)%nat ->
      exists m s, imported_at f (Fin (fst r)) i j = Returns (LND (Fin m) (Fin s)) /\ fits (snd r) m s.
Proof.
  intros data Re O En. destruct (import_values data Re O En) as (f & ft & E & F & V). exists f. split; auto.
  intros r i j I Hi Hj. destruct (In_nth _ _ (0, []) I) as (k & Hk & Ek).
  destruct (V (fst r) i j Hi Hj) as [_ V'].
  assert (X : 0 < fst r).
  { assert (Q := O 0%nat (S k)). cbn [length nth] in Q. rewrite map_length in Q.
    rewrite (nth_indep _ 0 (fst (0, @nil R))) in Q by (rewrite map_length; auto). rewrite map_nth, Ek in Q.
    apply Q. lia. }
  destruct (V' X) as (v & s & Ev & Vp & Sp & I1 & I2).
  assert (L : length ft = length data) by (clear - F; induction F; cbn [length]; congruence).
  assert (T1 : tabled (0 :: map fst data) (0 :: map (fun p => exp (fst p)) ft)).
  { destruct Re as [Re _]. unfold tabled. cbn [length]. rewrite !map_length. repeat split; try lia. exact O. }
  assert (T2 : tabled (0 :: map fst data) (0 :: map snd ft)).
  { destruct Re as [Re _]. unfold tabled. cbn [length]. rewrite !map_length. repeat split; try lia. exact O. }
  assert (K : fst r = nth (S k) (0 :: map fst data) 0).
  { cbn [nth]. rewrite (nth_indep _ 0 (fst (0, @nil R))) by (rewrite map_length; auto). rewrite map_nth, Ek. reflexivity. }
  assert (Lk : (S k < length (0%R :: map fst data))%nat) by (cbn [length]; rewrite map_length; lia).
  pose proof (proj1 (interpolation_meaning _ _ _ _ T1 I1) _ Lk K) as V1.
  pose proof (proj1 (interpolation_meaning _ _ _ _ T2 I2) _ Lk K) as S1.
  cbn [nth] in V1, S1.
  rewrite (nth_indep _ 0 ((fun p => exp (fst p)) (0, 0))) in V1 by (rewrite map_length; lia).
  rewrite (map_nth (fun p => exp (fst p))) in V1.
  rewrite (nth_indep _ 0 (snd (0, 0))) in S1 by (rewrite map_length; lia). rewrite map_nth in S1.
  assert (Fk : fits (snd r) (fst (nth k ft (0, 0))) (snd (nth k ft (0, 0)))).
  { clear - F Hk Ek. subst r. revert k Hk. induction F as [|a b la lb H F IH]; intros k Hk; [cbn in Hk; lia|].
    destruct k as [|k]; [exact H|]. cbn [nth]. apply IH. cbn in Hk. lia. }
  exists (fst (nth k ft (0, 0))), (snd (nth k ft (0, 0))). split; [|exact Fk].
  rewrite Ev, V1, S1, ln_exp. reflexivity.
Qed.

(** ** Intensities with fewer than two analyses without collapse *)

Lemma er_nan_r : forall a, er_add a NaN = NaN. Proof. destruct a; reflexivity. Qed.
Lemma er_mul_nan_r : forall a, er_mul a NaN = NaN. Proof. destruct a; reflexivity. Qed.

Lemma segment_nan : forall us ys x i, sorted us -> (S i < length us)%nat ->
  nth i ys NaN = NaN \/ nth (S i) ys NaN = NaN -> segment (map Fin us) ys x i = NaN.
Proof.
  intros us ys x i So Hi H. unfold segment. rewrite !nthF by lia. rewrite !er_sub_fin.
  assert (D : nth i us 0 < nth (S i) us 0) by (apply So; lia).
  rewrite (proj2 (ltb_fin 0 _)) by lra. destruct H as [H|H]; rewrite H.
  - reflexivity.
  - unfold er_sub at 2. cbn [er_opp er_add]. rewrite er_mul_nan_r. apply er_nan_r.
Qed.

Theorem linear_nan : forall us ys k x i, sorted us -> length us = length ys -> (S k < length us)%nat ->
  nth (S k) ys NaN = NaN -> (S i < length us)%nat -> nth k us 0 < x ->
  ((S (S k) < length us)%nat -> x < nth (S (S k)) us 0) ->
  value_at (Tabulated LIN (Table (map Fin us) ys (map Fin us) ys)) (Fin x) i = Returns NaN.
Proof.
  intros us ys k x i So E Hk Nk Hi X0 X1. cbn [value_at]. unfold linear, clip. cbn [tx ty gx gy].
  rewrite map_length, !nthF by lia.
  assert (U0 : nth 0 us 0 <= nth k us 0) by (apply sorted_le; auto; lia).
  rewrite (proj2 (ltb_fin_false _ _)) by lra.
  destruct (er_ltb (Fin (nth (length us - 1) us 0)) (Fin x)) eqn:G.
  - apply ltb_fin in G. assert (Q : (length us - 1 = S k)%nat).
    { destruct (Nat.lt_ge_cases (S (S k)) (length us)) as [H|H]; [|lia]. specialize (X1 H).
      assert (nth (S (S k)) us 0 <= nth (length us - 1) us 0) by (apply sorted_le; auto; lia). lra. }
    rewrite Q, Nk. reflexivity.
  - apply ltb_fin_false in G. unfold spline_eval. rewrite map_length, !nthF by lia.
    rewrite (proj2 (ltb_fin_false x _)) by lra. rewrite (proj2 (ltb_fin_false _ x)) by lra. cbn [orb].
    destruct (find_ok us x i Hi) as (j & -> & (J1 & J2 & J3)).
    { rewrite hd_nth, last_nth. lra. }
    rewrite segment_nan; auto.
    assert (J : j = k \/ j = S k); [|destruct J; subst j; auto].
    destruct (Nat.lt_trichotomy j k) as [H|[H|H]]; auto.
    + exfalso. assert (nth (S j) us 0 <= nth k us 0) by (apply sorted_le; auto; lia). lra.
    + destruct (Nat.eq_dec j (S k)) as [Q|Q]; auto. exfalso.
      assert (nth (S (S k)) us 0 <= nth j us 0) by (apply sorted_le; auto; lia). specialize (X1 ltac:(lia)). lra.
Qed.

Lemma value_some : forall us ys x i, (2 <= length us)%nat -> length us = length ys -> (S i < length us)%nat ->
  exists y, value_at (Tabulated LIN (Table (map Fin us) ys (map Fin us) ys)) (Fin x) i = Returns y.
Proof.
  intros us ys x i L E Hi. cbn [value_at]. unfold linear, clip. cbn [tx ty gx gy]. rewrite map_length, !nthF by lia.
  destruct (er_ltb (Fin x) (Fin (nth 0 us 0))) eqn:A; [eauto|].
  destruct (er_ltb (Fin (nth (length us - 1) us 0)) (Fin x)) eqn:B; [eauto|].
  unfold spline_eval. rewrite map_length, !nthF by lia. rewrite A, B. cbn [orb].
  apply ltb_fin_false in A, B. destruct (find_ok us x i Hi) as (j & -> & _); [rewrite hd_nth, last_nth; lra|]. eauto.
Qed.

Theorem import_gap : forall data k r, rectangular data -> ordered data -> nth_error data k = Some r ->
  (length (survived (snd r)) <= 1)%nat ->
  exists f, import_probfn (as_file data) = Returns f /\
    forall x i j, (i < length data)%nat -> (j < length data)%nat ->
      nth k (0 :: map fst data) 0 < x -> ((S k < length data)%nat -> x < nth (S k) (map fst data) 0) ->
      exists m, imported_at f (Fin x) i j = Returns (LND m NaN).
Proof.
  intros data k r Re O Er Su. pose proof Re as [L _].
  assert (Hk : (k < length data)%nat) by (apply nth_error_Some; congruence).
  eexists. split; [rewrite import_shape by auto; rewrite increasing_ok by exact O; reflexivity|].
  intros x i j Hi Hj X0 X1. unfold imported_at. cbn [fst snd].
  assert (Lx : length (xs_of data) = S (length data)) by (unfold xs_of; cbn [length]; rewrite map_length; auto).
  destruct (value_some (xs_of data) (mus_of data) x i) as (mu & ->); try lia.
  { rewrite Lx. unfold mus_of. cbn [length]. rewrite map_length. auto. }
  cbn [bind]. rewrite (linear_nan (xs_of data) (sds_of data) k x j); try lia; auto.
  - cbn [bind]. unfold distribution. cbn. eauto.
  - rewrite Lx. unfold sds_of. cbn [length]. rewrite map_length. auto.
  - unfold sds_of. cbn [nth].
    erewrite (nth_indep _ NaN (snd (result r))) by (rewrite map_length; auto).
    rewrite (map_nth (fun r => snd (result r))). rewrite (nth_error_nth _ _ _ Er).
    unfold result. cbn [snd]. apply std_none. rewrite map_length. auto.
  - intros H. apply X1. lia.
Qed.

(** ** Collapses are not reported *)

Theorem import_collapse : forall a b, rectangular a -> rectangular b -> same_but_collapses a b ->
  import_probfn (as_file a) = import_probfn (as_file b).
Proof.
  intros a b Ra Rb (F & S). rewrite !import_shape by auto.
  assert (X : xs_of a = xs_of b) by (unfold xs_of; rewrite F; reflexivity).
  assert (M : mus_of a = mus_of b).
  { unfold mus_of. f_equal.
    change (fun r => snd (fst (result r))) with (fun r : row => (fun l => er_exp (np_mean (map Fin (map ln l)))) (survived (snd r))).
    rewrite <- !(map_map (fun r : row => survived (snd r)) (fun l => er_exp (np_mean (map Fin (map ln l))))). rewrite S. reflexivity. }
  assert (D : sds_of a = sds_of b).
  { unfold sds_of. f_equal.
    change (fun r => snd (result r)) with (fun r : row => (fun l => np_std (map Fin (map ln l))) (survived (snd r))).
    rewrite <- !(map_map (fun r : row => survived (snd r)) (fun l => np_std (map Fin (map ln l)))). rewrite S. reflexivity. }
  rewrite X, M, D. reflexivity.
Qed.

(** ** Intensity measures *)

Theorem import_hazard : forall data, (exists n, (0 < n)%nat /\ Forall (fun r => length (snd r) = n) data) ->
  let us := map fst data in let vs := map (fun r => hd 0 (snd r)) data in
  tabled us vs -> positive us -> positive vs ->
  exists f, import_imfn (as_file data) = Returns f /\
    forall x i, (S i < length data)%nat -> exists y, value_at f (Fin x) i = Returns (Fin y) /\ log_interpolates us vs x y.
Proof.
  intros data W us vs T Pu Pv. pose proof T as (L & _). unfold us in L. rewrite map_length in L.
  unfold import_imfn. rewrite load_ok by auto. cbn [bind].
  assert (E0 : map (fun d => nth 0 d NaN) (as_file data) = map Fin us).
  { unfold as_file, us. rewrite !map_map. reflexivity. }
  assert (E1 : map (fun d => nth 1 d NaN) (as_file data) = map Fin vs).
  { unfold as_file, vs. rewrite !map_map. apply map_ext_in. intros r I. destruct W as (n & N & F).
    rewrite Forall_forall in F. specialize (F r I). destruct (snd r) as [|v l]; [cbn in F; lia|]. reflexivity. }
  rewrite E0, E1. destruct (detfn_usable LOGLOG (Lists [map Fin us; map Fin vs])) as (f & Ef & V).
  { exists us, vs, []. auto. }
  rewrite Ef. cbn [bind]. exists f. split.
  - destruct f; auto. exfalso. destruct (V us vs 0 0%nat eq_refl eq_refl) as (y & Q & _); [unfold us; rewrite map_length; lia|].
    discriminate.
  - intros x i Hi. apply V; auto. unfold us. rewrite map_length. auto.
Qed.

(** ** Witnesses *)

Lemma single_row : forall r, import_probfn (as_file [r]) = Throws /\ import_imfn (as_file [r]) = Throws.
Proof. intros r. split; reflexivity. Qed.

Lemma sorted2 : forall a b, 0 < a -> a < b -> sorted [0; a; b].
Proof.
  intros a b A B i j H. cbn [length] in H. destruct i as [|[|[|i]]]; destruct j as [|[|[|j]]]; try lia; cbn [nth]; lra.
Qed.

Lemma refute_import : exists a b : list row,
  (ordered a /\ enough a /\ import_probfn (as_file a) = Throws) /\
  (rectangular b /\ ordered b /\ Forall (fun r => (1 <= length (survived (snd r)))%nat) b /\
   exists f, import_probfn (as_file b) = Returns f /\ forall x, 0 < x < 2 ->
     exists m, imported_at f (Fin x) 0 0 = Returns (LND m NaN)).
Proof.
  assert (S1 : forall y, 0 < y -> Reqb y 0 = false) by (intros; apply Reqb_false; lra).
  exists [(1, [1; 2])], [(1, [3; 0]); (2, [4; 5])]. split; [split; [|split; [|reflexivity]]|].
  - intros i j H. cbn [length map fst] in H. destruct i as [|[|i]]; destruct j as [|[|j]]; try lia; cbn; lra.
  - constructor; [|constructor]. cbn [snd survived filter]. rewrite !S1 by lra. cbn. lia.
  - assert (Re : rectangular [(1, [3; 0]); (2, [4; 5])]).
    { split; [cbn; lia|]. exists 2%nat. split; [lia|].
      repeat (apply Forall_cons || apply Forall_nil); cbn [snd length]; (split; [reflexivity|]);
        repeat (apply Forall_cons || apply Forall_nil); lra. }
    assert (O : ordered [(1, [3; 0]); (2, [4; 5])]) by (unfold ordered; cbn [map fst]; apply sorted2; lra).
    assert (Z : Reqb 0 0 = true) by (apply Reqb_true; reflexivity).
    split; [exact Re|]. split; [exact O|]. split.
    + repeat (apply Forall_cons || apply Forall_nil); cbn [snd survived filter]; rewrite ?Z, !S1 by lra; cbn; lia.
    + destruct (import_gap _ 0 (1, [3; 0]) Re O eq_refl) as (f & E & V).
      { cbn [snd survived filter]. rewrite Z, S1 by lra. cbn. lia. }
      exists f. split; auto. intros x X. apply V; cbn; try lia; lra.
Qed.

Lemma collapse_matters_not : exists a b : list row, rectangular a /\ ordered a /\ enough a /\
  rectangular b /\ ordered b /\ enough b /\
  (forall r, In r a -> collapse_fraction (snd r) = 0) /\ (forall r, In r b -> 1 / 2 <= collapse_fraction (snd r)) /\
  import_probfn (as_file a) = import_probfn (as_file b).
Proof.
  assert (S1 : forall y, 0 < y -> Reqb y 0 = false) by (intros; apply Reqb_false; lra).
  assert (Z : Reqb 0 0 = true) by (apply Reqb_true; reflexivity).
  set (a := [(1, [1; 2]); (2, [2; 4])] : list row). set (b := [(1, [1; 0; 2; 0]); (2, [0; 2; 0; 4])] : list row).
  assert (Ra : rectangular a).
  { split; [cbn; lia|]. exists 2%nat. split; [lia|].
    repeat (apply Forall_cons || apply Forall_nil); cbn [snd length]; (split; [reflexivity|]);
      repeat (apply Forall_cons || apply Forall_nil); lra. }
  assert (Rb : rectangular b).
  { split; [cbn; lia|]. exists 4%nat. split; [lia|].
    repeat (apply Forall_cons || apply Forall_nil); cbn [snd length]; (split; [reflexivity|]);
      repeat (apply Forall_cons || apply Forall_nil); lra. }
  exists a, b. repeat match goal with |- _ /\ _ => split end; auto; try (unfold ordered, a, b; cbn [map fst]; apply sorted2; lra).
  - repeat (apply Forall_cons || apply Forall_nil); cbn [snd survived filter]; rewrite !S1 by lra; cbn; lia.
  - repeat (apply Forall_cons || apply Forall_nil); cbn [snd survived filter]; rewrite !Z, !S1 by lra; cbn; lia.
  - intros r [<-|[<-|[]]]; unfold collapse_fraction; cbn [snd survived filter]; rewrite !S1 by lra; cbn; field.
  - intros r [<-|[<-|[]]]; unfold collapse_fraction; cbn [snd survived filter]; rewrite !Z, !S1 by lra; cbn; lra.
  - apply import_collapse; auto. split; [reflexivity|]. unfold a, b. cbn [map snd survived filter].
    rewrite !Z, !S1 by lra. reflexivity.
Qed.

Lemma fits_average : forall ys m s, fits ys m s -> average (map ln (survived ys)) m.
Proof. intros ys m s H. apply H. Qed.

Lemma import_case : exists f s, import_probfn (as_file [(1, [1; 0; 2]); (2, [2; 4; 3])]) = Returns f /\
  imported_at f (Fin 1) 0 1 = Returns (LND (Fin (ln 2 / 2)) (Fin s)).
Proof.
  assert (S1 : forall y, 0 < y -> Reqb y 0 = false) by (intros; apply Reqb_false; lra).
  assert (Z : Reqb 0 0 = true) by (apply Reqb_true; reflexivity).
  destruct (import_rows_fit [(1, [1; 0; 2]); (2, [2; 4; 3])]) as (f & E & V).
  - split; [cbn; lia|]. exists 3%nat. split; [lia|].
    repeat (apply Forall_cons || apply Forall_nil); cbn [snd length]; (split; [reflexivity|]);
      repeat (apply Forall_cons || apply Forall_nil); lra.
  - unfold ordered. cbn [map fst]. apply sorted2; lra.
  - repeat (apply Forall_cons || apply Forall_nil); cbn [snd survived filter]; rewrite ?Z, !S1 by lra; cbn; lia.
  - destruct (V (1, [1; 0; 2]) 0%nat 1%nat (or_introl eq_refl)) as (m & s & Em & Fm); try (cbn; lia).
    exists f, s. split; auto. cbn [fst] in Em. rewrite Em. repeat f_equal.
    apply fits_average in Fm. unfold average in Fm. cbn [snd survived filter] in Fm. rewrite Z, !S1 in Fm by lra.
    cbn in Fm. rewrite ln_1 in Fm. lra.
Qed.

Lemma hazard_import_case : exists f y, import_imfn (as_file [(1, [4; 9]); (2, [2; 9]); (4, [1; 9])]) = Returns f /\
  value_at f (Fin 2) 0 = Returns (Fin y) /\ log_interpolates [1; 2; 4] [4; 2; 1] 2 y.
Proof.
  destruct (import_hazard [(1, [4; 9]); (2, [2; 9]); (4, [1; 9])]) as (f & E & V).
  - exists 2%nat. split; [lia|]. repeat (apply Forall_cons || apply Forall_nil); reflexivity.
  - cbn [map fst snd hd]. split; [cbn; lia|]. split; [reflexivity|]. intros i j H. cbn [length] in H.
    destruct i as [|[|[|i]]]; destruct j as [|[|[|j]]]; try lia; cbn [nth]; lra.
  - cbn [map fst]. repeat (apply Forall_cons || apply Forall_nil); lra.
  - cbn [map snd hd]. repeat (apply Forall_cons || apply Forall_nil); lra.
  - destruct (V 2 0%nat) as (y & Ey & I); [cbn; lia|]. exists f, y. auto.
Qed.
