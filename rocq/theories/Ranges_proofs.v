(** * Proofs about ranges *)
From Coq Require Import Reals List ZArith Bool Lia Lra.
From Verif Require Import Num ER ER_proofs ERmath Lognormal_proofs Functions_proofs Ranges Ranges_spec.
Import ListNotations.
Local Open Scope R_scope.

(** ** Any arithmetic *)

Fixpoint after (A : Num) (d i : A) (n : nat) : A := match n with O => i | S n => after A d (nadd A i d) n end.

Theorem frange_chain : forall (A : Num) fuel start stop step l, frange A fuel start stop step = Values l ->
  chain A step start l /\ Forall (fun x => nleb A x (nadd A stop (ndiv A step (nofZ A 2))) = true) l /\
  nleb A (after A step start (length l)) (nadd A stop (ndiv A step (nofZ A 2))) = false.
Proof.
  intros A. unfold frange. induction fuel as [|n IH]; intros i stop step l H; cbn in H; [discriminate|].
  destruct (nleb A i _) eqn:E.
  - destruct (frange_from A stop step n (nadd A i step)) as [r| |] eqn:F; try discriminate. inversion H. subst.
    apply IH in F. destruct F as (C & L & N). cbn. auto.
  - inversion H. subst. cbn. auto.
Qed.

Lemma frange_stuck : forall (A : Num) stop step i, nleb A i (nadd A stop (ndiv A step (nofZ A 2))) = true ->
  nadd A i step = i -> forall fuel, frange_from A stop step fuel i = Unfinished.
Proof. intros A stop step i L E. induction fuel as [|n IH]; cbn; [reflexivity|]. rewrite L, E, IH. reflexivity. Qed.

(** ** Exact arithmetic *)

Lemma nth_map_fin : forall l i, nth i (map Fin l) (Fin 0) = Fin (nth i l 0).
Proof. intros l i. change (Fin 0) with (Fin 0) at 1. apply (map_nth Fin l 0 i). Qed.

Lemma frange_er : forall step, 0 < step -> forall n fuel i stop, (n < fuel)%nat ->
  (forall k, (k < n)%nat -> i + INR k * step <= stop + step / 2) -> stop + step / 2 < i + INR n * step ->
  frange_from ER (Fin stop) (Fin step) fuel (Fin i) = Values (map (fun k => Fin (i + INR k * step)) (seq 0 n)).
Proof.
  intros step Hs. induction n as [|n IH]; intros fuel i stop Hf L U; (destruct fuel as [|fuel]; [lia|]); cbn [frange_from].
  - cbn [nleb nadd ndiv nofZ ER]. rewrite er_div_fin by lra. cbn [er_add]. rewrite (proj2 (leb_fin_false i (stop + step / 2))); [reflexivity|].
    cbn in U. lra.
  - cbn [nleb nadd ndiv nofZ ER]. rewrite er_div_fin by lra. cbn [er_add]. rewrite (proj2 (leb_fin i (stop + step / 2))).
    + cbn [nadd ER er_add]. rewrite (IH fuel (i + step) stop); [|lia| |].
      * cbn [seq map]. f_equal. f_equal; [f_equal; cbn; ring|]. rewrite <- seq_shift, map_map. apply map_ext.
        intros k. rewrite S_INR. f_equal. ring.
      * intros k Hk. specialize (L (S k) ltac:(lia)). rewrite S_INR in L. lra.
      * rewrite S_INR in U. lra.
    + specialize (L 0%nat ltac:(lia)). cbn in L. lra.
Qed.

Lemma nth_steps : forall i step n k, (k < n)%nat -> nth k (map (fun k => i + INR k * step) (seq 0 n)) 0 = i + INR k * step.
Proof.
  intros i step n k H. rewrite (nth_indep _ 0 ((fun k => i + INR k * step) 0%nat)) by (rewrite map_length, seq_length; exact H).
  rewrite (map_nth (fun k => i + INR k * step)), seq_nth by exact H. reflexivity.
Qed.

Lemma up_steps : forall i d b n, 0 < d -> (forall k, (k < n)%nat -> i + INR k * d <= b) -> b < i + INR n * d ->
  steps_up_to i d b (map (fun k => i + INR k * d) (seq 0 n)).
Proof.
  intros i d b n Hd L U. split; rewrite map_length, seq_length.
  - intros k Hk. rewrite nth_steps by exact Hk. auto.
  - exact U.
Qed.

Lemma count_steps : forall i d b, 0 < d -> exists n, (forall k, (k < n)%nat -> i + INR k * d <= b) /\ b < i + INR n * d.
Proof.
  intros i d b Hd. destruct (Rlt_le_dec b i) as [H|H].
  - exists 0%nat. split; [lia|cbn; lra].
  - exists (Z.to_nat (up ((b - i) / d))). destruct (archimed ((b - i) / d)) as [U L].
    assert (Q : 0 <= (b - i) / d) by (apply Rmult_le_pos; [lra|left; apply Rinv_0_lt_compat; exact Hd]).
    assert (P : (0 < up ((b - i) / d))%Z) by (apply lt_IZR; lra).
    assert (E : (b - i) / d * d = b - i) by (field; lra).
    assert (N : INR (Z.to_nat (up ((b - i) / d))) = IZR (up ((b - i) / d))) by (rewrite INR_IZR_INZ, Z2Nat.id by lia; reflexivity).
    split.
    + intros k Hk. assert (K : INR k <= (b - i) / d).
      { assert (INR k <= IZR (up ((b - i) / d)) - 1); [|lra]. rewrite INR_IZR_INZ, <- minus_IZR. apply IZR_le. lia. }
      apply Rmult_le_compat_r with (r := d) in K; lra.
    + rewrite N. apply Rmult_lt_compat_r with (r := d) in U; lra.
Qed.

Theorem stepped : forall start stop step, 0 < step -> exists l,
  (exists fuel, frange ER fuel (Fin start) (Fin stop) (Fin step) = Values (map Fin l)) /\
  steps_up_to start step (stop + step / 2) l /\
  (forall m, stop = start + INR m * step -> steps_up_to start step stop l).
Proof.
  intros start stop step Hs. destruct (count_steps start step (stop + step / 2) Hs) as (n & L & U).
  exists (map (fun k => start + INR k * step) (seq 0 n)). split; [|split].
  - exists (S n). unfold frange. rewrite (frange_er step Hs n); [|lia|exact L|exact U]. rewrite map_map. reflexivity.
  - apply up_steps; auto.
  - intros m Hm. assert (N : n = S m).
    { destruct (Nat.lt_trichotomy n (S m)) as [H|[H|H]]; [exfalso|exact H|exfalso].
      - assert (INR n <= INR m) by (apply le_INR; lia). apply Rmult_le_compat_r with (r := step) in H0; lra.
      - specialize (L (S m) H). rewrite S_INR in L. lra. }
    subst n. apply up_steps; auto.
    + intros k Hk. assert (INR k <= INR m) by (apply le_INR; lia). apply Rmult_le_compat_r with (r := step) in H; lra.
    + rewrite S_INR. lra.
Qed.

Theorem linear_range : forall start stop count, start < stop -> (2 <= count)%Z -> exists l,
  (exists fuel, linrange ER fuel (Fin start) (Fin stop) count = Values (map Fin l)) /\
  from_to start stop count l /\ ascending l /\ evenly l.
Proof.
  intros start stop count H C. assert (C1 : 0 < IZR (count - 1)) by (apply (IZR_lt 0); lia).
  set (d := (stop - start) / IZR (count - 1)).
  assert (Hd : 0 < d) by (apply Rmult_lt_0_compat; [lra|apply Rinv_0_lt_compat; exact C1]).
  assert (Ed : IZR (count - 1) * d = stop - start) by (unfold d; field; lra).
  set (n := Z.to_nat count). assert (Nn : INR n = IZR (count - 1) + 1) by (unfold n; rewrite INR_IZR_INZ, Z2Nat.id, minus_IZR by lia; lra).
  assert (N2 : (2 <= n)%nat) by (unfold n; lia).
  exists (map (fun k => start + INR k * d) (seq 0 n)). refine (conj _ (conj _ (conj _ _))).
  - exists (S n). unfold linrange. rewrite (proj2 (Z.eqb_neq (count - 1) 0)) by lia. cbn [ndiv nsub nofZ ER].
    rewrite er_sub_fin, er_div_fin by lra. fold d. unfold frange. rewrite (frange_er d Hd n); [rewrite map_map; reflexivity|lia| |].
    + intros k Hk. assert (INR k + 1 <= INR n) by (rewrite <- S_INR; apply le_INR; lia).
      assert (INR k * d <= IZR (count - 1) * d) by (apply Rmult_le_compat_r; lra). lra.
    + rewrite Nn, Rmult_plus_distr_r. lra.
  - unfold from_to. rewrite map_length, seq_length. refine (conj _ (conj _ _)).
    + unfold n. rewrite Z2Nat.id; lia.
    + rewrite nth_steps by lia. cbn. ring.
    + rewrite nth_steps by lia. rewrite minus_INR, Nn by lia. cbn [INR]. replace (IZR (count - 1) + 1 - 1) with (IZR (count - 1)) by ring. lra.
  - intros i j Hij. rewrite map_length, seq_length in Hij. rewrite !nth_steps by lia.
    assert (INR i < INR j) by (apply lt_INR; lia). apply Rmult_lt_compat_r with (r := d) in H0; lra.
  - exists d. intros i Hi. rewrite map_length, seq_length in Hi. rewrite !nth_steps by lia. rewrite S_INR. ring.
Qed.

Theorem linear_falling : forall start stop count fuel, stop < start -> (2 <= count)%Z ->
  linrange ER (S fuel) (Fin start) (Fin stop) count = Values [].
Proof.
  intros start stop count fuel H C. assert (C1 : 0 < IZR (count - 1)) by (apply (IZR_lt 0); lia).
  unfold linrange. rewrite (proj2 (Z.eqb_neq (count - 1) 0)) by lia. unfold frange. cbn [frange_from nleb nadd ndiv nsub nofZ ER].
  rewrite er_sub_fin, !er_div_fin by lra. cbn [er_add]. rewrite (proj2 (leb_fin_false _ _)); [reflexivity|].
  assert ((stop - start) / IZR (count - 1) < 0); [|lra].
  apply Rmult_lt_reg_r with (IZR (count - 1)); [exact C1|]. unfold Rdiv. rewrite Rmult_assoc, Rinv_l by lra. lra.
Qed.

Theorem linear_constant : forall start count fuel, (2 <= count)%Z -> linrange ER fuel (Fin start) (Fin start) count = Unfinished.
Proof.
  intros start count fuel C. assert (C1 : 0 < IZR (count - 1)) by (apply (IZR_lt 0); lia).
  unfold linrange. rewrite (proj2 (Z.eqb_neq (count - 1) 0)) by lia. unfold frange. cbn [ndiv nsub nofZ ER].
  rewrite er_sub_fin, er_div_fin by lra. replace ((start - start) / IZR (count - 1)) with 0 by (field; lra).
  apply frange_stuck; cbn [nleb nadd ndiv nofZ ER].
  - rewrite er_div_fin by lra. cbn [er_add]. apply leb_fin. lra.
  - cbn [er_add]. f_equal. ring.
Qed.

Theorem overshoot : exists start stop step l x fuel, 0 < step /\
  frange ER fuel (Fin start) (Fin stop) (Fin step) = Values (map Fin l) /\ In x l /\ stop < x.
Proof.
  exists 0, 1, (2 / 5), (map (fun k => 0 + INR k * (2 / 5)) (seq 0 4)), (0 + INR 3 * (2 / 5)), 5%nat.
  refine (conj _ (conj _ (conj _ _))).
  - lra.
  - unfold frange. rewrite (frange_er (2 / 5) ltac:(lra) 4); [rewrite map_map; reflexivity|lia| |cbn; lra].
    intros k Hk. assert (INR k <= INR 3) by (apply le_INR; lia). cbn in H. lra.
  - apply in_map_iff. exists 3%nat. split; [reflexivity|]. apply in_seq. lia.
  - cbn. lra.
Qed.

(** ** Binary floating point *)

Theorem last_rounded : exists l x, linrange F64 20 (nofZ F64 0) (nofZ F64 1) 11 = Values (l ++ [x]) /\
  length l = 10%nat /\ nltb F64 x (nofZ F64 1) = true.
Proof.
  remember (linrange F64 20 (nofZ F64 0) (nofZ F64 1) 11) as r eqn:E. vm_compute in E. subst r.
  match goal with |- context [Values ?l] => exists (removelast l), (last l (nofZ F64 0)) end.
  refine (conj _ (conj _ _)); vm_compute; reflexivity.
Qed.

Theorem never_ends : forall fuel,
  linrange F64 fuel (nofZ F64 (2 ^ 53)) (nofZ F64 (2 ^ 53 + 4)) 5 = Unfinished.
Proof. intros fuel. unfold linrange. apply frange_stuck; vm_compute; reflexivity. Qed.

(** ** Logarithmic ranges *)

Lemma nth_log : forall (f : Z -> R) count k, (k < Z.to_nat count)%nat -> nth k (map f (arange count)) 0 = f (Z.of_nat k).
Proof.
  intros f count k H. unfold arange. rewrite map_map.
  rewrite (nth_indep _ 0 (f (Z.of_nat 0))) by (rewrite map_length, seq_length; exact H).
  rewrite (map_nth (fun k => f (Z.of_nat k))), seq_nth by exact H. reflexivity.
Qed.

Theorem log_range : forall start stop count, 0 < start -> 0 < stop -> (2 <= count)%Z -> exists l,
  logrange (Fin start) (Fin stop) count = Values (map Fin l) /\
  from_to start stop count l /\ geometric l /\ (start < stop -> ascending l) /\ (stop < start -> descending l).
Proof.
  intros start stop count Ha Hb C. assert (C1 : 0 < IZR (count - 1)) by (apply (IZR_lt 0); lia).
  assert (Hq : 0 < stop / start) by (apply Rmult_lt_0_compat; [exact Hb|apply Rinv_0_lt_compat; exact Ha]).
  set (b := ln (stop / start)). set (f := fun k : Z => exp (ln start + IZR k * b / IZR (count - 1))).
  set (n := Z.to_nat count). assert (N2 : (2 <= n)%nat) by (unfold n; lia).
  assert (Nn : Z.of_nat n = count) by (unfold n; apply Z2Nat.id; lia).
  assert (Len : length (map f (arange count)) = n) by (unfold arange; rewrite !map_length, seq_length; reflexivity).
  assert (Nth : forall k, (k < n)%nat -> nth k (map f (arange count)) 0 = f (Z.of_nat k)) by (intros; apply nth_log; assumption).
  assert (Lb : forall i j, (i < j < n)%nat -> (0 < b -> f (Z.of_nat i) < f (Z.of_nat j)) /\ (b < 0 -> f (Z.of_nat j) < f (Z.of_nat i))).
  { intros i j H. assert (I : IZR (Z.of_nat i) < IZR (Z.of_nat j)) by (apply IZR_lt; lia).
    split; intros B; unfold f; apply exp_increasing, Rplus_lt_compat_l; unfold Rdiv;
      (apply Rmult_lt_compat_r; [apply Rinv_0_lt_compat; exact C1|]); nra. }
  exists (map f (arange count)). refine (conj _ (conj _ (conj _ (conj _ _)))).
  - unfold logrange. cbn [math_log]. rewrite (proj2 (Rltb_true 0 start)) by exact Ha. rewrite er_log_pos by exact Ha.
    rewrite er_div_fin by lra. cbn [math_log]. rewrite (proj2 (Rltb_true 0 (stop / start))) by exact Hq.
    rewrite er_log_pos by exact Hq. fold b. f_equal. rewrite map_map. apply map_ext. intros k.
    cbn [er_mul]. rewrite er_div_fin by lra. reflexivity.
  - unfold from_to. rewrite Len. refine (conj Nn (conj _ _)); rewrite Nth by lia; unfold f.
    + replace (ln start + IZR (Z.of_nat 0) * b / IZR (count - 1)) with (ln start) by (cbn; field; lra). apply exp_ln. exact Ha.
    + replace (Z.of_nat (n - 1)) with (count - 1)%Z by lia.
      replace (ln start + IZR (count - 1) * b / IZR (count - 1)) with (ln start + b) by (field; lra).
      unfold b. rewrite exp_plus, !exp_ln by assumption. field. lra.
  - exists (exp (b / IZR (count - 1))). split; [apply exp_pos|]. intros i Hi. rewrite Len in Hi. rewrite !Nth by lia. unfold f.
    rewrite <- exp_plus. f_equal. rewrite Nat2Z.inj_succ, <- Z.add_1_r, plus_IZR. field. lra.
  - intros H i j Hij. rewrite Len in Hij. rewrite !Nth by lia. apply (proj1 (Lb i j ltac:(lia))). unfold b. rewrite <- ln_1. apply ln_increasing; [lra|].
    apply Rmult_lt_reg_r with start; [exact Ha|]. unfold Rdiv. rewrite Rmult_assoc, Rinv_l by lra. lra.
  - intros H i j Hij. rewrite Len in Hij. rewrite !Nth by lia. apply (proj2 (Lb i j ltac:(lia))). unfold b. rewrite <- ln_1. apply ln_increasing; [lra|].
    apply Rmult_lt_reg_r with start; [exact Ha|]. unfold Rdiv. rewrite Rmult_assoc, Rinv_l by lra. lra.
Qed.

Theorem log_single : forall start stop, 0 < start -> 0 < stop -> logrange (Fin start) (Fin stop) 1 = Values [NaN].
Proof.
  intros start stop Ha Hb. assert (Hq : 0 < stop / start) by (apply Rmult_lt_0_compat; [exact Hb|apply Rinv_0_lt_compat; exact Ha]).
  unfold logrange. cbn [math_log]. rewrite (proj2 (Rltb_true 0 start)) by exact Ha. rewrite er_log_pos by exact Ha.
  rewrite er_div_fin by lra. cbn [math_log]. rewrite (proj2 (Rltb_true 0 (stop / start))) by exact Hq.
  rewrite er_log_pos by exact Hq. change (arange 1) with [0%Z]. change (1 - 1)%Z with 0%Z. cbn [map].
  cbn [er_mul]. rewrite Rmult_0_l. unfold er_div. rewrite (proj2 (Reqb_true 0 0)) by reflexivity. unfold er_inf_times.
  rewrite (proj2 (Rltb_false 0 0)) by lra. reflexivity.
Qed.

Theorem log_refused : forall start stop count, start <= 0 \/ stop <= 0 /\ 0 < start -> logrange (Fin start) (Fin stop) count = Raised.
Proof.
  intros start stop count [H|[H P]]; unfold logrange; cbn [math_log].
  - rewrite (proj2 (Rltb_false 0 start)) by lra. reflexivity.
  - rewrite (proj2 (Rltb_true 0 start)) by exact P. rewrite er_div_fin by lra. cbn [math_log].
    rewrite (proj2 (Rltb_false 0 (stop / start))); [reflexivity|]. apply Rnot_lt_le. intros Q.
    assert (E : stop / start * start = stop) by (field; lra). assert (0 < stop / start * start) by (apply Rmult_lt_0_compat; assumption). lra.
Qed.
