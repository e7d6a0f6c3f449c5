(** * The distribution made is the one meant (C94) *)
From Coq Require Import ZArith Reals List Lra Lia Floats.SpecFloat.
From Flocq Require Import Core Relative BinarySingleNaN.
From Verif Require Import Num Double_spec Double_proofs Double_proofs2 Maq_return_proofs Group Totals Totals_spec
  Totals_proofs Totals_proofs2 Totals_proofs3 Totals_proofs4.
Local Open Scope R_scope.

Lemma ln_top y : 0 < y -> ln y <= y - 1.
Proof. intros H. pose proof (exp_ineq1_le (ln y)) as E. rewrite exp_ln in E by exact H. lra. Qed.

Lemma ln_close a A d : 1 <= A -> 0 <= d <= 1 / 100 -> Rabs (a - A) <= d * A -> Rabs (ln a - ln A) <= 2 * d.
Proof.
  intros HA Hd H. apply Rabs_le_inv in H.
  assert (dA : d * A <= 1 / 100 * A) by (apply Rmult_le_compat_r; lra).
  assert (Pa : 0 < a) by lra. apply Rabs_le. split.
  - assert (E : ln A - ln a = ln (A / a)) by (unfold Rdiv; rewrite ln_mult, ln_Rinv; [ring | lra | lra | apply Rinv_0_lt_compat; lra]).
    assert (P : 0 < A / a) by (apply Rdiv_lt_0_compat; lra). pose proof (ln_top _ P) as L.
    assert (A / a - 1 <= 2 * d).
    { replace (A / a - 1) with ((A - a) / a) by (field; lra). apply Rmult_le_reg_r with a; [exact Pa |].
      unfold Rdiv. rewrite Rmult_assoc, Rinv_l by lra. rewrite Rmult_1_r.
      assert (2 * d * (99 / 100 * A) <= 2 * d * a) by (apply Rmult_le_compat_l; lra).
      assert (0 <= d * A) by (apply Rmult_le_pos; lra). lra. }
    lra.
  - assert (E : ln a - ln A = ln (a / A)) by (unfold Rdiv; rewrite ln_mult, ln_Rinv; [ring | lra | lra | apply Rinv_0_lt_compat; lra]).
    assert (P : 0 < a / A) by (apply Rdiv_lt_0_compat; lra). pose proof (ln_top _ P) as L.
    assert (a / A - 1 <= d).
    { replace (a / A - 1) with ((a - A) / A) by (field; lra). apply Rmult_le_reg_r with A; [lra |].
      unfold Rdiv. rewrite Rmult_assoc, Rinv_l by lra. lra. }
    lra.
Qed.

Lemma ratio_close m s mm ss q a : bpow radix2 (-60) <= m -> 0 <= s ->
  mm = rnd 53 1024 (m * m) -> ss = rnd 53 1024 (s * s) -> q = rnd 53 1024 (ss / mm) -> a = rnd 53 1024 (1 + q) -> 0 <= q ->
  Rabs (a - (1 + s * s / (m * m))) <= 16 * e * (1 + s * s / (m * m)).
Proof.
  intros Hm Hs Em Es Eq Ea Pq. pose proof (bpow_gt_0 radix2 (-60)) as P60. pose proof e_pos. pose proof e_small. pose proof tau_pos.
  assert (MM : bpow radix2 (-120) <= m * m) by (change (-120)%Z with (-60 + -60)%Z; rewrite bpow_plus; apply Rmult_le_compat; lra).
  pose proof (bpow_gt_0 radix2 (-120)) as P120. set (M := m * m) in *. set (S := s * s) in *.
  assert (PS : 0 <= S) by (apply Rmult_le_pos; lra).
  assert (tM : tau <= e * e * M).
  { apply Rle_trans with (e * e * bpow radix2 (-120)); [rewrite <- !bpow_plus; apply bpow_le; lia |].
    apply Rmult_le_compat_l; [apply Rmult_le_pos; lra | exact MM]. }
  assert (eeM : e * e * M <= 1 / 1000000 * (e * M)).
  { replace (e * e * M) with (e * (e * M)) by ring. apply Rmult_le_compat_r; [apply Rmult_le_pos; lra | lra]. }
  assert (PM : 0 < e * M) by (apply Rmult_lt_0_compat; lra).
  pose proof (rnd_err M) as RM. rewrite (Rabs_pos_eq M) in RM by lra. rewrite <- Em in RM. apply Rabs_le_inv in RM.
  pose proof (rnd_err S) as RS. rewrite (Rabs_pos_eq S) in RS by lra. rewrite <- Es in RS. apply Rabs_le_inv in RS.
  assert (Bm : M - e * M <= mm <= M + e * M) by lra.
  assert (eM1 : e * M <= 1 / 1000000 * M) by (apply Rmult_le_compat_r; lra). assert (Pmm : 0 < mm) by lra.
  set (u := S / M). assert (Pu : 0 <= u) by (unfold u; apply Rmult_le_pos; [lra | apply Rlt_le, Rinv_0_lt_compat; lra]).
  assert (Su : S = u * M) by (unfold u; field; lra).
  set (v := ss / mm) in *. assert (Sv : ss = v * mm) by (unfold v; field; lra).
  assert (Pss : 0 <= ss) by (rewrite Es; apply rnd_nonneg; exact PS).
  assert (Pv : 0 <= v) by (unfold v; apply Rmult_le_pos; [lra | apply Rlt_le, Rinv_0_lt_compat; lra]).
  (* v against u *)
  assert (V1 : v <= u + 4 * e * u + e).
  { apply Rmult_le_reg_r with mm; [exact Pmm |]. rewrite <- Sv.
    assert (K : 0 <= u + 4 * e * u + e) by (assert (0 <= e * u) by (apply Rmult_le_pos; lra); lra).
    apply Rle_trans with ((u + 4 * e * u + e) * (M - e * M)); [| apply Rmult_le_compat_l; lra].
    assert (0 <= e * (u * M)) by (apply Rmult_le_pos; [lra | rewrite <- Su; lra]).
    assert (e * (e * (u * M)) <= 1 / 1000000 * (e * (u * M))) by (apply Rmult_le_compat_r; lra).
    rewrite Su in RS. replace ((u + 4 * e * u + e) * (M - e * M)) with (u * M + 3 * (e * (u * M)) - 4 * (e * (e * (u * M))) + e * M - e * e * M) by ring.
    lra. }
  assert (V2 : u - 4 * e * u - e <= v).
  { destruct (Rle_or_lt (u - 4 * e * u - e) 0) as [N|N]; [lra |]. apply Rmult_le_reg_r with mm; [exact Pmm |]. rewrite <- Sv.
    apply Rle_trans with ((u - 4 * e * u - e) * (M + e * M)); [apply Rmult_le_compat_l; lra |].
    assert (0 <= e * (u * M)) by (apply Rmult_le_pos; [lra | rewrite <- Su; lra]).
    assert (0 <= e * (e * (u * M))) by (apply Rmult_le_pos; [lra | assumption]).
    assert (0 <= e * e * M) by (apply Rmult_le_pos; [apply Rmult_le_pos; lra | lra]).
    rewrite Su in RS. replace ((u - 4 * e * u - e) * (M + e * M)) with (u * M - 3 * (e * (u * M)) - 4 * (e * (e * (u * M))) - e * M - e * e * M) by ring.
    lra. }
  pose proof (rnd_err v) as RV. rewrite (Rabs_pos_eq v) in RV by lra. rewrite <- Eq in RV. apply Rabs_le_inv in RV.
  pose proof (rnd_err (1 + q)) as RA. rewrite (Rabs_pos_eq (1 + q)) in RA by lra. rewrite <- Ea in RA. apply Rabs_le_inv in RA.
  assert (te : tau <= 1 / 1000000 * e).
  { assert (tau <= e * e) by (rewrite <- bpow_plus; apply bpow_le; lia). assert (e * e <= 1 / 1000000 * e) by (apply Rmult_le_compat_r; lra). lra. }
  assert (eu : 0 <= e * u) by (apply Rmult_le_pos; lra).
  assert (ev : e * v <= e * (u + 4 * e * u + e)) by (apply Rmult_le_compat_l; lra).
  assert (eeu : e * (e * u) <= 1 / 1000000 * (e * u)) by (apply Rmult_le_compat_r; lra).
  assert (ee : e * e <= 1 / 1000000 * e) by (apply Rmult_le_compat_r; lra).
  assert (ev0 : 0 <= e * v) by (apply Rmult_le_pos; lra).
  assert (eq : e * q <= e * (v + e / 2 * v + tau / 2)) by (apply Rmult_le_compat_l; lra).
  assert (eev : e * (e * v) <= 1 / 1000000 * (e * v)) by (apply Rmult_le_compat_r; lra).
  assert (et : e * tau <= 1 / 1000000 * tau) by (apply Rmult_le_compat_r; lra).
  assert (0 <= e * q) by (apply Rmult_le_pos; lra).
  fold u. apply Rabs_le. lra.
Qed.

Lemma made_right log x : accurate log -> between (bpow radix2 (-60)) (bpow radix2 430) (c_mean x) ->
  between 0 (bpow radix2 420) (c_sd x) ->
  let v := ln (1 + real (c_sd x) * real (c_sd x) / (real (c_mean x) * real (c_mean x))) in
  fine (made log x) /\
  Rabs (real (snd (made log x)) * real (snd (made log x)) - v) <= bpow radix2 (-38) /\
  Rabs (real (fst (made log x)) - (ln (real (c_mean x)) - v / 2)) <= bpow radix2 (-37).
Proof.
  intros [L Acc] BM BS v. destruct (made_values log x L BM BS) as [Fi St]. split; [exact Fi |].
  destruct St as (a & mm & ss & q & sg & gg & h & E1 & E2 & E3 & Va & Fa & La & Ea & Pq & Es & Eg & Eh & Emu & Esi & Esr).
  destruct BM as (Vm & Fm & Bm). destruct BS as (Vs & Fs & Bs).
  change (real (c_mean x)) with (value (c_mean x)) in *. change (real (c_sd x)) with (value (c_sd x)) in *.
  pose proof (ratio_close _ _ _ _ _ _ (proj1 Bm) (proj1 Bs) E1 E2 E3 Ea Pq) as RC.
  set (m := value (c_mean x)) in *. set (s := value (c_sd x)) in *. set (A := 1 + s * s / (m * m)) in *.
  pose proof (bpow_gt_0 radix2 (-60)) as P60. pose proof e_pos. pose proof e_small. pose proof tau_pos.
  assert (HA : 1 <= A).
  { unfold A. assert (0 <= s * s / (m * m)); [| lra]. assert (0 < m * m) by (apply Rmult_lt_0_compat; lra).
    apply Rmult_le_pos; [apply Rmult_le_pos; lra | apply Rlt_le, Rinv_0_lt_compat; lra]. }
  pose proof (ln_close (value a) A (16 * e) HA ltac:(lra) RC) as LC. fold v in LC.
  destruct (L a Va Fa) as (Vl & Fl & Bl & Pl); [change (real a) with (value a); lra |].
  pose proof (Acc a Va Fa ltac:(change (real a) with (value a); lra)) as Al.
  change (real a) with (value a) in *. change (real (log a)) with (value (log a)) in *. specialize (Pl La).
  destruct (L _ Vm Fm) as (Vk & Fk & Bk & _); [change (real (c_mean x)) with m; lra |].
  pose proof (Acc _ Vm Fm ltac:(change (real (c_mean x)) with m; lra)) as Am.
  change (real (c_mean x)) with m in *. change (real (log (c_mean x))) with (value (log (c_mean x))) in *.
  set (l := value (log a)) in *. set (k := value (log (c_mean x))) in *.
  assert (E50 : 4 * e = bpow radix2 (-50)) by (change (-50)%Z with (2 + -52)%Z; rewrite bpow_plus; reflexivity).
  assert (E38 : 16384 * e = bpow radix2 (-38)) by (change (-38)%Z with (14 + -52)%Z; rewrite bpow_plus; reflexivity).
  assert (E37 : 32768 * e = bpow radix2 (-37)) by (change (-37)%Z with (15 + -52)%Z; rewrite bpow_plus; reflexivity).
  rewrite <- E50 in Al, Am. rewrite <- E38, <- E37.
  assert (Bound : forall y z, Rabs z <= 1000 -> Rabs (z - y) <= 4 * e * Rabs y -> Rabs (z - y) <= 4004 * e).
  { intros y z Bz Hz. assert (Y : Rabs y <= 1001).
    { pose proof (Rabs_pos y). assert (4 * e * Rabs y <= 1 / 10000 * Rabs y) by (apply Rmult_le_compat_r; lra).
      pose proof (Rabs_triang (z - y) (- z)) as T. replace (z - y + - z) with (- y) in T by ring. rewrite !Rabs_Ropp in T. lra. }
    eapply Rle_trans; [exact Hz |]. replace (4004 * e) with (4 * e * 1001) by ring. apply Rmult_le_compat_l; lra. }
  pose proof (Bound _ _ Bl Al) as D1. pose proof (Bound _ _ Bk Am) as D2.
  apply finite_same in Fl.
  destruct (root_near (log a) Vl Fl Pl) as (_ & _ & Pr & Rr). fold l in Rr. apply Rabs_le_inv in Bl.
  specialize (Rr ltac:(apply Rle_trans with (bpow radix2 10); [change (bpow radix2 10) with 1024; lra | apply bpow_le; lia])).
  rewrite <- Esr in Rr, Pr. set (sigma := real (snd (made log x))) in *. set (mu := real (fst (made log x))) in *.
  assert (g : bpow radix2 (-580) <= 1 / 1000000 * e).
  { assert (bpow radix2 (-580) <= e * e) by (rewrite <- bpow_plus; apply bpow_le; lia). assert (e * e <= 1 / 1000000 * e) by (apply Rmult_le_compat_r; lra). lra. }
  assert (te : tau <= 1 / 1000000 * e).
  { assert (tau <= bpow radix2 (-580)) by (apply bpow_le; lia). lra. }
  assert (el : e * l <= e * 1000) by (apply Rmult_le_compat_l; lra).
  apply Rabs_le_inv in LC. apply Rabs_le_inv in D1. apply Rabs_le_inv in D2. apply Rabs_le_inv in Rr. apply Rabs_le_inv in Bk.
  assert (Dv : - (6200 * e) <= sigma * sigma - v <= 6200 * e) by lra.
  split; [apply Rabs_le; lra |].
  rewrite <- Esi in Eg.
  assert (ss0 : 0 <= sigma * sigma) by (apply Rmult_le_pos; lra).
  assert (Bss : sigma * sigma <= 1001) by lra.
  pose proof (rnd_err (sigma * sigma)) as R1. rewrite <- Eg in R1. rewrite (Rabs_pos_eq (sigma * sigma)) in R1 by lra. apply Rabs_le_inv in R1.
  assert (e1 : e * (sigma * sigma) <= e * 1001) by (apply Rmult_le_compat_l; lra).
  assert (Pg : 0 <= gg) by (rewrite Eg; apply rnd_nonneg; lra).
  pose proof (rnd_err (gg / 2)) as R2. rewrite <- Eh in R2. rewrite (Rabs_pos_eq (gg / 2)) in R2 by lra. apply Rabs_le_inv in R2.
  assert (e2 : e * gg <= e * 1002) by (apply Rmult_le_compat_l; lra).
  pose proof (rnd_err (k - h)) as R3. rewrite <- Emu in R3.
  assert (B3 : Rabs (k - h) <= 2000) by (apply Rabs_le; lra).
  assert (e3 : e / 2 * Rabs (k - h) <= e / 2 * 2000) by (apply Rmult_le_compat_l; lra).
  apply Rabs_le. assert (R4 : Rabs (mu - (k - h)) <= 1001 * e) by lra. apply Rabs_le_inv in R4. lra.
Qed.

Lemma made_nothing log x : real (c_mean x) = 0 -> finite (c_mean x) ->
  (forall b, log (S754_zero b) = S754_infinity true) -> made log x = (S754_infinity true, nofZ F64 0).
Proof.
  intros Z F L. unfold made. destruct (c_mean x) as [b|b| |b m k] eqn:E; try easy.
  - rewrite L. destruct b; reflexivity.
  - exfalso. unfold real in Z. destruct b; [pose proof (value_neg m k) as P | pose proof (value_pos m k) as P]; unfold value in P; lra.
Qed.
