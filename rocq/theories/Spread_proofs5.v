(** * The loss of a group at a demand (C96) *)
From Coq Require Import ZArith Reals List Lra Lia Floats.SpecFloat.
From Flocq Require Import Core Relative BinarySingleNaN.
From Verif Require Import Num Double_spec Double_proofs Double_proofs2 Maq_double_proofs Maq_return_proofs Group Totals Totals_spec
  Totals_proofs Totals_proofs2 Totals_proofs3 Totals_proofs4 Totals_proofs6 Totals_proofs7 Spread Spread_spec Spread_proofs Spread_proofs2.
Import ListNotations.
Local Open Scope R_scope.

Lemma usable_combine losses p : Forall known losses -> Forall chance p -> Forall usable (combine losses p).
Proof.
  intros K. revert p. induction K as [|x l X K IH]; intros p C; [constructor |]. destruct C as [|y p Y C]; [constructor |].
  cbn. constructor; [split; assumption | now apply IH].
Qed.

Lemma weighted_ranges l : Forall usable l -> (List.length l <= 2 ^ 8)%nat -> let M := mixture_mean (cases l) in
  bpow radix2 (-20) <= M <= bpow radix2 370 ->
  between (bpow radix2 (-21)) (bpow radix2 371) (c_mean (weighted l)) /\ between 0 (bpow radix2 420) (c_sd (weighted l)) /\
  Rabs (real (c_mean (weighted l)) - M) <= 300 * e * M.
Proof.
  intros U N M BM.
  assert (N' : INR (List.length l) <= 256).
  { apply le_INR in N. rewrite pow_INR in N. change (INR 2) with (1 + 1) in N. lra. }
  destruct (weighted_right l U) as (Vm & Fm & Pm & Em & Vs & Fs & Ps & Es).
  { eapply Nat.le_trans; [exact N |]. apply Nat.pow_le_mono_r; lia. }
  set (n := INR (List.length l)) in *. assert (Pn : 0 <= n) by apply pos_INR.
  assert (T : 0 <= mixture_mean (cases l) <= n * bpow radix2 400 /\ 0 <= mixture_square (cases l) <= n * bpow radix2 801).
  { unfold n. replace (List.length l) with (List.length (cases l)) by apply map_length. apply mixture_top.
    clear -U. induction U as [|[x w] l [[A B] C] U IH]; [constructor |]. constructor; [| exact IH].
    repeat split; first [apply A | apply B | apply C]. }
  destruct T as [_ TQ]. fold M in Em, Es. set (Q := mixture_square (cases l)) in *.
  pose proof e_pos. pose proof e_small. pose proof (bpow_gt_0 radix2 (-20)) as P20.
  assert (ne : n * e <= 256 * e) by (apply Rmult_le_compat_r; lra). assert (0 <= n * e) by (apply Rmult_le_pos; lra).
  assert (0 <= e * M) by (apply Rmult_le_pos; lra).
  assert (t : bpow radix2 (-1000) <= e * M).
  { apply Rle_trans with (e * bpow radix2 (-20)); [rewrite <- bpow_plus; apply bpow_le; lia | apply Rmult_le_compat_l; lra]. }
  assert (EM : Rabs (real (c_mean (weighted l)) - M) <= 300 * e * M).
  { eapply Rle_trans; [exact Em |]. assert (K3 : (n + 3) * e <= 259 * e) by lra. assert ((n + 3) * e * M <= 259 * e * M) by (apply Rmult_le_compat_r; lra). lra. }
  assert (eM : 300 * e * M <= 1 / 2 * M) by (apply Rmult_le_compat_r; lra).
  split; [| split; [| exact EM]].
  - split; [exact Vm |]. split; [exact Fm |]. apply Rabs_le_inv in EM.
    assert (2 * bpow radix2 (-21) = bpow radix2 (-20)) by (rewrite big_double; reflexivity).
    assert (2 * bpow radix2 370 = bpow radix2 371) by (rewrite big_double; reflexivity). lra.
  - split; [exact Vs |]. split; [exact Fs |]. split; [exact Ps |].
    apply root_bound; [exact Ps | apply bpow_ge_0 |]. rewrite <- bpow_plus. change (420 + 420)%Z with 840%Z.
    assert (QB : Q <= bpow radix2 809).
    { apply Rle_trans with (256 * bpow radix2 801); [| change 256 with (bpow radix2 8); rewrite <- bpow_plus; apply bpow_le; lia].
      pose proof (bpow_gt_0 radix2 801). apply Rle_trans with (n * bpow radix2 801); [lra | apply Rmult_le_compat_r; lra]. }
    assert (MB : 0 <= M * M <= bpow radix2 809).
    { split; [apply Rmult_le_pos; lra |]. apply Rle_trans with (bpow radix2 370 * bpow radix2 370); [apply Rmult_le_compat; lra |].
      rewrite <- bpow_plus. apply bpow_le. lia. }
    assert (VB : Rabs (mixture_variance (cases l)) <= bpow radix2 809) by (unfold mixture_variance; fold Q; fold M; apply Rabs_le; lra).
    assert (K : (3 * n + 14) * bpow radix2 (-52) * (Q + M * M) <= 1 * (Q + M * M)) by (apply Rmult_le_compat_r; lra).
    assert (bpow radix2 (-570) <= bpow radix2 809) by (apply bpow_le; lia). apply Rabs_le_inv in Es.
    apply Rle_trans with (bpow radix2 812); [| apply bpow_le; lia]. change 812%Z with (809 + 1 + 1 + 1)%Z. rewrite <- !big_double. lra.
Qed.

Lemma loss_right log ex p losses count factor : accurate log -> exponential ex -> Forall chance p -> Forall known losses ->
  (List.length losses <= 2 ^ 8)%nat -> let M := mixture_mean (cases (combine losses (highest p))) in
  bpow radix2 (-20) <= M <= bpow radix2 360 -> (1 <= count <= 2 ^ 29)%Z -> between (bpow radix2 (-30)) (bpow radix2 30) factor ->
  let d := loss_at log ex p losses count factor in
  fine d /\ double (mean_of ex d) /\ finite (mean_of ex d) /\
  Rabs (real (mean_of ex d) - real factor * (IZR count * M)) <= bpow radix2 (-36) * (real factor * (IZR count * M)).
Proof.
  intros A X CP KL LN M BM BC BF. cbn zeta. unfold loss_at.
  assert (U : Forall usable (combine losses (highest p))) by (apply usable_combine; [exact KL | now apply highest_fair]).
  assert (LN' : (List.length (combine losses (highest p)) <= 2 ^ 8)%nat) by (rewrite combine_length; lia).
  assert (B10 : bpow radix2 360 <= bpow radix2 370) by (apply bpow_le; lia).
  destruct (weighted_ranges _ U LN' ltac:(fold M; lra)) as (RM & RS & E0). fold M in E0.
  set (x := weighted _) in *.
  pose proof e_pos. pose proof e_small. pose proof (bpow_gt_0 radix2 (-20)) as P20.
  assert (R1 : between (bpow radix2 (-60)) (bpow radix2 430) (c_mean x)).
  { destruct RM as (V & F & B). split; [exact V |]. split; [exact F |].
    assert (bpow radix2 (-60) <= bpow radix2 (-21)) by (apply bpow_le; lia). assert (bpow radix2 371 <= bpow radix2 430) by (apply bpow_le; lia). lra. }
  destruct (made_back log ex x A X R1 RS) as (V1 & F1 & E1). pose proof (made_variance log x A R1 RS) as BV.
  destruct (exact_int count ltac:(lia)) as (Vc & Fc & Ec).
  assert (C1 : 1 <= IZR count) by (apply IZR_le; lia).
  assert (C2 : IZR count <= bpow radix2 29) by (change (bpow radix2 29) with (IZR (2 ^ 29)); apply IZR_le; lia).
  set (d1 := made log x) in *. set (m1 := real (mean_of ex d1)) in *.
  assert (E39 : bpow radix2 (-39) = 8192 * e) by (change (-39)%Z with (13 + -52)%Z; rewrite bpow_plus; reflexivity).
  assert (E38 : bpow radix2 (-38) = 16384 * e) by (change (-38)%Z with (14 + -52)%Z; rewrite bpow_plus; reflexivity).
  rewrite E39 in E1. apply Rabs_le_inv in E0. apply Rabs_le_inv in E1.
  assert (eM0 : 0 <= e * M) by (apply Rmult_le_pos; lra).
  assert (eM : e * M <= 1 / 1000000 * M) by (apply Rmult_le_compat_r; lra).
  assert (eeM : e * (e * M) <= 1 / 1000000 * (e * M)) by (apply Rmult_le_compat_r; lra).
  assert (Z1 : e * real (c_mean x) <= e * (M + 300 * e * M)) by (apply Rmult_le_compat_l; lra).
  assert (Z1' : 0 <= e * real (c_mean x)) by (apply Rmult_le_pos; [lra | destruct RM as (_ & _ & B); pose proof (bpow_gt_0 radix2 (-21)); lra]).
  assert (D1 : - (8500 * (e * M)) <= m1 - M <= 8500 * (e * M)) by lra.
  assert (e13 : e <= / 1000000000000000) .
  { change (-52)%Z with (- (52))%Z. rewrite bpow_opp. apply Rinv_le; [lra |]. change (bpow radix2 52) with (IZR (2 ^ 52)). apply IZR_le. vm_compute. discriminate. }
  assert (eM2 : e * M <= / 1000000000000000 * M) by (apply Rmult_le_compat_r; lra).
  assert (Rm1 : between (bpow radix2 (-30)) (bpow radix2 400) (mean_of ex d1)).
  { split; [exact V1 |]. split; [exact F1 |]. fold m1.
    assert (bpow radix2 (-30) <= bpow radix2 (-21)) by (apply bpow_le; lia). assert (bpow radix2 361 <= bpow radix2 400) by (apply bpow_le; lia).
    assert (2 * bpow radix2 (-21) = bpow radix2 (-20)) by (rewrite big_double; reflexivity).
    assert (2 * bpow radix2 360 = bpow radix2 361) by (rewrite big_double; reflexivity). lra. }
  assert (RC : between (bpow radix2 (-30)) (bpow radix2 30) (nofZ F64 count)).
  { split; [exact Vc |]. split; [apply finite_same; exact Fc |]. change (real (nofZ F64 count)) with (value (nofZ F64 count)). rewrite Ec.
    assert (bpow radix2 (-30) <= 1) by (change 1 with (bpow radix2 0); apply bpow_le; lia). assert (bpow radix2 29 <= bpow radix2 30) by (apply bpow_le; lia). lra. }
  destruct (scaled_right log ex _ _ A X RC Rm1 BV) as (_ & S2 & V2 & F2 & E2).
  change (real (nofZ F64 count)) with (value (nofZ F64 count)) in E2. rewrite Ec in E2. fold m1 in E2.
  set (d2 := scaled log ex (nofZ F64 count) d1) in *. set (m2 := real (mean_of ex d2)) in *. set (c := IZR count) in *.
  rewrite E38 in E2. apply Rabs_le_inv in E2.
  assert (cM : M <= c * M) by (rewrite <- (Rmult_1_l M) at 1; apply Rmult_le_compat_r; lra).
  assert (W1 : c * (m1 - M) <= c * (8500 * (e * M))) by (apply Rmult_le_compat_l; lra).
  assert (W2 : c * - (8500 * (e * M)) <= c * (m1 - M)) by (apply Rmult_le_compat_l; lra).
  set (N := c * M) in *. assert (ecM : c * (8500 * (e * M)) = 8500 * (e * N)) by (unfold N; ring). rewrite ecM in W1.
  assert (ecM' : c * - (8500 * (e * M)) = - (8500 * (e * N))) by (unfold N; ring). rewrite ecM' in W2.
  assert (cm1 : c * m1 = N + c * (m1 - M)) by (unfold N; ring). rewrite cm1 in E2.
  assert (eN0 : 0 <= e * N) by (apply Rmult_le_pos; lra). assert (eN : e * N <= / 1000000000000000 * N) by (apply Rmult_le_compat_r; lra).
  assert (eeN : e * (e * N) <= 1 / 1000000 * (e * N)) by (apply Rmult_le_compat_r; lra).
  assert (Z2 : e * (N + c * (m1 - M)) <= e * (N + 8500 * (e * N))) by (apply Rmult_le_compat_l; lra).
  assert (Z2' : 0 <= e * (N + c * (m1 - M))) by (apply Rmult_le_pos; lra).
  assert (D2 : - (26000 * (e * N)) <= m2 - N <= 26000 * (e * N)) by lra.
  assert (NB : N <= bpow radix2 389).
  { unfold N. apply Rle_trans with (bpow radix2 29 * bpow radix2 360); [apply Rmult_le_compat; lra | rewrite <- bpow_plus; apply bpow_le; lia]. }
  assert (Rm2 : between (bpow radix2 (-30)) (bpow radix2 400) (mean_of ex d2)).
  { split; [exact V2 |]. split; [exact F2 |]. fold m2.
    assert (bpow radix2 (-30) <= bpow radix2 (-21)) by (apply bpow_le; lia). assert (bpow radix2 390 <= bpow radix2 400) by (apply bpow_le; lia).
    assert (2 * bpow radix2 (-21) = bpow radix2 (-20)) by (rewrite big_double; reflexivity).
    assert (2 * bpow radix2 389 = bpow radix2 390) by (rewrite big_double; reflexivity). lra. }
  assert (BV2 : between 0 32 (snd d2)) by (rewrite S2; exact BV).
  destruct (scaled_right log ex _ _ A X BF Rm2 BV2) as (Fi & _ & V3 & F3 & E3).
  split; [exact Fi |]. split; [exact V3 |]. split; [exact F3 |]. fold m2 in E3. set (d3 := scaled log ex factor d2) in *. set (m3 := real (mean_of ex d3)) in *.
  rewrite E38 in E3. apply Rabs_le_inv in E3. destruct BF as (_ & _ & Bf). set (f := real factor) in *. pose proof (bpow_gt_0 radix2 (-30)).
  assert (U1 : f * (m2 - N) <= f * (26000 * (e * N))) by (apply Rmult_le_compat_l; lra).
  assert (U2 : f * - (26000 * (e * N)) <= f * (m2 - N)) by (apply Rmult_le_compat_l; lra).
  set (P := f * N) in *. replace (f * (26000 * (e * N))) with (26000 * (e * P)) in U1 by (unfold P; ring).
  replace (f * - (26000 * (e * N))) with (- (26000 * (e * P))) in U2 by (unfold P; ring).
  assert (fm2 : f * m2 = P + f * (m2 - N)) by (unfold P; ring). rewrite fm2 in E3.
  assert (PP : 0 <= P) by (apply Rmult_le_pos; lra).
  assert (eP0 : 0 <= e * P) by (apply Rmult_le_pos; lra). assert (eP : e * P <= / 1000000000000000 * P) by (apply Rmult_le_compat_r; lra).
  assert (eeP : e * (e * P) <= 1 / 1000000 * (e * P)) by (apply Rmult_le_compat_r; lra).
  assert (Z3 : e * (P + f * (m2 - N)) <= e * (P + 26000 * (e * P))) by (apply Rmult_le_compat_l; lra).
  replace (bpow radix2 (-36)) with (65536 * e) by (change (-36)%Z with (16 + -52)%Z; rewrite bpow_plus; reflexivity).
  apply Rabs_le. lra.
Qed.
