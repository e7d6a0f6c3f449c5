(** * The spread of the loss of a group at a demand (C96) *)
From Coq Require Import ZArith Reals List Lra Lia Floats.SpecFloat.
From Flocq Require Import Core Relative BinarySingleNaN.
From Verif Require Import Num Double_spec Double_proofs Double_proofs2 Maq_double_proofs Maq_return_proofs Group Totals Totals_spec
  Totals_proofs Totals_proofs2 Totals_proofs3 Totals_proofs4 Totals_proofs6 Totals_proofs7 Spread Spread_spec Spread_proofs Spread_proofs2 Spread_proofs5.
Import ListNotations.
Local Open Scope R_scope.

(** A quotient of two figures that are nearly right. *)
Lemma quotient_close V M s k : 0 < M -> 0 <= V -> - (300 * e * M) <= k - M <= 300 * e * M ->
  - (784 * e * (V + 2 * (M * M))) <= s - V <= 784 * e * (V + 2 * (M * M)) ->
  Rabs (1 + s / (k * k) - (1 + V / (M * M))) <= 3000 * e * (1 + V / (M * M)).
Proof.
  intros PM PV HK HS. pose proof e_pos. pose proof e_small.
  assert (eM : e * M <= 1 / 1000000 * M) by (apply Rmult_le_compat_r; lra). assert (Pk : 0 < k) by lra.
  set (b := M * M). assert (Pb : 0 < b) by (apply Rmult_lt_0_compat; lra). assert (Pkk : 0 < k * k) by (apply Rmult_lt_0_compat; lra).
  assert (eM0 : 0 <= e * M) by (apply Rmult_le_pos; lra).
  assert (KK : - (700 * (e * b)) <= k * k - b <= 700 * (e * b)).
  { assert (P : Rabs (k * k - b) <= 700 * (e * b)); [| now apply Rabs_le_inv]. unfold b. replace (k * k - M * M) with ((k - M) * (k + M)) by ring. rewrite Rabs_mult.
    apply Rle_trans with (300 * e * M * (7 / 3 * M)); [| right; field].
    apply Rmult_le_compat; try apply Rabs_pos; [apply Rabs_le; lra | rewrite Rabs_pos_eq; lra]. }
  fold b in HS. set (A := 1 + V / b). assert (EV : V = (A - 1) * b) by (unfold A; field; lra).
  assert (HA : 1 <= A) by (unfold A; assert (0 <= V / b) by (apply Rmult_le_pos; [lra | apply Rlt_le, Rinv_0_lt_compat; lra]); lra).
  replace (1 + s / (k * k) - A) with ((s - (A - 1) * (k * k)) / (k * k)) by (field; lra).
  unfold Rdiv. rewrite Rabs_mult, (Rabs_pos_eq (/ (k * k))) by (apply Rlt_le, Rinv_0_lt_compat; lra).
  apply Rmult_le_reg_r with (k * k); [exact Pkk |]. rewrite Rmult_assoc, Rinv_l, Rmult_1_r by lra.
  assert (eb0 : 0 <= e * b) by (apply Rmult_le_pos; lra). assert (eb : e * b <= 1 / 1000000 * b) by (apply Rmult_le_compat_r; lra).
  assert (eA : 0 <= e * A) by (apply Rmult_le_pos; lra).
  assert (L : 3000 * e * A * (999 / 1000 * b) <= 3000 * e * A * (k * k)) by (apply Rmult_le_compat_l; lra).
  eapply Rle_trans; [| exact L].
  replace (s - (A - 1) * (k * k)) with ((s - V) - (A - 1) * (k * k - b)) by (rewrite EV; ring).
  assert (D1 : (A - 1) * (k * k - b) <= (A - 1) * (700 * (e * b))) by (apply Rmult_le_compat_l; lra).
  assert (D2 : (A - 1) * - (700 * (e * b)) <= (A - 1) * (k * k - b)) by (apply Rmult_le_compat_l; lra).
  rewrite EV in HS.
  replace (784 * e * ((A - 1) * b + 2 * b)) with (784 * (e * A * b) + 784 * (e * b)) in HS by ring.
  replace ((A - 1) * (700 * (e * b))) with (700 * (e * A * b) - 700 * (e * b)) in D1 by ring.
  replace ((A - 1) * - (700 * (e * b))) with (- (700 * (e * A * b)) + 700 * (e * b)) in D2 by ring.
  assert (EB : e * b <= e * A * b) by (rewrite (Rmult_comm e A), Rmult_assoc; rewrite <- (Rmult_1_l (e * b)) at 1; apply Rmult_le_compat_r; lra).
  rewrite EV. apply Rabs_le. lra.
Qed.

Lemma loss_spread log ex p losses count factor : accurate log -> Forall chance p -> Forall known losses ->
  (List.length losses <= 2 ^ 8)%nat -> let l := cases (combine losses (highest p)) in let M := mixture_mean l in
  bpow radix2 (-20) <= M <= bpow radix2 360 ->
  let d := loss_at log ex p losses count factor in
  between 0 32 (snd d) /\ Rabs (real (snd d) * real (snd d) - ln (1 + Rabs (mixture_variance l) / (M * M))) <= bpow radix2 (-37).
Proof.
  intros A CP KL LN l M BM. cbn zeta.
  assert (U : Forall usable (combine losses (highest p))) by (apply usable_combine; [exact KL | now apply highest_fair]).
  assert (LN' : (List.length (combine losses (highest p)) <= 2 ^ 8)%nat) by (rewrite combine_length; lia).
  assert (B10 : bpow radix2 360 <= bpow radix2 370) by (apply bpow_le; lia).
  destruct (weighted_ranges _ U LN' ltac:(fold l; fold M; lra)) as (RM & RS & E0). fold l in E0. fold M in E0.
  assert (LN2 : (List.length (combine losses (highest p)) <= 2 ^ 20)%nat).
  { eapply Nat.le_trans; [exact LN' |]. apply Nat.pow_le_mono_r; lia. }
  destruct (weighted_right _ U LN2) as (_ & _ & _ & _ & _ & _ & _ & Es). fold l in Es. fold M in Es.
  assert (N' : INR (List.length (combine losses (highest p))) <= 256).
  { apply le_INR in LN'. rewrite pow_INR in LN'. change (INR 2) with (1 + 1) in LN'. lra. }
  set (n := INR (List.length (combine losses (highest p)))) in *. assert (Pn : 0 <= n) by apply pos_INR.
  assert (SD : snd (loss_at log ex p losses count factor) = snd (made log (weighted (combine losses (highest p))))) by reflexivity.
  rewrite SD. set (x := weighted _) in *.
  pose proof e_pos. pose proof e_small. pose proof (bpow_gt_0 radix2 (-20)) as P20.
  assert (R1 : between (bpow radix2 (-60)) (bpow radix2 430) (c_mean x)).
  { destruct RM as (V & F & B). split; [exact V |]. split; [exact F |].
    assert (bpow radix2 (-60) <= bpow radix2 (-21)) by (apply bpow_le; lia). assert (bpow radix2 371 <= bpow radix2 430) by (apply bpow_le; lia). lra. }
  split; [now apply made_variance |]. destruct (made_right log x A R1 RS) as (_ & E1 & _).
  set (k := real (c_mean x)) in *. set (s := real (c_sd x)) in *. set (Q := mixture_square l) in *. set (V := Rabs (mixture_variance l)) in *.
  assert (MM : bpow radix2 (-40) <= M * M) by (change (-40)%Z with (-20 + -20)%Z; rewrite bpow_plus; apply Rmult_le_compat; lra).
  pose proof (bpow_gt_0 radix2 (-40)).
  assert (QV : Q <= V + M * M).
  { unfold V. pose proof (Rle_abs (mixture_variance l)) as K. unfold mixture_variance in *. fold Q M in K |- *. lra. }
  assert (PQ : 0 <= Q).
  { unfold Q, l. clear -U. induction U as [|[y w] r [[Ka Kb] Kc] U IH]; [cbn; lra |]. cbn [fst snd] in *.
    change (0 <= real w * (real (c_mean y) * real (c_mean y) + real (c_sd y) * real (c_sd y)) + mixture_square (cases r)).
    destruct Ka as (_ & _ & Ka). destruct Kb as (_ & _ & Kb). destruct Kc as (_ & _ & Kc).
    assert (0 <= real w * (real (c_mean y) * real (c_mean y) + real (c_sd y) * real (c_sd y))); [| lra].
    apply Rmult_le_pos; [lra |]. assert (0 <= real (c_mean y) * real (c_mean y)) by (apply Rmult_le_pos; lra).
    assert (0 <= real (c_sd y) * real (c_sd y)) by (apply Rmult_le_pos; lra). lra. }
  assert (PV : 0 <= V) by apply Rabs_pos.
  assert (ne : n * e <= 256 * e) by (apply Rmult_le_compat_r; lra). assert (ne0 : 0 <= n * e) by (apply Rmult_le_pos; lra).
  assert (K1 : (3 * n + 14) * e * (Q + M * M) <= 782 * e * (V + 2 * (M * M))) by (apply Rmult_le_compat; lra).
  assert (K2 : bpow radix2 (-570) <= e * (V + 2 * (M * M))).
  { apply Rle_trans with (e * bpow radix2 (-40)); [rewrite <- bpow_plus; apply bpow_le; lia | apply Rmult_le_compat_l; lra]. }
  apply Rabs_le_inv in Es. apply Rabs_le_inv in E0.
  assert (K3 : 0 <= e * (V + 2 * (M * M))) by (apply Rmult_le_pos; lra).
  pose proof (quotient_close V M (s * s) k ltac:(lra) PV E0 ltac:(lra)) as C.
  assert (HA : 1 <= 1 + V / (M * M)).
  { assert (0 <= V / (M * M)) by (apply Rmult_le_pos; [lra | apply Rlt_le, Rinv_0_lt_compat; lra]). lra. }
  assert (e13 : e <= / 1000000000000000) .
  { change (-52)%Z with (- (52))%Z. rewrite bpow_opp. apply Rinv_le; [lra |]. change (bpow radix2 52) with (IZR (2 ^ 52)). apply IZR_le. vm_compute. discriminate. }
  pose proof (ln_close _ _ (3000 * e) HA ltac:(lra) C) as LC. apply Rabs_le_inv in LC.
  assert (E38 : bpow radix2 (-38) = 16384 * e) by (change (-38)%Z with (14 + -52)%Z; rewrite bpow_plus; reflexivity).
  assert (E37 : bpow radix2 (-37) = 32768 * e) by (change (-37)%Z with (15 + -52)%Z; rewrite bpow_plus; reflexivity).
  rewrite E38 in E1. rewrite E37. apply Rabs_le_inv in E1. apply Rabs_le. lra.
Qed.
